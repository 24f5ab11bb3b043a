# Formal model of GEOS-DEV/Shiva in Rocq (Coq 8.16.1)

## 1. Approach

Shiva is a header-only C++17 template library: multidimensional arrays, index
ranges, Lagrange bases, quadrature tables, geometric shapes, Jacobian
transforms and a thin host/device kernel wrapper, plus three maintenance
scripts in Python, two CI shell scripts and the CMake files.  The model is a set of total, computable Gallina functions,
one per C++ function (or per `if constexpr` cascade), each with a comment citing
the file and lines in `/repo` it models.

* **Outcomes.**  A C++ evaluation yields an `outcome`: `Ok v`, `UB f` (undefined
  behaviour, with the fault: signed overflow, out-of-bounds access, division by
  zero, ...), `Aborted` (`std::abort`/trap), `IllFormed` (the program is
  rejected at compile time) or `OutOfFuel` (a loop bound in the model was
  exceeded; the theorems exclude it).  Template recursion becomes recursion on
  lists; fold expressions are modelled by the folds the C++ standard
  prescribes (binary/unary, left/right, empty pack cases).
* **Integers.**  `int` arithmetic is 32-bit two's complement; every operation
  checks its exact result and overflow is `UB IntOverflow`.  A constant
  expression whose evaluation hits UB is `IllFormed`.
* **Reals.**  Code templated on `REAL_TYPE` is written once against a record of
  operations `Num` (addition, multiplication, decimal literals, checked
  division) and instantiated with
  the real numbers (`RNum`: "exact arithmetic" theorems, division by zero is a
  fault), the rationals (`QNum`: executable, used for finite computations by
  `vm_compute`), and IEEE binary64 with round-to-nearest-even (`B64Num`, from
  Flocq) for the rounding properties.
* **Callbacks** (lambdas passed to loops) are state-monad functions
  `args -> S -> outcome S` over an arbitrary state type `S`, so "same calls in
  the same order" is quantified over all callbacks and states.
* **Specifications** (`Spec*.v`) are written independently of the model:
  in-box predicates, lexicographic order, determinants by permutations, stdlib
  `derivable_pt_lim` for derivatives, polynomials as coefficient lists,
  subsets/faces as explicit finite objects.
* **Property files** (`Prop*.v`) contain only theorems closed by `exact lemma`,
  each followed by `Print Assumptions` and an `Example` showing a concrete case
  that meets the hypotheses.

* **Evidence of fidelity** (`RepoTests.v`): the assertions of the repository's own unit tests,
  with their reference values and tolerances, evaluated in the model in double precision.  They
  all hold in the model.  They are tests of the model, not property proofs, and are not in the manifest.

Where the code does not satisfy the English property the theorem is named
`..._refuted` and exhibits a witness; it is accompanied by the exact
characterisation of when the property does hold.

## 2. Per-property plan

| id | what is modelled | how it is proved |
|----|------------------|------------------|
| C01 | `linearIndexHelper::level/eval`, `stride` over dimension lists | induction on dimensions; row-major position specified as the number of smaller tuples in the lexicographic enumeration |
| C02 | same | injectivity and surjectivity of mixed-radix digits, induction |
| C03 | three access paths: compile-time helper, run-time helper, bracket chain as view offsets | induction on rank |
| C04 | bounds check flag, `SHIVA_ASSERT_MSG` | induction; iff with the in-range predicate |
| C05 | flat buffer with UB outside it | witness for aliasing; exact iff for UB |
| C06 | `rank/extent/size`, `get` | induction; counting of the enumerated box |
| C07 | constructor from argument pack | list reasoning plus C01 |
| C08 | views = (buffer, offset, dims) | offset arithmetic, frame lemma |
| C09 | checked int operations in every index computation | bounds by products, induction |
| C10 | operation histories over buffer, refinement to a function from tuples | induction over histories using C02 |
| C11 | `forRangeHelper` with the mutable index and fuelled loops | nested induction; trace equals sorted duplicate-free enumeration of the box |
| C12 | `stride/linearIndex` for `MultiIndexRange` | refuted by witness; iff-palindrome characterisation |
| C13 | `forSequence/staticFor` | induction on N |
| C14 | `executeSequence` | unfolding, order of arguments |
| C15 | `forNestedSequence` | induction; equality with C11 |
| C16 | `IntPackPeeler`, `CArrayHelper::get` | induction |
| C17 | `pow` loop, generic and int | loop invariant |
| C18 | `factorial` fold with int overflow | exact threshold |
| C19 | `binomialCoefficient` | Pascal; count of subsets by enumeration |
| C20 | `inverse` both overloads over `Num` | `field` on reals; determinant by permutations |
| C21 | `inverse` over CArray access layer | computation through the access model |
| C22 | `EqualSpacing` | real arithmetic, all N |
| C23, C24 | `GaussLegendreSpacing`, `GaussLobattoSpacing` | case analysis on N, rational computation reflected to reals; Legendre polynomials by recurrence |
| C25 | run-time and compile-time accessors separately | case analysis; refuted for N=6..9 |
| C26, C27 | weights | rational computation of the moments, linear combination for all polynomials |
| C28-C30 | `LagrangeBasis` over arbitrary spacing | products; polynomial identity by counting roots; `derivable_pt_lim` |
| C31 | instances | from C22-C24 |
| C32-C34 | `BasisProduct` over lists of bases | induction on dimension |
| C35-C37 | `ParentElement` loops | sums over boxes, C34 |
| C38, C39 | `setData` with index arithmetic | computation; collision witness; iff |
| C40-C43, C46 | `jacobian`, `inverseJacobian`, wrappers over flat arrays | sums, C33, C20 |
| C44, C45 | `Scaling`, `UniformScaling` | `field` |
| C47-C50 | `NCube`, `NSimplex` | faces enumerated as {lo,hi,star} strings / vertex subsets; overflow thresholds |
| C51, C52 | `pmpl::check` over reals and binary64 | real arithmetic; witness by computation |
| C53, C54 | wrapper as state machine over host/device memory with failure oracle | case analysis over all failure points |
| C55 | assertion macro | case analysis; also used by C04 |
| C56, C57, C65–C67 | binary64 instances of the generic numeric model (`ModelB64`: round to nearest even, no contraction into FMA, single NaN) | Flocq error bounds for general tables; checks of the bundled tables by computation on integers |
| C58–C61, C68, C69 | `aggregateOrSplit.py` on a file system of texts, with Python's `os.path`, `re.match` patterns and line iteration (`ModelPython`, `ModelAggregate`) | invariants of the graph construction and of the worklist; termination iff acyclic; refutations by running the model |
| C62, C70 | `compare_uncrustify.py` on the two texts (`ModelUncrustify`) | list/map reasoning |
| C71, C72 | no new model: `quadrature` sums the rules' weights and the transform's determinants (`SpecIntegral`) | moments per direction, induction on the dimension; the determinant of a trilinear cell as 64 monomials |
| C73-C75 | no new model: basis and rule on the same points | uniqueness of interpolation; exactness of the rule for the derivative of a product |
| C76-C81 | `config_build` on the same file system model as the other scripts: directory removal and creation, the command line, a shell's word splitting, an oracle for the commands' exit status | case analysis over every way the script can end; induction over the words of the command line |
| C82, C83 | no new model: scaled cells and the 3x3 inverse with `B64Num` | running error analysis (`ProofErr64`) with Flocq's rounding lemmas; exact fixed-point arithmetic (`ProofFix64`); evaluation for the refutations |
| C84-C87 | no new model: Lagrange gradients, parent elements and interpolated cells with `B64Num` | running error analysis of sums and products of bounded relative errors (`ProofSum64`), on top of the exact results of C28-C42 |
| C88-C92 | the two CI shell scripts: word splitting, docker run, `or_die`, over commands with arbitrary exit statuses; combined with the model of config-build.py | symbolic execution of the script; case analysis on options; word-splitting lemmas |
| C93-C95 | options, generated header, registered tests, exclusion patterns of the CMake files | case analysis; regular-expression matching by induction |
| C96 | no new model: the three transforms and their flags | functions with constant partial derivatives are affine (null derivative along each axis); linear algebra for the eight-vertex cell |
| C97 | no new model: every function of the model that takes a context | relational: both runs keep buffers of the same length and do only in-range accesses, so they agree step by step |
| C98 | no new model: `inverseJacobian_wrapper` with `B64Num` | perturbation of determinant and cofactors by the Jacobian error of C87, then the rounding errors of C83 |
| C99, C100 | `ModelFma`: numbers with pending product and history, an arbitrary function decides at each addition or subtraction what is fused | values are products, so bit-identical; error propagation with the exact product as a second approximation within the same bound |
| C101-C103 | `ModelWorkflow`: steps, jobs, matrix rows, the deciding job, the host config, triggers and concurrency groups; all that comes from outside is an arbitrary record | case analysis on the jobs; C88, C91, C93 and C95 for each row; invariant over histories |
| C104 | existing models | trace of a tensor-product interpolant on a grid layer by induction on the directions before it; derivatives along the layer by uniqueness of limits |
| C105 | existing models | linearity of the gradient in the data, sums of derivatives vanish; 3x3 matrix algebra |
| C106 | existing models | Rolle's theorem iterated over the sorted support points; tensor products direction by direction |
| C107 | existing models | basis values of order 1 are nonnegative and sum to 1; for more points two neighbouring basis functions change sign |
| C108 | existing models | exactness (C29) applied to the polynomial, weights positive with sum 2 |
| C109 | `parse_known_args` of Python's argparse for the options of config-build.py | exact description of the words that are classified as options; induction over the items of the line |
| C110 | `ModelCheckTest`: small-step semantics of make, tee and the shell around one file | invariant over the steps; the measure that decreases gives termination |
| C111 | `ModelInclude`: quoted includes, declared and used names of every header, include directories, pasting with `#pragma once` | depth-first traversal of an acyclic graph yields a topological order; the table of headers is checked by computation, independently of the client's files |
| C112 | `ModelThreads`: threads with arbitrary programs of element accesses, an interpreter that takes a schedule, data races as undefined behaviour | invariant over the schedule that relates each thread to the same thread on its own; C02 turns sets of tuples into sets of positions |
| C113 | `ModelDevice`: small-step semantics of any number of host threads inside the wrapper, a device with memory, queue and sticky error | invariant over the executions (ownership of blocks, state of each call), a measure for termination, progress for the absence of deadlock; C53 for the serial execution |
| C114 | values and rules as in C35 and C71; `SpecEnergy` | a polynomial with more roots than its degree vanishes, direction by direction; the converse by the polynomial that vanishes at the points |
| C115 | gradients as in C37, inverse Jacobians as in C43; `SpecEnergy` | the same with derivatives; the converse by an antiderivative or a product of polynomials that vanish at the points |
| C116 | Jacobians and positions as in C40 and C35; `SpecGeometry` (edges of a cell) | the columns of the Jacobian are weighted means of the edges; differences of positions telescope along the coordinates; a twisted cell for the refutation |
| C117 | `ModelAggregateCli` (main of aggregateOrSplit.py, argparse for its parsers); `SpecAggregateCli` | classification of the words, invariants of the option loop; refutations by running the model |
| C118 | `ModelPackage` (version file, exported targets, package configuration file); `SpecPackage` | case analysis; induction over version parts and path components |
| C119 | `ModelF32` (binary32, and every conversion between int, float and double in Spacing.hpp and Quadrature.hpp); `SpecF32` | rounding error analysis; innocuous double rounding; kernel computation on the tables |
| C120 | `ModelF32` (`F32Num` as REAL_TYPE of `ModelLagrange`) | as C57 and C66, for 24 bits; the double division is shown to be the float division |
| C121 | `ModelPmpl` over `F32Num` | as C52 |
| C122 | `ModelTransforms32` (the double subexpressions of Scaling.hpp and UniformScaling.hpp), `ModelMath` over `F32Num`; `SpecAccuracy32` | as C82 and C83, for 24 bits; the double division is shown to be the float division for all floats |
| C123 | `ModelLagrange`, `ModelBasisProduct`, `ModelTransforms`, `ModelMath` over `F32Num`; `SpecElement32` | as C84-C87 and C98, for 24 bits, with smaller ranges of orders and sizes |
| C124 | `ModelBasisProduct`, `ModelTransforms` over `B64Num` and `F32Num`; `SpecFace` | all summands off the face are zeros (the other functions of the direction across vanish exactly, all else is finite, by C86/C123), adding zeros changes nothing, and the remaining summands are the same on both sides; own values at the end points compared per spacing and order |
| C125 | `ModelTransforms`, `ModelQuadrature` over `B64Num` and `F32Num`; `SpecVolume` | accuracy of every determinant (C98, C123), moments of the stored rules (C67, C119), the determinant of a trilinear map as a sparse polynomial of degree 2 in each coordinate whose exact integral is the volume |
| C126 | `ModelInteger`: integer promotion, wrap-around and conversion for every width and signedness; `pow`, `factorial`, `binomialCoefficient` over any of them | induction over the folds and loops with results modulo 2^bits; the largest factorial of each type by monotonicity |
| C127 | `pow_real`, `minCoord`, `maxCoord`, `length_`, `cube_volume`, `simplex_volume` with doubles and floats | products of factors between (1-u)^n and (1+u)^n by induction over exponent and dimension; exactness from significands that fit |
| C128 | `LagrangeBasis` of order 1 and 2, `parent_value_at` and `parent_value` with doubles and floats | spelling out the roundings; halving is exact, and the sum of the two rounded halves is within half a unit of 1 because of the spacing of the representable numbers; rounding commutes with sign change and is monotone |
| C129 | `parent_value`, `parent_gradient`, `jacobian_wrapper`, `inverseJacobian_wrapper` of linear elements with doubles and floats | rounding commutes with scaling by a power of two away from the subnormal numbers; every intermediate result is zero or a multiple of a power of two that is large enough, because sums and roundings of such multiples are such multiples again |
| C130 | `inverseJacobian_wrapper` and the quadrature rules, for every cell of a list of hexahedra | the volume formula is the sum of the signed cones over the six faces of the cell, which change sign when the face is seen from the other side; C72 and C125 for the error per cell |
| C131 | `parent_gradient_at`, `parent_gradient`, `inverseJacobian_wrapper` over the reals | determinant times row of the inverse is the determinant with one row replaced by the gradient, which is linear in that row; the volume is affine in each coordinate of each node; C130 for meshes |
| C132 | the literals of Spacing.hpp and Quadrature.hpp over the reals | sign changes around 45-digit (28-digit) approximations of the roots; a polynomial of degree n has at most n roots, so any exact list is that one; Lipschitz bound for Legendre polynomials carries the weight formula from the approximation to the root |
| C133 | points and weights as doubles and floats | the stored number lies within half a gap (a quarter at powers of two) of the exact one: integer check against the literal plus the error of C132; neighbours in the format from Flocq; the middle point of odd rules is exactly zero |
| C134 | Lagrange bases and parent elements | sum of the absolute values of the functions: interval bounds on cells found by bisection, checked in integers, for points known up to 2^-18 (so that one check covers reals, doubles and floats); any order of equal spacing by factorials and the binomial theorem; product over the directions; lower bound at the middle of the last interval |
| C135 | Lagrange bases, parent elements and Jacobians | sums of the absolute values of the summands of the derivatives of the functions: the same interval checks with two factors left out, computed with four running sums; any order of equal spacing by factorials; product over the directions; the double and float bounds from C86, C87 and their float analogues |
| C136 | parent gradients of sampled functions | Rolle gives a zero of the error's derivative in every gap, and the remainder formula of C106 for these zeros; induction over the directions, with the errors of the other directions bounded as in C106 and amplified as in C134 |
| C137 | parent elements and the Scaling transform | chain rule for the map of the reference cell to the box; C106 with the factors of C134, and C136, for the function on the reference cell; distances at most 2 |
| C138 | quadrature rules and the Scaling transform | Taylor's theorem in one direction, the weighted sums over the other directions being smooth functions of it; induction on the number of directions |
| C139 | parent elements and LinearTransform | chain rule for a function differentiable at the point and the map of the cell; C136 for the composed function; the inverse of C43 |
| C140 | parent elements in doubles and floats | the interpolation errors of C137 for the stored points, which are increasing and lie in [-1,1]; the amplification and rounding bounds of C134 and C135; for the cell gradients also the rounding of the inverse computed by Scaling |
| C141 | quadrature rules in doubles and floats, Scaling transform | the induction of C138 for any rule with positive weights and points of [-1,1] that is exact to some accuracy; C67 and C119 for that accuracy, C82 and C122 for the determinant |
| C142 | parent elements, quadrature tables and Scaling in doubles and floats | the quadrature points are finite and lie in [-1,1], so C140 bounds the error of each value and C141 that of the sum |
| C143 | `ModelFma32`: as `ModelFma`, for floats | as C99 and C100 |
| C63 | constness of element type and array object in the access layer | induction on the access path |
| C64 | `deallocateData` over a set of live blocks | case analysis |

## 3. Trusted base

* Coq 8.16.1's kernel (including `vm_compute`).
* The fidelity of the model to the C++ and Python sources (section 4), including `ModelPython`'s reading of
  Python's documentation and `ModelB64`'s use of Flocq's IEEE 754 operations (Flocq is used for definitions
  and proved lemmas; it adds no axioms).
* The axioms of the standard library's real numbers where a theorem mentions
  `R`; the exact list per theorem is in section 5, generated from `Print
  Assumptions`.

`vcheck`, which runs `coqchk` on the whole development, reports 30 axioms in its context, all from Coq's standard library:

* `Coq.Logic.Classical_Prop`: `classic`
* `Coq.Logic.FunctionalExtensionality`: `functional_extensionality_dep`
* `Coq.Reals.ClassicalDedekindReals`: `sig_forall_dec`, `sig_not_dec`
* `Coq.Reals.Rdefinitions.RbaseSymbolsImpl`: `R`, `R0`, `R0_def`, `R1`, `R1_def`, `Rabst`, `Rlt`, `Rlt_def`, `Rmult`, `Rmult_def`, `Ropp`, `Ropp_def`, `Rplus`, `Rplus_def`, `Rquot1`, `Rquot2`, `Rrepr`
* `Coq.Reals.Rdefinitions.RinvImpl`: `Rinv`, `Rinv_def`
* `Coq.ssr.ssrunder.Under_rel`: `Over_rel`, `Under_rel`, `Under_relE`, `Under_rel_from_rel`, `over_rel`, `over_rel_done`, `under_rel_done`

It counts the fields of sealed standard-library modules (`RbaseSymbolsImpl`, `RinvImpl`, `Under_rel`) as axioms although the library
defines them, and it lists what any loaded library contains whether a theorem uses it or not.  What each theorem rests on is in
section 5.

## 4. What is modelled and what is not

See the header comment of each model file.

Modelled: everything in `include/shiva` that computes a value, the portability layer over a device runtime
that may fail, the assertion macro, the three Python scripts `scripts/config-build.py`, `scripts/aggregateOrSplit.py` and
`scripts/compare_uncrustify.py`, the two CI shell scripts, the workflow file, the host config used by it, and of the CMake files the options, the generated
header, the registered tests, the code-check exclusions, the commands of the code-check tests, the include directories, the targets and the package.

Not modelled:

* the C++20-only branches (ill-formed as written, the project builds as C++17);
* value categories and forwarding, device code generation, printed text other than the comparison report;
* the device runtime itself: its calls succeed or fail as an arbitrary oracle says (C53, C54), and in concurrent calls (C113) it does
  what its documentation says about queued kernels and sticky errors;
* in double and single precision: extended precision, reassociation (`-ffast-math`), other rounding modes, NaN payloads
  (contraction into fused multiply-add is modelled in `ModelFma` and `ModelFma32` for C99, C100 and C143 only);
* for the scripts: symbolic links, paths starting with two slashes,
  file permissions, texts with characters above 255,
  Python's recursion limit;
* of the CMake files: BLT, and of CMake itself the search for packages; of the continuous integration: permissions,
  secrets and runners, pathname expansion in the shell, what the commands do beyond their exit status;
* the unit tests as programs (their assertions are evaluated in `RepoTests.v`).

### How to read `seeded/LOG.jsonl`

Each line is one edit of one model definition, tried in a scratch copy.  When a proof no longer compiled, its lemma was
replaced by `Admitted` and the build went on.  `theorems_failed` lists every theorem that then rested on such a lemma.

* A theorem in this list has lost its proof; its statement need not be false of the edited program.  A script can break on
  a harmless change, so the list is an upper bound on what the edit refutes.  For example the edit "products are never
  pending" of `cfmul` breaks scripts of accuracy theorems in C143 that stay true, and really refutes
  `C143_determinant_reproducible_refuted`.
* An empty list with a non-empty `tightened` is a survivor: the claim was false of the edited program and every proof still
  went through.  The theorems named in `tightened` were strengthened or added in response, and the same edit was then tried and
  logged again.
* An empty list with an empty `tightened` carries a `note` that says why the edit breaks no claim.
* Where the claim first named for an edit was not the one it breaks, the `claim` field was corrected afterwards from the result.

## 5. Assumptions per theorem

Output of `Print Assumptions`, which stands behind every theorem in the `Prop*.v` files.  No axiom is
introduced by this development; those below are the standard library's.

**Closed under the global context**: `C04_any_path`, `C05_any_path`, `C21_small_overwrites_neighbours_refuted`, `C63_views`, `C117_aggregate_line`, `C117_after_dashes`, `C117_split_line`, `C117_outcomes`, `C117_unknown_option`, `C117_help`, `C117_wrong_number`, `C117_option_before_headers_refuted`, `C117_headers_kept_refuted`, `C109_command_line`, `C109_host_config_required`, `C109_passed_on_exactly`, `C109_outcomes`, `C109_words_for_cmake`, `C109_abbreviation_refuted`, `C109_other_words_refuted`, `C109_attached_values_refuted`, `C01_access_is_row_major`, `C02_access_is_bijective`, `C03_access_styles_agree`, `C04_bounds_check_exact`, `C04_compile_time_bounds`, `C05_unchecked_access`, `C05_unchecked_access_iff`, `C05_never_accepted_unchecked_refuted`, `C05_never_accepted_consteval_refuted`, `C06_shape`, `C07_list_initialisation`, `C08_slice`, `C09_no_overflow`, `C10_array_is_a_map`, `C55_assertion_macro`, `C55_assertion_failed`, `C55_callAbort_respected_refuted`, `C63_const_correctness`, `C110_verdict`, `C110_terminates`, `C110_clean_passes`, `C110_broken_fails`, `C110_complaints_fail_when_copied`, `C110_complaints_fail_refuted`, `C110_many_complaints_refuted`, `C110_stale_file_refuted`, `C88_exit_status`, `C88_green_build`, `C89_what_ran`, `C89_configuration`, `C89_every_request_refuted`, `C89_nothing_asked_refuted`, `C90_cmake_status_ignored`, `C90_failed_cmake_is_noticed_refuted`, `C91_variables`, `C91_number_of_jobs_refuted`, `C92_coverage`, `C92_report_delivered_refuted`, `C93_unit_tests`, `C93_every_source`, `C93_code_checks`, `C93_no_style_tests`, `C93_doxygen_checked_refuted`, `C94_check_status`, `C94_clean_refuted`, `C94_checked_files`, `C94_headers_checked_refuted`, `C95_header`, `C95_configuration_fails`, `C95_version`, `C95_standalone_version`, `C95_standalone_version_refuted`, `C76_outside_untouched`, `C77_fresh_directories`, `C78_command_words`, `C79_runs_cmake`, `C80_exit_status`, `C81_command_is_cmake`, `C76_missing_hostconfig`, `C78_command_words_refuted`, `C79_build_here_refuted`, `C79_install_above_refuted`, `C79_hostconfig_lost_refuted`, `C80_failure_reported_refuted`, `C81_hostconfig_cmake_refuted`, `C78_dependency_graph`, `C79_unreadable_hostconfig`, `C79_failed_run_keeps_build_refuted`, `C96_linear_claim`, `C97_jacobian`, `C97_quadrature_jacobian`, `C97_inverse_jacobian`, `C97_inverse`, `C97_setData`, `C97_gradient`, `C97_scaling`, `C97_uniform`, `C97_sizes_matter`, `C113_concurrent_calls`, `C113_no_deadlock`, `C113_terminates`, `C113_completes`, `C113_as_alone`, `C113_own_failure_reported`, `C113_abort_only_if_asked`, `C113_only_own_failures_refuted`, `C113_results_delivered_refuted`, `C113_defined_refuted`, `C111_any_order`, `C111_umbrella_refuted`, `C111_assert_refuted`, `C111_hypotheses`, `C11_enumeration_exists_unique`, `C11_forRange_visits_box_in_order`, `C12_linearIndex_injective_refuted`, `C12_linearIndex_in_bounds_refuted`, `C12_linearIndex_no_overflow_refuted`, `C12_linearIndex_row_major_iff`, `C12_linearIndex_row_major_iff_palindrome`, `C13_forSequence`, `C14_executeSequence_no_args`, `C14_executeSequence_args`, `C14_documented_order_refuted`, `C15_forNestedSequence`, `C15_forNestedSequence_is_forRange_from_zero`, `C16_IntPackPeeler`, `C126_factorial`, `C126_factorial_right_refuted`, `C126_binomial`, `C126_binomial_right_refuted`, `C126_pow`, `C126_unsigned_pow_defined_refuted`, `C126_int`, `C17_pow_int`, `C18_factorial`, `C19_binomial`, `C20_overloads_agree`, `C118_versions`, `C118_exact_refuted`, `C118_subdirectory_names`, `C118_installed_names`, `C118_one_name_refuted`, `C118_self_contained_refuted`, `C118_relocatable`, `C118_include_dirs_refuted`, `C53_host`, `C53_device`, `C53_host_device_agree`, `C53_closure_wrapper`, `C53_hip_does_not_compile`, `C54_failures`, `C54_every_allocation_freed_once`, `C54_allocation_failure_undefined`, `C54_failures_reported_refuted`, `C64_deallocateData`, `C58_aggregate`, `C59_terminates_iff_acyclic`, `C59_terminates_refuted`, `C60_changes_only_named_files`, `C60_relative_names_stay_inside`, `C60_stays_inside_refuted`, `C61_split_sections`, `C61_aggregate_then_split`, `C61_final_newline_needed_refuted`, `C62_compare`, `C62_exactly_one`, `C68_other_files_unchanged`, `C68_output_as_input`, `C69_indented_directive_refuted`, `C69_after_unresolved_refuted`, `C69_followed_is_directive`, `C70_settings_of_both_printed`, `C70_all_differences_printed_refuted`, `C47_cube_face_counts`, `C47_cube_named_counts`, `C48_cube_counts_defined`, `C48_cube_counts_fit_refuted`, `C48_cube_counts_accepted_refuted`, `C49_simplex_face_counts`, `C49_simplex_named_counts`, `C34_loop_visits_each_support_point`, `C112_separate_elements`, `C112_schedule_independent`, `C112_slices`, `C112_slices_schedule_independent`, `C112_race`, `C112_distinct_tuples_refuted`, `C38_setData_stores_rows`, `C39_setData_row_of_each_point`, `C39_rows_distinct_iff`, `C42_any_number_type`, `C44_scaling_data`, `C45_uniform_is_scaling`, `C45_uniform_data`, `C12_scalar_index`, `C62_white_space`, `C69_next_to_the_file`, `C109_dashed_values`, `C109_together`, `C101_gate`, `C101_builds`, `C101_unit_tests`, `C101_checks`, `C101_coverage`, `C101_coverage_counts_refuted`, `C101_missing_tag_refuted`, `C102_configurations`, `C102_combinations`, `C102_compilers`, `C102_all_modes_refuted`, `C102_only_mode`, `C102_names_refuted`, `C103_one_run`, `C103_cancelled`, `C103_last_run`, `C103_every_push_refuted`.

**Uses `ClassicalDedekindReals.sig_forall_dec`, `FunctionalExtensionality.functional_extensionality_dep`**: `C104_trace`, `C104_layers_agree`, `C104_cells`, `C96_constant_iff_parallelepiped`, `C96_scaling_claim`, `C96_uniform_claim`, `C131_balance`, `C131_moments`, `C131_work`, `C131_volume_change`, `C116_edge_triples`, `C116_one_to_one`, `C116_quadrilateral`, `C28_lagrange_nodal`, `C28_lagrange_degree`, `C29_unity_and_reproduction`, `C30_gradient_is_derivative`, `C30_gradient_of_interpolated_polynomial`, `C31_order_zero`, `C31_unsupported_orders`, `C17_pow_real`, `C20_inverse_array`, `C20_inverse_builtin`, `C21_inverse_leading_block`, `C21_inverse_any_size_refuted`, `C21_small_aborts`, `C21_small_out_of_bounds`, `C130_cell_faces`, `C130_shared_face`, `C105_chain_rule`, `C105_patch_test`, `C105_moved_jacobian`, `C105_moved_inverse`, `C105_rigid_motion`, `C51_check`, `C51_check_symmetric`, `C51_check_zero_tolerance`, `C50_bad_bounds_rejected`, `C22_equal_spacing`, `C22_one_point_divides_by_zero`, `C23_other_sizes_collapse`, `C24_other_sizes_collapse`, `C25_accessors_agree`, `C26_weights`, `C26_exact_symmetry_refuted`, `C26_runtime_weights`, `C26_runtime_weights_equal_refuted`, `C26_unsupported_rejected`, `C32_value_is_product`, `C32_shape_is_product`, `C33_gradient_is_gradient_of_value`, `C34_nodal`, `C34_partition_of_unity`, `C34_gradients_sum_to_zero`, `C34_sums`, `C35_value_at_support_points`, `C35_constants`, `C35_linear_in_field`, `C35_value_is_sum`, `C35_dimension_mismatch`, `C36_reproduces_tensor_polynomials`, `C37_gradient_differentiates_interpolant`, `C37_gradient_of_tensor_polynomials`, `C40_jacobian_is_derivative`, `C41_jacobian_accumulates`, `C41_inverseJacobian_accumulates`, `C42_quadrature_jacobian`, `C43_inverseJacobian`, `C43_small_dimensions`, `C44_scaling`, `C45_uniform_values`, `C46_affine_cell`, `C46_box_agrees_with_scaling`, `C46_translation_invariant`.

**Uses `ClassicalDedekindReals.sig_forall_dec`, `ClassicalDedekindReals.sig_not_dec`, `FunctionalExtensionality.functional_extensionality_dep`**: `C107_no_overshoot`, `C107_higher_orders_refuted`, `C107_gauss_legendre_refuted`, `C104_continuous`, `C104_gauss_legendre_continuous_refuted`, `C114_mass_matrix`, `C116_finite_check_refuted`, `C135_gradient_stability`, `C135_gradient_near_best`, `C73_basis_symmetry`, `C74_lumped_mass`, `C75_lobatto_boundary`, `C31_bundled_bases`, `C23_gauss_legendre_nodes`, `C24_gauss_lobatto_nodes`, `C25_accessors_agree_lobatto_refuted`, `C134_stability`, `C134_near_best`, `C134_equal_spacing_refuted`, `C132_exact_points`, `C34_lagrange_directions`, `C39_distinct_rows_refuted`.

**Uses `ClassicalDedekindReals.sig_forall_dec`, `ClassicalDedekindReals.sig_not_dec`, `Classical_Prop.classic`, `FunctionalExtensionality.functional_extensionality_dep`**: `C106_remainder`, `C106_element_error`, `C106_multilinear_error`, `C108_quadrature_error`, `C52_check_sound`, `C52_check_complete`, `C52_check_equal_values`, `C52_every_tolerance_refuted`, `C52_large_values_refuted`, `C56_equal_spacing_double`, `C56_last_point_exact_refuted`, `C56_symmetric_refuted`, `C56_one_point_not_finite`, `C57_nodal_double`, `C57_bundled_nodal_double`, `C57_own_value_exact_refuted`, `C65_coordinates_same_double`, `C65_weights_same_double`, `C65_lobatto4_same_double_refuted`, `C66_value_accuracy`, `C66_bundled_accuracy`, `C67_quadrature_double`, `C98_cell_accuracy`, `C98_hexahedron`, `C139_cell_gradient_error`, `C96_constant_iff_affine`, `C137_value_convergence`, `C137_gradient_convergence`, `C137_cell_gradient`, `C123_gradient_accuracy`, `C123_bundled_gradient_accuracy`, `C123_value_accuracy`, `C123_constant_accuracy`, `C123_field_gradient_accuracy`, `C123_jacobian_accuracy`, `C123_cell_accuracy`, `C123_hexahedron`, `C84_gradient_accuracy`, `C84_bundled_gradient_accuracy`, `C85_value_accuracy`, `C85_constant_accuracy`, `C86_gradient_accuracy`, `C87_jacobian_accuracy`, `C115_gradient_energy`, `C115_diffusion_matrix`, `C119_coordinates_same_float`, `C119_weights_same_float`, `C119_tables`, `C119_quadrature_float`, `C119_equal_spacing_float`, `C119_distinct_points_refuted`, `C119_last_point_exact_refuted`, `C120_nodal_float`, `C120_bundled_nodal_float`, `C120_own_value_exact_refuted`, `C120_value_accuracy`, `C120_bundled_accuracy`, `C121_check_sound`, `C121_check_complete`, `C121_check_equal_values`, `C121_every_tolerance_refuted`, `C121_large_values_refuted`, `C124_continuous`, `C124_cells`, `C124_continuous_refuted`, `C124_continuous_float`, `C124_cells_float`, `C142_double_integral`, `C142_float_integral`, `C142_witness`, `C99_value_reproducible`, `C99_product_reproducible`, `C99_scaling_reproducible`, `C99_determinant_exact`, `C99_determinant_reproducible_refuted`, `C100_gradient_accuracy`, `C100_value_accuracy`, `C100_constant_accuracy`, `C100_field_gradient_accuracy`, `C100_jacobian_accuracy`, `C100_determinant_accuracy`, `C100_inverse_accuracy`, `C100_cell_accuracy`, `C100_hexahedron`, `C143_value_reproducible`, `C143_product_reproducible`, `C143_determinant_exact`, `C143_determinant_reproducible_refuted`, `C143_gradient_accuracy`, `C143_value_accuracy`, `C143_constant_accuracy`, `C143_field_gradient_accuracy`, `C143_jacobian_accuracy`, `C143_determinant_accuracy`, `C143_inverse_accuracy`, `C143_cell_accuracy`, `C143_hexahedron`, `C131_equilibrium`, `C122_division`, `C122_scaling`, `C122_jacobian_exact`, `C122_uniform`, `C122_small_cell_refuted`, `C122_large_cell_refuted`, `C122_determinant`, `C122_inverse`, `C122_determinant_exact`, `C122_inverse_exact`, `C122_invertible_refuted`, `C122_singular_refuted`, `C82_scaling_double`, `C82_jacobian_exact`, `C82_small_cell_refuted`, `C83_determinant_double`, `C83_inverse_double`, `C83_determinant_exact`, `C83_inverse_exact`, `C83_invertible_refuted`, `C83_singular_refuted`, `C136_gradient_error`, `C136_derivative_error`, `C135_double_gradient_error`, `C135_double_jacobian_error`, `C135_float_gradient_error`, `C135_float_jacobian_error`, `C71_tensor_quadrature`, `C72_hexahedron_volume`, `C72_volume_is_integral`, `C74_weights_are_integrals`, `C74_gauss_mass_is_exact`, `C74_product_matrices`, `C75_summation_by_parts`, `C128_linear`, `C128_linear_float`, `C128_monotone`, `C128_monotone_float`, `C128_reflection`, `C128_reflection_float`, `C128_cubic_reflection_refuted`, `C128_unit_values`, `C128_unit_values_float`, `C128_positive`, `C128_positive_float`, `C128_one`, `C128_one_float`, `C128_quadratic_one_refuted`, `C128_legendre_one_refuted`, `C128_brick_one_refuted`, `C128_overshoot_refuted`, `C130_mesh_volume`, `C130_moved_mesh`, `C130_mesh_volume_double`, `C130_moved_mesh_double`, `C130_mesh_volume_float`, `C130_moved_mesh_float`, `C133_float`, `C133_runtime_float`, `C133_double`, `C133_runtime_double`, `C133_runtime_double_refuted`, `C133_six_points_refuted`, `C133_double_error`, `C138_box_quadrature`, `C138_cell_quadrature`, `C141_double_quadrature`, `C141_double_cell`, `C141_float_quadrature`, `C141_float_cell`, `C141_witness`, `C129_field`, `C129_field_float`, `C129_cell`, `C129_jacobian_float`, `C129_float_inverse_refuted`, `C129_factor_three_refuted`, `C129_tiny_cell_refuted`, `C127_pow_double`, `C127_pow_double_exact`, `C127_pow_float`, `C127_pow_float_exact`, `C127_shape_double`, `C127_shape_double_exact`, `C127_length_refuted`, `C127_shape_float`, `C127_float_one_rounding_refuted`, `C127_shape_float_small`, `C127_shape_float_exact`, `C50_coordinates_and_volume`, `C27_quadrature_exactness`, `C27_degree_is_sharp`, `C134_element_error`, `C134_double_error`, `C134_float_error`, `C132_tables`, `C132_last_digits_refuted`, `C140_double_value`, `C140_double_gradient`, `C140_double_cell_gradient`, `C140_float_value`, `C140_float_gradient`, `C140_float_cell_gradient`, `C140_witness`, `C140_cell_witness`, `C125_volume`, `C125_volume_float`.
