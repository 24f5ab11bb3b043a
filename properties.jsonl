{"id": "C01", "title": "CArray addressing is row-major", "statement": "Accessing a CArray of any rank with an in-range index tuple addresses the element whose flat offset is the row-major position of that tuple (the number of in-range tuples lexicographically before it), and that offset lies in [0, size()).", "quantifier": "every rank >= 1, every list of positive dimensions whose product fits an int, every in-range tuple", "why_tests_cant": "the tests use one or two fixed dimension packs; rank and dimensions are unbounded template packs", "anchors": ["include/shiva/common/CArrayHelper.hpp:linearIndexHelper::level", "include/shiva/common/CArray.hpp:operator()"]}
{"id": "C02", "title": "CArray addressing is a bijection", "statement": "Distinct in-range tuples address distinct elements and every element of the buffer is addressed by exactly one tuple.", "quantifier": "every dimension pack, every pair of tuples, every offset", "why_tests_cant": "injectivity ranges over all pairs of tuples of all shapes", "anchors": ["include/shiva/common/CArrayHelper.hpp:linearIndexHelper", "include/shiva/common/CArray.hpp:operator()"]}
{"id": "C03", "title": "The three ways to index agree", "statement": "Compile-time indexing a.operator()<i,j,..>(), run-time indexing a(i,j,..) and chained bracket indexing a[i][j].. address the same element for every in-range tuple.", "quantifier": "every dimension pack and in-range tuple", "why_tests_cant": "needs every shape and every tuple; chained brackets recurse on rank", "anchors": ["include/shiva/common/CArray.hpp:operator()", "include/shiva/common/CArray.hpp:squareBracketOperatorHelper", "include/shiva/common/CArrayHelper.hpp:stride"]}
{"id": "C04", "title": "Bounds checking is exact", "statement": "With SHIVA_ENABLE_BOUNDS_CHECK on, a run-time access through a(i,j,..) or a[i][j].. aborts if and only if at least one index is outside its dimension; an in-range access never aborts.", "quantifier": "every dimension pack, every (also negative) index tuple, both access styles", "why_tests_cant": "all out-of-range tuples in every position cannot be enumerated", "anchors": ["include/shiva/common/CArrayHelper.hpp:level", "include/shiva/common/CArray.hpp:squareBracketOperatorHelper", "include/shiva/common/ShivaMacros.hpp:SHIVA_ASSERT_MSG"]}
{"id": "C05", "title": "Unchecked out-of-range access", "statement": "With bounds checking off, an access whose individual index is out of range is either undefined behaviour (flat offset outside the buffer) or silently aliases the element with that flat offset; the claim 'an out-of-range index is never silently accepted' is false, also with checks on during constant evaluation.", "quantifier": "every dimension pack and tuple", "why_tests_cant": "aliasing depends on the combination of all indices", "anchors": ["include/shiva/common/CArrayHelper.hpp:level", "include/shiva/common/CArray.hpp:operator()"]}
{"id": "C06", "title": "rank, extent and size are consistent", "statement": "rank() is the number of dimensions, extent<k>() the k-th dimension, and size() equals the product of extents, which is the number of in-range tuples.", "quantifier": "every dimension pack", "why_tests_cant": "ranges over unbounded packs", "anchors": ["include/shiva/common/CArray.hpp:rank", "include/shiva/common/CArray.hpp:extent", "include/shiva/common/CArray.hpp:size", "include/shiva/common/CArrayHelper.hpp:get", "include/shiva/common/CArrayHelper.hpp:size"]}
{"id": "C07", "title": "List initialisation fills row-major and zero-fills", "statement": "A CArrayNd built from k <= size() values holds value number r at the tuple of row-major position r, for r < k, and zero everywhere else; more than size() values is rejected at compile time.", "quantifier": "every dimension pack, every value list", "why_tests_cant": "value lists and shapes are unbounded", "anchors": ["include/shiva/common/CArray.hpp:CArray(U...)"]}
{"id": "C08", "title": "Slices alias exactly their part of the parent", "statement": "A slice a[i] refers to the parent's storage: reading or writing slice(t) is reading or writing a(i,t), and no write through the slice changes an element of the parent outside a[i].", "quantifier": "every rank >= 2, every i in range, every in-range t, every memory", "why_tests_cant": "all shapes and all write positions", "anchors": ["include/shiva/common/CArray.hpp:squareBracketOperatorHelper"]}
{"id": "C09", "title": "Index arithmetic does not overflow int", "statement": "If the product of the (positive) dimensions fits an int, no int operation performed while computing an in-range offset or a stride overflows.", "quantifier": "every dimension pack with product <= INT_MAX", "why_tests_cant": "overflow happens only for huge shapes no test allocates", "anchors": ["include/shiva/common/CArrayHelper.hpp:strideHelper", "include/shiva/common/CArrayHelper.hpp:level"]}
{"id": "C10", "title": "A CArray behaves like a map from index tuples to values", "statement": "After any sequence of writes through any of the access styles, also via slices, a read of a tuple returns the value most recently written to that tuple, or its initial value if none was.", "quantifier": "every dimension pack, every finite history of writes and reads", "why_tests_cant": "histories are unbounded", "anchors": ["include/shiva/common/CArray.hpp:operator()", "include/shiva/common/CArray.hpp:operator[]"]}
{"id": "C11", "title": "forRange visits the box exactly once, in order", "statement": "forRange(index, f) calls f once for each multi-index m with start[k] <= m[k] < range[k], in increasing lexicographic order (last index fastest), and never for any other multi-index, where start is the value of index on entry.", "quantifier": "every rank >= 1, every ranges, every start (also negative or beyond the range), every callback that does not modify the index", "why_tests_cant": "rank, ranges and start are unbounded; tests use 2x2x2 from 0", "anchors": ["include/shiva/common/IndexTypes.hpp:forRange", "include/shiva/common/IndexTypes.hpp:forRangeHelper"]}
{"id": "C12", "title": "MultiIndexRange linear index is the iteration position", "statement": "For every in-range multi-index, linearIndex(index) equals its row-major position, i.e. it enumerates 0..prod(ranges)-1 in forRange order. (False of the code, whose strides come from the wrong end of the pack: it holds exactly for packs where, for every k with range_k >= 2, the product of the first n-1-k ranges equals the product of the ranges after k; when all ranges are >= 2 that means the pack reads the same backwards. Otherwise it can repeat indices, leave [0,prod) and overflow.)", "quantifier": "every ranges pack and in-range multi-index", "why_tests_cant": "tests use 2x2x2 only, for which the strides happen to be right", "anchors": ["include/shiva/common/IndexTypes.hpp:stride", "include/shiva/common/IndexTypes.hpp:linearIndex"]}
{"id": "C13", "title": "forSequence order and multiplicity", "statement": "forSequence<N>(f) calls f exactly with 0,1,..,N-1, each once, in increasing order; N=0 makes no call.", "quantifier": "every N, every callback and state", "why_tests_cant": "N is unbounded", "anchors": ["include/shiva/common/SequenceUtilities.hpp:forSequence", "include/shiva/common/SequenceUtilities.hpp:staticFor"]}
{"id": "C14", "title": "executeSequence passes the whole sequence once", "statement": "executeSequence<N>(f,args...) calls f exactly once, with args first and then 0,1,..,N-1 in order, and returns its result, for every f that is invocable with both argument orders. (A callable that accepts only the documented order, args first, is rejected at compile time when args is not empty: the invocability test puts the indices first.)", "quantifier": "every N, args and callback", "why_tests_cant": "N and argument packs are unbounded", "anchors": ["include/shiva/common/SequenceUtilities.hpp:executeSequence", "include/shiva/common/SequenceUtilities.hpp:execute"]}
{"id": "C15", "title": "forNestedSequence visits the product exactly once, in order", "statement": "forNestedSequence<E1..Ek>(f) calls f once for each tuple with 0<=t_j<E_j in increasing lexicographic order and for nothing else; it makes exactly the same calls in the same order as forRange started from zero.", "quantifier": "every list of ends and every callback", "why_tests_cant": "unbounded ranks and ends", "anchors": ["include/shiva/common/NestedSequenceUtilities.hpp:forNestedSequence", "include/shiva/common/NestedSequenceUtilities.hpp:staticForNested"]}
{"id": "C16", "title": "Pack peeling selects the k-th entry", "statement": "IntPackPeeler<k,pack...>::value() and CArrayHelper::get<k,pack...>() return the k-th entry for 0<=k<length, and are rejected at compile time otherwise.", "quantifier": "every pack and k", "why_tests_cant": "unbounded packs", "anchors": ["include/shiva/common/SequenceUtilities.hpp:IntPackPeeler", "include/shiva/common/CArrayHelper.hpp:get"]}
{"id": "C17", "title": "pow is exponentiation", "statement": "pow<T,E>(b) is b to the power E for E >= 0 (exactly b*...*b, E factors), when no intermediate product overflows; for negative E it returns 1.", "quantifier": "every exponent and base", "why_tests_cant": "exponents and bases unbounded", "anchors": ["include/shiva/common/MathUtilities.hpp:pow"]}
{"id": "C18", "title": "factorial is N! while it fits an int", "statement": "factorial<int,N>::value is N! for 0 <= N <= 12 and the program is rejected at compile time for every other N.", "quantifier": "every N", "why_tests_cant": "all N, including the overflow boundary", "anchors": ["include/shiva/common/MathUtilities.hpp:factorial"]}
{"id": "C19", "title": "binomialCoefficient is the binomial coefficient", "statement": "Whenever binomialCoefficient<int,N,K> compiles, its value is the number of K-element subsets of an N-element set; it compiles for exactly 0 <= K <= N <= 12 (so also small coefficients with N >= 13 are rejected).", "quantifier": "every N and K", "why_tests_cant": "all N and K", "anchors": ["include/shiva/common/MathUtilities.hpp:binomialCoefficient"]}
{"id": "C20", "title": "3x3 inverse and determinant", "statement": "For every real 3x3 matrix with non-zero determinant, inverse() returns its determinant and overwrites the matrix by its two-sided inverse; both overloads give the same result; a zero determinant makes it divide by zero.", "quantifier": "every 3x3 matrix over the reals", "why_tests_cant": "matrices are uncountable", "anchors": ["include/shiva/common/MathUtilities.hpp:inverse"]}
{"id": "C21", "title": "inverse() of a CArray is only for 3x3", "statement": "Applied to a CArray that is not 3x3 (e.g. the 2x2 Jacobian of a 2-D transform) inverse() does not compute an inverse: for a 2x2 array it accesses outside the array.", "quantifier": "every square matrix size", "why_tests_cant": "tests only use 3x3", "anchors": ["include/shiva/common/MathUtilities.hpp:inverse", "include/shiva/geometry/mapping/LinearTransform.hpp:inverseJacobian"]}
{"id": "C22", "title": "EqualSpacing is an equidistant partition of [-1,1]", "statement": "For every N>=2 the points are strictly increasing, start at -1, end at 1, are equally spaced by interval(), and are symmetric about 0; run-time and compile-time coordinates agree. With N=1 evaluation divides by zero.", "quantifier": "every N and index", "why_tests_cant": "unbounded N", "anchors": ["include/shiva/functions/spacing/Spacing.hpp:EqualSpacing"]}
{"id": "C23", "title": "GaussLegendreSpacing nodes", "statement": "For N=2..4 the nodes are strictly increasing, strictly inside (-1,1), symmetric about 0, agree between the run-time and compile-time accessors and are the N roots of the N-th Legendre polynomial up to 1e-36. For every other N (accepted by the compiler) all nodes are 0.", "quantifier": "every N accepted by the template, every index", "why_tests_cant": "tests compare N=2..4 with 1e-13 tolerance; N>=5 is never instantiated", "anchors": ["include/shiva/functions/spacing/Spacing.hpp:GaussLegendreSpacing"]}
{"id": "C24", "title": "GaussLobattoSpacing nodes", "statement": "For N=2..9 the compile-time nodes are strictly increasing from -1 to 1, symmetric about 0, and the interior ones are roots of the derivative of the (N-1)-th Legendre polynomial up to the precision of the literals.", "quantifier": "every supported N and index", "why_tests_cant": "N=6..9 are not tested at all", "anchors": ["include/shiva/functions/spacing/Spacing.hpp:GaussLobattoSpacing"]}
{"id": "C25", "title": "Run-time and compile-time coordinates agree", "statement": "coordinate(i) and coordinate<i>() return the same value for every spacing, N and index in range. (False for GaussLobattoSpacing with N=6..9, where the run-time accessor returns 0.)", "quantifier": "every spacing, N and in-range index", "why_tests_cant": "tests stop at N=5", "anchors": ["include/shiva/functions/spacing/Spacing.hpp:coordinate"]}
{"id": "C26", "title": "Quadrature weights are positive, symmetric and sum to 2", "statement": "For every supported N the weights are positive, symmetric, and sum to the length of [-1,1] up to the precision of the literals; run-time weights agree with compile-time ones to 33 decimals; any other N is rejected at compile time. (Exact symmetry is false for Gauss-Lobatto N=8, and exact agreement of the two accessors for Gauss-Lobatto N=4.)", "quantifier": "every supported N and index", "why_tests_cant": "N=6..9 untested; tests use tolerance 1e-13", "anchors": ["include/shiva/functions/quadrature/Quadrature.hpp:weight"]}
{"id": "C27", "title": "Quadrature exactness", "statement": "The N-point Gauss-Legendre rule integrates every polynomial of degree <= 2N-1, and the N-point Gauss-Lobatto rule every polynomial of degree <= 2N-3, over [-1,1] with an error at most eps times the sum of absolute coefficients (eps given by literal precision).", "quantifier": "every polynomial up to that degree, every supported N", "why_tests_cant": "polynomials are uncountable; no test integrates anything", "anchors": ["include/shiva/functions/quadrature/Quadrature.hpp:QuadratureGaussLegendre", "include/shiva/functions/quadrature/Quadrature.hpp:QuadratureGaussLobatto"]}
{"id": "C28", "title": "Lagrange basis is nodal", "statement": "value<i>(coordinate<j>()) is 1 if i=j and 0 otherwise, for any spacing with pairwise distinct points and any order.", "quantifier": "every order, every spacing with distinct points, all i and j", "why_tests_cant": "orders and spacings unbounded; tests evaluate at one point", "anchors": ["include/shiva/functions/bases/LagrangeBasis.hpp:value"]}
{"id": "C29", "title": "Lagrange basis is a partition of unity and reproduces polynomials", "statement": "For every x, the basis values sum to 1, and interpolating any polynomial of degree <= ORDER at the support points reproduces it exactly.", "quantifier": "every order, spacing with distinct points, polynomial and x", "why_tests_cant": "uncountable quantification", "anchors": ["include/shiva/functions/bases/LagrangeBasis.hpp:value"]}
{"id": "C30", "title": "Lagrange gradient is the derivative of the value", "statement": "gradient<i>(x) is the derivative at x of value<i>, for every x; the gradients of all basis functions sum to 0.", "quantifier": "every order, spacing with distinct points, i and x", "why_tests_cant": "derivatives at all points", "anchors": ["include/shiva/functions/bases/LagrangeBasis.hpp:gradient"]}
{"id": "C31", "title": "The bundled spacings give valid Lagrange bases", "statement": "EqualSpacing at every order >= 1, GaussLegendreSpacing at orders 1..3 and GaussLobattoSpacing at orders 1..8 have distinct support points, so nodality, partition of unity and the derivative property hold for them; GaussLegendre of order >= 4 and GaussLobatto of order >= 9 do not evaluate (constexpr division by zero).", "quantifier": "every order", "why_tests_cant": "orders unbounded", "anchors": ["include/shiva/functions/bases/LagrangeBasis.hpp:valueProductTerm", "include/shiva/functions/spacing/Spacing.hpp"]}
{"id": "C32", "title": "BasisProduct value is the tensor product", "statement": "value<i1..id>(xi) is the product of the one-dimensional values, one basis per direction in order, for mixed bases and any number of dimensions.", "quantifier": "every dimension, basis pack, index pack and point", "why_tests_cant": "unbounded dimension and uncountable points", "anchors": ["include/shiva/functions/bases/BasisProduct.hpp:value"]}
{"id": "C33", "title": "BasisProduct gradient is the gradient of its value", "statement": "Component j of gradient<i..>(xi) is the partial derivative of value<i..> with respect to xi_j.", "quantifier": "every dimension, basis pack, index pack and point", "why_tests_cant": "derivatives at all points", "anchors": ["include/shiva/functions/bases/BasisProduct.hpp:gradient", "include/shiva/functions/bases/BasisProduct.hpp:gradientComponentHelper"]}
{"id": "C34", "title": "Tensor basis is nodal and a partition of unity", "statement": "At the support point with index pack j, value<i> is 1 if i=j else 0; and summed over supportLoop the values add to 1 and the gradients to 0 at every point.", "quantifier": "every dimension, orders, distinct-point bases, points", "why_tests_cant": "unbounded", "anchors": ["include/shiva/functions/bases/BasisProduct.hpp:value", "include/shiva/functions/bases/BasisProduct.hpp:gradient", "include/shiva/functions/bases/BasisProduct.hpp:supportLoop"]}
{"id": "C35", "title": "ParentElement interpolates", "statement": "value(xi,var) at a support point returns var at that point; a field sampled from a constant is reproduced exactly everywhere; value is linear in var.", "quantifier": "every dimension, orders, field and point", "why_tests_cant": "uncountable", "anchors": ["include/shiva/discretizations/finiteElementMethod/parentElements/ParentElement.hpp:value"]}
{"id": "C36", "title": "ParentElement reproduces tensor polynomials", "statement": "If var samples at the support points a polynomial of degree at most ORDER_k in each coordinate k, value(xi,var) is that polynomial at xi, for every xi.", "quantifier": "every such polynomial, dimension and point", "why_tests_cant": "uncountable", "anchors": ["include/shiva/discretizations/finiteElementMethod/parentElements/ParentElement.hpp:value"]}
{"id": "C37", "title": "ParentElement gradient differentiates the interpolant", "statement": "gradient(xi,var)(a) is the partial derivative with respect to xi_a of value(.,var) at xi.", "quantifier": "every dimension, orders, field and point", "why_tests_cant": "derivatives at all points", "anchors": ["include/shiva/discretizations/finiteElementMethod/parentElements/ParentElement.hpp:gradient"]}
{"id": "C38", "title": "LinearTransform::setData stores vertex rows in a+2b+4c order", "statement": "After setData(coords) on a cell with 2x2xn support points, getData()(a,b,c,i) = coords[a+2b+4c][i], and each row of coords is used by exactly one support point.", "quantifier": "every coords array", "why_tests_cant": "values uncountable", "anchors": ["include/shiva/geometry/mapping/LinearTransform.hpp:setData", "include/shiva/geometry/mapping/LinearTransform.hpp:getData"]}
{"id": "C39", "title": "setData does not lose support points at higher order", "statement": "For every order the support points of the cell receive pairwise different rows of coords. (False of the code as soon as the first or the second basis has order >= 2.)", "quantifier": "every triple of orders", "why_tests_cant": "tests use order 1 only", "anchors": ["include/shiva/geometry/mapping/LinearTransform.hpp:setData"]}
{"id": "C40", "title": "LinearTransform Jacobian is the derivative of the map", "statement": "jacobian(cell,xi) wrapped by value returns J with J(i,j) equal to the partial derivative with respect to xi_j of x_i(xi) = sum over support points of value * vertex coordinate.", "quantifier": "every cell, order, dimension and xi", "why_tests_cant": "derivatives at all points of all cells", "anchors": ["include/shiva/geometry/mapping/LinearTransform.hpp:jacobian", "include/shiva/geometry/mapping/JacobianTransforms.hpp:jacobian"]}
{"id": "C41", "title": "jacobian accumulates into its output argument", "statement": "The reference-argument jacobian adds the Jacobian to the incoming contents of J: the result is the Jacobian exactly when J was zero; the by-value wrappers zero it first.", "quantifier": "every incoming J, cell, xi", "why_tests_cant": "all initial contents", "anchors": ["include/shiva/geometry/mapping/LinearTransform.hpp:jacobian", "include/shiva/geometry/mapping/JacobianTransforms.hpp"]}
{"id": "C42", "title": "Quadrature-point Jacobian equals the point Jacobian", "statement": "jacobian<Q,qa..>(cell,J) equals jacobian(cell,xi,J) at xi = (Q::coordinate<qa>...), whatever the number type: not only over the reals but bit for bit in double arithmetic.", "quantifier": "every number type, cell, quadrature and index pack", "why_tests_cant": "all cells and number types", "anchors": ["include/shiva/geometry/mapping/LinearTransform.hpp:jacobian"]}
{"id": "C43", "title": "inverseJacobian inverts the Jacobian", "statement": "For a 3-D cell with non-singular Jacobian at xi, inverseJacobian(cell,xi) returns detJ = det J and invJ with invJ*J = J*invJ = I.", "quantifier": "every cell and xi", "why_tests_cant": "uncountable", "anchors": ["include/shiva/geometry/mapping/LinearTransform.hpp:inverseJacobian", "include/shiva/geometry/mapping/JacobianTransforms.hpp:inverseJacobian"]}
{"id": "C44", "title": "Scaling Jacobian", "statement": "For Scaling with lengths h: J = h/2 componentwise, invJ(k)*J(k)=1 and detJ = prod J(k), for all non-zero h; zero length divides by zero; setData/getData round-trip; default lengths are 1.", "quantifier": "every h", "why_tests_cant": "uncountable", "anchors": ["include/shiva/geometry/mapping/Scaling.hpp"]}
{"id": "C45", "title": "UniformScaling is Scaling with equal lengths", "statement": "UniformScaling(h) yields the same J, invJ (per direction) and detJ as Scaling(h,h,h).", "quantifier": "every h", "why_tests_cant": "uncountable", "anchors": ["include/shiva/geometry/mapping/UniformScaling.hpp", "include/shiva/geometry/mapping/Scaling.hpp"]}
{"id": "C46", "title": "A box cell agrees with Scaling; affine cells have a constant Jacobian", "statement": "A trilinear LinearTransform whose vertices form an axis-aligned box with edge lengths h has the diagonal Jacobian h/2 of Scaling(h) at every xi; any affine (parallelepiped) cell has a Jacobian independent of xi; translating a cell does not change its Jacobian.", "quantifier": "every box/affine cell and xi", "why_tests_cant": "uncountable", "anchors": ["include/shiva/geometry/mapping/LinearTransform.hpp:jacobian", "include/shiva/geometry/mapping/Scaling.hpp:jacobian"]}
{"id": "C47", "title": "NCube face counts", "statement": "Whenever numMCubes<M>() is defined its value is the number of M-dimensional faces of the N-cube, and numVertices/numEdges/numFaces/numCells/numHyperFaces agree with it (0 where no such face exists).", "quantifier": "every N and M", "why_tests_cant": "all dimensions", "anchors": ["include/shiva/geometry/shapes/NCube.hpp:numMCubes"]}
{"id": "C48", "title": "Which NCube counts are available", "statement": "numMCubes<M>() is defined exactly when 0 <= M <= N <= 12 and 2^(N-M) * N! fits in int; in particular it is not defined whenever the count itself fits in int (e.g. the 1024 vertices of the 10-cube overflow an intermediate product).", "quantifier": "every N and M", "why_tests_cant": "tests stop at N=4", "anchors": ["include/shiva/geometry/shapes/NCube.hpp:numMCubes", "include/shiva/common/MathUtilities.hpp:factorial"]}
{"id": "C49", "title": "NSimplex face counts", "statement": "Whenever numMSimplexes<M>() is defined its value is the number of M-dimensional faces of the N-simplex, and the named counters agree with it.", "quantifier": "every N and M", "why_tests_cant": "all dimensions", "anchors": ["include/shiva/geometry/shapes/NSimplex.hpp:numMSimplexes"]}
{"id": "C50", "title": "Shape coordinates and volume", "statement": "minCoord, maxCoord and length of NCube/NSimplex are MIN/DIVISOR, MAX/DIVISOR and their difference; volume of NCube is length^N and of NSimplex length^N/N!.", "quantifier": "every N, MIN<MAX, DIVISOR>0", "why_tests_cant": "unbounded parameters; MAX-MIN may overflow int", "anchors": ["include/shiva/geometry/shapes/NCube.hpp:volume", "include/shiva/geometry/shapes/NSimplex.hpp:volume"]}
{"id": "C51", "title": "pmpl::check compares within tolerance", "statement": "Over exact arithmetic check(a,b,tol) is true iff |a-b| < |tol|; it is symmetric in a and b; never true for tol=0.", "quantifier": "every a, b, tol", "why_tests_cant": "uncountable", "anchors": ["include/shiva/common/pmpl.hpp:check"]}
{"id": "C52", "title": "pmpl::check in binary64", "statement": "In IEEE double arithmetic, what check accepts is closer than the tolerance and finite (NaN and infinite values never pass), and what is closer than the tolerance by a margin of 2^-51 relative is accepted as long as the square of the tolerance neither underflows nor overflows. check(a,a,tol) for every finite a and tol>0 is false: it holds exactly when tol*tol exceeds 2^-1075.", "quantifier": "every double triple", "why_tests_cant": "2^192 inputs", "anchors": ["include/shiva/common/pmpl.hpp:check"]}
{"id": "C53", "title": "genericKernelWrapper runs the kernel once on the data", "statement": "On host and on device (no runtime errors) the wrapper runs the kernel exactly once, after it host data holds the kernel's effect on the first N elements, nothing else changed and all device memory is released.", "quantifier": "every data array, N, kernel", "why_tests_cant": "histories and failures", "anchors": ["include/shiva/common/pmpl.hpp:genericKernelWrapper"]}
{"id": "C54", "title": "Kernel failure handling", "statement": "On device, whatever runtime calls fail, device memory allocated is freed exactly once before returning or aborting; the process aborts iff synchronisation reports an error and abortOnError is set.", "quantifier": "every combination of runtime failures (crash points)", "why_tests_cant": "failure points cannot be injected by the tests", "anchors": ["include/shiva/common/pmpl.hpp:genericKernelWrapper"]}
{"id": "C55", "title": "Assertion macro", "statement": "SHIVA_ASSERT_MSG aborts at run time iff the condition is false, and has no effect in constant evaluation; on the host shivaAssertionFailed aborts iff callAbort, on a device it always traps (callAbort is not respected there).", "quantifier": "both contexts, every condition", "why_tests_cant": "death paths excluded from coverage", "anchors": ["include/shiva/common/ShivaMacros.hpp:SHIVA_ASSERT_MSG", "include/shiva/common/ShivaErrorHandling.hpp:shivaAssertionFailed"]}
{"id": "C56", "title": "EqualSpacing in binary64", "statement": "In IEEE double, for every N the points are finite, strictly increasing, within [-1,1] and within 2^-50 of the exact ones; the first is exactly -1 and the last is 1 or 1-2^-52 (both occur). Run-time and compile-time accessors give the same doubles. The points are not always symmetric about 0, and N=1 gives a non-finite value.", "quantifier": "every N in 2..2^31-1, every index", "why_tests_cant": "N unbounded", "anchors": ["include/shiva/functions/spacing/Spacing.hpp:EqualSpacing"]}
{"id": "C57", "title": "Lagrange nodality in binary64", "statement": "In IEEE double, for every point table whose points are separated (the bundled ones for all orders they support, equally spaced points up to order 126), value<i> at support point j != i is exactly zero, and at i lies in [1-ORDER*2^-53, 1]; it is not always exactly 1.", "quantifier": "every order, every separated double table, all i, j", "why_tests_cant": "rounding differs per order and table", "anchors": ["include/shiva/functions/bases/LagrangeBasis.hpp:value"]}
{"id": "C58", "title": "Header aggregation order", "statement": "When the include graph is acyclic and all includes resolve, aggregate emits every transitively needed header exactly once, each after all headers it includes.", "quantifier": "every finite include graph", "why_tests_cant": "graphs unbounded", "anchors": ["scripts/aggregateOrSplit.py:generate_header_list", "scripts/aggregateOrSplit.py:create_dependency_graph"]}
{"id": "C59", "title": "Header aggregation terminates", "statement": "aggregate terminates on every set of headers. (False: a cyclic include makes it loop forever.)", "quantifier": "every include graph", "why_tests_cant": "non-termination cannot be tested", "anchors": ["scripts/aggregateOrSplit.py:generate_header_list"]}
{"id": "C60", "title": "split stays inside its output directory", "statement": "split writes only files inside output_dir. (False for files produced by aggregate: it writes back to the absolute path of the original header.)", "quantifier": "every aggregated file", "why_tests_cant": "paths unbounded", "anchors": ["scripts/aggregateOrSplit.py:split_aggregated_file"]}
{"id": "C61", "title": "split inverts aggregate", "statement": "Splitting an aggregated file recovers, for every aggregated header, its text with include and pragma-once lines commented out, provided each header ends in a newline and contains no marker line.", "quantifier": "every list of header texts", "why_tests_cant": "texts unbounded", "anchors": ["scripts/aggregateOrSplit.py:aggregate_headers", "scripts/aggregateOrSplit.py:split_aggregated_file"]}
{"id": "C62", "title": "compare_uncrustify partitions the settings", "statement": "Every key of either file appears in exactly one of common/different, in common iff both files give it the same value.", "quantifier": "every pair of configurations", "why_tests_cant": "unbounded", "anchors": ["scripts/compare_uncrustify.py:compare_config_files"]}
{"id": "C63", "title": "Const arrays are never assignable", "statement": "No access path through an array whose element type is const, or through a const array object, yields an assignable element, also not through slices of it; every path through a non-const array does.", "quantifier": "every array, path, slice depth and in-range tuple", "why_tests_cant": "a negative compile-time property over every type and path; a positive test cannot show it", "anchors": ["include/shiva/common/CArray.hpp:operator()", "include/shiva/common/CArray.hpp:operator[]", "include/shiva/common/CArray.hpp:squareBracketOperatorHelper"]}
{"id": "C64", "title": "deallocateData releases exactly its block", "statement": "deallocateData releases the block it is given and no other, and accepts null; a second call for the same block is undefined on the host and a silently ignored error on a device.", "quantifier": "every set of live blocks, every block", "why_tests_cant": "histories of allocations", "anchors": ["include/shiva/common/pmpl.hpp:deallocateData"]}
{"id": "C65", "title": "Run-time and compile-time accessors agree bit for bit in double", "statement": "coordinate(i) and coordinate<i>(), and weight(i) and weight<i>(), return the same IEEE double for every spacing and rule both support. (False for the interior points and weights of the 4-point Gauss-Lobatto rule, whose two accessors spell the numbers differently.)", "quantifier": "every spacing, rule, N and in-range index", "why_tests_cant": "tests compare with a tolerance of 1e-13", "anchors": ["include/shiva/functions/spacing/Spacing.hpp:coordinate", "include/shiva/functions/quadrature/Quadrature.hpp:weight"]}
{"id": "C66", "title": "Lagrange values are accurate in double", "statement": "In IEEE double, at every point of [-1,1], value<i> is finite and within 6*ORDER*2^-53 relative error (plus a bounded underflow term) of the exact Lagrange polynomial of the same support points.", "quantifier": "every order, every separated table of doubles, every index, every double in [-1,1]", "why_tests_cant": "2^62 evaluation points per basis function", "anchors": ["include/shiva/functions/bases/LagrangeBasis.hpp:value"]}
{"id": "C67", "title": "Quadrature rules as stored in double", "statement": "The rules whose weights and coordinates are rounded to double have positive finite weights summing to 2 within 2^-53 (N<=5) or 2^-45, and integrate every polynomial up to the degree of the rule with that error times the sum of absolute coefficients.", "quantifier": "every supported N, every polynomial up to the degree", "why_tests_cant": "polynomials are uncountable", "anchors": ["include/shiva/functions/quadrature/Quadrature.hpp:weight", "include/shiva/functions/spacing/Spacing.hpp:coordinate"]}
{"id": "C68", "title": "aggregate leaves its inputs alone", "statement": "aggregate changes no file other than its output, whether it succeeds or fails. (If the output file is itself reached as an input, its old content is lost before it is read and the run does not complete normally.)", "quantifier": "every file system, header list and include path", "why_tests_cant": "file systems unbounded", "anchors": ["scripts/aggregateOrSplit.py:aggregate_headers"]}
{"id": "C69", "title": "aggregate follows every quoted include", "statement": "Every include directive with a quoted name that a preprocessor would obey and that resolves is followed. (False: a directive with a blank before or after the number sign is ignored and left in the output, and the directives after one that does not resolve are dropped.)", "quantifier": "every header text", "why_tests_cant": "texts unbounded", "anchors": ["scripts/aggregateOrSplit.py:create_dependency_graph"]}
{"id": "C70", "title": "compare_uncrustify prints every difference", "statement": "The report names every setting on which the two files differ, also one present in only one file. (False: those are computed but not printed.)", "quantifier": "every pair of configurations", "why_tests_cant": "unbounded", "anchors": ["scripts/compare_uncrustify.py:compare_config_files", "scripts/compare_uncrustify.py:__main__"]}
{"id": "C71", "title": "Tensor-product quadrature is exact for polynomials", "statement": "Summing weight products times f over all tuples of quadrature points, with any supported rule in each direction, gives the integral over [-1,1]^d of every polynomial f whose degree in each direction is within that rule's degree (up to the precision of the tables).", "quantifier": "every dimension, choice of rules and polynomial", "why_tests_cant": "polynomials and rule combinations are infinite", "anchors": ["include/shiva/functions/quadrature/Quadrature.hpp:weight", "include/shiva/functions/spacing/Spacing.hpp:coordinate"]}
{"id": "C72", "title": "Quadrature of detJ gives the cell volume", "statement": "For a hexahedral LinearTransform, the sum over quadrature points (rules of degree at least 2 per direction) of weights times the detJ returned by inverseJacobian is the volume of the hexahedron with bilinear faces, up to the precision of the tables times the cube of the coordinates.", "quantifier": "every non-degenerate cell, every choice of rules", "why_tests_cant": "uncountable", "anchors": ["include/shiva/geometry/mapping/LinearTransform.hpp:inverseJacobian", "include/shiva/geometry/mapping/JacobianTransforms.hpp:inverseJacobian", "include/shiva/functions/quadrature/Quadrature.hpp:weight"]}
{"id": "C73", "title": "The Lagrange basis is reflection symmetric", "statement": "value<ORDER-i>(-x) = value<i>(x) and gradient<ORDER-i>(-x) = -gradient<i>(x) for every bundled spacing and order.", "quantifier": "every order, index and x", "why_tests_cant": "uncountable", "anchors": ["include/shiva/functions/bases/LagrangeBasis.hpp:value", "include/shiva/functions/bases/LagrangeBasis.hpp:gradient"]}
{"id": "C74", "title": "Mass matrices under quadrature", "statement": "With quadrature points equal to the basis nodes, the mass matrix is exactly diagonal with the weights on the diagonal; each weight is the integral of its basis function; for Gauss-Legendre the diagonal matrix is the exact mass matrix; products within the rule's degree are integrated exactly (to table precision).", "quantifier": "every rule, size and pair of functions", "why_tests_cant": "tests evaluate a few points", "anchors": ["include/shiva/functions/quadrature/Quadrature.hpp:weight", "include/shiva/functions/bases/LagrangeBasis.hpp:value"]}
{"id": "C75", "title": "Discrete integration by parts", "statement": "With quadrature points equal to the basis nodes, w_i D_ij + w_j D_ji, D_ij = gradient<j>(x_i), equals the boundary term of the two basis functions (to table precision), so the discrete derivative satisfies summation by parts; for Gauss-Lobatto the boundary terms are 1, -1 and 0.", "quantifier": "every rule, size and pair of functions", "why_tests_cant": "tests compare single gradients", "anchors": ["include/shiva/functions/quadrature/Quadrature.hpp:weight", "include/shiva/functions/bases/LagrangeBasis.hpp:gradient"]}
{"id": "C76", "title": "The configuration script touches only its two directories", "statement": "Running config-build.py, whatever the arguments and wherever it stops, leaves every file and directory outside the build and the install directory as it was; without the host config file nothing is changed and nothing run.", "quantifier": "every file system, argument list and point of failure", "why_tests_cant": "infinitely many trees and failure points", "anchors": ["scripts/config-build.py:cachefile", "scripts/config-build.py:buildpath", "scripts/config-build.py:installpath"]}
{"id": "C77", "title": "cmake starts in a fresh build directory", "statement": "When config-build.py runs cmake, the build and install directories exist and the only file in either is cmake_cmd in the build directory, holding the command that is run.", "quantifier": "every well-formed file system and argument list", "why_tests_cant": "infinitely many trees", "anchors": ["scripts/config-build.py:cmdfile", "scripts/config-build.py:buildpath"]}
{"id": "C78", "title": "cmake gets the intended arguments", "statement": "The command line config-build.py hands to the shell splits into the intended arguments (host config, build type, install prefix, generator, passed-on arguments, source directory); a dependency graph is drawn, in the build directory and after cmake, exactly if asked for.", "quantifier": "every argument list without characters special to the shell; refuted with a space in a path", "why_tests_cant": "paths are arbitrary strings", "anchors": ["scripts/config-build.py:cmakeline", "scripts/config-build.py:unknown_args"]}
{"id": "C79", "title": "config-build reaches cmake with the host config intact", "statement": "With a readable host config, config-build.py runs cmake and the host config still has its content; with a host config that cannot be read it starts no command and reports failure.", "quantifier": "every file system and argument list meeting the stated conditions; refuted when building in the current directory, with the install directory above the build directory, or with the host config inside the build directory; also refuted that a run failing before cmake leaves an earlier build alone", "why_tests_cant": "infinitely many trees and path arrangements", "anchors": ["scripts/config-build.py:buildpath", "scripts/config-build.py:installpath", "scripts/config-build.py:cachefile"]}
{"id": "C80", "title": "The exit status tells whether configuring failed", "statement": "config-build.py exits with 0 exactly if the commands ran; refuted: a cmake that fails is not reported.", "quantifier": "every outcome of the commands", "why_tests_cant": "tests would need a failing cmake", "anchors": ["scripts/config-build.py:cmakeline", "scripts/config-build.py:dot_line"]}
{"id": "C81", "title": "The cmake named by the host config is used", "statement": "config-build.py reads the location of cmake from the host config; refuted: it always runs the cmake in the PATH.", "quantifier": "every host config text", "why_tests_cant": "texts are arbitrary", "anchors": ["scripts/config-build.py:extract_cmake_location", "scripts/config-build.py:cmakeline"]}
{"id": "C82", "title": "Scaled cells in doubles", "statement": "With REAL_TYPE = double and lengths between 2^-300 and 2^300, the Jacobian of Scaling and UniformScaling is exact, the inverse Jacobian correctly rounded, and the determinant within a relative error of 3 * 2^-53 of the product of the half lengths. (Without the range: a cell of size 1e-120 has determinant 0.)", "quantifier": "all triples of doubles in the range", "why_tests_cant": "2^64 values per length; tests use exact powers of two", "anchors": ["include/shiva/geometry/mapping/Scaling.hpp:jacobian", "include/shiva/geometry/mapping/Scaling.hpp:inverseJacobian", "include/shiva/geometry/mapping/UniformScaling.hpp:inverseJacobian"]}
{"id": "C83", "title": "3x3 inverse in doubles", "statement": "With REAL_TYPE = double, inverse() returns the determinant up to 6 * 2^-53 times the sum of the absolute values of its terms; if the determinant is well above that error, every entry of the inverse is finite and within 24 * 2^-53 times the matching condition number of the true one; determinants of matrices of small integers (times a power of two) are exact, and so are inverses when the determinant is a power of two. (Otherwise: a matrix of determinant 1 gets determinant 0 and a non-finite inverse, a singular one a finite inverse.)", "quantifier": "all 3x3 matrices of doubles up to 2^300", "why_tests_cant": "matrices of doubles are too many; tests use one matrix", "anchors": ["include/shiva/common/MathUtilities.hpp:inverse"]}
{"id": "C84", "title": "Basis gradients in doubles", "statement": "On [-1,1] the gradient of every Lagrange basis function computed in doubles is a number within (6 ORDER + 2) * 2^-53 times the sum of the absolute values of its summands (plus a negligible underflow term) of the derivative of the exact basis function of the stored points.", "quantifier": "all orders up to 15 of the bundled spacings and every separated set of points, all functions, all doubles in [-1,1]", "why_tests_cant": "2^62 doubles per point; rounding depends on the point", "anchors": ["include/shiva/functions/bases/LagrangeBasis.hpp:gradient"]}
{"id": "C85", "title": "Fields in doubles", "statement": "The value of a field interpolated in doubles by a parent element of up to three directions is a number, within a stated multiple of 2^-53 of the exact interpolant of the stored points; a constant field is reproduced up to that multiple of its absolute shape-function sum.", "quantifier": "all bundled spacings and orders, 1-3 directions, all parent points in [-1,1]^d, all field data up to 2^300", "why_tests_cant": "too many doubles", "anchors": ["include/shiva/discretizations/finiteElementMethod/parentElements/ParentElement.hpp:value"]}
{"id": "C86", "title": "Field gradients in doubles", "statement": "Every component of the gradient of a field computed in doubles by a parent element is a number within a stated multiple of 2^-53 of the true partial derivative of the exact interpolant of the stored points.", "quantifier": "all bundled spacings and orders, 1-3 directions, all parent points in [-1,1]^d, all field data up to 2^300", "why_tests_cant": "too many doubles", "anchors": ["include/shiva/discretizations/finiteElementMethod/parentElements/ParentElement.hpp:gradient", "include/shiva/functions/bases/BasisProduct.hpp:gradient"]}
{"id": "C87", "title": "Cell Jacobians in doubles", "statement": "Every entry of the Jacobian of an interpolated-shape cell computed in doubles is a number within a stated multiple of 2^-53 of the true partial derivative of the exact cell map of the stored points and vertices.", "quantifier": "all bundled spacings and orders, 1-3 directions, all parent points in [-1,1]^d, all vertex coordinates up to 2^300", "why_tests_cant": "too many doubles", "anchors": ["include/shiva/geometry/mapping/LinearTransform.hpp:jacobian"]}
{"id": "C88", "title": "A green CI job means its commands succeeded", "statement": "The in-container CI script exits with 0 exactly if the required variables are set and every command but printing the environment and copying the coverage report succeeded, and otherwise with the status of the first failing command (or 1 for a missing variable); a green build job was configured, built and tested in that order.", "quantifier": "every environment, argument list and behaviour of the commands (any status depending on the whole history)", "why_tests_cant": "a CI run observes one outcome of each command; the claim ranges over all of them", "anchors": ["scripts/ci_build_and_test_in_container.sh:or_die", "scripts/ci_build_and_test_in_container.sh"]}
{"id": "C89", "title": "What a green CI job has done", "statement": "A green job ran exactly the commands its options call for; refuted: each option's check is run (a check option ends the script, so options are dropped), and something is built or tested (an unknown or missing option gives a green job that did nothing).", "quantifier": "every argument list, environment and behaviour of the commands", "why_tests_cant": "combinations of options are never used together in CI", "anchors": ["scripts/ci_build_and_test_in_container.sh"]}
{"id": "C90", "title": "A failing cmake fails the CI job", "statement": "The outcome of a CI job is independent of cmake's exit status; refuted: a job whose cmake failed is red (the code check job is green).", "quantifier": "every file system, environment, options and exit status of cmake", "why_tests_cant": "needs a cmake that fails after starting", "anchors": ["scripts/ci_build_and_test_in_container.sh", "scripts/config-build.py"]}
{"id": "C91", "title": "The CI job uses the variables of the runner", "statement": "The container's script runs with the options, host config, build type, compilers and CUDA settings given to the runner, and with the given number of make jobs; refuted: without NPROC make uses the number of processors (it runs without limit, unless NPROC is in the environment and empty).", "quantifier": "all values of the variables without blanks, all docker options, all images' environments", "why_tests_cant": "the values are fixed in one workflow file", "anchors": ["scripts/ci_build_and_test.sh"]}
{"id": "C92", "title": "A green coverage job has a coverage report", "statement": "A green coverage job has built everything and run the coverage target; refuted: it has delivered the report.", "quantifier": "every environment and behaviour of the commands", "why_tests_cant": "a failing copy does not occur in the recorded runs", "anchors": ["scripts/ci_build_and_test_in_container.sh"]}
{"id": "C93", "title": "CI jobs run the tests they are for", "statement": "The build job's test command succeeds exactly if all unit tests pass, the code check job's exactly if the available checks pass; refuted: the documentation and style jobs check anything (no such test is ever registered).", "quantifier": "every configuration with BLT and unit tests, every set of programs found, every outcome of the tests", "why_tests_cant": "a job that runs no test looks like one whose tests pass", "anchors": ["tests/CMakeLists.txt", "cmake/Macros.cmake:shiva_add_code_checks", "scripts/ci_build_and_test_in_container.sh"]}
{"id": "C94", "title": "Code checks see the sources and report complaints", "statement": "Once the complaints have been copied completely (C110 treats the other orders of events), a code check passes exactly if the number of complaint lines is a multiple of 256 (refuted: exactly if there is none), and it covers exactly the files whose path contains none of buil, blt and camp (refuted: the project's files wherever the clone is).", "quantifier": "every number of lines, every list of paths", "why_tests_cant": "needs 256 complaints, or a clone below a directory such as /home/builder", "anchors": ["cmake/Macros.cmake:shiva_add_code_checks", "CMakeLists.txt"]}
{"id": "C95", "title": "The generated configuration header reflects the options", "statement": "Each macro of ShivaConfig.hpp is defined exactly if one of its options is on, never both CUDA and HIP; the CUDA version macros are the first two parts of the compiler's version when it is known; refuted: in a stand-alone CUDA build they are (they are 0).", "quantifier": "every assignment of the CMake variables, every version text", "why_tests_cant": "the builds in CI fix a few option sets", "anchors": ["CMakeLists.txt", "cmake/Config.cmake", "include/shiva/ShivaConfig.hpp.in"]}
{"id": "C96", "title": "jacobianIsConstInCell tells the truth", "statement": "The transforms that report a constant Jacobian (Scaling, UniformScaling) have one: theirs is the derivative of the box map at every point; LinearTransform, which reports none, has a constant Jacobian exactly for cells that are affine images of the reference grid (parallelepipeds, for eight vertices, already if the Jacobian agrees at the eight corners).", "quantifier": "all box lengths, all nodal bases in 1-3 directions, all vertex positions, all pairs of points", "why_tests_cant": "ranges over all pairs of points and all cells", "anchors": ["include/shiva/geometry/mapping/LinearTransform.hpp:jacobianIsConstInCell", "include/shiva/geometry/mapping/Scaling.hpp:jacobianIsConstInCell", "include/shiva/geometry/mapping/UniformScaling.hpp:jacobianIsConstInCell"]}
{"id": "C97", "title": "Results do not depend on target, evaluation time or bounds checks", "statement": "setData, all Jacobian and inverse-Jacobian functions, the matrix inverse and the gradient of an interpolated field give the same outcome on the host and on a device, at run time and in a constant expression, with bounds checks and without, whenever the buffers have the sizes of their types.", "quantifier": "all number types, all bases, all data, all pairs of contexts, buffers of the right size", "why_tests_cant": "tests run one build configuration on one target at a time", "anchors": ["include/shiva/geometry/mapping/LinearTransform.hpp:jacobian", "include/shiva/geometry/mapping/LinearTransform.hpp:setData", "include/shiva/common/MathUtilities.hpp:inverse", "include/shiva/discretizations/finiteElementMethod/parentElements/ParentElement.hpp:gradient", "include/shiva/geometry/mapping/Scaling.hpp:inverseJacobian", "include/shiva/geometry/mapping/UniformScaling.hpp:inverseJacobian", "include/shiva/common/CArrayHelper.hpp:linearIndex"]}
{"id": "C98", "title": "Determinant and inverse of a cell Jacobian are accurate in doubles", "statement": "With double coordinates the determinant and inverse Jacobian returned for an interpolated cell at a point of the reference cube are close to the exact ones. For eight vertices of coordinates of size at most L the determinant is off by at most 1100 L^3 2^-53, and if the exact determinant is not below 2400 L^3 2^-53 in size every entry of the inverse is finite and off by at most 8000 L^5/det^2 2^-53. Similar bounds hold for the higher-order cells.", "quantifier": "all bundled spacings up to order 15, all vertices in range (finite doubles), all points of [-1,1]^3, all contexts", "why_tests_cant": "rounding errors of each cell and point differ; tests check a few cells with a hand-picked tolerance", "anchors": ["include/shiva/geometry/mapping/LinearTransform.hpp:inverseJacobian", "include/shiva/geometry/mapping/LinearTransform.hpp:jacobian", "include/shiva/common/MathUtilities.hpp:inverse", "include/shiva/functions/bases/LagrangeBasis.hpp:gradient"]}
{"id": "C99", "title": "What fused multiply-adds can and cannot change", "statement": "Compilers may contract a product and a following addition into one fused multiply-add, and no build option of the project forbids it. Values of Lagrange basis functions and of their tensor products, and the Jacobians, inverses and determinants of scaled cells are bit-identical whatever is contracted; determinants of 3x3 matrices of small multiples of a power of two are exact whatever is contracted. Other determinants are not reproducible: for a matrix with two equal rows it is 0 or 1 depending on the compiler.", "quantifier": "all choices of contraction (per operation), all bundled spacings, all double arguments", "why_tests_cant": "a test runs one binary; each compiler and optimisation level is another program", "anchors": ["include/shiva/functions/bases/LagrangeBasis.hpp:value", "include/shiva/functions/bases/BasisProduct.hpp:value", "include/shiva/geometry/mapping/Scaling.hpp:inverseJacobian", "include/shiva/common/MathUtilities.hpp:inverse"]}
{"id": "C100", "title": "Accuracy in doubles with fused multiply-adds", "statement": "The error bounds for gradients, interpolated fields, their gradients, cell Jacobians, and determinants and inverses of matrices and cell Jacobians in doubles hold whatever products the compiler fuses with a following addition or subtraction.", "quantifier": "all choices of contraction (per operation), all bundled spacings up to order 15, all data in range, all points of [-1,1]^d", "why_tests_cant": "a test runs one binary; the choices are the compiler's", "anchors": ["include/shiva/functions/bases/LagrangeBasis.hpp:gradient", "include/shiva/discretizations/finiteElementMethod/parentElements/ParentElement.hpp:value", "include/shiva/discretizations/finiteElementMethod/parentElements/ParentElement.hpp:gradient", "include/shiva/geometry/mapping/LinearTransform.hpp:jacobian", "include/shiva/geometry/mapping/LinearTransform.hpp:inverseJacobian", "include/shiva/common/MathUtilities.hpp:inverse"]}
{"id": "C101", "title": "What a green workflow means", "statement": "The deciding job of the workflow succeeds exactly if its runner works and the documentation job, the code check job and the builds of all fourteen rows of the matrix have succeeded; a failed, cancelled or skipped job among them makes it fail. Then, in every row, the project was configured, built and unit-tested with that row's compilers, build type and CUDA settings in the image with the current tag, and every unit test passed. It does not depend on the coverage job, and a tag that cannot be read goes unnoticed by the job that reads it.", "quantifier": "all outcomes of all steps, cancellations, images, exit statuses of all commands in all containers", "why_tests_cant": "each run of the workflow shows one history; what a green result excludes is a statement about all of them", "anchors": [".github/workflows/continuousIntegration.yml:check_that_all_jobs_succeeded", ".github/workflows/continuousIntegration.yml:linux_builds", "scripts/ci_build_and_test.sh:BUILD_AND_TEST_ARGS", "hostconfigs/environment.cmake"]}
{"id": "C102", "title": "Configurations covered by the workflow", "statement": "Each row of the matrix configures the library with bounds checks, without HIP and without CAMP, and with CUDA exactly if the row says so. Both compilers in both build types occur with and without CUDA. No environment makes a job compile the library without bounds checks or with HIP, so these modes are never built; and the name of a row need not say how it is built.", "quantifier": "all rows, all environments of the container, all compiler versions", "why_tests_cant": "coverage of configurations is a statement about the workflow, not about any test in it", "anchors": [".github/workflows/continuousIntegration.yml:linux_builds", "hostconfigs/environment.cmake", "CMakeLists.txt"]}
{"id": "C103", "title": "Concurrent runs of the workflow", "statement": "Whatever is pushed, opened, dispatched or finished in whatever order, at most one run of the workflow per ref is in progress; a run is cancelled only if a later one has started for the same ref, and the last one is never cancelled. Hence not every push to the main branch is tested to the end.", "quantifier": "all histories of pushes, pull requests, dispatches and endings of runs", "why_tests_cant": "the property is about histories", "anchors": [".github/workflows/continuousIntegration.yml:concurrency", ".github/workflows/continuousIntegration.yml:on"]}
{"id": "C104", "title": "Continuity across shared faces", "statement": "On a layer of support points the interpolant of an element and its derivatives along the layer depend on the data of that layer alone, and equal those of the element of one dimension less. Hence two elements with the same bases along a shared face and the same data on it, with equally spaced or Gauss-Lobatto bases of any (possibly different) orders across it, have the same value and the same tangential derivatives at every point of the face; and cells with common face vertices have the same tangential Jacobian columns. With Gauss-Legendre bases across the face the values jump, at every order.", "quantifier": "all dimensions, orders, positions of the shared direction, data, points of the face", "why_tests_cant": "continuity is required at every point of every face for all data", "anchors": ["include/shiva/discretizations/finiteElementMethod/parentElements/ParentElement.hpp:value", "include/shiva/discretizations/finiteElementMethod/parentElements/ParentElement.hpp:gradient", "include/shiva/functions/bases/LagrangeBasis.hpp", "include/shiva/functions/spacing/Spacing.hpp", "include/shiva/geometry/mapping/JacobianTransforms.hpp:jacobian"]}
{"id": "C105", "title": "Gradients in physical coordinates and moved cells", "statement": "Combining the gradient of an element with the inverse Jacobian of the cell gives the one vector that satisfies the chain rule; for data affine in the physical coordinates this is the exact constant gradient at every point of every nondegenerate cell (the patch test). Moving the vertices by x -> o + M x turns the Jacobian J into M J, multiplies the determinant by det M and turns the inverse B into B' with B' M = B; rigid motions keep J^T J and |det J|.", "quantifier": "all nodal bases and orders, vertex positions, data, points, affine maps", "why_tests_cant": "the patch test has to hold on all meshes; tests use a few cells", "anchors": ["include/shiva/discretizations/finiteElementMethod/parentElements/ParentElement.hpp:gradient", "include/shiva/geometry/mapping/JacobianTransforms.hpp:jacobian", "include/shiva/geometry/mapping/JacobianTransforms.hpp:inverseJacobian"]}
{"id": "C106", "title": "Interpolation error", "statement": "For a function with ORDER+1 derivatives the difference between the function and the interpolant built from the Lagrange basis functions is the (ORDER+1)-th derivative at some point over (ORDER+1)! times the product of the distances to the support points. For tensor-product elements the error is at most the sum over the directions of the corresponding one-dimensional bounds, amplified by the sums of absolute basis values of the directions before; for elements of order 1 it is at most the sum of M_j / 2 (1 - xi_j^2).", "quantifier": "all orders, dimensions, support points, functions with the required derivatives, points", "why_tests_cant": "an error bound has to hold for all smooth functions and all points", "anchors": ["include/shiva/functions/bases/LagrangeBasis.hpp", "include/shiva/discretizations/finiteElementMethod/parentElements/ParentElement.hpp:value"]}
{"id": "C107", "title": "Interpolated values stay within the data (order 1)", "statement": "Elements of order 1 with equally spaced or Gauss-Lobatto bases give, at every point of [-1,1]^d, values between the smallest and the largest datum. From order 2 on this fails at every point that is not a support point, and with Gauss-Legendre points it fails already at order 1.", "quantifier": "all dimensions, data, points of the cell; all available orders for the negative part", "why_tests_cant": "the bound has to hold for all data at all points", "anchors": ["include/shiva/functions/bases/LagrangeBasis.hpp", "include/shiva/functions/spacing/Spacing.hpp", "include/shiva/discretizations/finiteElementMethod/parentElements/ParentElement.hpp:value"]}
{"id": "C108", "title": "Quadrature error for functions that are not polynomials", "statement": "If a function stays within delta of a polynomial whose degree the rule integrates, the quadrature differs from the integral by at most (4 + eps) delta plus eps times the norm of the polynomial, where eps is the rounding of the tabulated weights and points.", "quantifier": "all rules and sizes, functions with an antiderivative, polynomials of admissible degree", "why_tests_cant": "the bound has to hold for all functions", "anchors": ["include/shiva/functions/quadrature/Quadrature.hpp", "include/shiva/functions/spacing/Spacing.hpp"]}
{"id": "C109", "title": "Command line of the configuration script", "statement": "Options in all their spellings and other words, in any order and possibly followed by -- and more words, are understood as documented: the last value of an option counts, the build type is one of the four choices, and the words that are no options go to cmake unchanged and in order. The words passed on unchanged are characterised exactly. A line that is not accepted ends the script with status 2 (0 for help) before any file is touched. Not passed on, although no option names: abbreviations of long options (--install DIR removes DIR), words starting with a one-letter option.", "quantifier": "all command lines", "why_tests_cant": "the set of command lines is infinite and the exceptions come from prefix rules", "anchors": ["scripts/config-build.py"]}
{"id": "C110", "title": "Verdict of the code-check tests in every order of events", "statement": "The exit status of a code-check test (make writes complaints through tee to a file while the shell goes on to count its lines) is, in every order of events, make's own status if make fails and otherwise the number of lines, modulo 256, of some beginning of the complaints or of what an earlier run left. The run always ends; without complaints it passes; with 1 to 255 lines it fails if the copy is complete when it is counted. Refuted: that complaints always make it fail.", "quantifier": "all texts of complaints, statuses, left-over files and interleavings of make, tee and the shell", "why_tests_cant": "the race has to be lost at the right moment to be seen", "anchors": ["cmake/Macros.cmake"]}
{"id": "C111", "title": "Headers can be included in any order", "statement": "A client may include the public headers in any order, repeatedly, from the build tree or an installation: every include is resolved, no file is pasted twice, nothing is pasted that is not needed, and every file comes after the declarations of the names it uses. Refuted for shiva/Shiva.hpp, which includes files that do not exist, and for the assertion macro, whose expansion needs a header that the header defining it does not include.", "quantifier": "all lists of public headers, client files and include directories (without a subdirectory shiva), both interfaces", "why_tests_cant": "the orders and repetitions are infinitely many and tests include headers in one order", "anchors": ["include/shiva", "CMakeLists.txt"]}
{"id": "C112", "title": "Threads sharing an array", "statement": "Threads that use one array object, or each their own slice of it, without any of them touching an element that another one assigns, have no data race in any order of their steps; each reads the values, and leaves the elements, it would on its own, and all else keeps its value, so that the order makes no difference. Two threads that next touch one element, one of them assigning it, race in every order. Refuted: that different tuples never race when bounds are not checked.", "quantifier": "all element types, shapes, views, access paths, numbers of threads, programs that assign and read elements (also depending on what they read) and interleavings", "why_tests_cant": "the interleavings are too many to test, and a race need not show", "anchors": ["include/shiva/common/CArray.hpp"]}
{"id": "C113", "title": "Concurrent calls of the kernel wrapper", "statement": "Host threads that call the data kernel wrapper at the same time on one device, with kernels that succeed, all return, in every order of their steps and the device's: each finds in its data what its calls make of them one after the other, nothing is reported, the device memory is as before, and there is no deadlock. A thread whose own kernel traps is told so. Refuted: that a trap concerns only the thread it belongs to; another one may be aborted, lose its result without a message, or use a pointer that was never set.", "quantifier": "all numbers of threads, sequences of calls, sizes, kernels, host data and interleavings of host threads and device, kernels of different threads in any order", "why_tests_cant": "the interleavings are too many to test and need a device; the loss happens only in a narrow window", "anchors": ["include/shiva/common/pmpl.hpp"]}
{"id": "C114", "title": "The mass matrix is positive definite exactly with enough quadrature points", "statement": "The quadratic form of the mass matrix assembled from the basis values and a quadrature rule, with any density that is positive at the quadrature points, is never negative. It vanishes for the zero field only, if and only if every direction has at least as many quadrature points as nodes.", "quantifier": "every product of nodal bases in any number of dimensions, every combination of rules with any supported number of points, every positive density, every field", "why_tests_cant": "a test assembles one matrix; singularity is about all fields, and the missing-point modes are not among the fields tests use", "anchors": ["include/shiva/functions/bases/LagrangeBasis.hpp", "include/shiva/functions/bases/BasisProduct.hpp", "include/shiva/discretizations/finiteElementMethod/parentElements/ParentElement.hpp", "include/shiva/functions/quadrature/Quadrature.hpp", "include/shiva/functions/spacing/Spacing.hpp"]}
{"id": "C115", "title": "The stiffness matrix has exactly the constants as kernel if at most one quadrature point is missing", "statement": "The energy of the gradient assembled by quadrature is never negative and vanishes for constant fields. It vanishes for constant fields only, if and only if each direction has at most one point fewer than nodes, and at most one direction has fewer. This holds for any positive definite form at the quadrature points, in particular for the diffusion energy of a hexahedron with the inverse Jacobians the library computes.", "quantifier": "every product of nodal bases in any number of dimensions, every combination of rules, every positive definite form or cell with positive determinants at the quadrature points, every field", "why_tests_cant": "spurious zero-energy modes of reduced integration concern all fields and all cell shapes; no test assembles a stiffness matrix", "anchors": ["include/shiva/functions/bases/LagrangeBasis.hpp", "include/shiva/functions/bases/BasisProduct.hpp", "include/shiva/discretizations/finiteElementMethod/parentElements/ParentElement.hpp", "include/shiva/functions/quadrature/Quadrature.hpp", "include/shiva/functions/spacing/Spacing.hpp", "include/shiva/geometry/mapping/LinearTransform.hpp", "include/shiva/geometry/mapping/JacobianTransforms.hpp"]}
{"id": "C116", "title": "A hexahedral cell with well-oriented edges is nowhere inverted and its map is one to one", "statement": "If the triple products of all 64 choices of one edge per direction are positive, the Jacobian determinant is positive, and the inverse exists, at every point of the cell; eight times the determinant stays between the smallest and the largest of these products. If edges along each parent direction dominate along some direction in space, no two points of the cell have the same position. In two dimensions a positive determinant at the four vertices suffices. In three dimensions no check of the determinant at finitely many points suffices: for any finite set of points some cell passes it and is inverted elsewhere (refuted).", "quantifier": "every hexahedral cell of order 1 and every point in it; every finite set of check points", "why_tests_cant": "tests evaluate the determinant at a few points of a few cells, and the last part says that no such check can settle it", "anchors": ["include/shiva/geometry/mapping/LinearTransform.hpp", "include/shiva/geometry/mapping/JacobianTransforms.hpp", "include/shiva/discretizations/finiteElementMethod/parentElements/ParentElement.hpp"]}
{"id": "C117", "title": "What a command line of aggregateOrSplit.py does", "statement": "With the command aggregate the last word is the output file and the words before it are the headers; the last --include-paths, in any abbreviation, counts and the working directory is the default; after -- any words are accepted. With split the two words are the aggregated file and the output directory. Every other command line ends with status 1 or 2, or with 0 after a request for help, before any file is changed; files are only named by words of the command line, in their order. The documented order with --include-paths before the headers is always rejected, and a forgotten output file overwrites the last header.", "quantifier": "every list of words and every file system", "why_tests_cant": "the script has no tests; option parsing has unboundedly many word lists, abbreviations and orders", "anchors": ["scripts/aggregateOrSplit.py"]}
{"id": "C118", "title": "Finding and linking the CMake package", "statement": "find_package accepts exactly the requests that version 0.1.0 meets under same-major compatibility, from clients with the same pointer size (refuted: every spelling of the version is accepted as exact). A client gets Shiva's requirements by the names Shiva and Shiva::shiva from a subdirectory and by Shiva::Shiva from an installation (refuted: one name serves both). An installation with relative directories can be moved (refuted: Shiva_INCLUDE_DIRS is right for absolute ones; an installation with camp can be loaded on its own).", "quantifier": "all version requests and ranges, all pointer sizes, target names, option values, installation directories and places the tree is moved to", "why_tests_cant": "tests never install the package", "anchors": ["CMakeLists.txt", "cmake/ShivaConfig.cmake.in"]}
{"id": "C119", "title": "Points and weights in single precision", "statement": "With REAL_TYPE = float the run-time and compile-time accessors give the same float wherever both are defined, for every spacing and rule; tabulated points and weights are the double ones to half a unit in the last place; weights are positive and polynomials up to the degree of the rule are integrated to 23 bits. Up to 2^20 equally spaced points are increasing, in [-1,1], within 2^-21 of the exact points and start at -1 (refuted: they end at 1; any number of points gives distinct ones).", "quantifier": "every spacing and rule, every number of points and index they support, all polynomials up to the degree of the rule", "why_tests_cant": "tests use doubles only", "anchors": ["include/shiva/functions/spacing/Spacing.hpp", "include/shiva/functions/quadrature/Quadrature.hpp"]}
{"id": "C120", "title": "Lagrange basis in single precision", "statement": "With REAL_TYPE = float a basis function is within ORDER 2^-24 of 1 at its own point (refuted: exactly 1), exactly 0 at the other points, and anywhere on [-1,1] within a relative error of 6 ORDER 2^-24 of the exact basis function of the same points, although parts of the expressions are evaluated in double.", "quantifier": "all tables of separated points in [-1,1], all orders up to the overflow threshold, all basis functions, all coordinates in [-1,1]", "why_tests_cant": "tests use doubles only", "anchors": ["include/shiva/functions/bases/LagrangeBasis.hpp", "include/shiva/functions/spacing/Spacing.hpp"]}
{"id": "C121", "title": "pmpl::check in single precision", "statement": "check on floats never accepts NaN, infinite values or values that differ by the tolerance or more; it accepts values within the tolerance less two units in the last place when the square of the tolerance neither under- nor overflows (refuted: for every tolerance).", "quantifier": "all triples of floats", "why_tests_cant": "tests use doubles and a few values", "anchors": ["include/shiva/common/pmpl.hpp:check"]}
{"id": "C122", "title": "Inverse and scaled cells in single precision", "statement": "With REAL_TYPE = float, quotients of floats are correctly rounded whether the dividend is an int, a double or a float literal. For scaled cells the Jacobian is exact, its inverse correctly rounded and its determinant within 2^-24 + 2^-52 for lengths between 2^-40 and 2^40 (refuted: for every positive length, in both directions), and a uniformly scaled cell agrees with a scaled one. The determinant and inverse of a 3x3 matrix satisfy the same error bounds as in double precision, in units of 2^-24, and are exact for small multiples of one power of two (refuted: without the condition on the determinant).", "quantifier": "all finite float matrices with entries up to 2^30, all lengths in the stated range, all pairs of floats for the quotient", "why_tests_cant": "tests use doubles only", "anchors": ["include/shiva/common/MathUtilities.hpp", "include/shiva/geometry/mapping/Scaling.hpp", "include/shiva/geometry/mapping/UniformScaling.hpp"]}
{"id": "C123", "title": "Gradients, fields and cells in single precision", "statement": "With REAL_TYPE = float, derivatives of basis functions on [-1,1], values and gradients of interpolated fields, Jacobians, determinants and inverse Jacobians of interpolated cells are finite and within a stated multiple of 2^-24 (the number of roundings, times the sum of the absolute values of the terms, plus a stated underflow term) of the exact quantities for the points as stored in floats. For eight-vertex cells with coordinates up to L the determinant is off by at most 1100 L^3 2^-24 and, for determinants above 2400 L^3 2^-24, each entry of the inverse by at most 8000 (L^5/det^2) 2^-24.", "quantifier": "all float evaluation points in the reference cell; derivatives: all separated points with the stated range of orders; fields and cells: one to three directions, each of the three spacings with 2 to 4 points, all field values up to 2^20, all vertex positions up to 2^20", "why_tests_cant": "tests use doubles and compare at a few points with tolerances that are not derived", "anchors": ["include/shiva/functions/bases/LagrangeBasis.hpp", "include/shiva/discretizations/finiteElementMethod/parentElements/ParentElement.hpp", "include/shiva/functions/bases/BasisProduct.hpp", "include/shiva/geometry/mapping/LinearTransform.hpp", "include/shiva/geometry/mapping/JacobianTransforms.hpp", "include/shiva/common/MathUtilities.hpp"]}
{"id": "C124", "title": "Continuity across shared faces to the last bit", "statement": "In doubles, two elements with the same bases along a shared face and the same data on it give, at every point of the face, the same double, and the same doubles for the derivatives along the face; cells with common face vertices have identical tangential Jacobian columns on it. Across the face the two may be equally spaced (orders up to 15 except 9 and 13) or Gauss-Lobatto of order up to 4, in any combination, or Gauss-Lobatto of one order up to 8 on both sides. The same in floats for orders 1 to 3. Refuted without these exceptions: for the constant field 1, elements of equal spacing of order 9 or 13, and Gauss-Lobatto elements of orders 4 and 5, differ across a shared vertex by one or two units of 2^-53.", "quantifier": "one to three directions, every position of the shared direction, all listed orders along and across the face, all field values and vertex positions within the stated range, all points of the face", "why_tests_cant": "equality to the last bit has to hold for all data at all points; a rounding difference is seen only by chance", "anchors": ["include/shiva/discretizations/finiteElementMethod/parentElements/ParentElement.hpp:value", "include/shiva/discretizations/finiteElementMethod/parentElements/ParentElement.hpp:gradient", "include/shiva/functions/bases/LagrangeBasis.hpp", "include/shiva/functions/spacing/Spacing.hpp", "include/shiva/geometry/mapping/JacobianTransforms.hpp:jacobian"]}
{"id": "C125", "title": "Volumes of hexahedra in floating point", "statement": "With determinants, weights and points computed in doubles, by rules of the library of degree at least 2 in each direction, every determinant is finite and their weighted sum is off from the volume of the cell by at most 20000 L^3 2^-53 (2^-45 with a rule of more than five points), where L bounds the vertex coordinates. In floats, by at most 15000 L^3 2^-23. (The sum itself taken exactly.)", "quantifier": "all positions of the eight vertices within the stated range, degenerate and inverted cells included, all combinations of rules, all linear bases with vertices at the ends", "why_tests_cant": "the error of every determinant and of the tables adds up; a test sees single cells", "anchors": ["include/shiva/geometry/mapping/JacobianTransforms.hpp:jacobian", "include/shiva/geometry/mapping/JacobianTransforms.hpp:inverseJacobian", "include/shiva/functions/quadrature/Quadrature.hpp", "include/shiva/common/MathUtilities.hpp", "include/shiva/functions/bases/LagrangeBasis.hpp"]}
{"id": "C126", "title": "Powers, factorials and binomial coefficients in every integer type", "statement": "pow, factorial and binomialCoefficient are templates over the integer type. Whenever the mathematical result (for binomial coefficients: the factorial of N) is a value of the type, the result is right. Beyond that, signed types at least as wide as int make the compiler reject factorials and binomial coefficients and make powers undefined. In the other types factorials and powers come out modulo 2^bits, so that accepted programs yield wrong numbers (refuted: accepted results are right; powers of unsigned short are always defined).", "quantifier": "all signed and unsigned integer types of 8, 16, 32 and 64 bits, all arguments", "why_tests_cant": "the tests use int only; which types wrap silently, which are rejected and which are undefined depends on promotion and conversion rules for every argument", "anchors": ["include/shiva/common/MathUtilities.hpp:pow", "include/shiva/common/MathUtilities.hpp:factorial", "include/shiva/common/MathUtilities.hpp:binomialCoefficient"]}
{"id": "C127", "title": "Accuracy of powers and of shape coordinates and volumes in floating point", "statement": "In doubles pow<double,E> differs from the power as if by E-1 roundings; coordinates and lengths of n-cubes and n-simplices carry one rounding, the volume of the n-cube 2N-1 and of the n-simplex 3N-1. In floats the same holds when the integers are below 2^24; for larger ones converting bound and divisor rounds as well (4, 5N-1 and 6N-1 roundings; refuted: one rounding). With a power of two as divisor coordinates, lengths and cube volumes are exact while the integer power fits the significand. The length is not always the difference of the computed coordinates (refuted).", "quantifier": "all finite bases and exponents with the power inside the range; all bounds and divisors; double: N up to 28, float: N up to 3", "why_tests_cant": "the tests check a handful of shapes whose results are exact; the error bounds concern every bound, divisor and dimension", "anchors": ["include/shiva/common/MathUtilities.hpp:pow", "include/shiva/geometry/shapes/NCube.hpp:minCoord", "include/shiva/geometry/shapes/NCube.hpp:maxCoord", "include/shiva/geometry/shapes/NCube.hpp:length", "include/shiva/geometry/shapes/NCube.hpp:volume", "include/shiva/geometry/shapes/NSimplex.hpp:volume"]}
{"id": "C128", "title": "Identities of low-order bases that survive rounding", "statement": "In doubles and in floats: the linear basis with nodes at the end points has values in [0,1] whose computed sum is exactly 1, derivatives exactly -1/2 and 1/2, and values monotone in the point. Shape functions of a linear element with nodes at the corners stay in [0,1], and data that are not negative are never interpolated to a negative value. For orders one and two of every family of points reflecting point and index reproduces the value and negates the derivative exactly. Refuted: reflection at order three; constants reproduced exactly at order two, with Gauss-Legendre points or in three directions; a constant field never exceeded.", "quantifier": "all points of [-1,1]^d representable as double or float; any number of directions for shape functions, up to three for fields; all data up to 2^900 (double) or 2^100 (float)", "why_tests_cant": "the tests compare a few points with a tolerance, which hides whether positivity and partition of unity hold exactly", "anchors": ["include/shiva/functions/bases/LagrangeBasis.hpp:value", "include/shiva/functions/bases/LagrangeBasis.hpp:gradient", "include/shiva/functions/bases/BasisProduct.hpp:value", "include/shiva/discretizations/finiteElementMethod/parentElements/ParentElement.hpp:value"]}
{"id": "C129", "title": "Changing the unit by a power of two is exact", "statement": "Linear elements with nodes at the corners, in doubles: multiplying all nodal values by plus or minus a power of two multiplies the interpolated value and gradient by exactly that factor; multiplying each coordinate of the vertices of a hexahedron by its own such factor multiplies the rows of the Jacobian, the determinant and the columns of the inverse by exactly the corresponding factors. In floats: values, gradients and Jacobian likewise. Refuted: the inverse in floats; factors that are no powers of two; cells so small that the determinant underflows.", "quantifier": "all points of the element representable as double or float; all data that are zero or between 2^-B and 2^B in magnitude and all factors up to 2^K with B + K at most 800 (double) or 28 (float); for the determinant and inverse in doubles B = K = 60", "why_tests_cant": "a test runs one size of cell, and compares with a tolerance, so it cannot show that the result is the same in every unit", "anchors": ["include/shiva/discretizations/finiteElementMethod/parentElements/ParentElement.hpp:value", "include/shiva/discretizations/finiteElementMethod/parentElements/ParentElement.hpp:gradient", "include/shiva/geometry/mapping/LinearTransform.hpp:jacobian", "include/shiva/geometry/mapping/LinearTransform.hpp:inverseJacobian", "include/shiva/common/MathUtilities.hpp:inverse"]}
{"id": "C130", "title": "Volumes of neighbouring cells add up", "statement": "For a mesh of hexahedra that share whole faces, the sum of the volumes a caller computes cell by cell with inverseJacobian and a quadrature rule equals the volume inside the boundary faces, so a face between two cells contributes nothing and moving inner vertices leaves the total unchanged: up to the error of the tabulated rules per cell over the reals, and 20000 L^3 2^-53 (double; 2^-45 with rules of more than five points) or 15000 L^3 2^-23 (float) per cell.", "quantifier": "all finite meshes of hexahedra given by vertex numbers, whatever way each cell is turned, all vertex positions up to L (also overlapping or inverted cells), all supported rules of degree 2 or more", "why_tests_cant": "a test computes the volume of single cells and cannot run through all meshes, orientations of neighbours and positions", "anchors": ["include/shiva/geometry/mapping/LinearTransform.hpp:inverseJacobian", "include/shiva/functions/quadrature/Quadrature.hpp:weight", "include/shiva/functions/quadrature/Quadrature.hpp:coordinate", "include/shiva/common/MathUtilities.hpp:determinant"]}
{"id": "C131", "title": "Nodal forces of a pressure balance", "statement": "The nodal sums of weight times determinant times physical gradient of the shape function (the forces of a unit pressure on a cell) add up to zero, have as first moments the computed volume times the identity, do work equal to the integral of the gradient of a displacement, and are exactly the changes of the computed volume per displacement of the node; in a mesh of hexahedra they cancel at every inner vertex up to the error of the tabulated rules.", "quantifier": "cells of any order with any nodes, any vertex positions with regular Jacobians at the quadrature points, any weights and points (for cancellation in a mesh: supported rules of degree 2 or more, all meshes and positions), over the reals", "why_tests_cant": "balance of forces is an identity between gradients, inverse Jacobian, determinant and quadrature that must hold for every cell; a test sees one cell", "anchors": ["include/shiva/discretizations/finiteElementMethod/parentElements/ParentElement.hpp:gradient", "include/shiva/geometry/mapping/LinearTransform.hpp:inverseJacobian", "include/shiva/functions/quadrature/Quadrature.hpp:weight", "include/shiva/functions/quadrature/Quadrature.hpp:coordinate", "include/shiva/common/MathUtilities.hpp:inverse"]}
{"id": "C132", "title": "The tabulated points and weights against the exact Gauss rules", "statement": "For every tabulated size there is exactly one increasing list of exact points (roots of the Legendre polynomial, or the end points and the critical points), and every tabulated point and weight is within a stated error of the exact point and of the exact weight: half a unit of the 38th decimal (34th for weights) up to five points, a few units of the 16th to 14th decimal above. The last written decimals of the six-point Gauss-Lobatto points and of two weights are wrong.", "quantifier": "both rules, all tabulated sizes, every point, over the reals", "why_tests_cant": "the exact points and weights are irrational; a test compares with another table of decimals", "anchors": ["include/shiva/functions/spacing/Spacing.hpp:GaussLegendreSpacing::coordinate", "include/shiva/functions/spacing/Spacing.hpp:GaussLobattoSpacing::coordinate", "include/shiva/functions/quadrature/Quadrature.hpp:weight"]}
{"id": "C133", "title": "Which tabulated points and weights are correctly rounded", "statement": "In float every point and weight of every tabulated size is the float nearest to the exact one, by either accessor. In double this holds up to five points, except for the inner points and weights of the four-point Gauss-Lobatto rule when asked at run time; it fails for the inner points of the six-point rule. All doubles are within a stated distance of the exact numbers.", "quantifier": "both rules, all tabulated sizes, every point, both accessors, float and double", "why_tests_cant": "the exact numbers are irrational, and nearest means no other of the 2^32 or 2^64 values is closer", "anchors": ["include/shiva/functions/spacing/Spacing.hpp:GaussLegendreSpacing::coordinate", "include/shiva/functions/spacing/Spacing.hpp:GaussLobattoSpacing::coordinate", "include/shiva/functions/quadrature/Quadrature.hpp:weight"]}
{"id": "C134", "title": "Interpolation does not amplify errors of the data by more than a stated factor", "statement": "Two fields whose support values differ by at most eps have interpolated values that differ by at most eps times one factor per direction: 3 for Gauss-Legendre and Gauss-Lobatto points of every tabulated size, (8/5)^ORDER for up to sixteen equally spaced points and 2^ORDER beyond. So interpolating a function is within one plus the product of the factors of the best polynomial of the element, and rounding errors in double and float are bounded by the size of the data alone. For equally spaced points no bound independent of the order exists: the factor is at least 2^ORDER / (4 ORDER^2).", "quantifier": "every bundled element with any combination of spacings and orders in its directions, every point of the reference cell, all data; doubles up to order 15 and floats up to order 3", "why_tests_cant": "the factor is the maximum over all points of the cell and all data; sampled points and fields only bound it from below", "anchors": ["include/shiva/functions/bases/LagrangeBasis.hpp:value", "include/shiva/functions/spacing/Spacing.hpp:GaussLobattoSpacing::coordinate", "include/shiva/functions/spacing/Spacing.hpp:EqualSpacing", "include/shiva/discretizations/finiteElementMethod/parentElements/ParentElement.hpp:value"]}
{"id": "C135", "title": "Gradients and Jacobians do not amplify errors of the data by more than a stated factor", "statement": "Two fields whose support values differ by at most eps have parent gradients whose j-th component differs by at most eps times one factor per direction: 2 ORDER^2 for Gauss-Legendre and Gauss-Lobatto points in direction j, ORDER^2 (8/5)^ORDER for up to sixteen equally spaced points and ORDER^2 2^ORDER beyond, and the factor of the values in the other directions. So the rounding errors of parent gradients and of cell Jacobians computed in double and float are bounded by the size of the data or coordinates alone.", "quantifier": "every bundled element with any combination of spacings and orders in its directions, every point of the reference cell, all data; doubles up to order 15 and floats up to order 3", "why_tests_cant": "the factor is the maximum over all points of the cell and all data; sampled points and fields only bound it from below", "anchors": ["include/shiva/functions/bases/LagrangeBasis.hpp:LagrangeBasis", "include/shiva/functions/spacing/Spacing.hpp:GaussLobattoSpacing::coordinate", "include/shiva/discretizations/finiteElementMethod/parentElements/ParentElement.hpp:ParentElement::gradient", "include/shiva/geometry/mapping/JacobianTransforms.hpp:jacobian"]}
{"id": "C136", "title": "Error of interpolated derivatives", "statement": "The j-th component of the parent gradient of a sampled smooth function differs from the function's derivative in direction j by at most a stated sum over the directions: in direction j the bound of the derivative taken once per point, divided by (number of points - 1)! and multiplied by the distances of the coordinate to the gaps between the points; in the others the bound of the mixed derivative, divided by (number of points)! and multiplied by the distances to the points; each amplified by the factors of C134 only.", "quantifier": "every bundled element with any combination of spacings and orders in its directions, every point of the reference cell, every function with the derivatives named and every bound on them", "why_tests_cant": "the bound is about all smooth functions and all points of a cell; tests with a few functions cannot tell a wrong power or factor from a constant", "anchors": ["include/shiva/functions/bases/LagrangeBasis.hpp:LagrangeBasis", "include/shiva/functions/spacing/Spacing.hpp:EqualSpacing", "include/shiva/functions/spacing/Spacing.hpp:GaussLobattoSpacing::coordinate", "include/shiva/discretizations/finiteElementMethod/parentElements/ParentElement.hpp:ParentElement::gradient"]}
{"id": "C137", "title": "Order of convergence on box cells", "statement": "A smooth function sampled at the support points of an element on a box cell with side lengths h is interpolated with an error of at most a constant times the sum over the directions of h^(ORDER+1) times a bound of its (ORDER+1)-th derivative; its derivative in direction j, computed as parent gradient times the inverse Jacobian of the Scaling transform, with an error of at most a constant times h^ORDER in direction j and h^(ORDER+1) in the others. The constants depend on the spacings and orders only and are stated: 1 / factorials times the factors of C134.", "quantifier": "every bundled element with any combination of spacings and orders in its directions, every box cell with positive side lengths, every point of it, every function with the derivatives named and every bound on them", "why_tests_cant": "a rate is a statement about all cell sizes and all smooth functions; convergence tests measure it for a few", "anchors": ["include/shiva/functions/bases/LagrangeBasis.hpp:LagrangeBasis", "include/shiva/discretizations/finiteElementMethod/parentElements/ParentElement.hpp:ParentElement::value", "include/shiva/discretizations/finiteElementMethod/parentElements/ParentElement.hpp:ParentElement::gradient", "include/shiva/geometry/mapping/Scaling.hpp:Scaling", "include/shiva/functions/spacing/Spacing.hpp:EqualSpacing"]}
{"id": "C138", "title": "Order of convergence of quadrature on box cells", "statement": "The tensor-product rules, applied to a smooth function on a box cell with side lengths h and multiplied by the determinant of the Scaling transform, give its integral over the cell with an error of at most the volume times a constant times the sum over the directions of (h/2)^(g+1) / (g+1)! times a bound of the (g+1)-th derivative, g the degree of the rule in that direction (2N-1 for Gauss-Legendre, 2N-3 for Gauss-Lobatto), plus the error of the tables. The constants are stated.", "quantifier": "every number of dimensions, every choice of supported rules, every box with positive side lengths, every function with the derivatives named, every bound on them", "why_tests_cant": "a rate is a statement about all cell sizes and all smooth functions; convergence tests measure it for a few", "anchors": ["include/shiva/functions/quadrature/Quadrature.hpp:weight", "include/shiva/functions/spacing/Spacing.hpp:coordinate", "include/shiva/geometry/mapping/Scaling.hpp:Scaling"]}
{"id": "C139", "title": "Error of gradients in physical coordinates on any cell", "statement": "On a cell of any shape whose Jacobian is invertible, the gradient computed as parent gradient times inverse Jacobian, of a function sampled at the support points, differs from the gradient of the function in physical coordinates by at most the sum over the directions of the reference cell of the entry of the inverse Jacobian times the error of the derivative in that direction, which is bounded by the higher derivatives on the reference cell.", "quantifier": "every bundled element with any combination of spacings and orders, every cell in three dimensions given by vertices and nodal bases, every point of it with a Jacobian that is not singular, every differentiable function, every bound on its derivatives on the reference cell", "why_tests_cant": "all cells, functions and points", "anchors": ["include/shiva/discretizations/finiteElementMethod/parentElements/ParentElement.hpp:ParentElement::gradient", "include/shiva/geometry/mapping/LinearTransform.hpp:LinearTransform", "include/shiva/geometry/mapping/JacobianTransforms.hpp:inverseJacobian"]}
{"id": "C140", "title": "Total errors on box cells in doubles and in floats", "statement": "On a box cell, the double (or float) that an element returns for the value of a smooth function differs from the function by at most the sum of three terms: the interpolation error, of one power of the side lengths more than the order; the error of the data at the support points times the stability constant of the element; and the rounding errors, which are bounded by the number of roundings times the size of the data. The same holds for the derivatives, with the order of the element as the power and with the data and rounding errors divided by half the side length (and, with the inverse that the Scaling transform computes, one relative rounding error more), so that refining the mesh beyond some size does not help any more.", "quantifier": "every element of up to three directions with the supported spacings and orders (doubles: up to 15 equally spaced, 3 Gauss-Legendre, 8 Gauss-Lobatto; floats: up to 3), every box, every point of it that the reference coordinates can represent, every function with bounded derivatives, every data error", "why_tests_cant": "all functions, boxes, points and data errors", "anchors": ["include/shiva/discretizations/finiteElementMethod/parentElements/ParentElement.hpp:ParentElement::value", "include/shiva/discretizations/finiteElementMethod/parentElements/ParentElement.hpp:ParentElement::gradient", "include/shiva/functions/bases/LagrangeBasis.hpp:LagrangeBasis", "include/shiva/functions/spacing/Spacing.hpp:Spacing"]}
{"id": "C141", "title": "Integrals over box cells in doubles and in floats", "statement": "The quadrature sum over a box cell, formed with the weights, points and the determinant that the library gives in doubles (or floats) and with values of a smooth function known to some error, differs from the integral of the function by at most the volume of the box times the sum of the error of the rule, of the order given by its degree, the error of the values, and the errors of the tables and of the determinant.", "quantifier": "every combination of the bundled rules and numbers of points in any number of directions (with the determinant: three), every box with side lengths between 2^-300 and 2^300 (floats: 2^-40 and 2^40), every function with bounded derivatives, every error of the values", "why_tests_cant": "all functions, boxes and value errors", "anchors": ["include/shiva/functions/quadrature/Quadrature.hpp:QuadratureGaussLegendre", "include/shiva/functions/quadrature/Quadrature.hpp:QuadratureGaussLobatto", "include/shiva/geometry/mapping/Scaling.hpp:inverseJacobian"]}
{"id": "C142", "title": "Integrals of interpolated fields in doubles and in floats", "statement": "The integral of a smooth function over a box cell, computed from data at the support points of an element - the element evaluated at the quadrature points, times the weights and the determinant that the library gives, all in doubles (or floats) - differs from the true integral by at most the volume of the box times the sum of the error of the rule, the error of the values of the element (interpolation, data and rounding) and the error of the determinant.", "quantifier": "every three-dimensional element with the supported spacings and orders, every combination of the bundled rules and numbers of points, every box with side lengths between 2^-300 and 2^300 (floats: 2^-40 and 2^40), every function with bounded derivatives, every data error", "why_tests_cant": "all functions, boxes and data errors, and all combinations of elements and rules", "anchors": ["include/shiva/discretizations/finiteElementMethod/parentElements/ParentElement.hpp:ParentElement::value", "include/shiva/functions/quadrature/Quadrature.hpp:QuadratureGaussLegendre", "include/shiva/functions/quadrature/Quadrature.hpp:QuadratureGaussLobatto", "include/shiva/geometry/mapping/Scaling.hpp:inverseJacobian"]}
{"id": "C143", "title": "Single precision with fused multiply-adds", "statement": "With REAL_TYPE = float, whatever products of floats the compiler fuses with a following addition or subtraction: values of Lagrange basis functions and of their tensor products are bit-identical, determinants of 3x3 matrices of small multiples of a power of two are exact, and the error bounds for gradients, interpolated fields, their gradients, cell Jacobians, and determinants and inverses of matrices and cell Jacobians hold. Other determinants are not reproducible: for a matrix with two equal rows it is 0 or 1 depending on the compiler.", "quantifier": "all choices of contraction (per operation), all bundled spacings (up to order 24 for values, up to order 3 for the accuracy of elements), all float data in range, all points of [-1,1]^d", "why_tests_cant": "tests use doubles only and run one binary; each compiler and optimisation level is another program", "anchors": ["include/shiva/functions/bases/LagrangeBasis.hpp:gradient", "include/shiva/functions/bases/BasisProduct.hpp:value", "include/shiva/discretizations/finiteElementMethod/parentElements/ParentElement.hpp:value", "include/shiva/discretizations/finiteElementMethod/parentElements/ParentElement.hpp:gradient", "include/shiva/geometry/mapping/LinearTransform.hpp:jacobian", "include/shiva/geometry/mapping/LinearTransform.hpp:inverseJacobian", "include/shiva/common/MathUtilities.hpp:inverse"]}
