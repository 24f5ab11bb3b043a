(** The continuous integration scripts /repo/scripts/ci_build_and_test.sh and
    ci_build_and_test_in_container.sh, the options and generated header of /repo/CMakeLists.txt
    and /repo/cmake/Config.cmake, and the tests registered by /repo/tests/CMakeLists.txt and
    /repo/cmake/Macros.cmake.

    Not modelled: what is printed; pathname expansion (the characters * ? [ in variables);
    dirname and nproc as commands of their own; the rest of the CMake files. *)
From Coq Require Import Bool Ascii String ZArith List.
From Verif Require Import ModelPython ModelConfigBuild.
Import ListNotations.

(** ** The shell *)
(** ${X} *)
Definition var (e : dict str) (x : string) : str := match get (lit x) e with Some v => v | None => [] end.
(** The parts of a word: text of the script, and results of unquoted expansions, which are
    split at blanks and newlines (POSIX.1-2017, XCU 2.6.5, default IFS). *)
Inductive part := L (s : string) | V (s : str).
Definition ifs (c : ascii) : bool := blank c || Ascii.eqb c nl.
Definition chars (p : part) : list (ascii * bool) :=
  match p with L s => map (fun c => (c, false)) (lit s) | V s => map (fun c => (c, ifs c)) s end.
Fixpoint fields (cur : option str) (cs : list (ascii * bool)) : list str :=
  match cs with
  | [] => flush cur []
  | (c, cut) :: r => if cut then flush cur (fields None r) else fields (more cur c) r
  end.
Definition word (ps : list part) : list str := fields None (flat_map chars ps).
Definition command (ws : list (list part)) : list str := flat_map word ws.
(** [[ "$*" == *o* ]] *)
Fixpoint occurs (o s : str) : bool :=
  startswith s o || match s with [] => false | _ :: r => occurs o r end.
Definition asks (args : list str) (o : string) : bool := occurs (lit o) (joinc " " args).

(** A command: where it ran, its words, its exit status. *)
Record event := { at_dir : str; words : list str; result : Z }.
(** The exit status of every command: any function of what ran before, the directory and the
    words. *)
Definition world := list event -> str -> list str -> Z.
(** How a script ends. *)
Record run := { trace : list event; exit_status : Z }.
Record state := { past : list event; dir : str }.
(** Running a command; [cd] changes the directory if it succeeds. *)
Definition exec (w : world) (st : state) (ws : list str) : state * Z :=
  let s := w (past st) (dir st) ws in
  ({| past := past st ++ [{| at_dir := dir st; words := ws; result := s |}];
      dir := match ws with
             | [c; d] => if eqs c (lit "cd") && (s =? 0)%Z then abspath (dir st) d else dir st
             | _ => dir st
             end |}, s).
Definition finish (st : state) (s : Z) : run := {| trace := past st; exit_status := s |}.
(** or_die (ci_build_and_test_in_container.sh:7-15), then the rest of the script *)
Definition or_die (w : world) (st : state) (ws : list str) (rest : state -> run) : run :=
  let (st, s) := exec w st ws in if (s =? 0)%Z then rest st else finish st s.

(** ** ci_build_and_test_in_container.sh *)
(** dirname: "." for a name without slash *)
Definition sh_dirname (p : str) : str := match dirname p with [] => dot | d => d end.
Definition build_dir : string := "/tmp/build".
(** lines 38-43; $0, the environment and the arguments are those of the script *)
Definition configure_words (e : dict str) (args : list str) : list str :=
  command [[L "python3"]; [L "scripts/config-build.py"]; [L "-hc"]; [V (var e "HOST_CONFIG")];
           [L "-bt"]; [V (var e "CMAKE_BUILD_TYPE")]; [L "-bp"]; [L build_dir]; [L "-ip"]; [L "/tmp/install"];
           [L "-DENABLE_COVERAGE:BOOL="; L (if asks args "--code-coverage" then "ON" else "OFF")]].
(** lines 68, 75 *)
Definition make_words (e : dict str) : list str :=
  command [[L "make"]; [L "-j"]; [V (var e "NPROC")]; [L "VERBOSE=1"]].
Definition ctest_words (flag tests : string) : list str :=
  [lit "ctest"; lit "--output-on-failure"; lit flag; lit tests].
(** lines 74-80 and 85 *)
Definition build_job (w : world) (e : dict str) (args : list str) (st : state) : run :=
  if asks args "--build-exe" then
    or_die w st (make_words e) (fun st =>
    if asks args "--disable-unit-tests" then finish st 0
    else or_die w st (ctest_words "-E" "testUncrustifyCheck|testDoxygenCheck|testCppCheck|testClangTidy") (fun st =>
    finish st 0))
  else finish st 0.
(** lines 67-71 *)
Definition coverage_job (w : world) (e : dict str) (args : list str) (st : state) (rest : state -> run) : run :=
  if asks args "--code-coverage" then
    or_die w st (make_words e) (fun st =>
    or_die w st (command [[L "make"]; [L "shiva_coverage"]]) (fun st =>
    rest (fst (exec w st (command [[L "cp"]; [L "-r"]; [L "/tmp/build/shiva_coverage.info.cleaned"];
                                   [L "/tmp/Shiva/shiva_coverage.info.cleaned"]])))))
  else rest st.
Definition in_container (w : world) (e : dict str) (cwd argv0 : str) (args : list str) : run :=
  let (st, _) := exec w {| past := []; dir := cwd |} [lit "env"] in                      (* 2 *)
  or_die w st (command [[L "cd"]; [V (sh_dirname argv0); L "/.."]]) (fun st =>           (* 18 *)
  if eqs (var e "HOST_CONFIG") [] then finish st 1 else                                  (* 20-23 *)
  if eqs (var e "CMAKE_BUILD_TYPE") [] then finish st 1 else                             (* 25-28 *)
  or_die w st (configure_words e args) (fun st =>                                        (* 38-43 *)
  or_die w st (command [[L "cd"]; [L build_dir]]) (fun st =>                             (* 45 *)
  if asks args "--test-code-style" then
    or_die w st (ctest_words "-R" "testUncrustifyCheck") (fun st => finish st 0)         (* 48-51 *)
  else if asks args "--test-doxygen" then
    or_die w st (ctest_words "-R" "testDoxygenCheck") (fun st => finish st 0)            (* 54-57 *)
  else if asks args "--code-checks" then
    or_die w st (ctest_words "-R" "testCppCheck|testClangTidy") (fun st => finish st 0)  (* 60-63 *)
  else coverage_job w e args st (build_job w e args)))).

(** ** ci_build_and_test.sh *)
(** The value of NPROC after lines 8-10, and whether docker sees it: assigning to a variable of
    the environment changes the environment, assigning to another one does not. *)
Definition with_nproc (e : dict str) (nproc : str) : dict str :=
  if eqs (var e "NPROC") [] then
    if has (lit "NPROC") e then put (lit "NPROC") nproc e else e
  else e.
Definition mount_point : string := "/tmp/Shiva".
(** lines 17-32 *)
Definition docker_words (e : dict str) : list str :=
  command [[L "docker"]; [L "run"]; [L "--rm"];
           [L "--volume="; V (var e "GITHUB_WORKSPACE"); L ":"; L mount_point];
           [L "--cap-add=ALL"]; [V (var e "DOCKER_RUN_ARGS")];
           [L "-e"]; [L "HOST_CONFIG="; V (var e "HOST_CONFIG")];
           [L "-e"]; [L "CMAKE_C_COMPILER="; V (var e "CMAKE_C_COMPILER")];
           [L "-e"]; [L "CMAKE_CXX_COMPILER="; V (var e "CMAKE_CXX_COMPILER")];
           [L "-e"]; [L "CC="; V (var e "CMAKE_C_COMPILER")];
           [L "-e"]; [L "CXX="; V (var e "CMAKE_CXX_COMPILER")];
           [L "-e"]; [L "ENABLE_CUDA="; V (var e "ENABLE_CUDA")];
           [L "-e"]; [L "CMAKE_CUDA_ARCHITECTURES="; V (var e "CMAKE_CUDA_ARCHITECTURES")];
           [L "-e"]; [L "CMAKE_BUILD_TYPE"];
           [L "-e"]; [L "NPROC"];
           [V (var e "DOCKER_REPOSITORY")];
           [L mount_point; L "/scripts/ci_build_and_test_in_container.sh"]; [V (var e "BUILD_AND_TEST_ARGS")]].

(** docker run (docs.docker.com, "docker container run"): options, image, command.  Understood:
    --rm, options with = other than for the environment, -e and --gpus with a value; None
    otherwise. *)
Fixpoint docker_options (opts : list str) (ws : list str) : option (list str * list str) :=
  match ws with
  | [] => Some (opts, [])
  | w :: r =>
      if eqs w (lit "--rm") then docker_options opts r
      else if eqs w (lit "-e") then match r with v :: r' => docker_options (opts ++ [v]) r' | [] => None end
      else if eqs w (lit "--gpus") then match r with _ :: r' => docker_options opts r' | [] => None end
      else if startswith w (lit "-e") || startswith w (lit "--env") then None
      else if startswith w (lit "-") then if occurs (lit "=") w then docker_options opts r else None
      else Some (opts, ws)
  end.
Fixpoint remove (k : str) (d : dict str) : dict str :=
  match d with [] => [] | (k', v) :: d' => if eqs k k' then remove k d' else (k', v) :: remove k d' end.
(** -e NAME=VALUE sets a variable, -e NAME copies it from docker's environment or unsets it. *)
Definition docker_env (outer : dict str) (c : dict str) (o : str) : dict str :=
  match split1 "=" o with
  | (k, Some v) => put k v c
  | (k, None) => match get k outer with Some v => put k v c | None => remove k c end
  end.
(** The container's environment, image and command; [image_env] is the environment of the image. *)
Definition docker_run (image_env outer : dict str) (ws : list str) : option (dict str * str * list str) :=
  match ws with
  | d :: r :: ws' =>
      if eqs d (lit "docker") && eqs r (lit "run") then
        match docker_options [] ws' with
        | Some (opts, image :: cmd) => Some (fold_left (docker_env outer) opts image_env, image, cmd)
        | _ => None
        end
      else None
  | _ => None
  end.
(** The whole job: if docker runs the script of the mounted clone, docker's exit status, hence the
    job's, is that of the script.  None: docker runs something else. *)
Definition ci_job (w : world) (image_env e : dict str) (nproc workdir : str) : option run :=
  let e := with_nproc e nproc in
  match docker_run image_env e (docker_words e) with
  | Some (c, _, cmd :: args) =>
      if eqs cmd (lit "/tmp/Shiva/scripts/ci_build_and_test_in_container.sh")
      then Some (in_container w c workdir cmd args) else None
  | _ => None
  end.

(** ** CMake *)
Definition upper (s : str) : str :=
  map (fun c => let n := N_of_ascii c in if (97 <=? n)%N && (n <=? 122)%N then ascii_of_N (n - 32)%N else c) s.
(** False constants (cmake-commands(7), if) *)
Definition falsy (s : str) : bool :=
  let u := upper s in
  mem u (map lit [""; "0"; "OFF"; "NO"; "FALSE"; "N"; "IGNORE"; "NOTFOUND"]%string) || endswith u (lit "-NOTFOUND").
(** if( X ) for a variable; an option that was not given is OFF (CMakeLists.txt:8-14). *)
Definition on (v : dict str) (x : string) : bool := match get (lit x) v with Some s => negb (falsy s) | None => false end.

(** What is defined in the generated ShivaConfig.hpp (ShivaConfig.hpp.in:11-19). *)
Record header := { cuda : bool; hip : bool; camp : bool; bounds : bool; cuda_major : str; cuda_minor : str }.
(** CMakeLists.txt:16-26, 38 and Config.cmake:12-22, 29-30; [v]: the variables given by the user,
    host config or enclosing project; [version]: CMAKE_CUDA_COMPILER_VERSION, if defined when
    line 38 is reached.  None: configuration fails. *)
Definition configure (v : dict str) (version : option str) : option header :=
  let cu := on v "SHIVA_ENABLE_CUDA" || on v "ENABLE_CUDA" in
  let hi := on v "SHIVA_ENABLE_HIP" || on v "ENABLE_HIP" in
  if cu && hi then None else
  let h maj min := Some {| cuda := cu; hip := hi; camp := on v "SHIVA_ENABLE_CAMP";
                           bounds := on v "SHIVA_ENABLE_BOUNDS_CHECK"; cuda_major := maj; cuda_minor := min |} in
  match version with
  | Some s =>
      if cu then
        match s with
        | [] => None                                (* list( GET ) of an empty list *)
        | _ => match splitc "." s with
               | a :: b :: _ => h a b
               | a :: _ => h a (lit "0")
               | [] => None
               end
        end
      else h (lit "0") (lit "0")
  | None => h (lit "0") (lit "0")
  end.
(** In a stand-alone build the CUDA language is enabled by BLT (CMakeLists.txt:60) or in lines
    81-83, both after line 38; project() in line 2 enables C and C++ only.  [compiler]: the version
    of the CUDA compiler; [parent_enabled]: an enclosing project has enabled CUDA. *)
Definition version_at_config (toplevel parent_enabled : bool) (compiler : str) : option str :=
  if negb toplevel && parent_enabled then Some compiler else None.

(** Tests known to ctest: tests/CMakeLists.txt:70-87 and Macros.cmake:54-66, when
    CMakeLists.txt:52-97 gets there; docs/CMakeLists.txt, which would add testDoxygenCheck, is not
    part of the project (there is no add_subdirectory( docs )).  [cppcheck], [clangtidy]: whether
    BLT found these programs.  (Simplified: without the smoke tests that BLT adds for itself.) *)
Definition unit_tests : list (string * string) :=
  [("shiva_test_carray", "common/testCArray.cpp");
   ("shiva_test_index_types", "common/testIndexTypes.cpp");
   ("shiva_test_nested_seq_utils", "common/testNestedSequenceUtilities.cpp");
   ("shiva_test_seq_utils", "common/testSequenceUtilities.cpp");
   ("shiva_test_err_handling", "common/testShivaErrorHandling.cpp");
   ("shiva_test_parent_element", "discretizations/finiteElementMethod/testParentElement.cpp");
   ("shiva_test_lagrange_basis", "functions/testLagrangeBasis.cpp");
   ("shiva_test_quadrature", "functions/testQuadrature.cpp");
   ("shiva_test_spacing", "functions/testSpacing.cpp");
   ("shiva_test_linear_transform", "geometry/mapping/testLinearTransform.cpp");
   ("shiva_test_scaling", "geometry/mapping/testScaling.cpp");
   ("shiva_test_uniform_scaling", "geometry/mapping/testUniformScaling.cpp");
   ("shiva_test_interpolated", "geometry/shapes/testInterpolatedShape.cpp");
   ("shiva_test_ncube", "geometry/shapes/testNCube.cpp");
   ("shiva_test_nsimplex", "geometry/shapes/testNSimplex.cpp")]%string.
Definition registered (v : dict str) (cppcheck clangtidy : bool) : list str :=
  if on v "SHIVA_ENABLE_BLT" then
    (if on v "SHIVA_ENABLE_UNIT_TESTS" then map (fun t => lit (fst t)) unit_tests else [])
    ++ (if cppcheck then [lit "testCppCheck"] else []) ++ (if clangtidy then [lit "testClangTidy"] else [])
  else [].
(** ctest -R and -E: tests whose name has a part that matches; the patterns used are literal
    texts separated by |. *)
Definition matches (pattern name : str) : bool := existsb (fun p => occurs p name) (splitc "|" pattern).
Definition selected (tests : list str) (flag pattern : str) : list str :=
  filter (fun t => if eqs flag (lit "-R") then matches pattern t else negb (matches pattern t)) tests.
(** ctest's exit status: 0 if no selected test fails, 8 otherwise; 0 also if there is none. *)
Definition ctest_status (tests : list str) (passes : str -> bool) (ws : list str) : Z :=
  match ws with
  | [_; _; flag; pattern] => if forallb passes (selected tests flag pattern) then 0 else 8
  | _ => if forallb passes tests then 0 else 8
  end.

(** The exclusion loop (Macros.cmake:15-32): CMake regular expressions made of characters, each
    possibly followed by a star; [MATCHES] searches for a match anywhere. *)
Fixpoint regex (s : str) : list (ascii * bool) :=
  match s with
  | c :: r => match r with
              | d :: r' => if Ascii.eqb d "*" then (c, true) :: regex r' else (c, false) :: regex r
              | [] => [(c, false)]
              end
  | [] => []
  end.
Fixpoint match_star (k : str -> bool) (c : ascii) (s : str) : bool :=
  k s || match s with x :: r => Ascii.eqb x c && match_star k c r | [] => false end.
Fixpoint match_here (re : list (ascii * bool)) (s : str) : bool :=
  match re with
  | [] => true
  | (c, false) :: re' => match s with x :: r => Ascii.eqb x c && match_here re' r | [] => false end
  | (c, true) :: re' => match_star (match_here re') c s
  end.
Fixpoint search (re : list (ascii * bool)) (s : str) : bool :=
  match_here re s || match s with _ :: r => search re r | [] => false end.
(** CMakeLists.txt:95 *)
Definition excludes : list str := [lit "build*"; lit "blt/*"; lit "camp/*"].
Definition checked_sources (all : list str) : list str :=
  filter (fun s => negb (existsb (fun x => search (regex x) s) excludes)) all.
(** testCppCheck and testClangTidy (Macros.cmake:54-66): make, and, if it succeeds, the number of
    lines it wrote to standard error as exit status, of which 8 bits remain.  (Simplified: the
    file is complete when wc reads it.) *)
Definition check_status (make_status : Z) (err_lines : N) : Z :=
  if (make_status =? 0)%Z then (Z.of_N err_lines mod 256)%Z else make_status.
