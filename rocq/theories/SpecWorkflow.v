(** Vocabulary for the workflow. *)
From Coq Require Import Bool Ascii String ZArith List.
From Verif Require Import ModelPython ModelConfigBuild ModelCi SpecCi ModelWorkflow.
Import ListNotations.

(** The path of the clone on the runner and the tag that jq prints have no blanks. *)
Definition Plain (o : outside) : Prop :=
  Unsplit (jq_output o) /\ forall j, Unsplit (var (runner_env o j) "GITHUB_WORKSPACE").
(** The image of a build. *)
Definition image_of (o : outside) (r : dict str) : str := var r "DOCKER_REPOSITORY" ++ lit "-" ++ jq_output o.
(** The container has the compilers, build type and CUDA settings of a row of the matrix. *)
Definition Describes (r c : dict str) : Prop :=
  var c "CC" = var r "CMAKE_C_COMPILER" /\ var c "CXX" = var r "CMAKE_CXX_COMPILER" /\
  var c "CMAKE_BUILD_TYPE" = var r "CMAKE_BUILD_TYPE" /\ var c "ENABLE_CUDA" = var r "ENABLE_CUDA" /\
  var c "CMAKE_CUDA_ARCHITECTURES" = var r "CMAKE_CUDA_ARCHITECTURES" /\ var c "HOST_CONFIG" = lit "hostconfigs/environment.cmake".
(** The runner of a job does not itself set the variables that the workflow leaves out. *)
Definition Bare (o : outside) (j : job) : Prop :=
  forall x, In x ["ENABLE_CUDA"; "CMAKE_CUDA_ARCHITECTURES"; "DOCKER_RUN_ARGS"; "NPROC"]%string -> get (lit x) (runner_env o j) = None.
(** A job has run the container script in the Ubuntu image with the tag, with the given compilers, build type and
    arguments; the project was configured and then the given commands were run in the build directory. *)
Definition RanWith (o : outside) (j : job) (cc cxx bt : string) (args : list string) (cmds : list (list string)) : Prop :=
  let image := lit "geosx/ubuntu:22.04-" ++ jq_output o in
  exists c, let rn := in_container (inside o j) c (image_dir o image)
                        (lit "/tmp/Shiva/scripts/ci_build_and_test_in_container.sh") (map lit args) in
    var c "CC" = lit cc /\ var c "CXX" = lit cxx /\ var c "CMAKE_BUILD_TYPE" = lit bt /\
    var c "HOST_CONFIG" = lit "hostconfigs/environment.cmake" /\ var c "ENABLE_CUDA" = [] /\
    available o image = true /\ exit_status rn = 0%Z /\
    exists ev1 ev2 conf ev4 evs, trace rn = [ev1; ev2; conf; ev4] ++ evs /\
      words conf = configure_words c (map lit args) /\ result conf = 0%Z /\ Forall2 Ran (map (map lit) cmds) evs.
(** In a build directory in which make has succeeded, ctest runs the tests of the configured
    project: [passes] says which of them pass. *)
Definition Tests (w : world) (cppcheck clangtidy : bool) (passes : str -> bool) : Prop :=
  forall c past ws, (exists ev n, In ev past /\ Passed (make_all n) ev) -> hd [] ws = lit "ctest" ->
  w past (lit "/tmp/build") ws = ctest_status (registered (host_config c false) cppcheck clangtidy) passes ws.

(** A compiler is used by a row. *)
Definition Uses (r : dict str) (cxx : string) : Prop :=
  var r "CMAKE_CXX_COMPILER" = lit cxx \/ exists p, var r "CMAKE_CXX_COMPILER" = p ++ lit "/" ++ lit cxx.

(** The number of runs started by a history, and the last of them for a ref. *)
Definition Starts (h : happening) (ref : str) : Prop :=
  h = Push (lit "main") /\ ref = lit "refs/heads/main" \/
  (exists n, h = PullRequest n /\ ref = lit "refs/pull/" ++ n ++ lit "/merge") \/
  (exists b, h = Dispatch b /\ ref = lit "refs/heads/" ++ b).
Inductive Run : list happening -> nat -> str -> Prop :=
| run_here hs h ref : Starts h ref -> Run (hs ++ [h]) (count (history hs)) ref
| run_before hs h id ref : Run hs id ref -> Run (hs ++ [h]) id ref.
