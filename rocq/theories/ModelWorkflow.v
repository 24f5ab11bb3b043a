(** The workflow /repo/.github/workflows/continuousIntegration.yml: its triggers, jobs, the build
    matrix and the job that decides; and the variables set by /repo/hostconfigs/environment.cmake.

    The meaning of the file is that of the GitHub Actions documentation ("Workflow syntax",
    "Contexts", "Expressions").  Not modelled: the code style job, which is commented out (lines
    34-48); permissions and secrets; names of steps; what is printed; runs-on. *)
From Coq Require Import Bool Ascii String ZArith List.
From Verif Require Import ModelPython ModelConfigBuild ModelCi.
Import ListNotations.

(** ** Steps and jobs *)
(** The end of a step, and the result of a job. *)
Inductive step := Done | Failed | Stopped.
Inductive conclusion := Success | Failure | Cancelled | Skipped.
Definition succeeded (c : conclusion) : bool := match c with Success => true | _ => false end.
(** The steps run one after the other; the first that does not succeed decides. *)
Fixpoint run_steps (ss : list step) : conclusion :=
  match ss with [] => Success | Done :: r => run_steps r | Failed :: _ => Failure | Stopped :: _ => Cancelled end.
(** A job is skipped unless the jobs it needs have succeeded. *)
Definition run_job (needs : list conclusion) (ss : list step) : conclusion :=
  if forallb succeeded needs then run_steps ss else Skipped.
(** The result of a job with a matrix and fail-fast: false (lines 96-98), for the jobs that need
    it: each row runs whatever the others do. *)
Definition matrix_result (rs : list conclusion) : conclusion :=
  if forallb succeeded rs then Success
  else if existsb (fun r => match r with Failure => true | _ => false end) rs then Failure
  else if existsb (fun r => match r with Cancelled => true | _ => false end) rs then Cancelled
  else Skipped.

(** Jobs: those of the file, with one job for every row of the matrix. *)
Inductive job := Tag | Doxygen | Checks | Build (row : nat) | Coverage | Gate.
(** What the workflow does not decide: how steps end that are not scripts of this repository
    (preparing the runner, step 0; checking out; uploading), by job and position; whether a script
    is stopped; jq's output and exit status; the runner's environment and number of processors;
    whether an image can be fetched and started, its environment and working directory; the
    commands in the container; and how a script ends when docker is made to run something else
    than the container script (see [ci_job]). *)
Record outside := {
  ends : job -> nat -> step;
  stopped : job -> bool;
  jq_output : str;
  jq_status : Z;
  runner_env : job -> dict str;
  processors : job -> str;
  available : str -> bool;
  image_env : str -> dict str;
  image_dir : str -> str;
  inside : job -> world;
  other_status : job -> Z
}.

(** An expression with the value of env: over the environment of the runner. *)
Definition over (base : dict str) (e : list (string * str)) : dict str :=
  fold_left (fun d kv => put (lit (fst kv)) (snd kv) d) e base.
(** run: ./scripts/ci_build_and_test.sh, with environment [e].  The script's last command is docker
    (ci_build_and_test.sh:17-32), whose exit status without container is 125. *)
Definition script_status (o : outside) (j : job) (e : dict str) : Z :=
  let e' := with_nproc e (processors o j) in
  match docker_run [] e' (docker_words e') with
  | Some (_, image, _) =>
      if available o image then
        match ci_job (inside o j) (image_env o image) e (processors o j) (image_dir o image) with
        | Some r => exit_status r
        | None => other_status o j
        end
      else 125%Z
  | None => other_status o j
  end.
Definition script (o : outside) (j : job) (e : list (string * str)) : step :=
  if stopped o j then Stopped
  else if (script_status o j (over (runner_env o j) e) =? 0)%Z then Done else Failed.

(** ** The jobs *)
(** Lines 15-32.  The last step is echo "NAME=$(jq ...)" >> "$GITHUB_OUTPUT", whose exit status is
    that of echo.  (Simplified: one line of output.) *)
Definition tag_job (o : outside) : conclusion * str :=
  (run_job [] [ends o Tag 0; ends o Tag 1; ends o Tag 2], jq_output o).
(** Interpolation of the output of a job: empty unless the step ran. *)
Definition tag (o : outside) : str := if succeeded (fst (tag_job o)) then snd (tag_job o) else [].

(** Lines 50-69, 71-89 *)
Definition check_env (o : outside) (args : string) : list (string * str) :=
  [("DOCKER_REPOSITORY"%string, lit "geosx/ubuntu:22.04-" ++ tag o); ("HOST_CONFIG"%string, lit "hostconfigs/environment.cmake");
   ("CMAKE_CXX_COMPILER"%string, lit "/usr/bin/clang++"); ("CMAKE_C_COMPILER"%string, lit "/usr/bin/clang"); ("CMAKE_BUILD_TYPE"%string, lit "Release");
   ("BUILD_AND_TEST_ARGS"%string, lit args)].
Definition doxygen_check (o : outside) : conclusion :=
  run_job [fst (tag_job o)] [ends o Doxygen 0; ends o Doxygen 1; script o Doxygen (check_env o "--test-doxygen")].
Definition code_checks (o : outside) : conclusion :=
  run_job [fst (tag_job o)] [ends o Checks 0; ends o Checks 1; script o Checks (check_env o "--code-checks")].

(** Lines 99-221 *)
Definition row (l : list (string * string)) : dict str := map (fun kv => (lit (fst kv), lit (snd kv))) l.
Definition matrix : list (dict str) :=
  [
   row [("name", "RHEL8.10-clang17-dbg (ubi8.10, clang-17.0.6, Debug)");
        ("DOCKER_REPOSITORY", "geosx/ubi:8.10");
        ("RUNS_ON", "ubuntu-22.04");
        ("CMAKE_CXX_COMPILER", "clang++");
        ("CMAKE_C_COMPILER", "clang");
        ("CMAKE_BUILD_TYPE", "Debug")];
   row [("name", "RHEL8.10-clang17-rel (ubi8.10, clang-17.0.6, Release)");
        ("DOCKER_REPOSITORY", "geosx/ubi:8.10");
        ("RUNS_ON", "ubuntu-22.04");
        ("CMAKE_CXX_COMPILER", "clang++");
        ("CMAKE_C_COMPILER", "clang");
        ("CMAKE_BUILD_TYPE", "Release")];
   row [("name", "RHEL8.10-gcc13-dbg (ubi8.10, gcc 13.2.1, Debug)");
        ("DOCKER_REPOSITORY", "geosx/ubi:8.10");
        ("RUNS_ON", "ubuntu-22.04");
        ("CMAKE_CXX_COMPILER", "/opt/rh/gcc-toolset-13/root/bin/g++");
        ("CMAKE_C_COMPILER", "/opt/rh/gcc-toolset-13/root/bin/gcc");
        ("CMAKE_BUILD_TYPE", "Debug")];
   row [("name", "RHEL8.10-gcc13-rel (ubi8.10, gcc 13.2.1, Release)");
        ("DOCKER_REPOSITORY", "geosx/ubi:8.10");
        ("RUNS_ON", "ubuntu-22.04");
        ("CMAKE_CXX_COMPILER", "/opt/rh/gcc-toolset-13/root/bin/g++");
        ("CMAKE_C_COMPILER", "/opt/rh/gcc-toolset-13/root/bin/gcc");
        ("CMAKE_BUILD_TYPE", "Release")];
   row [("name", "ubuntu22-gcc11-rel (ubuntu-22, gcc 11.4.0, Release)");
        ("DOCKER_REPOSITORY", "geosx/ubuntu:22.04");
        ("RUNS_ON", "ubuntu-22.04");
        ("CMAKE_CXX_COMPILER", "/usr/bin/g++");
        ("CMAKE_C_COMPILER", "/usr/bin/gcc");
        ("CMAKE_BUILD_TYPE", "Release")];
   row [("name", "ubuntu22-clang14-rel (ubuntu-22, clang-14.0.0, Release)");
        ("DOCKER_REPOSITORY", "geosx/ubuntu:22.04");
        ("RUNS_ON", "ubuntu-22.04");
        ("CMAKE_CXX_COMPILER", "/usr/bin/clang++");
        ("CMAKE_C_COMPILER", "/usr/bin/clang");
        ("CMAKE_BUILD_TYPE", "Release")];
   row [("name", "ubuntu22-clang14-dbg (ubuntu-22, clang-14.0.0, Debug)");
        ("DOCKER_REPOSITORY", "geosx/ubuntu:22.04");
        ("RUNS_ON", "ubuntu-22.04");
        ("CMAKE_CXX_COMPILER", "/usr/bin/clang++");
        ("CMAKE_C_COMPILER", "/usr/bin/clang");
        ("CMAKE_BUILD_TYPE", "Debug")];
   row [("name", "ubuntu22-gcc11-dbg (ubuntu-22, gcc 11.4.0, Release)");
        ("DOCKER_REPOSITORY", "geosx/ubuntu:22.04");
        ("RUNS_ON", "ubuntu-22.04");
        ("CMAKE_CXX_COMPILER", "/usr/bin/g++");
        ("CMAKE_C_COMPILER", "/usr/bin/gcc");
        ("CMAKE_BUILD_TYPE", "Debug")];
   row [("name", "ubuntu22-gcc11-cuda11-rel (ubuntu-22, gcc 11.4.0, cuda-11.8.0, Release)");
        ("DOCKER_REPOSITORY", "geosx/ubuntu:22.04-cuda11.8");
        ("RUNS_ON", "streak2");
        ("CMAKE_CXX_COMPILER", "/usr/bin/g++");
        ("CMAKE_C_COMPILER", "/usr/bin/gcc");
        ("CMAKE_BUILD_TYPE", "Release");
        ("ENABLE_CUDA", "ON");
        ("CMAKE_CUDA_ARCHITECTURES", "86");
        ("NPROC", "1");
        ("DOCKER_RUN_ARGS", "--cpus=1 --memory=64g --runtime=nvidia --gpus all")];
   row [("name", "ubuntu22-gcc11-cuda11-dbg (ubuntu-22, gcc 11.4.0, cuda-11.8.0, Debug)");
        ("DOCKER_REPOSITORY", "geosx/ubuntu:22.04-cuda11.8");
        ("RUNS_ON", "streak2");
        ("CMAKE_CXX_COMPILER", "/usr/bin/g++");
        ("CMAKE_C_COMPILER", "/usr/bin/gcc");
        ("CMAKE_BUILD_TYPE", "Debug");
        ("ENABLE_CUDA", "ON");
        ("CMAKE_CUDA_ARCHITECTURES", "86");
        ("NPROC", "1");
        ("DOCKER_RUN_ARGS", "--cpus=1 --memory=64g --runtime=nvidia --gpus all")];
   row [("name", "ubuntu22-clang14-cuda11-rel (ubuntu-22, clang-14.0.0, cuda-11.8.0, Release)");
        ("DOCKER_REPOSITORY", "geosx/ubuntu:22.04-cuda11.8");
        ("RUNS_ON", "streak2");
        ("CMAKE_CXX_COMPILER", "/usr/bin/clang++");
        ("CMAKE_C_COMPILER", "/usr/bin/clang");
        ("CMAKE_BUILD_TYPE", "Release");
        ("ENABLE_CUDA", "ON");
        ("CMAKE_CUDA_ARCHITECTURES", "86");
        ("NPROC", "1");
        ("DOCKER_RUN_ARGS", "--cpus=1 --memory=64g --runtime=nvidia --gpus all")];
   row [("name", "ubuntu22-clang14-cuda11-dbg (ubuntu-22, clang-14.0.0, cuda-11.8.0, Debug)");
        ("DOCKER_REPOSITORY", "geosx/ubuntu:22.04-cuda11.8");
        ("RUNS_ON", "streak2");
        ("CMAKE_CXX_COMPILER", "/usr/bin/clang++");
        ("CMAKE_C_COMPILER", "/usr/bin/clang");
        ("CMAKE_BUILD_TYPE", "Debug");
        ("ENABLE_CUDA", "ON");
        ("CMAKE_CUDA_ARCHITECTURES", "86");
        ("NPROC", "1");
        ("DOCKER_RUN_ARGS", "--cpus=1 --memory=64g --runtime=nvidia --gpus all")];
   row [("name", "RHEL8.10-clang17-cuda12-rel (ubi8.10, clang-17.0.6, cuda-12.4.1, Release)");
        ("DOCKER_REPOSITORY", "geosx/ubi:8.10-cuda12.8");
        ("RUNS_ON", "streak2");
        ("CMAKE_CXX_COMPILER", "clang++");
        ("CMAKE_C_COMPILER", "clang");
        ("CMAKE_BUILD_TYPE", "Release");
        ("ENABLE_CUDA", "ON");
        ("CMAKE_CUDA_ARCHITECTURES", "86");
        ("NPROC", "1");
        ("DOCKER_RUN_ARGS", "--cpus=1 --memory=64g --runtime=nvidia --gpus all")];
   row [("name", "RHEL8.10-gcc13-cuda12-rel (ubi8.10, gcc 13.2.1, cuda-12.4.1, Release)");
        ("DOCKER_REPOSITORY", "geosx/ubi:8.10-cuda12.8");
        ("RUNS_ON", "streak2");
        ("CMAKE_CXX_COMPILER", "/opt/rh/gcc-toolset-13/root/bin/g++");
        ("CMAKE_C_COMPILER", "/opt/rh/gcc-toolset-13/root/bin/gcc");
        ("CMAKE_BUILD_TYPE", "Release");
        ("ENABLE_CUDA", "ON");
        ("CMAKE_CUDA_ARCHITECTURES", "86");
        ("NPROC", "1");
        ("DOCKER_RUN_ARGS", "--cpus=1 --memory=64g --runtime=nvidia --gpus all")]
  ]%string.
(** Lines 233-245; a property that the row does not have is the empty text. *)
Definition build_env (o : outside) (r : dict str) : list (string * str) :=
  [("DOCKER_REPOSITORY"%string, var r "DOCKER_REPOSITORY" ++ lit "-" ++ tag o);
   ("CMAKE_CXX_COMPILER"%string, var r "CMAKE_CXX_COMPILER"); ("CMAKE_C_COMPILER"%string, var r "CMAKE_C_COMPILER");
   ("CMAKE_BUILD_TYPE"%string, var r "CMAKE_BUILD_TYPE"); ("ENABLE_CUDA"%string, var r "ENABLE_CUDA");
   ("CMAKE_CUDA_ARCHITECTURES"%string, var r "CMAKE_CUDA_ARCHITECTURES"); ("NPROC"%string, var r "NPROC");
   ("BUILD_AND_TEST_ARGS"%string, var r "BUILD_AND_TEST_ARGS" ++ lit " --build-exe");
   ("DOCKER_RUN_ARGS"%string, var r "DOCKER_RUN_ARGS"); ("HOST_CONFIG"%string, lit "hostconfigs/environment.cmake")].
(** Lines 91-95, 223-245 *)
Definition build_row (o : outside) (n : nat) (r : dict str) : conclusion :=
  run_job [fst (tag_job o)]
    [ends o (Build n) 0; ends o (Build n) 1; ends o (Build n) 2; script o (Build n) (build_env o r)].
Fixpoint rows (o : outside) (n : nat) (m : list (dict str)) : list conclusion :=
  match m with [] => [] | r :: m' => build_row o n r :: rows o (S n) m' end.
Definition linux_builds (o : outside) : conclusion := matrix_result (rows o 0 matrix).

(** Lines 247-272 *)
Definition coverage_env (o : outside) : list (string * str) :=
  [("DOCKER_REPOSITORY"%string, lit "geosx/ubuntu:22.04-" ++ tag o); ("HOST_CONFIG"%string, lit "hostconfigs/environment.cmake");
   ("CMAKE_CXX_COMPILER"%string, lit "/usr/bin/g++"); ("CMAKE_C_COMPILER"%string, lit "/usr/bin/gcc"); ("CMAKE_BUILD_TYPE"%string, lit "Debug");
   ("BUILD_AND_TEST_ARGS"%string, lit "--build-exe --code-coverage")].
Definition code_coverage (o : outside) : conclusion :=
  run_job [fst (tag_job o)]
    [ends o Coverage 0; ends o Coverage 1; script o Coverage (coverage_env o); ends o Coverage 3].

(** Lines 275-296.  always(): the job runs whatever the needed jobs' results are.  A block scalar
    ends with a newline. *)
Definition return_val (o : outside) : str :=
  lit (if succeeded (linux_builds o) && (succeeded (doxygen_check o) && succeeded (code_checks o)) then "true" else "false") ++ [nl].
Definition gate (o : outside) : conclusion :=
  run_steps ([ends o Gate 0]
    ++ (if occurs (lit "true") (return_val o) then [Done] else [])
    ++ (if occurs (lit "false") (return_val o) then [Failed] else [])).

(** ** environment.cmake *)
(** The variables set from the container's environment [c] (lines 3-26), where $ENV{X} of a variable
    that is not set is empty; and ENABLE_COVERAGE, from the command line
    (ci_build_and_test_in_container.sh:43). *)
Definition host_config (c : dict str) (coverage : bool) : dict str :=
  let cuda_on := negb (falsy (var c "ENABLE_CUDA")) in
  let toolkit := if falsy (var c "CUDA_TOOLKIT_ROOT_DIR") then lit "/usr/local/cuda" else var c "CUDA_TOOLKIT_ROOT_DIR" in
  [(lit "ENABLE_COVERAGE", lit (if coverage then "ON" else "OFF"));
   (lit "CMAKE_C_COMPILER", var c "CC"); (lit "CMAKE_CXX_COMPILER", var c "CXX");
   (lit "ENABLE_FORTRAN", lit "OFF"); (lit "ENABLE_MPI", lit "OFF"); (lit "ENABLE_GTEST_DEATH_TESTS", lit "ON");
   (lit "ENABLE_CUDA", var c "ENABLE_CUDA")]
  ++ (if cuda_on then
        [(lit "CUDA_TOOLKIT_ROOT_DIR", toolkit); (lit "CMAKE_CUDA_ARCHITECTURES", var c "CMAKE_CUDA_ARCHITECTURES");
         (lit "CMAKE_CUDA_HOST_COMPILER", var c "CXX"); (lit "CMAKE_CUDA_COMPILER", toolkit ++ lit "/bin/nvcc");
         (lit "CMAKE_CUDA_FLAGS", lit "-restrict --expt-extended-lambda --expt-relaxed-constexpr -Werror cross-execution-space-call,reorder,deprecated-declarations")]
      else [])
  ++ [(lit "SHIVA_ENABLE_BLT", lit "ON"); (lit "SHIVA_ENABLE_UNIT_TESTS", lit "ON"); (lit "SHIVA_ENABLE_BOUNDS_CHECK", lit "ON")].

(** ** Triggers and concurrency *)
(** What happens to the repository, and the end of a run. *)
Inductive happening := Push (branch : str) | PullRequest (number : str) | Dispatch (branch : str) | End (id : nat).
(** Lines 3-7: the ref (github.ref) of the run that is started, if any. *)
Definition started (h : happening) : option str :=
  match h with
  | Push b => if eqs b (lit "main") then Some (lit "refs/heads/" ++ b) else None
  | PullRequest n => Some (lit "refs/pull/" ++ n ++ lit "/merge")
  | Dispatch b => Some (lit "refs/heads/" ++ b)
  | End _ => None
  end.
(** Runs are numbered from 0 as they start; [cancelled]: the runs cancelled so far. *)
Record runs := { count : nat; active : list (nat * str); cancelled : list nat }.
(** Lines 9-11: a new run cancels those in progress in its group, that is, with its ref. *)
Definition happen (s : runs) (h : happening) : runs :=
  match started h with
  | Some ref =>
      {| count := S (count s);
         active := filter (fun r => negb (eqs (snd r) ref)) (active s) ++ [(count s, ref)];
         cancelled := cancelled s ++ map fst (filter (fun r => eqs (snd r) ref) (active s)) |}
  | None =>
      match h with
      | End id => {| count := count s; active := filter (fun r => negb (Nat.eqb (fst r) id)) (active s); cancelled := cancelled s |}
      | _ => s
      end
  end.
Definition history (hs : list happening) : runs := fold_left happen hs {| count := 0; active := []; cancelled := [] |}.
