(** C88-C95: the continuous integration scripts and the CMake options. *)
From Coq Require Import Bool Ascii String ZArith List.
From Verif Require Import ModelPython ModelConfigBuild ModelCi SpecCi ProofPython ProofCi.
Import ListNotations.

(** A job of .github/workflows/continuousIntegration.yml, for the examples. *)
Definition a_job (more : list (string * string)) : dict str :=
  map (fun kv => (lit (fst kv), lit (snd kv)))
    (more ++ [("GITHUB_WORKSPACE", "/home/runner/work/Shiva/Shiva"); ("HOST_CONFIG", "hostconfigs/environment.cmake");
     ("CMAKE_C_COMPILER", "/usr/bin/gcc"); ("CMAKE_CXX_COMPILER", "/usr/bin/g++"); ("CMAKE_BUILD_TYPE", "Release");
     ("DOCKER_REPOSITORY", "geosx/ubuntu:22.04-285-24")]%string).
Definition all_well : world := fun _ _ _ => 0%Z.
Definition failing (c : string) : world := fun _ _ ws => if eqs (hd [] ws) (lit c) then 2%Z else 0%Z.
Definition job (w : world) (args : list string) : run :=
  in_container w (a_job []) (lit "/") container_script (map lit args).
Definition programs (r : run) : list str := map (fun ev => hd [] (words ev)) (trace r).

(** C88: the job's exit status.  0: the two variables were set and no command failed, except
    possibly printing the environment and copying the coverage report; otherwise the job stopped
    at the first failing command and returns its status, or 1 for a missing variable.  And a job
    in which all is well returns 0. *)
Theorem C88_exit_status : forall w e cwd argv0 args, let r := in_container w e cwd argv0 args in
  (exit_status r = 0%Z -> var e "HOST_CONFIG" <> [] /\ var e "CMAKE_BUILD_TYPE" <> [] /\ Forall Fine (trace r)) /\
  (exit_status r <> 0%Z ->
     (exists before ev, trace r = before ++ [ev] /\ result ev = exit_status r /\ Forall Fine before /\ ~ Unchecked ev) \/
     exit_status r = 1%Z /\ (var e "HOST_CONFIG" = [] \/ var e "CMAKE_BUILD_TYPE" = [])) /\
  (var e "HOST_CONFIG" <> [] -> var e "CMAKE_BUILD_TYPE" <> [] -> Forall Fine (trace r) -> exit_status r = 0%Z).
Proof. exact status_lemma. Qed.
(** A successful job that was asked to build has been configured, then built, then tested (unless
    the unit tests were disabled). *)
Theorem C88_green_build : forall w e cwd argv0 args, let r := in_container w e cwd argv0 args in
  exit_status r = 0%Z -> Asked args "--build-exe" ->
  ~ Asked args "--test-code-style" -> ~ Asked args "--test-doxygen" -> ~ Asked args "--code-checks" ->
  exists before make tests, trace r = before ++ make :: tests /\
    (exists conf, In conf before /\ hd [] (words conf) = lit "python3" /\ result conf = 0%Z) /\
    Passed (make_all (var e "NPROC")) make /\
    (Asked args "--disable-unit-tests" /\ tests = [] \/
     exists t, tests = [t] /\ Passed (ctest "-E" "testUncrustifyCheck|testDoxygenCheck|testCppCheck|testClangTidy") t).
Proof. exact build_lemma. Qed.
Example C88_example :
  exit_status (job all_well ["--build-exe"]%string) = 0%Z /\
  programs (job all_well ["--build-exe"]%string) = map lit ["env"; "cd"; "python3"; "cd"; "make"; "ctest"]%string /\
  exit_status (job (failing "make") ["--build-exe"]%string) = 2%Z /\
  programs (job (failing "make") ["--build-exe"]%string) = map lit ["env"; "cd"; "python3"; "cd"; "make"]%string /\
  exit_status (in_container all_well [] (lit "/") container_script [lit "--build-exe"]) = 1%Z.
Proof. vm_compute. auto. Qed.

(** C89: which commands a successful job has run: the configuration, then those that the options
    call for. *)
Theorem C89_what_ran : forall w e cwd argv0 args, let r := in_container w e cwd argv0 args in
  exit_status r = 0%Z ->
  exists ev1 ev2 ev3 ev4 evs, trace r = [ev1; ev2; ev3; ev4] ++ evs /\
    words ev3 = configure_words e args /\ result ev3 = 0%Z /\
    words ev4 = [lit "cd"; lit "/tmp/build"] /\ result ev4 = 0%Z /\
    Forall2 Ran (commands (var e "NPROC") args) evs.
Proof. exact plan_lemma. Qed.
(** The project is configured in the directory above that of the script, with the host config and the build
    type of the environment, in the fixed build and installation directories. *)
Theorem C89_configuration : forall w e cwd argv0 args d, let r := in_container w e cwd argv0 args in
  exit_status r = 0%Z -> ScriptDir argv0 d -> Unsplit argv0 -> Unsplit (var e "HOST_CONFIG") -> Unsplit (var e "CMAKE_BUILD_TYPE") ->
  exists ev1 ev2 conf rest onoff, trace r = ev1 :: ev2 :: conf :: rest /\
    words conf = map lit ["python3"; "scripts/config-build.py"; "-hc"]%string ++ [var e "HOST_CONFIG"; lit "-bt"; var e "CMAKE_BUILD_TYPE"] ++
      map lit ["-bp"; "/tmp/build"; "-ip"; "/tmp/install"; String.append "-DENABLE_COVERAGE:BOOL=" onoff]%string /\
    (Asked args "--code-coverage" /\ onoff = "ON"%string \/ ~ Asked args "--code-coverage" /\ onoff = "OFF"%string) /\
    result conf = 0%Z /\ at_dir conf = abspath cwd (d ++ lit "/..").
Proof. exact configuration_lemma. Qed.
Example C89_configuration_example : ScriptDir container_script (lit "/tmp/Shiva/scripts") /\ Unsplit container_script /\
  map at_dir (trace (job all_well [])) = map lit ["/"; "/"; "/tmp/Shiva"; "/tmp/Shiva"]%string /\
  map at_dir (trace (in_container all_well (a_job []) (lit "/src/scripts") (lit "run.sh") [])) =
    map lit ["/src/scripts"; "/src/scripts"; "/src"; "/src"]%string.
Proof.
  split. { apply (script_in (lit "/tmp/Shiva/script") "s" (lit "ci_build_and_test_in_container.sh")); [discriminate|]. vm_compute. intuition discriminate. }
  split; [|vm_compute; auto]. intros c I. vm_compute in I. repeat split; intros ->; intuition discriminate.
Qed.
(** Not so: a successful job has done everything its options ask for.  The check options end the
    script. *)
Theorem C89_every_request_refuted : exists w e cwd argv0 args o ws,
  let r := in_container w e cwd argv0 args in
  exit_status r = 0%Z /\ Asked args o /\ request o ws /\ ~ In ws (map words (trace r)).
Proof.
  exists all_well, (a_job []), (lit "/"), container_script, [lit "--code-checks"; lit "--build-exe"], "--build-exe"%string.
  eexists. cbv zeta. split; [vm_compute; reflexivity|]. split; [exists (lit "--code-checks "), []; reflexivity|].
  split; [unfold request; right; right; right; right; split; reflexivity|].
  vm_compute. intuition discriminate.
Qed.
(** Not so: a successful job has built or tested something. *)
Theorem C89_nothing_asked_refuted : exists w e cwd argv0 args, let r := in_container w e cwd argv0 args in
  exit_status r = 0%Z /\ forall ev, In ev (trace r) -> In (hd [] (words ev)) (map lit ["env"; "cd"; "python3"]%string).
Proof.
  exists all_well, (a_job []), (lit "/"), container_script, [lit "--run-unit-tests"]. cbv zeta. split; [vm_compute; reflexivity|].
  intros ev H. vm_compute in H. vm_compute. intuition (subst; auto).
Qed.
Example C89_example :
  programs (job all_well ["--code-coverage"]%string) = map lit ["env"; "cd"; "python3"; "cd"; "make"; "make"; "cp"]%string /\
  programs (job all_well ["--test-doxygen"; "--code-checks"]%string) = map lit ["env"; "cd"; "python3"; "cd"; "ctest"]%string.
Proof. vm_compute. auto. Qed.

(** C90: the job does not depend on the exit status of cmake, as long as cmake can be started. *)
Theorem C90_cmake_status_ignored : forall cm cm' fs rest e cwd argv0 args,
  (forall c, cm c <> None) -> (forall c, cm' c <> None) ->
  in_container (configuring cm fs rest) e cwd argv0 args = in_container (configuring cm' fs rest) e cwd argv0 args.
Proof. exact cmake_ignored_lemma. Qed.
(** The container's files, for a project with a host config. *)
Definition container_files : fsys :=
  {| files := [(lit "/tmp/Shiva/hostconfigs/environment.cmake", lit "set(SHIVA_ENABLE_BLT ON)"); (lit "/tmp/Shiva/CMakeLists.txt", lit "project(Shiva)")];
     dirs := [lit "/"; lit "/tmp"; lit "/tmp/Shiva"; lit "/tmp/Shiva/hostconfigs"; lit "/tmp/Shiva/scripts"] |}.
(** The tests that exist after a failed configuration: none. *)
Definition after_failed_cmake : world := fun _ _ ws =>
  if eqs (hd [] ws) (lit "ctest") then ctest_status [] (fun _ => false) ws else 0%Z.
(** Not so: a job fails if cmake fails, here for the code checks. *)
Theorem C90_failed_cmake_is_noticed_refuted : exists fs rest e cwd argv0 args,
  (forall past d ws, hd [] ws = lit "ctest" -> rest past d ws = ctest_status [] (fun _ => false) ws) /\
  Asked args "--code-checks" /\
  exit_status (in_container (configuring (fun _ => Some 1%Z) fs rest) e cwd argv0 args) = 0%Z.
Proof.
  exists container_files, after_failed_cmake, (a_job []), (lit "/"), container_script, [lit "--code-checks"].
  split. { intros p d ws H. unfold after_failed_cmake. rewrite H. reflexivity. }
  split; [exists [], []; reflexivity|]. vm_compute. reflexivity.
Qed.
(** A configuration script that fails, on the other hand, stops the job: here, no host config. *)
Example C90_example :
  exit_status (in_container (configuring (fun _ => Some 0%Z) {| files := []; dirs := [lit "/"] |} all_well) (a_job []) (lit "/")
    container_script [lit "--code-checks"]) = 1%Z /\
  exit_status (in_container (configuring (fun _ => Some 0%Z) container_files all_well) (a_job []) (lit "/")
    container_script [lit "--build-exe"]) = 0%Z.
Proof. vm_compute. auto. Qed.

(** C91: the job in the container is the one described by the runner's variables. *)
Theorem C91_variables : forall w image_env e nproc workdir dargs bargs,
  Words (var e "DOCKER_RUN_ARGS") dargs -> Options dargs -> Words (var e "BUILD_AND_TEST_ARGS") bargs ->
  Forall (fun x => Unsplit (var e x)) ["GITHUB_WORKSPACE"; "HOST_CONFIG"; "CMAKE_C_COMPILER"; "CMAKE_CXX_COMPILER"; "ENABLE_CUDA";
    "CMAKE_CUDA_ARCHITECTURES"; "DOCKER_REPOSITORY"]%string ->
  var e "DOCKER_REPOSITORY" <> [] -> startswith (var e "DOCKER_REPOSITORY") (lit "-") = false ->
  exists c, ci_job w image_env e nproc workdir =
      Some (in_container w c workdir (lit "/tmp/Shiva/scripts/ci_build_and_test_in_container.sh") bargs) /\
    var c "HOST_CONFIG" = var e "HOST_CONFIG" /\ var c "CMAKE_BUILD_TYPE" = var e "CMAKE_BUILD_TYPE" /\
    var c "CC" = var e "CMAKE_C_COMPILER" /\ var c "CXX" = var e "CMAKE_CXX_COMPILER" /\
    var c "ENABLE_CUDA" = var e "ENABLE_CUDA" /\ var c "CMAKE_CUDA_ARCHITECTURES" = var e "CMAKE_CUDA_ARCHITECTURES" /\
    var c "NPROC" = match get (lit "NPROC") e with None => [] | Some [] => nproc | Some n => n end.
Proof. exact ci_lemma. Qed.
(** Not so: make runs as many jobs as the runner has processors when NPROC is not given.  If the
    variable is not in the environment at all, -j has no number: no limit. *)
Theorem C91_number_of_jobs_refuted : exists w image_env e nproc workdir r,
  var e "NPROC" = [] /\ nproc = lit "4" /\ ci_job w image_env e nproc workdir = Some r /\ exit_status r = 0%Z /\
  In (map lit ["make"; "-j"; "VERBOSE=1"]%string) (map words (trace r)).
Proof.
  exists all_well, [], (a_job [("BUILD_AND_TEST_ARGS", "--build-exe")]%string), (lit "4"), (lit "/").
  eexists. split; [reflexivity|]. split; [reflexivity|]. split; [vm_compute; reflexivity|]. split; [reflexivity|].
  vm_compute. auto 10.
Qed.
Definition cuda_job : dict str := a_job [("NPROC", "1"); ("ENABLE_CUDA", "ON"); ("CMAKE_CUDA_ARCHITECTURES", "86");
  ("DOCKER_RUN_ARGS", "--cpus=1 --memory=64g --runtime=nvidia --gpus all"); ("BUILD_AND_TEST_ARGS", " --build-exe")]%string.
Example C91_example :
  Words (var cuda_job "DOCKER_RUN_ARGS") (map lit ["--cpus=1"; "--memory=64g"; "--runtime=nvidia"; "--gpus"; "all"]%string) /\
  Options (map lit ["--cpus=1"; "--memory=64g"; "--runtime=nvidia"; "--gpus"; "all"]%string) /\
  Words (var cuda_job "BUILD_AND_TEST_ARGS") [lit "--build-exe"] /\
  Forall (fun x => Unsplit (var cuda_job x)) ["GITHUB_WORKSPACE"; "HOST_CONFIG"; "CMAKE_C_COMPILER"; "CMAKE_CXX_COMPILER"; "ENABLE_CUDA";
    "CMAKE_CUDA_ARCHITECTURES"; "DOCKER_REPOSITORY"]%string /\
  option_map (fun r => nth 4 (map words (trace r)) []) (ci_job all_well [] cuda_job (lit "8") (lit "/")) =
    Some (map lit ["make"; "-j"; "1"; "VERBOSE=1"]%string).
Proof.
  assert (U : forall s, forallb (fun c => negb (ifs c)) s = true -> Unsplit s).
  { intros s H c I. rewrite forallb_forall in H. specialize (H c I). apply negb_true_iff in H. unfold ifs in H.
    repeat split; intros ->; discriminate. }
  assert (M : forall w r ws, w <> [] -> Unsplit w -> Words r ws -> Words (w ++ " "%char :: r) (w :: ws)).
  { intros w r ws N H HR. exact (a_word [] w " "%char r ws (Forall_nil _) N H (or_introl eq_refl) HR). }
  assert (K : forall b w, Forall Blank b -> w <> [] -> Unsplit w -> Words (b ++ w) [w]) by (intros; apply last_word; assumption).
  split. { apply (M (lit "--cpus=1")); [discriminate|apply U; reflexivity|]. apply (M (lit "--memory=64g")); [discriminate|apply U; reflexivity|].
    apply (M (lit "--runtime=nvidia")); [discriminate|apply U; reflexivity|]. apply (M (lit "--gpus")); [discriminate|apply U; reflexivity|].
    apply (K [] (lit "all")); [apply Forall_nil|discriminate|apply U; reflexivity]. }
  split. { apply (option_eq (lit "-cpus") (lit "1")); [vm_compute; intuition discriminate|reflexivity|reflexivity|].
    apply (option_eq (lit "-memory") (lit "64g")); [vm_compute; intuition discriminate|reflexivity|reflexivity|].
    apply (option_eq (lit "-runtime") (lit "nvidia")); [vm_compute; intuition discriminate|reflexivity|reflexivity|].
    apply option_gpus. apply no_options. }
  split. { apply (K [" "%char] (lit "--build-exe")); [repeat constructor|discriminate|apply U; reflexivity]. }
  split. { repeat (apply Forall_cons; [apply U; reflexivity|]). apply Forall_nil. }
  vm_compute. reflexivity.
Qed.

(** C92: a successful coverage job has built everything and run the coverage target. *)
Theorem C92_coverage : forall w e cwd argv0 args, let r := in_container w e cwd argv0 args in
  exit_status r = 0%Z -> Asked args "--code-coverage" ->
  ~ Asked args "--test-code-style" -> ~ Asked args "--test-doxygen" -> ~ Asked args "--code-checks" ->
  exists before make cov cp after, trace r = before ++ make :: cov :: cp :: after /\
    Passed (make_all (var e "NPROC")) make /\ Passed (map lit ["make"; "shiva_coverage"]%string) cov /\
    words cp = map lit ["cp"; "-r"; "/tmp/build/shiva_coverage.info.cleaned"; "/tmp/Shiva/shiva_coverage.info.cleaned"]%string.
Proof. exact coverage_lemma. Qed.
(** Not so: and delivered the report. *)
Theorem C92_report_delivered_refuted : exists w e cwd argv0 args, let r := in_container w e cwd argv0 args in
  exit_status r = 0%Z /\ Asked args "--code-coverage" /\
  exists ev, In ev (trace r) /\ hd [] (words ev) = lit "cp" /\ result ev <> 0%Z.
Proof.
  exists (failing "cp"), (a_job []), (lit "/"), container_script, [lit "--code-coverage"]. cbv zeta.
  split; [vm_compute; reflexivity|]. split; [exists [], []; reflexivity|].
  eexists. split; [vm_compute; do 6 right; left; reflexivity|]. split; [reflexivity|discriminate].
Qed.
Example C92_example : exit_status (job all_well ["--code-coverage"; "--build-exe"]%string) = 0%Z /\
  exit_status (job (fun _ _ ws => if eqs (nth 1 ws []) (lit "shiva_coverage") then 2 else 0)%Z ["--code-coverage"]%string) = 2%Z.
Proof. vm_compute. auto. Qed.

(** C93: in a configured build with unit tests, the build job's tests succeed exactly if all unit
    tests pass, and those of the code check job exactly if the available checks pass. *)
Theorem C93_unit_tests : forall v c t passes, Enabled v "SHIVA_ENABLE_BLT" -> Enabled v "SHIVA_ENABLE_UNIT_TESTS" ->
  (ctest_status (registered v c t) passes (ctest "-E" "testUncrustifyCheck|testDoxygenCheck|testCppCheck|testClangTidy") = 0%Z <->
   forall name file, In (name, file) unit_tests -> passes (lit name) = true).
Proof. exact build_tests_lemma. Qed.
(** The unit tests are all the test sources, each under a name of its own. *)
Theorem C93_every_source : (forall file, In file test_sources <-> exists name, In (name, file) unit_tests) /\
  (forall name file name' file', In (name, file) unit_tests -> In (name', file') unit_tests -> (name = name' <-> file = file')).
Proof. exact test_sources_lemma. Qed.
Theorem C93_code_checks : forall v c t passes, Enabled v "SHIVA_ENABLE_BLT" ->
  (ctest_status (registered v c t) passes (ctest "-R" "testCppCheck|testClangTidy") = 0%Z <->
   (c = true -> passes (lit "testCppCheck") = true) /\ (t = true -> passes (lit "testClangTidy") = true)).
Proof. exact check_tests_lemma. Qed.
(** The documentation and the style job succeed whatever the tests would say: they run no test. *)
Theorem C93_no_style_tests : forall v c t passes,
  ctest_status (registered v c t) passes (ctest "-R" "testDoxygenCheck") = 0%Z /\
  ctest_status (registered v c t) passes (ctest "-R" "testUncrustifyCheck") = 0%Z.
Proof. exact style_tests_lemma. Qed.
Theorem C93_doxygen_checked_refuted : exists v c t,
  Enabled v "SHIVA_ENABLE_BLT" /\ Enabled v "SHIVA_ENABLE_UNIT_TESTS" /\ c = true /\ t = true /\
  ctest_status (registered v c t) (fun _ => false) (ctest "-R" "testDoxygenCheck") = 0%Z.
Proof.
  exists [(lit "SHIVA_ENABLE_BLT", lit "ON"); (lit "SHIVA_ENABLE_UNIT_TESTS", lit "ON")], true, true.
  rewrite <- !on_spec. vm_compute. auto.
Qed.
Definition environment : dict str := [(lit "SHIVA_ENABLE_BLT", lit "ON"); (lit "SHIVA_ENABLE_UNIT_TESTS", lit "ON")].
Example C93_example : Enabled environment "SHIVA_ENABLE_BLT" /\ Enabled environment "SHIVA_ENABLE_UNIT_TESTS" /\
  ~ Enabled environment "SHIVA_ENABLE_CUDA" /\
  ctest_status (registered environment true true) (fun t => negb (eqs t (lit "shiva_test_scaling")))
    (ctest "-E" "testUncrustifyCheck|testDoxygenCheck|testCppCheck|testClangTidy") = 8%Z /\
  ctest_status (registered environment true true) (fun t => negb (startswith t (lit "test")))
    (ctest "-E" "testUncrustifyCheck|testDoxygenCheck|testCppCheck|testClangTidy") = 0%Z.
Proof. rewrite <- !on_spec. vm_compute. intuition discriminate. Qed.

(** C94: a code check passes exactly if the check could be run and the number of lines of
    complaints is a multiple of 256. *)
Theorem C94_check_status : forall make lines, check_status make lines = 0%Z <-> make = 0%Z /\ exists k, lines = (256 * k)%N.
Proof. exact check_lemma. Qed.
Theorem C94_clean_refuted : exists lines, lines <> 0%N /\ check_status 0 lines = 0%Z.
Proof. exists 256%N. split; [discriminate|reflexivity]. Qed.
(** The files checked are those with none of three texts anywhere in their path. *)
Theorem C94_checked_files : forall all s, In s (checked_sources all) <->
  In s all /\ ~ Part (lit "buil") s /\ ~ Part (lit "blt") s /\ ~ Part (lit "camp") s.
Proof. exact sources_lemma. Qed.
(** Not so: the project's own headers are checked wherever the clone is. *)
Theorem C94_headers_checked_refuted : exists clone : str, clone <> [] /\
  forall files, checked_sources (map (fun f => clone ++ lit "/" ++ f) files) = [].
Proof.
  exists (lit "/home/builder/Shiva"). split; [discriminate|]. intros files.
  destruct (checked_sources _) as [|s l] eqn:E; [reflexivity|]. exfalso.
  assert (I : In s (checked_sources (map (fun f => lit "/home/builder/Shiva" ++ lit "/" ++ f) files))) by (rewrite E; left; reflexivity).
  apply sources_lemma in I. destruct I as (I & N & _). apply in_map_iff in I. destruct I as (f & <- & _). apply N.
  exists (lit "/home/"), (lit "der/Shiva/" ++ f). reflexivity.
Qed.
Example C94_example :
  checked_sources (map lit ["/tmp/Shiva/include/shiva/common/CArray.hpp"; "/tmp/Shiva/build-x/a.cpp"; "/tmp/Shiva/cmake/blt/b.cpp";
    "/tmp/Shiva/tpl/camp/c.hpp"]%string) = [lit "/tmp/Shiva/include/shiva/common/CArray.hpp"] /\ check_status 0 3 = 3%Z /\ check_status 2 0 = 2%Z.
Proof. vm_compute. auto. Qed.

(** C95: the generated header says what the options say, and never both CUDA and HIP; the
    configuration fails for both, or for an empty CUDA version, only. *)
Theorem C95_header : forall v version h, configure v version = Some h ->
  (cuda h = true <-> Enabled v "SHIVA_ENABLE_CUDA" \/ Enabled v "ENABLE_CUDA") /\
  (hip h = true <-> Enabled v "SHIVA_ENABLE_HIP" \/ Enabled v "ENABLE_HIP") /\
  (camp h = true <-> Enabled v "SHIVA_ENABLE_CAMP") /\
  (bounds h = true <-> Enabled v "SHIVA_ENABLE_BOUNDS_CHECK") /\
  ~ (cuda h = true /\ hip h = true).
Proof. exact header_lemma. Qed.
Theorem C95_configuration_fails : forall v version, configure v version = None <->
  (Enabled v "SHIVA_ENABLE_CUDA" \/ Enabled v "ENABLE_CUDA") /\
  ((Enabled v "SHIVA_ENABLE_HIP" \/ Enabled v "ENABLE_HIP") \/ version = Some []).
Proof. exact configure_fails. Qed.
(** The version macros, if CUDA is on and the version is known when the header is written. *)
Theorem C95_version : forall v s a b h, configure v (Some s) = Some h -> cuda h = true -> Version s a b ->
  cuda_major h = a /\ cuda_minor h = b.
Proof. exact version_lemma. Qed.
(** But in a stand-alone build it is not: both macros are 0. *)
Theorem C95_standalone_version : forall v parent compiler h, configure v (version_at_config true parent compiler) = Some h ->
  cuda_major h = lit "0" /\ cuda_minor h = lit "0".
Proof. exact standalone_version. Qed.
(** Not so: the version macros are those of the compiler. *)
Theorem C95_standalone_version_refuted : exists v compiler h,
  configure v (version_at_config true false compiler) = Some h /\ cuda h = true /\
  Version compiler (lit "12") (lit "4") /\ cuda_major h <> lit "12".
Proof.
  exists [(lit "ENABLE_CUDA", lit "ON")], (lit "12.4.131"). eexists. split; [vm_compute; reflexivity|]. split; [reflexivity|].
  split; [|discriminate]. split; [vm_compute; intuition discriminate|]. split; [vm_compute; intuition discriminate|].
  right. exists (lit "131"). reflexivity.
Qed.
Example C95_example :
  configure [(lit "SHIVA_ENABLE_CUDA", lit "on"); (lit "ENABLE_HIP", lit "Off"); (lit "SHIVA_ENABLE_CAMP", lit "CAMP-NOTFOUND")]
    (version_at_config false true (lit "11.8.89")) =
  Some {| cuda := true; hip := false; camp := false; bounds := false; cuda_major := lit "11"; cuda_minor := lit "8" |} /\
  configure [(lit "ENABLE_CUDA", lit "1"); (lit "SHIVA_ENABLE_HIP", lit "Y")] None = None.
Proof. vm_compute. auto. Qed.

Print Assumptions C88_exit_status.
Print Assumptions C88_green_build.
Print Assumptions C89_what_ran.
Print Assumptions C89_configuration.
Print Assumptions C89_every_request_refuted.
Print Assumptions C89_nothing_asked_refuted.
Print Assumptions C90_cmake_status_ignored.
Print Assumptions C90_failed_cmake_is_noticed_refuted.
Print Assumptions C91_variables.
Print Assumptions C91_number_of_jobs_refuted.
Print Assumptions C92_coverage.
Print Assumptions C92_report_delivered_refuted.
Print Assumptions C93_unit_tests.
Print Assumptions C93_every_source.
Print Assumptions C93_code_checks.
Print Assumptions C93_no_style_tests.
Print Assumptions C93_doxygen_checked_refuted.
Print Assumptions C94_check_status.
Print Assumptions C94_clean_refuted.
Print Assumptions C94_checked_files.
Print Assumptions C94_headers_checked_refuted.
Print Assumptions C95_header.
Print Assumptions C95_configuration_fails.
Print Assumptions C95_version.
Print Assumptions C95_standalone_version.
Print Assumptions C95_standalone_version_refuted.
