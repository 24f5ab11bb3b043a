(** C101-C103: the continuous integration workflow. *)
From Coq Require Import Bool Ascii String ZArith List Lia.
From Verif Require Import ModelPython ModelConfigBuild ModelCi SpecCi ModelWorkflow SpecWorkflow ProofPython ProofCi ProofWorkflow.
Import ListNotations.

(** A run of the workflow in which ctest runs the tests of the project, for the examples:
    [passes j t]: whether test [t] passes in job [j]; all else is well. *)
Definition a_run (passes : job -> str -> bool) : outside :=
  {| ends := fun _ _ => Done; stopped := fun _ => false; jq_output := lit "310f70ba"; jq_status := 0;
     runner_env := fun _ => [(lit "GITHUB_WORKSPACE", lit "/home/runner/work/Shiva/Shiva")]; processors := fun _ => lit "4";
     available := fun _ => true; image_env := fun _ => []; image_dir := fun _ => lit "/";
     inside := fun j _ _ ws => if eqs (hd [] ws) (lit "ctest") then ctest_status (registered (host_config [] false) true true) (passes j) ws else 0%Z;
     other_status := fun _ => 1%Z |}.
(** The same with a coverage job that fails. *)
Definition uncovered : outside := let o := a_run (fun _ _ => true) in
  {| ends := ends o; stopped := stopped o; jq_output := jq_output o; jq_status := jq_status o; runner_env := runner_env o;
     processors := processors o; available := available o; image_env := image_env o; image_dir := image_dir o;
     inside := fun j => match j with Coverage => fun _ _ _ => 1%Z | _ => inside o j end; other_status := other_status o |}.
(** The same without the file that has the tag. *)
Definition untagged : outside := let o := a_run (fun _ _ => true) in
  {| ends := ends o; stopped := stopped o; jq_output := []; jq_status := 2%Z; runner_env := runner_env o;
     processors := processors o; available := fun image => negb (endswith image (lit "-")); image_env := image_env o; image_dir := image_dir o;
     inside := inside o; other_status := other_status o |}.

(** C101: the deciding job succeeds exactly if its runner works and the documentation job, the code
    check job and the builds of all rows of the matrix have succeeded. *)
Theorem C101_gate : forall o, gate o = Success <->
  ends o Gate 0 = Done /\ doxygen_check o = Success /\ code_checks o = Success /\
  forall n r, nth_error matrix n = Some r -> build_row o n r = Success.
Proof. exact gate_lemma. Qed.
(** Then every row has been configured, built and tested, with its compilers, build type and CUDA
    settings, in the image with the tag of the development container. *)
Theorem C101_builds : forall o n r, gate o = Success -> Plain o -> nth_error matrix n = Some r ->
  exists c, let rn := in_container (inside o (Build n)) c (image_dir o (image_of o r))
                        (lit "/tmp/Shiva/scripts/ci_build_and_test_in_container.sh") [lit "--build-exe"] in
    Describes r c /\ available o (image_of o r) = true /\ exit_status rn = 0%Z /\
    var c "NPROC" = match var r "NPROC" with [] => processors o (Build n) | p => p end /\
    exists before make t, trace rn = before ++ [make; t] /\
      (exists conf, In conf before /\ words conf = configure_words c [lit "--build-exe"] /\ result conf = 0%Z) /\
      Passed (make_all (var c "NPROC")) make /\
      Passed (ctest "-E" "testUncrustifyCheck|testDoxygenCheck|testCppCheck|testClangTidy") t.
Proof. exact gate_builds. Qed.
(** So every unit test of the project has passed in every row. *)
Theorem C101_unit_tests : forall o n r cppcheck clangtidy passes, gate o = Success -> Plain o -> nth_error matrix n = Some r ->
  Tests (inside o (Build n)) cppcheck clangtidy passes ->
  forall name file, In (name, file) unit_tests -> passes (lit name) = true.
Proof. exact gate_unit_tests. Qed.
(** The documentation test and the code checks have been run, each in a configured build directory (unless the
    runner itself has settings for the build). *)
Theorem C101_checks : forall o, gate o = Success -> Plain o -> Bare o Doxygen -> Bare o Checks ->
  RanWith o Doxygen "/usr/bin/clang" "/usr/bin/clang++" "Release" ["--test-doxygen"]%string [["ctest"; "--output-on-failure"; "-R"; "testDoxygenCheck"]]%string /\
  RanWith o Checks "/usr/bin/clang" "/usr/bin/clang++" "Release" ["--code-checks"]%string
    [["ctest"; "--output-on-failure"; "-R"; "testCppCheck|testClangTidy"]]%string.
Proof. exact gate_checks. Qed.
(** A coverage job that has succeeded has built with coverage, made and uploaded the report, and run the unit tests. *)
Theorem C101_coverage : forall o, code_coverage o = Success -> Plain o -> Bare o Coverage ->
  RanWith o Coverage "/usr/bin/gcc" "/usr/bin/g++" "Debug" ["--build-exe"; "--code-coverage"]%string
    [["make"; "-j"; "VERBOSE=1"]; ["make"; "shiva_coverage"];
     ["cp"; "-r"; "/tmp/build/shiva_coverage.info.cleaned"; "/tmp/Shiva/shiva_coverage.info.cleaned"];
     ["make"; "-j"; "VERBOSE=1"]; ["ctest"; "--output-on-failure"; "-E"; "testUncrustifyCheck|testDoxygenCheck|testCppCheck|testClangTidy"]]%string /\
  ends o Coverage 3 = Done.
Proof. exact coverage_ran. Qed.
(** Not so: the coverage job counts. *)
Theorem C101_coverage_counts_refuted : exists o, Plain o /\ code_coverage o = Failure /\ gate o = Success.
Proof.
  exists uncovered. split; [split; [|intros j]; apply unsplit_b; reflexivity|]. split; vm_compute; reflexivity.
Qed.
(** Not so: the job that reads the tag fails if it cannot be read.  (The jobs with an image fail.) *)
Theorem C101_missing_tag_refuted : exists o, jq_status o <> 0%Z /\ tag o = [] /\ fst (tag_job o) = Success.
Proof. exists untagged. split; [discriminate|]. split; reflexivity. Qed.

Definition broken (j : job) (t : str) : bool := match j with Build 8 => negb (eqs t (lit "shiva_test_scaling")) | _ => true end.
Example C101_example :
  gate (a_run (fun _ _ => true)) = Success /\ Plain (a_run (fun _ _ => true)) /\
  (forall passes j, Tests (inside (a_run passes) j) true true (passes j)) /\
  gate (a_run broken) = Failure /\
  rows (a_run broken) 0 matrix = repeat Success 8 ++ [Failure] ++ repeat Success 5 /\
  gate untagged = Failure /\ length matrix = 14 /\
  code_coverage (a_run (fun _ _ => true)) = Success /\ Bare (a_run (fun _ _ => true)) Doxygen /\ Bare (a_run (fun _ _ => true)) Checks /\
  Bare (a_run (fun _ _ => true)) Coverage.
Proof.
  split; [vm_compute; reflexivity|]. split; [split; [|intros j]; apply unsplit_b; reflexivity|].
  split. { intros passes j c past ws _ H. unfold a_run. cbn [inside]. rewrite H, (registered_same c). reflexivity. }
  split; [vm_compute; reflexivity|]. split; [vm_compute; reflexivity|]. split; [vm_compute; reflexivity|]. split; [reflexivity|].
  split; [vm_compute; reflexivity|].
  repeat split; intros x Hx; cbn in Hx; intuition (subst; reflexivity).
Qed.

(** C102: what the rows of the matrix compile: with bounds checks, without HIP and without CAMP,
    with CUDA exactly for the rows that say so (and with 0.0 for its version). *)
Theorem C102_configurations : forall r c coverage compiler, In r matrix -> var c "ENABLE_CUDA" = var r "ENABLE_CUDA" ->
  exists h, configure (host_config c coverage) (version_at_config true false compiler) = Some h /\
    bounds h = true /\ hip h = false /\ camp h = false /\ cuda_major h = lit "0" /\ cuda_minor h = lit "0" /\
    (cuda h = true <-> var r "ENABLE_CUDA" = lit "ON").
Proof. exact config_lemma. Qed.
(** Both compilers in both build types are used, with and without CUDA. *)
Theorem C102_combinations : forall cxx bt cu, In cxx ["g++"; "clang++"]%string -> In bt ["Debug"; "Release"]%string -> In cu [""; "ON"]%string ->
  exists r, In r matrix /\ Uses r cxx /\ var r "CMAKE_BUILD_TYPE" = lit bt /\ var r "ENABLE_CUDA" = lit cu.
Proof. exact combinations_lemma. Qed.
(** The compilers are those of the container's environment; CUDA code goes to the C++ compiler of the
    environment for its host part. *)
Theorem C102_compilers : forall c coverage,
  var (host_config c coverage) "CMAKE_C_COMPILER" = var c "CC" /\
  var (host_config c coverage) "CMAKE_CXX_COMPILER" = var c "CXX" /\
  (falsy (var c "ENABLE_CUDA") = false ->
   var (host_config c coverage) "CMAKE_CUDA_HOST_COMPILER" = var c "CXX" /\
   var (host_config c coverage) "CMAKE_CUDA_ARCHITECTURES" = var c "CMAKE_CUDA_ARCHITECTURES").
Proof. exact compilers_lemma. Qed.
(** Not so: every mode of the library is compiled.  No job, whatever its environment, compiles
    without bounds checks, or with HIP, or with CAMP. *)
Theorem C102_all_modes_refuted : exists mode : bool * bool * bool, forall c coverage version h,
  configure (host_config c coverage) version = Some h -> (bounds h, hip h, camp h) <> mode.
Proof.
  exists (false, true, false). intros c coverage version h H. destruct (bounds_lemma c coverage version h H) as (-> & -> & ->). discriminate.
Qed.
Theorem C102_only_mode : forall c coverage version h, configure (host_config c coverage) version = Some h ->
  bounds h = true /\ hip h = false /\ camp h = false.
Proof. exact bounds_lemma. Qed.
(** Not so: the name of a row says how it is built. *)
Theorem C102_names_refuted : exists r, In r matrix /\ endswith (var r "name") (lit "Release)") = true /\ var r "CMAKE_BUILD_TYPE" = lit "Debug".
Proof. exists (nth 7 matrix []). split; [apply nth_In; vm_compute; lia|]. split; reflexivity. Qed.
Example C102_example :
  In (nth 9 matrix []) matrix /\ var [(lit "ENABLE_CUDA", lit "ON")] "ENABLE_CUDA" = var (nth 9 matrix []) "ENABLE_CUDA" /\
  (exists h, configure (host_config [(lit "ENABLE_CUDA", lit "ON")] true) None = Some h /\ cuda h = true /\ bounds h = true).
Proof.
  split; [apply nth_In; vm_compute; lia|]. split; [reflexivity|]. eexists. split; [vm_compute; reflexivity|]. split; reflexivity.
Qed.

(** C103: whatever happens, at most one run per ref is in progress; *)
Theorem C103_one_run : forall hs, NoDup (map snd (active (history hs))).
Proof. exact one_per_ref. Qed.
(** a run is cancelled only if a later one has started for the same ref; *)
Theorem C103_cancelled : forall hs id, In id (cancelled (history hs)) ->
  exists ref id', Run hs id ref /\ Run hs id' ref /\ id < id'.
Proof. exact cancelled_lemma. Qed.
(** and the last run for a ref is in progress or has ended, and is not cancelled. *)
Theorem C103_last_run : forall hs id ref, Run hs id ref -> (forall id', Run hs id' ref -> id' <= id) ->
  ~ In id (cancelled (history hs)) /\ (In (id, ref) (active (history hs)) \/ In (End id) hs).
Proof. exact last_run_lemma. Qed.
(** Not so: every push to the main branch is tested to the end. *)
Theorem C103_every_push_refuted : exists hs id, hs = [Push (lit "main"); Push (lit "main"); End 1] /\
  Run hs id (lit "refs/heads/main") /\ In id (cancelled (history hs)).
Proof.
  exists [Push (lit "main"); Push (lit "main"); End 1], 0. split; [reflexivity|]. split; [|left; reflexivity].
  apply (run_before [Push (lit "main"); Push (lit "main")]), (run_before [Push (lit "main")]), (run_here []). left. split; reflexivity.
Qed.
Example C103_example :
  let hs := [Push (lit "main"); PullRequest (lit "7"); Push (lit "feature"); PullRequest (lit "8"); PullRequest (lit "7"); End 2] in
  active (history hs) = [(0, lit "refs/heads/main"); (3, lit "refs/pull/7/merge")] /\ cancelled (history hs) = [1] /\ count (history hs) = 4.
Proof. vm_compute. auto. Qed.

Print Assumptions C101_gate.
Print Assumptions C101_builds.
Print Assumptions C101_unit_tests.
Print Assumptions C101_checks.
Print Assumptions C101_coverage.
Print Assumptions C101_coverage_counts_refuted.
Print Assumptions C101_missing_tag_refuted.
Print Assumptions C102_configurations.
Print Assumptions C102_combinations.
Print Assumptions C102_compilers.
Print Assumptions C102_all_modes_refuted.
Print Assumptions C102_only_mode.
Print Assumptions C102_names_refuted.
Print Assumptions C103_one_run.
Print Assumptions C103_cancelled.
Print Assumptions C103_last_run.
Print Assumptions C103_every_push_refuted.
