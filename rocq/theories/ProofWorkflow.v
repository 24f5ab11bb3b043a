From Coq Require Import Bool Ascii String ZArith List Lia.
From Verif Require Import ModelPython ModelConfigBuild ProofPython ProofConfigBuild ModelCi SpecCi ModelWorkflow SpecWorkflow ProofCi.
Import ListNotations.

Lemma succeeded_spec c : succeeded c = true <-> c = Success.
Proof. destruct c; cbn; split; congruence. Qed.
Lemma matrix_success rs : matrix_result rs = Success <-> Forall (fun r => r = Success) rs.
Proof.
  unfold matrix_result. destruct (forallb succeeded rs) eqn:E.
  - split; [intros _|reflexivity]. apply Forall_forall. intros x Hx. rewrite forallb_forall in E. apply succeeded_spec, E, Hx.
  - split; [destruct (existsb _ rs); [discriminate|]; destruct (existsb _ rs); discriminate|].
    intros H. exfalso. assert (forallb succeeded rs = true); [|congruence]. apply forallb_forall. intros x Hx.
    rewrite Forall_forall in H. apply succeeded_spec, H, Hx.
Qed.
Lemma rows_success o m : forall k, Forall (fun r => r = Success) (rows o k m) <->
  forall n r, nth_error m n = Some r -> build_row o (k + n) r = Success.
Proof.
  induction m as [|a m IH]; intros k; cbn [rows].
  - split; [intros _ [|n] r H; discriminate|constructor].
  - rewrite Forall_cons_iff, IH. split.
    + intros [A B] [|n] r H; cbn in H.
      * injection H as <-. rewrite Nat.add_0_r. exact A.
      * rewrite Nat.add_succ_r. exact (B n r H).
    + intros H. split.
      * specialize (H 0 a eq_refl). rewrite Nat.add_0_r in H. exact H.
      * intros n r Hn. specialize (H (S n) r Hn). rewrite Nat.add_succ_r in H. exact H.
Qed.
Lemma linux_success o : linux_builds o = Success <-> forall n r, nth_error matrix n = Some r -> build_row o n r = Success.
Proof. unfold linux_builds. rewrite matrix_success, rows_success. reflexivity. Qed.
Lemma gate_lemma o : gate o = Success <-> ends o Gate 0 = Done /\ doxygen_check o = Success /\ code_checks o = Success /\
  forall n r, nth_error matrix n = Some r -> build_row o n r = Success.
Proof.
  rewrite <- linux_success. unfold gate, return_val.
  assert (T : forall b : bool, (run_steps ([ends o Gate 0] ++ (if occurs (lit "true") (lit (if b then "true" else "false") ++ [nl]) then [Done] else [])
    ++ (if occurs (lit "false") (lit (if b then "true" else "false") ++ [nl]) then [Failed] else [])) = Success) <-> ends o Gate 0 = Done /\ b = true).
  { intros [|]; cbn; destruct (ends o Gate 0); intuition congruence. }
  rewrite T, !andb_true_iff, !succeeded_spec. tauto.
Qed.

Lemma get_over k : forall e base, (forall v, ~ In (k, v) e) -> get (lit k) (over base e) = get (lit k) base.
Proof.
  induction e as [|[k' v] e IH]; intros base H; [reflexivity|]. unfold over. cbn [fold_left fst snd].
  change (get (lit k) (over (put (lit k') v base) e) = get (lit k) base). rewrite IH by (intros v' I; exact (H v' (or_intror I))).
  apply get_put_other. intros E. apply (H v). left. f_equal. unfold lit in E.
  rewrite <- (string_of_list_ascii_of_string k), <- (string_of_list_ascii_of_string k'), E. reflexivity.
Qed.
Lemma over_app base e1 e2 : over base (e1 ++ e2) = over (over base e1) e2.
Proof. apply fold_left_app. Qed.
Lemma get_over_in k v e1 e2 base : (forall v', ~ In (k, v') e2) -> get (lit k) (over base (e1 ++ (k, v) :: e2)) = Some v.
Proof.
  intros H. rewrite over_app. change ((k, v) :: e2) with ([(k, v)] ++ e2). rewrite over_app, get_over by exact H. apply get_put.
Qed.

(** A step that ran a script, with the script's docker command understood. *)
Lemma script_done o j e image c cmd : script o j e = Done ->
  docker_run [] (with_nproc (over (runner_env o j) e) (processors o j)) (docker_words (with_nproc (over (runner_env o j) e) (processors o j))) = Some (c, image, cmd) ->
  forall r, ci_job (inside o j) (image_env o image) (over (runner_env o j) e) (processors o j) (image_dir o image) = Some r ->
  available o image = true /\ exit_status r = 0%Z.
Proof.
  unfold script, script_status. destruct (stopped o j); [discriminate|]. cbv zeta. intros H D r R. rewrite D in H.
  destruct (available o image); [|discriminate]. rewrite R in H. destruct (exit_status r =? 0)%Z eqn:E; [|discriminate].
  split; [reflexivity|]. apply Z.eqb_eq, E.
Qed.
Lemma build_row_done o n r : build_row o n r = Success -> script o (Build n) (build_env o r) = Done.
Proof.
  unfold build_row, run_job. destruct (forallb _ _); [|discriminate]. cbn [run_steps].
  destruct (ends o (Build n) 0); try discriminate. destruct (ends o (Build n) 1); try discriminate.
  destruct (ends o (Build n) 2); try discriminate. destruct (script _ _ _); [reflexivity|discriminate|discriminate].
Qed.

Lemma tag_known o ss : run_job [fst (tag_job o)] ss = Success -> tag o = jq_output o.
Proof.
  unfold run_job, tag. cbn [forallb]. rewrite andb_true_r. destruct (succeeded (fst (tag_job o))); [reflexivity|discriminate].
Qed.

Section Job.
Context (e : dict str) (nproc : str) (dargs bargs : list str).
Context (HD : Words (var e "DOCKER_RUN_ARGS") dargs) (HO : Options dargs) (HB : Words (var e "BUILD_AND_TEST_ARGS") bargs).
Context (HU : Forall (fun x => Unsplit (var e x)) ["GITHUB_WORKSPACE"; "HOST_CONFIG"; "CMAKE_C_COMPILER"; "CMAKE_CXX_COMPILER"; "ENABLE_CUDA";
    "CMAKE_CUDA_ARCHITECTURES"; "DOCKER_REPOSITORY"]%string).
Context (HN : var e "DOCKER_REPOSITORY" <> []) (HS : startswith (var e "DOCKER_REPOSITORY") (lit "-") = false).
Lemma job_image : exists c, docker_run [] (with_nproc e nproc) (docker_words (with_nproc e nproc)) =
  Some (c, var e "DOCKER_REPOSITORY", container_script :: bargs).
Proof using All.
  assert (V : forall x, lit x <> lit "NPROC" -> var e x = var (with_nproc e nproc) x) by (intros x Hx; symmetry; apply with_nproc_other, Hx).
  revert HD HB HN HS HU. rewrite (V "DOCKER_RUN_ARGS"%string), (V "BUILD_AND_TEST_ARGS"%string), (V "DOCKER_REPOSITORY"%string) by (vm_compute; discriminate).
  intros hD hB hN hS hU. 
  repeat (apply Forall_cons_iff in hU; destruct hU as [?H hU]).
  rewrite V in H, H0, H1, H2, H3, H4, H5 by (vm_compute; discriminate).
  eexists. exact (docker_run_eq _ dargs bargs hD hB H H0 H1 H2 H3 H4 H5 hN [] HO hS).
Qed.
End Job.

Lemma unsplit_b s : forallb (fun c => negb (ifs c)) s = true -> Unsplit s.
Proof.
  intros H c I. rewrite forallb_forall in H. specialize (H c I). apply negb_true_iff in H. unfold ifs in H.
  repeat split; intros ->; discriminate.
Qed.
Lemma unsplit_app a b : Unsplit a -> Unsplit b -> Unsplit (a ++ b).
Proof. intros A B c H. apply in_app_or in H. destruct H; [apply A|apply B]; assumption. Qed.
Definition gpu_args : str := lit "--cpus=1 --memory=64g --runtime=nvidia --gpus all".
Definition gpu_words : list str := map lit ["--cpus=1"; "--memory=64g"; "--runtime=nvidia"; "--gpus"; "all"]%string.
Lemma gpu_words_ok : Words gpu_args gpu_words /\ Options gpu_words.
Proof.
  assert (M : forall w r ws, w <> [] -> Unsplit w -> Words r ws -> Words (w ++ " "%char :: r) (w :: ws)).
  { intros w r ws N H HR. exact (a_word [] w " "%char r ws (Forall_nil _) N H (or_introl eq_refl) HR). }
  split.
  - apply (M (lit "--cpus=1")); [discriminate|apply unsplit_b; reflexivity|]. apply (M (lit "--memory=64g")); [discriminate|apply unsplit_b; reflexivity|].
    apply (M (lit "--runtime=nvidia")); [discriminate|apply unsplit_b; reflexivity|]. apply (M (lit "--gpus")); [discriminate|apply unsplit_b; reflexivity|].
    apply (last_word [] (lit "all")); [apply Forall_nil|discriminate|apply unsplit_b; reflexivity].
  - apply (option_eq (lit "-cpus") (lit "1")); [vm_compute; intuition discriminate|reflexivity|reflexivity|].
    apply (option_eq (lit "-memory") (lit "64g")); [vm_compute; intuition discriminate|reflexivity|reflexivity|].
    apply (option_eq (lit "-runtime") (lit "nvidia")); [vm_compute; intuition discriminate|reflexivity|reflexivity|].
    apply option_gpus. apply no_options.
Qed.
Definition row_ok (r : dict str) : bool :=
  forallb (fun x => forallb (fun c => negb (ifs c)) (var r x))
    ["CMAKE_C_COMPILER"; "CMAKE_CXX_COMPILER"; "ENABLE_CUDA"; "CMAKE_CUDA_ARCHITECTURES"; "DOCKER_REPOSITORY"]%string
  && (eqs (var r "DOCKER_RUN_ARGS") [] || eqs (var r "DOCKER_RUN_ARGS") gpu_args) && eqs (var r "BUILD_AND_TEST_ARGS") []
  && startswith (var r "DOCKER_REPOSITORY") (lit "g") && (eqs (var r "ENABLE_CUDA") [] || eqs (var r "ENABLE_CUDA") (lit "ON"))
  && negb (eqs (var r "CMAKE_BUILD_TYPE") []).
Lemma rows_ok : forallb row_ok matrix = true.
Proof. vm_compute. reflexivity. Qed.
Lemma row_facts r : In r matrix ->
  Forall (fun x => Unsplit (var r x)) ["CMAKE_C_COMPILER"; "CMAKE_CXX_COMPILER"; "ENABLE_CUDA"; "CMAKE_CUDA_ARCHITECTURES"; "DOCKER_REPOSITORY"]%string /\
  (exists dargs, Words (var r "DOCKER_RUN_ARGS") dargs /\ Options dargs) /\
  var r "BUILD_AND_TEST_ARGS" = [] /\ (exists s, var r "DOCKER_REPOSITORY" = lit "g" ++ s) /\
  (var r "ENABLE_CUDA" = [] \/ var r "ENABLE_CUDA" = lit "ON").
Proof.
  intros H. pose proof rows_ok as K. rewrite forallb_forall in K. specialize (K r H). unfold row_ok in K.
  rewrite !andb_true_iff, !orb_true_iff, !eqs_eq in K. destruct K as (((((K1 & K2) & K3) & K4) & K5) & _).
  split. { apply Forall_forall. intros x Hx. rewrite forallb_forall in K1. apply unsplit_b, (K1 x Hx). }
  split. { destruct K2 as [-> | ->]; [exists []; split; [apply no_word; constructor|constructor]|exists gpu_words; exact gpu_words_ok]. }
  split; [exact K3|]. split; [|exact K5]. apply startswith_spec in K4. exact K4.
Qed.

Lemma build_gets o r base x v : In (x, v) (build_env o r) -> get (lit x) (over base (build_env o r)) = Some v.
Proof.
  intros H. unfold build_env in *.
  assert (G : forall pre k w post, (k, w) = (x, v) -> (forall v', ~ In (k, v') post) ->
    get (lit x) (over base (pre ++ (k, w) :: post)) = Some v).
  { intros pre k w post E N. injection E as -> ->. apply get_over_in, N. }
  repeat match type of H with
  | In _ (?a :: ?l) => destruct H as [H|H]
  | In _ [] => destruct H
  end;
  match goal with |- get _ (over _ ?l) = _ =>
    let rec go pre post := match post with
      | ?a :: ?post' => first [ refine (G pre (fst a) (snd a) post' H _); cbn; intuition discriminate | let q := eval cbv [app] in (pre ++ [a]) in go q post' ]
    end in go (@nil (string * str)) l
  end.
Qed.

Lemma build_words : Words (lit " --build-exe") [lit "--build-exe"].
Proof. apply (last_word [" "%char] (lit "--build-exe")); [repeat constructor|discriminate|apply unsplit_b; reflexivity]. Qed.
Lemma build_var o r base x v : In (x, v) (build_env o r) -> var (over base (build_env o r)) x = v.
Proof. intros H. unfold var at 1. rewrite (build_gets o r base x v H). reflexivity. Qed.
Lemma asked_only o : occurs (lit o) (lit "--build-exe") = false -> ~ Asked [lit "--build-exe"] o.
Proof. intros H. apply asks_false. exact H. Qed.

Lemma build_row_lemma o n r : build_row o n r = Success -> Plain o -> nth_error matrix n = Some r ->
  exists c, let rn := in_container (inside o (Build n)) c (image_dir o (image_of o r)) container_script [lit "--build-exe"] in
    Describes r c /\ available o (image_of o r) = true /\ exit_status rn = 0%Z /\
    var c "NPROC" = match var r "NPROC" with [] => processors o (Build n) | p => p end /\
    exists before make t, trace rn = before ++ [make; t] /\
      (exists conf, In conf before /\ words conf = configure_words c [lit "--build-exe"] /\ result conf = 0%Z) /\
      Passed (make_all (var c "NPROC")) make /\
      Passed (ctest "-E" "testUncrustifyCheck|testDoxygenCheck|testCppCheck|testClangTidy") t.
Proof.
  intros S [PT PW] HR. pose proof (tag_known _ _ S) as TK. apply build_row_done in S. apply nth_error_In in HR.
  destruct (row_facts r HR) as (U & (dargs & D & O) & A & (s & Rp) & _).
  set (base := runner_env o (Build n)) in *. set (e := over base (build_env o r)) in *.
  assert (G : forall x v, In (x, v) (build_env o r) -> var e x = v) by (intros; apply build_var; assumption).
  assert (W : var e "GITHUB_WORKSPACE" = var base "GITHUB_WORKSPACE").
  { unfold var, e. rewrite get_over; [reflexivity|]. cbn. intuition discriminate. }
  assert (Im : var e "DOCKER_REPOSITORY" = image_of o r) by (unfold image_of; rewrite <- TK; apply G; cbn; auto 20).
  assert (I0 : image_of o r = lit "g" ++ s ++ lit "-" ++ jq_output o) by (unfold image_of; rewrite Rp, <- !app_assoc; reflexivity).
  assert (E1 : var e "CMAKE_CXX_COMPILER" = var r "CMAKE_CXX_COMPILER") by (apply G; cbn; auto 20).
  assert (E2 : var e "CMAKE_C_COMPILER" = var r "CMAKE_C_COMPILER") by (apply G; cbn; auto 20).
  assert (E3 : var e "CMAKE_BUILD_TYPE" = var r "CMAKE_BUILD_TYPE") by (apply G; cbn; auto 20).
  assert (E4 : var e "ENABLE_CUDA" = var r "ENABLE_CUDA") by (apply G; cbn; auto 20).
  assert (E5 : var e "CMAKE_CUDA_ARCHITECTURES" = var r "CMAKE_CUDA_ARCHITECTURES") by (apply G; cbn; auto 20).
  assert (E6 : get (lit "NPROC") e = Some (var r "NPROC")) by (apply build_gets; cbn; auto 20).
  assert (E7 : var e "BUILD_AND_TEST_ARGS" = lit " --build-exe").
  { rewrite (G "BUILD_AND_TEST_ARGS"%string (var r "BUILD_AND_TEST_ARGS" ++ lit " --build-exe")) by (cbn; auto 20). rewrite A. reflexivity. }
  assert (E8 : var e "DOCKER_RUN_ARGS" = var r "DOCKER_RUN_ARGS") by (apply G; cbn; auto 20).
  assert (E9 : var e "HOST_CONFIG" = lit "hostconfigs/environment.cmake") by (apply G; cbn; auto 20).
  repeat (apply Forall_cons_iff in U; destruct U as [?U U]).
  assert (HU : Forall (fun x => Unsplit (var e x)) ["GITHUB_WORKSPACE"; "HOST_CONFIG"; "CMAKE_C_COMPILER"; "CMAKE_CXX_COMPILER"; "ENABLE_CUDA";
    "CMAKE_CUDA_ARCHITECTURES"; "DOCKER_REPOSITORY"]%string).
  { repeat (apply Forall_cons); [rewrite W; apply PW|rewrite E9; apply unsplit_b; reflexivity|rewrite E2; assumption|rewrite E1; assumption
      |rewrite E4; assumption|rewrite E5; assumption| |apply Forall_nil].
    rewrite Im. unfold image_of. apply unsplit_app; [assumption|]. apply unsplit_app; [apply unsplit_b; reflexivity|exact PT]. }
  assert (HN : var e "DOCKER_REPOSITORY" <> []) by (rewrite Im, I0; discriminate).
  assert (HS : startswith (var e "DOCKER_REPOSITORY") (lit "-") = false) by (rewrite Im, I0; reflexivity).
  rewrite <- E8 in D. pose proof build_words as HB. rewrite <- E7 in HB.
  destruct (job_image e (processors o (Build n)) dargs _ D O HB HU HN HS) as [ci DI].
  destruct (ci_lemma (inside o (Build n)) (image_env o (var e "DOCKER_REPOSITORY")) e (processors o (Build n)) (image_dir o (var e "DOCKER_REPOSITORY"))
    dargs _ D O HB HU HN HS) as (c & CJ & C1 & C2 & C3 & C4 & C5 & C6 & C7).
  destruct (script_done _ _ _ _ _ _ S DI _ CJ) as [AV EX]. rewrite Im in *.
  exists c. cbv zeta. split.
  { repeat split; congruence. }
  split; [exact AV|]. split; [exact EX|]. split; [rewrite C7, E6; destruct (var r "NPROC"); reflexivity|].
  destruct (build_lemma _ _ _ _ _ EX) as (before & mk & ts & T & _ & PM & PTs).
  { apply asks_spec. reflexivity. }
  { apply asked_only. reflexivity. }
  { apply asked_only. reflexivity. }
  { apply asked_only. reflexivity. }
  destruct PTs as [[X _]|(t & -> & Pt)]; [exfalso; revert X; apply asked_only; reflexivity|].
  exists before, mk, t. split; [exact T|]. split; [|split; [exact PM|exact Pt]].
  destruct (plan_lemma _ _ _ _ _ EX) as (e1 & e2 & e3 & e4 & evs & T' & W3 & R3 & W4 & R4 & F).
  exists e3. split; [|split; [exact W3|exact R3]].
  (* the two commands of the plan are the last two events *)
  assert (L : exists a b, evs = [a; b]).
  { inversion F as [|? a ? l _ F1]; subst. inversion F1 as [|? b ? l' _ F2]; subst. inversion F2; subst. eauto. }
  destruct L as (a & b & ->). rewrite T in T'.
  assert (before = [e1; e2; e3; e4]).
  { assert (Q : before ++ [mk] ++ [t] = [e1; e2; e3; e4] ++ [a] ++ [b]) by exact T'. rewrite !app_assoc in Q.
    apply app_inj_tail in Q. destruct Q as [Q _]. apply app_inj_tail in Q. exact (proj1 Q). }
  subst before. cbn; auto.
Qed.

(** The jobs that have no row of the matrix. *)
Section Plain_job.
Context (o : outside) (j : job) (cc cxx bt : string) (args : string) (ws : list string).
Let e : dict str := over (runner_env o j)
  [("DOCKER_REPOSITORY"%string, lit "geosx/ubuntu:22.04-" ++ jq_output o); ("HOST_CONFIG"%string, lit "hostconfigs/environment.cmake");
   ("CMAKE_CXX_COMPILER"%string, lit cxx); ("CMAKE_C_COMPILER"%string, lit cc); ("CMAKE_BUILD_TYPE"%string, lit bt);
   ("BUILD_AND_TEST_ARGS"%string, lit args)].
Context (HP : Plain o) (HB : Bare o j) (HA : Words (lit args) (map lit ws)).
Context (Hcc : Unsplit (lit cc)) (Hcxx : Unsplit (lit cxx)).
Lemma plain_job : script o j
    [("DOCKER_REPOSITORY"%string, lit "geosx/ubuntu:22.04-" ++ jq_output o); ("HOST_CONFIG"%string, lit "hostconfigs/environment.cmake");
     ("CMAKE_CXX_COMPILER"%string, lit cxx); ("CMAKE_C_COMPILER"%string, lit cc); ("CMAKE_BUILD_TYPE"%string, lit bt);
     ("BUILD_AND_TEST_ARGS"%string, lit args)] = Done ->
  forall cmds, commands [] (map lit ws) = map (map lit) cmds -> RanWith o j cc cxx bt ws cmds.
Proof using All.
  intros S cmds HC. destruct HP as [PT PW].
  assert (N : forall x, In x ["ENABLE_CUDA"; "CMAKE_CUDA_ARCHITECTURES"; "DOCKER_RUN_ARGS"; "NPROC"]%string -> get (lit x) e = None).
  { intros x Hx. unfold e. rewrite get_over; [exact (HB x Hx)|]. intros v I. cbn in Hx, I. intuition congruence. }
  assert (N0 : forall x, In x ["ENABLE_CUDA"; "CMAKE_CUDA_ARCHITECTURES"; "DOCKER_RUN_ARGS"; "NPROC"]%string -> var e x = []).
  { intros x Hx. unfold var. rewrite (N x Hx). reflexivity. }
  assert (W : var e "GITHUB_WORKSPACE" = var (runner_env o j) "GITHUB_WORKSPACE").
  { unfold var, e. rewrite get_over; [reflexivity|]. cbn. intuition discriminate. }
  assert (G : forall pre x v post, e = over (runner_env o j) (pre ++ (x, v) :: post) -> (forall v', ~ In (x, v') post) -> var e x = v).
  { intros pre x v post E H. unfold var. rewrite E, get_over_in by exact H. reflexivity. }
  set (image := lit "geosx/ubuntu:22.04-" ++ jq_output o) in *.
  assert (Im : var e "DOCKER_REPOSITORY" = image) by (eapply (G []); [reflexivity|]; cbn; intuition discriminate).
  assert (E1 : var e "HOST_CONFIG" = lit "hostconfigs/environment.cmake") by (eapply (G [_]); [reflexivity|]; cbn; intuition discriminate).
  assert (E2 : var e "CMAKE_CXX_COMPILER" = lit cxx) by (eapply (G [_; _]); [reflexivity|]; cbn; intuition discriminate).
  assert (E3 : var e "CMAKE_C_COMPILER" = lit cc) by (eapply (G [_; _; _]); [reflexivity|]; cbn; intuition discriminate).
  assert (E4 : var e "CMAKE_BUILD_TYPE" = lit bt) by (eapply (G [_; _; _; _]); [reflexivity|]; cbn; intuition discriminate).
  assert (E5 : var e "BUILD_AND_TEST_ARGS" = lit args) by (eapply (G [_; _; _; _; _]); [reflexivity|]; cbn; intuition discriminate).
  assert (HU : Forall (fun x => Unsplit (var e x)) ["GITHUB_WORKSPACE"; "HOST_CONFIG"; "CMAKE_C_COMPILER"; "CMAKE_CXX_COMPILER"; "ENABLE_CUDA";
    "CMAKE_CUDA_ARCHITECTURES"; "DOCKER_REPOSITORY"]%string).
  { repeat (apply Forall_cons); [rewrite W; apply PW|rewrite E1; apply unsplit_b; reflexivity|rewrite E3; assumption|rewrite E2; assumption
      |rewrite N0 by (cbn; auto 20); apply unsplit_b; reflexivity|rewrite N0 by (cbn; auto 20); apply unsplit_b; reflexivity| |apply Forall_nil].
    rewrite Im. apply unsplit_app; [apply unsplit_b; reflexivity|exact PT]. }
  assert (HN : var e "DOCKER_REPOSITORY" <> []) by (rewrite Im; discriminate).
  assert (HS : startswith (var e "DOCKER_REPOSITORY") (lit "-") = false) by (rewrite Im; reflexivity).
  assert (D : Words (var e "DOCKER_RUN_ARGS") []) by (rewrite N0 by (cbn; auto 20); apply no_word; constructor).
  pose proof HA as HA'. rewrite <- E5 in HA'.
  destruct (job_image e (processors o j) [] _ D no_options HA' HU HN HS) as [ci DI].
  destruct (ci_lemma (inside o j) (image_env o (var e "DOCKER_REPOSITORY")) e (processors o j) (image_dir o (var e "DOCKER_REPOSITORY"))
    [] _ D no_options HA' HU HN HS) as (c & CJ & C1 & C2 & C3 & C4 & C5 & C6 & C7).
  destruct (script_done _ _ _ _ _ _ S DI _ CJ) as [AV EX]. rewrite Im in *.
  exists c. cbv zeta. fold image.
  split; [congruence|]. split; [congruence|]. split; [congruence|]. split; [congruence|]. split; [rewrite C5; apply N0; cbn; auto 20|].
  split; [exact AV|]. split; [exact EX|].
  destruct (plan_lemma _ _ _ _ _ EX) as (e1 & e2 & e3 & e4 & evs & T' & W3 & R3 & W4 & R4 & F).
  exists e1, e2, e3, e4, evs. split; [exact T'|]. split; [exact W3|]. split; [exact R3|].
  rewrite C7, (N "NPROC"%string) in F by (cbn; auto 20). rewrite HC in F. exact F.
Qed.
End Plain_job.
Lemma three_steps need a b c rest : run_job need (a :: b :: c :: rest) = Success -> c = Done /\ run_steps rest = Success.
Proof.
  unfold run_job. destruct (forallb _ _); [|discriminate]. cbn [run_steps].
  destruct a; try discriminate. destruct b; try discriminate. destruct c; try discriminate. auto.
Qed.
Lemma one_word w : lit w <> [] -> forallb (fun c => negb (ifs c)) (lit w) = true -> Words (lit w) (map lit [w]).
Proof. intros N H. apply (last_word [] (lit w)); [constructor|exact N|apply unsplit_b, H]. Qed.
Lemma doxygen_lemma o : doxygen_check o = Success -> Plain o -> Bare o Doxygen ->
  RanWith o Doxygen "/usr/bin/clang" "/usr/bin/clang++" "Release" ["--test-doxygen"]%string [["ctest"; "--output-on-failure"; "-R"; "testDoxygenCheck"]]%string.
Proof.
  intros S P B. pose proof (tag_known _ _ S) as TK. apply three_steps in S. destruct S as [S _]. unfold check_env in S. rewrite TK in S.
  eapply plain_job; [exact P|exact B| | | |exact S|reflexivity].
  - apply one_word; [discriminate|reflexivity].
  - apply unsplit_b; reflexivity.
  - apply unsplit_b; reflexivity.
Qed.
Lemma checks_lemma o : code_checks o = Success -> Plain o -> Bare o Checks ->
  RanWith o Checks "/usr/bin/clang" "/usr/bin/clang++" "Release" ["--code-checks"]%string
    [["ctest"; "--output-on-failure"; "-R"; "testCppCheck|testClangTidy"]]%string.
Proof.
  intros S P B. pose proof (tag_known _ _ S) as TK. apply three_steps in S. destruct S as [S _]. unfold check_env in S. rewrite TK in S.
  eapply plain_job; [exact P|exact B| | | |exact S|reflexivity].
  - apply one_word; [discriminate|reflexivity].
  - apply unsplit_b; reflexivity.
  - apply unsplit_b; reflexivity.
Qed.
Lemma gate_checks o : gate o = Success -> Plain o -> Bare o Doxygen -> Bare o Checks ->
  RanWith o Doxygen "/usr/bin/clang" "/usr/bin/clang++" "Release" ["--test-doxygen"]%string [["ctest"; "--output-on-failure"; "-R"; "testDoxygenCheck"]]%string /\
  RanWith o Checks "/usr/bin/clang" "/usr/bin/clang++" "Release" ["--code-checks"]%string
    [["ctest"; "--output-on-failure"; "-R"; "testCppCheck|testClangTidy"]]%string.
Proof.
  intros G P B1 B2. apply gate_lemma in G. destruct G as (_ & G1 & G2 & _). split; [apply doxygen_lemma|apply checks_lemma]; assumption.
Qed.
Lemma coverage_ran o : code_coverage o = Success -> Plain o -> Bare o Coverage ->
  RanWith o Coverage "/usr/bin/gcc" "/usr/bin/g++" "Debug" ["--build-exe"; "--code-coverage"]%string
    [["make"; "-j"; "VERBOSE=1"]; ["make"; "shiva_coverage"];
     ["cp"; "-r"; "/tmp/build/shiva_coverage.info.cleaned"; "/tmp/Shiva/shiva_coverage.info.cleaned"];
     ["make"; "-j"; "VERBOSE=1"]; ["ctest"; "--output-on-failure"; "-E"; "testUncrustifyCheck|testDoxygenCheck|testCppCheck|testClangTidy"]]%string /\
  ends o Coverage 3 = Done.
Proof.
  intros S P B. pose proof (tag_known _ _ S) as TK. apply three_steps in S. destruct S as [S L]. unfold coverage_env in S. rewrite TK in S. split.
  - eapply plain_job; [exact P|exact B| | | |exact S|reflexivity].
    + apply (a_word [] (lit "--build-exe") " "%char (lit "--code-coverage") [lit "--code-coverage"]);
        [constructor|discriminate|apply unsplit_b; reflexivity|left; reflexivity|]. apply (one_word "--code-coverage"); [discriminate|reflexivity].
    + apply unsplit_b; reflexivity.
    + apply unsplit_b; reflexivity.
  - cbn [run_steps] in L. destruct (ends o Coverage 3); [reflexivity|discriminate|discriminate].
Qed.

(** Every event of a run has the exit status the world gives to it. *)
Definition Coherent (w : world) (l : list event) : Prop :=
  forall pre ev post, l = pre ++ ev :: post -> result ev = w pre (at_dir ev) (words ev).
Lemma coherent_nil w : Coherent w [].
Proof. intros [|x pre] ev post H; discriminate. Qed.
Lemma coherent_exec w st ws : Coherent w (past st) -> Coherent w (past (fst (exec w st ws))).
Proof.
  intros H. rewrite exec_past. intros pre ev post E. destruct post as [|y post] using rev_ind.
  - apply app_inj_tail in E. destruct E as [-> <-]. reflexivity.
  - clear IHpost. change (pre ++ ev :: post ++ [y]) with (pre ++ (ev :: post) ++ [y]) in E. rewrite app_assoc in E.
    apply app_inj_tail in E. destruct E as [E _]. exact (H pre ev post E).
Qed.
Lemma coherent_or_die w st ws rest : Coherent w (past st) -> (forall st', Coherent w (past st') -> Coherent w (trace (rest st'))) ->
  Coherent w (trace (or_die w st ws rest)).
Proof.
  intros H R. unfold or_die. pose proof (coherent_exec w st ws H) as C. destruct (exec w st ws) as [st' s]. cbn [fst] in C.
  destruct (s =? 0)%Z; [apply R, C|exact C].
Qed.
Lemma in_container_coherent w e cwd argv0 args : Coherent w (trace (in_container w e cwd argv0 args)).
Proof.
  unfold in_container. pose proof (coherent_exec w {| past := []; dir := cwd |} [lit "env"] (coherent_nil w)) as C.
  destruct (exec w _ _) as [st s]. cbn [fst] in C.
  apply coherent_or_die; [exact C|]. clear C st s. intros st C. destruct (eqs _ _); [exact C|]. destruct (eqs _ _); [exact C|].
  apply coherent_or_die; [exact C|]. clear C st. intros st C. apply coherent_or_die; [exact C|]. clear C st. intros st C.
  assert (F : forall st', Coherent w (past st') -> Coherent w (trace (finish st' 0))) by (intros st' H; exact H).
  destruct (asks args "--test-code-style"); [apply coherent_or_die; auto|].
  destruct (asks args "--test-doxygen"); [apply coherent_or_die; auto|].
  destruct (asks args "--code-checks"); [apply coherent_or_die; auto|].
  assert (B : forall st', Coherent w (past st') -> Coherent w (trace (build_job w e args st'))).
  { intros st' H. unfold build_job. destruct (asks args "--build-exe"); [|exact H]. apply coherent_or_die; [exact H|]. intros st2 H2.
    destruct (asks args "--disable-unit-tests"); [exact H2|]. apply coherent_or_die; auto. }
  unfold coverage_job. destruct (asks args "--code-coverage"); [|apply B, C].
  apply coherent_or_die; [exact C|]. intros st2 H2. apply coherent_or_die; [exact H2|]. intros st3 H3. apply B, coherent_exec, H3.
Qed.

Lemma host_enabled c cov : Enabled (host_config c cov) "SHIVA_ENABLE_BLT" /\ Enabled (host_config c cov) "SHIVA_ENABLE_UNIT_TESTS".
Proof. rewrite <- !on_spec. unfold host_config. destruct (negb _); split; reflexivity. Qed.
Lemma unit_tests_run o n r cpp tidy passes : build_row o n r = Success -> Plain o -> nth_error matrix n = Some r ->
  Tests (inside o (Build n)) cpp tidy passes -> forall name file, In (name, file) unit_tests -> passes (lit name) = true.
Proof.
  intros S P R T. destruct (build_row_lemma o n r S P R) as (c & _ & _ & _ & _ & before & mk & t & TR & _ & PM & (W & D & Z)).
  pose proof (in_container_coherent (inside o (Build n)) c (image_dir o (image_of o r)) container_script [lit "--build-exe"]) as C.
  specialize (C (before ++ [mk]) t []). rewrite TR, <- app_assoc in C. specialize (C eq_refl). rewrite D, W, Z in C.
  rewrite (T c) in C.
  - destruct (host_enabled c false) as [H1 H2]. apply (build_tests_lemma _ cpp tidy passes H1 H2). symmetry. exact C.
  - exists mk, (var c "NPROC"). split; [apply in_or_app; right; left; reflexivity|exact PM].
  - reflexivity.
Qed.
Lemma gate_unit_tests o n r cpp tidy passes : gate o = Success -> Plain o -> nth_error matrix n = Some r ->
  Tests (inside o (Build n)) cpp tidy passes -> forall name file, In (name, file) unit_tests -> passes (lit name) = true.
Proof. intros G P R. apply (unit_tests_run o n r cpp tidy passes); auto. apply gate_lemma in G. apply G, R. Qed.
Lemma gate_builds o n r : gate o = Success -> Plain o -> nth_error matrix n = Some r ->
  exists c, let rn := in_container (inside o (Build n)) c (image_dir o (image_of o r)) container_script [lit "--build-exe"] in
    Describes r c /\ available o (image_of o r) = true /\ exit_status rn = 0%Z /\
    var c "NPROC" = match var r "NPROC" with [] => processors o (Build n) | p => p end /\
    exists before make t, trace rn = before ++ [make; t] /\
      (exists conf, In conf before /\ words conf = configure_words c [lit "--build-exe"] /\ result conf = 0%Z) /\
      Passed (make_all (var c "NPROC")) make /\
      Passed (ctest "-E" "testUncrustifyCheck|testDoxygenCheck|testCppCheck|testClangTidy") t.
Proof. intros G P R. apply build_row_lemma; auto. apply gate_lemma in G. apply G, R. Qed.

(** ** Configurations *)
Lemma config_lemma r c cov compiler : In r matrix -> var c "ENABLE_CUDA" = var r "ENABLE_CUDA" ->
  exists h, configure (host_config c cov) (version_at_config true false compiler) = Some h /\
    bounds h = true /\ hip h = false /\ camp h = false /\ cuda_major h = lit "0" /\ cuda_minor h = lit "0" /\
    (cuda h = true <-> var r "ENABLE_CUDA" = lit "ON").
Proof.
  intros R E. destruct (row_facts r R) as (_ & _ & _ & _ & [Q|Q]); rewrite Q in E; rewrite Q; eexists; (split; [unfold host_config, version_at_config; rewrite E; reflexivity|]);
    cbn [bounds hip camp cuda cuda_major cuda_minor]; unfold on; cbn; repeat split; try discriminate; reflexivity.
Qed.
Lemma bounds_lemma c cov version h : configure (host_config c cov) version = Some h ->
  bounds h = true /\ hip h = false /\ camp h = false.
Proof.
  intros H. apply header_lemma in H. destruct H as (_ & H2 & H3 & H4 & _).
  assert (B : on (host_config c cov) "SHIVA_ENABLE_BOUNDS_CHECK" = true /\ on (host_config c cov) "SHIVA_ENABLE_HIP" = false /\
    on (host_config c cov) "ENABLE_HIP" = false /\ on (host_config c cov) "SHIVA_ENABLE_CAMP" = false).
  { unfold host_config. destruct (negb _); repeat split; reflexivity. }
  destruct B as (B1 & B2 & B3 & B4).
  split; [apply H4, on_spec, B1|]. split.
  - destruct (hip h); [|reflexivity]. exfalso. destruct (proj1 H2 eq_refl) as [Y|Y]; apply on_spec in Y; congruence.
  - destruct (camp h); [|reflexivity]. exfalso. pose proof (proj1 H3 eq_refl) as Y. apply on_spec in Y. congruence.
Qed.

(** ** Concurrency *)
Lemma started_spec h ref : started h = Some ref <-> Starts h ref.
Proof.
  unfold Starts. destruct h as [b|n|b|id]; cbn [started].
  - destruct (eqs b (lit "main")) eqn:E.
    + apply eqs_eq in E. subst. split; [intros H; injection H as <-; left; split; reflexivity|].
      intros [[_ ->]|[(n & H & _)|(b & H & _)]]; [reflexivity|discriminate|discriminate].
    + apply eqs_neq in E. split; [discriminate|]. intros [[H _]|[(n & H & _)|(b' & H & _)]]; [injection H as ->; contradiction|discriminate|discriminate].
  - split; [intros H; injection H as <-; right; left; eauto|].
    intros [[H _]|[(n' & H & ->)|(b & H & _)]]; [discriminate|injection H as ->; reflexivity|discriminate].
  - split; [intros H; injection H as <-; right; right; eauto|].
    intros [[H _]|[(n' & H & _)|(b' & H & ->)]]; [discriminate|discriminate|injection H as ->; reflexivity].
  - split; [discriminate|]. intros [[H _]|[(n' & H & _)|(b' & H & _)]]; discriminate.
Qed.
Lemma history_snoc hs h : history (hs ++ [h]) = happen (history hs) h.
Proof. unfold history. apply fold_left_app. Qed.
Lemma run_snoc hs h id ref : Run (hs ++ [h]) id ref <-> Run hs id ref \/ Starts h ref /\ id = count (history hs).
Proof.
  split.
  - intros H. remember (hs ++ [h]) as l eqn:E. destruct H as [hs' h' ref' S|hs' h' id ref' R]; apply app_inj_tail in E; destruct E as [-> ->]; auto.
  - intros [H|[H ->]]; [apply run_before, H|apply run_here, H].
Qed.
Lemma run_nil id ref : ~ Run [] id ref.
Proof. intros H. remember [] as l eqn:E. destruct H; destruct hs; discriminate. Qed.

Definition Sound (hs : list happening) : Prop := let s := history hs in
  (forall id ref, Run hs id ref -> id < count s) /\
  (forall id r1 r2, Run hs id r1 -> Run hs id r2 -> r1 = r2) /\
  (forall id ref, In (id, ref) (active s) -> Run hs id ref) /\
  NoDup (map snd (active s)) /\
  (forall id, In id (cancelled s) -> exists ref id', Run hs id ref /\ Run hs id' ref /\ id < id') /\
  (forall id ref, Run hs id ref -> In (id, ref) (active s) \/ In id (cancelled s) \/ In (End id) hs).
Lemma nodup_filter (f : nat * str -> bool) l : NoDup (map snd l) -> NoDup (map snd (filter f l)).
Proof.
  induction l as [|x l IH]; intros H; [exact H|]. cbn [map] in H. inversion H as [|? ? A B]; subst. cbn [filter].
  destruct (f x); [|apply IH, B]. cbn [map]. constructor; [|apply IH, B]. intros C. apply A.
  apply in_map_iff in C. destruct C as (y & <- & C). apply filter_In in C. apply in_map, C.
Qed.
Lemma sound_lemma hs : Sound hs.
Proof.
  induction hs as [|h hs IH] using rev_ind.
  - unfold Sound. cbn. repeat split; try tauto; try (intros; exfalso; eapply run_nil; eassumption). constructor.
  - unfold Sound in *. cbv zeta in *. rewrite history_snoc. set (s := history hs) in *. destruct IH as (I1 & I2 & I3 & I4 & I5 & I6).
    unfold happen. destruct (started h) as [ref|] eqn:E.
    + apply started_spec in E. assert (N : forall id r, Run (hs ++ [h]) id r <-> Run hs id r \/ r = ref /\ id = count s).
      { intros id r. rewrite run_snoc. fold s. split; intros [H|[H ->]]; auto; [|right; subst; auto].
        right. split; [|reflexivity]. apply started_spec in H, E. congruence. }
      cbn [count active cancelled]. split; [|split; [|split; [|split; [|split]]]].
      * intros id r H. apply N in H. destruct H as [H|[_ ->]]; [specialize (I1 _ _ H); lia|lia].
      * intros id r1 r2 H1 H2. apply N in H1, H2. destruct H1 as [H1|[-> ->]], H2 as [H2|[H2 H3]]; auto.
        -- exact (I2 _ _ _ H1 H2).
        -- subst. specialize (I1 _ _ H1). lia.
        -- specialize (I1 _ _ H2). lia.
      * intros id r H. apply N. apply in_app_or in H. destruct H as [H|[H|[]]]; [left; apply I3; apply filter_In in H; apply H|].
        injection H as <- <-. right. auto.
      * rewrite map_app. cbn [map].
        assert (D : forall l (x : str), NoDup l -> ~ In x l -> NoDup (l ++ [x])).
        { induction l as [|a l IHl]; intros x H1 H2; [repeat constructor; tauto|]. inversion H1; subst. cbn. constructor.
          - rewrite in_app_iff. cbn in *. intuition.
          - apply IHl; auto. cbn in H2. tauto. }
        apply D; [apply nodup_filter, I4|]. cbn [snd]. intros C. apply in_map_iff in C. destruct C as ([i r] & Q & C). cbn in Q. subst r.
        apply filter_In in C. destruct C as [_ C]. cbn in C. rewrite eqs_refl in C. discriminate.
      * intros id H. apply in_app_or in H. destruct H as [H|H].
        -- destruct (I5 id H) as (r & id' & R1 & R2 & L). exists r, id'. rewrite !N. auto.
        -- apply in_map_iff in H. destruct H as ([i r] & Q & H). cbn in Q. subst i. apply filter_In in H. destruct H as [H Q]. cbn in Q.
           apply eqs_eq in Q. subst r. apply I3 in H. exists ref, (count s). rewrite !N. split; [auto|]. split; [auto|]. exact (I1 _ _ H).
      * intros id r H. apply N in H. destruct H as [H|[-> ->]].
        -- destruct (I6 id r H) as [A|[A|A]].
           ++ destruct (eqs r ref) eqn:Q.
              ** right. left. apply in_or_app. right. apply in_map_iff. exists (id, r). split; [reflexivity|]. apply filter_In. auto.
              ** left. apply in_or_app. left. apply filter_In. cbn. rewrite Q. auto.
           ++ right. left. apply in_or_app. auto.
           ++ right. right. apply in_or_app. auto.
        -- left. apply in_or_app. right. left. reflexivity.
    + assert (N : forall id r, Run (hs ++ [h]) id r <-> Run hs id r).
      { intros id r. rewrite run_snoc. split; [intros [H|[H _]]; [exact H|]|auto]. apply started_spec in H. congruence. }
      assert (G : forall s', count s' = count s -> cancelled s' = cancelled s ->
        (forall x, In x (active s') -> In x (active s)) -> NoDup (map snd (active s')) ->
        (forall id r, In (id, r) (active s) -> In (id, r) (active s') \/ h = End id) ->
        (forall id ref, Run (hs ++ [h]) id ref -> id < count s') /\
        (forall id r1 r2, Run (hs ++ [h]) id r1 -> Run (hs ++ [h]) id r2 -> r1 = r2) /\
        (forall id ref, In (id, ref) (active s') -> Run (hs ++ [h]) id ref) /\
        NoDup (map snd (active s')) /\
        (forall id, In id (cancelled s') -> exists ref id', Run (hs ++ [h]) id ref /\ Run (hs ++ [h]) id' ref /\ id < id') /\
        (forall id ref, Run (hs ++ [h]) id ref -> In (id, ref) (active s') \/ In id (cancelled s') \/ In (End id) (hs ++ [h]))).
      { intros s' G1 G2 G3 G4 G5. rewrite G1, G2. split; [intros id r H; apply N in H; exact (I1 _ _ H)|].
        split; [intros id r1 r2 H1 H2; apply N in H1, H2; exact (I2 _ _ _ H1 H2)|].
        split; [intros id r H; apply N, I3, G3, H|]. split; [exact G4|].
        split. { intros id H. destruct (I5 id H) as (r & id' & R1 & R2 & L). exists r, id'. rewrite !N. auto. }
        intros id r H. apply N in H. destruct (I6 id r H) as [A|[A|A]]; [|auto|].
        - destruct (G5 id r A) as [B| ->]; [auto|]. right. right. apply in_or_app. right. left. reflexivity.
        - right. right. apply in_or_app. auto. }
      destruct h as [b|n|b|id]; try (apply G; auto; fail).
      apply G; cbn [count cancelled active]; auto.
      * intros x H. apply filter_In in H. apply H.
      * apply nodup_filter, I4.
      * intros i r H. destruct (Nat.eqb i id) eqn:Q; [apply Nat.eqb_eq in Q; subst; auto|]. left. apply filter_In. cbn. rewrite Q. auto.
Qed.
Lemma one_per_ref hs : NoDup (map snd (active (history hs))).
Proof. apply sound_lemma. Qed.
Lemma last_run_lemma hs id ref : Run hs id ref -> (forall id', Run hs id' ref -> id' <= id) ->
  ~ In id (cancelled (history hs)) /\ (In (id, ref) (active (history hs)) \/ In (End id) hs).
Proof.
  intros R M. destruct (sound_lemma hs) as (I1 & I2 & I3 & I4 & I5 & I6).
  assert (C : ~ In id (cancelled (history hs))).
  { intros C. destruct (I5 id C) as (r & id' & R1 & R2 & L). rewrite (I2 _ _ _ R1 R) in R2. specialize (M _ R2). lia. }
  split; [exact C|]. destruct (I6 id ref R) as [A|[A|A]]; auto. contradiction.
Qed.
Lemma cancelled_lemma hs id : In id (cancelled (history hs)) -> exists ref id', Run hs id ref /\ Run hs id' ref /\ id < id'.
Proof. apply sound_lemma. Qed.

Lemma combinations_lemma cxx bt cu : In cxx ["g++"; "clang++"]%string -> In bt ["Debug"; "Release"]%string -> In cu [""; "ON"]%string ->
  exists r, In r matrix /\ Uses r cxx /\ var r "CMAKE_BUILD_TYPE" = lit bt /\ var r "ENABLE_CUDA" = lit cu.
Proof.
  intros H1 H2 H3.
  assert (G : forall n r, nth_error matrix n = Some r -> forall x b u, (eqs (var r "CMAKE_CXX_COMPILER") (lit x) || endswith (var r "CMAKE_CXX_COMPILER") (lit "/" ++ lit x)) = true ->
    var r "CMAKE_BUILD_TYPE" = lit b -> var r "ENABLE_CUDA" = lit u -> exists r, In r matrix /\ Uses r x /\ var r "CMAKE_BUILD_TYPE" = lit b /\ var r "ENABLE_CUDA" = lit u).
  { intros n r Hn x b u Hx Hb Hu. exists r. split; [eapply nth_error_In; exact Hn|]. split; [|auto]. unfold Uses.
    apply orb_true_iff in Hx. rewrite eqs_eq in Hx. destruct Hx as [->|Hx]; [auto|]. right. apply endswith_spec in Hx. exact Hx. }
  destruct H1 as [<-|[<-|[]]], H2 as [<-|[<-|[]]], H3 as [<-|[<-|[]]].
  - exact (G 7 _ eq_refl "g++" "Debug" ""  eq_refl eq_refl eq_refl)%string.
  - exact (G 9 _ eq_refl "g++" "Debug" "ON"  eq_refl eq_refl eq_refl)%string.
  - exact (G 4 _ eq_refl "g++" "Release" ""  eq_refl eq_refl eq_refl)%string.
  - exact (G 8 _ eq_refl "g++" "Release" "ON"  eq_refl eq_refl eq_refl)%string.
  - exact (G 0 _ eq_refl "clang++" "Debug" ""  eq_refl eq_refl eq_refl)%string.
  - exact (G 11 _ eq_refl "clang++" "Debug" "ON"  eq_refl eq_refl eq_refl)%string.
  - exact (G 1 _ eq_refl "clang++" "Release" ""  eq_refl eq_refl eq_refl)%string.
  - exact (G 10 _ eq_refl "clang++" "Release" "ON"  eq_refl eq_refl eq_refl)%string.
Qed.
Lemma compilers_lemma c coverage :
  var (host_config c coverage) "CMAKE_C_COMPILER" = var c "CC" /\
  var (host_config c coverage) "CMAKE_CXX_COMPILER" = var c "CXX" /\
  (falsy (var c "ENABLE_CUDA") = false ->
   var (host_config c coverage) "CMAKE_CUDA_HOST_COMPILER" = var c "CXX" /\
   var (host_config c coverage) "CMAKE_CUDA_ARCHITECTURES" = var c "CMAKE_CUDA_ARCHITECTURES").
Proof.
  unfold host_config. split; [reflexivity|]. split; [reflexivity|]. intros H. rewrite H. split; reflexivity.
Qed.

Lemma registered_same c cov : registered (host_config c cov) true true = registered (host_config [] false) true true.
Proof. unfold registered, host_config. destruct (negb (falsy (var c "ENABLE_CUDA"))); reflexivity. Qed.
