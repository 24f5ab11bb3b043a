From Coq Require Import Bool Ascii String ZArith List Lia.
From Verif Require Import ModelPython ModelConfigBuild ModelCi SpecConfigBuild SpecCi ProofPython.
From Verif Require ProofConfigBuild ProofPath.
Import ListNotations.

Lemma occurs_spec o s : occurs o s = true <-> Part o s.
Proof.
  induction s as [|c s IH]; cbn [occurs]; rewrite orb_true_iff, startswith_spec.
  - split; [intros [[r H]|H]; [exists [], r; exact H|discriminate]|].
    intros (a & b & H). left. destruct a; [exists b; exact H|discriminate].
  - split.
    + intros [[r H]|H]; [exists [], r; exact H|]. apply IH in H. destruct H as (a & b & ->). exists (c :: a), b. reflexivity.
    + intros (a & b & H). destruct a as [|x a]; [left; exists b; exact H|]. right. apply IH. injection H as _ H.
      exists a, b. exact H.
Qed.
Lemma asks_spec args o : asks args o = true <-> Asked args o.
Proof. apply occurs_spec. Qed.
Lemma asks_false args o : asks args o = false <-> ~ Asked args o.
Proof. rewrite <- asks_spec. destruct (asks args o); intuition congruence. Qed.

(** A run that ends well: every checked command returned 0; one that does not ends with the
    status of its last command. *)
Definition Settled (r : run) : Prop :=
  exit_status r = 0%Z /\ Forall Fine (trace r) \/
  exit_status r <> 0%Z /\ exists before ev, trace r = before ++ [ev] /\ result ev = exit_status r /\ Forall Fine before /\ ~ Unchecked ev.

Lemma or_die_settled w st ws rest : Forall Fine (past st) ->
  (forall r, ws <> lit "env" :: r /\ ws <> lit "cp" :: r) ->
  (forall st', past st' = past st ++ [{| at_dir := dir st; words := ws; result := 0 |}] -> Forall Fine (past st') -> Settled (rest st')) ->
  Settled (or_die w st ws rest).
Proof.
  intros HP HU HR. unfold or_die, exec. set (s := w (past st) (dir st) ws).
  destruct (Z.eqb_spec s 0) as [E|E].
  - apply HR; cbn [past].
    + rewrite E. reflexivity.
    + apply Forall_app. split; [exact HP|]. constructor; [left; exact E|constructor].
  - right. split; [exact E|]. exists (past st). eexists. split; [reflexivity|]. split; [reflexivity|]. split; [exact HP|].
    intros (r & [H|H]); cbn [words] in H; destruct (HU r) as [A B]; congruence.
Qed.
Lemma finish_settled st : Forall Fine (past st) -> Settled (finish st 0).
Proof. intros H. left. split; [reflexivity|exact H]. Qed.

Ltac notcp := intros ?; split; vm_compute; discriminate.
Lemma make_not e r : make_words e <> lit "env" :: r /\ make_words e <> lit "cp" :: r.
Proof. split; intros H; vm_compute in H; discriminate. Qed.

Lemma conf_not e args r : configure_words e args <> lit "env" :: r /\ configure_words e args <> lit "cp" :: r.
Proof. split; intros H; vm_compute in H; discriminate. Qed.
Lemma cd_not d r : command [[L "cd"]; [V d; L "/.."]] <> lit "env" :: r /\ command [[L "cd"]; [V d; L "/.."]] <> lit "cp" :: r.
Proof. split; intros H; vm_compute in H; discriminate. Qed.

Lemma build_job_settled w e args st : Forall Fine (past st) -> Settled (build_job w e args st).
Proof.
  intros H. unfold build_job. destruct (asks args "--build-exe"); [|apply finish_settled, H].
  apply or_die_settled; [exact H|apply make_not|]. intros st1 _ H1.
  destruct (asks args "--disable-unit-tests"); [apply finish_settled, H1|].
  apply or_die_settled; [exact H1|notcp|]. intros st2 _ H2. apply finish_settled, H2.
Qed.
Lemma coverage_settled w e args st : Forall Fine (past st) -> Settled (coverage_job w e args st (build_job w e args)).
Proof.
  intros H. unfold coverage_job. destruct (asks args "--code-coverage"); [|apply build_job_settled, H].
  apply or_die_settled; [exact H|apply make_not|]. intros st1 _ H1.
  apply or_die_settled; [exact H1|notcp|]. intros st2 _ H2. apply build_job_settled.
  unfold exec. cbn [fst past]. apply Forall_app. split; [exact H2|]. constructor; [|constructor].
  right. eexists. right. reflexivity.
Qed.

Section Container.
Context (w : world) (e : dict str) (cwd argv0 : str) (args : list str).
Notation r := (in_container w e cwd argv0 args).

Lemma set_settled : var e "HOST_CONFIG" <> [] -> var e "CMAKE_BUILD_TYPE" <> [] -> Settled r.
Proof.
  intros H1 H2. unfold in_container. unfold exec at 1.
  apply or_die_settled.
  { cbn [past]. constructor; [|constructor]. right. eexists. left. reflexivity. }
  { apply cd_not. }
  intros st _ H. apply eqs_neq in H1, H2. rewrite H1, H2.
  apply or_die_settled; [exact H|apply conf_not|]. intros st1 _ HA.
  apply or_die_settled; [exact HA|notcp|]. intros st2 _ HB.
  destruct (asks args "--test-code-style").
  { apply or_die_settled; [exact HB|notcp|]. intros st3 _ HC. apply finish_settled, HC. }
  destruct (asks args "--test-doxygen").
  { apply or_die_settled; [exact HB|notcp|]. intros st3 _ HC. apply finish_settled, HC. }
  destruct (asks args "--code-checks").
  { apply or_die_settled; [exact HB|notcp|]. intros st3 _ HC. apply finish_settled, HC. }
  apply coverage_settled, HB.
Qed.
Lemma unset_case : var e "HOST_CONFIG" = [] \/ var e "CMAKE_BUILD_TYPE" = [] ->
  exit_status r <> 0%Z /\
  ((exists before ev, trace r = before ++ [ev] /\ result ev = exit_status r /\ Forall Fine before /\ ~ Unchecked ev) \/
   exit_status r = 1%Z).
Proof.
  intros H.
  assert (X : r = or_die w (fst (exec w {| past := []; dir := cwd |} [lit "env"])) (command [[L "cd"]; [V (sh_dirname argv0); L "/.."]])
                    (fun st => finish st 1)).
  { unfold in_container, or_die. destruct (exec w {| past := []; dir := cwd |} [lit "env"]) as [st s]. cbn [fst].
    destruct (exec w st _) as [st' s']. destruct (s' =? 0)%Z; [|reflexivity].
    destruct H as [H|H]; rewrite H; [reflexivity|]. destruct (eqs (var e "HOST_CONFIG") []); reflexivity. }
  rewrite X. clear X H. unfold or_die, exec. cbn [fst past dir].
  match goal with |- context [(?x =? 0)%Z] => destruct (Z.eqb_spec x 0) as [E|E] end.
  - cbn [exit_status finish]. split; [discriminate|]. right. reflexivity.
  - cbn [exit_status finish trace past]. split; [exact E|]. left.
    exists [{| at_dir := cwd; words := [lit "env"]; result := w [] cwd [lit "env"] |}]. eexists.
    split; [reflexivity|]. split; [reflexivity|]. split.
    + constructor; [|constructor]. right. eexists. left. reflexivity.
    + intros (x & Hx). cbn [words] in Hx. destruct (cd_not (sh_dirname argv0) x) as [A B]. destruct Hx; congruence.
Qed.

Lemma status_lemma :
  (exit_status r = 0%Z -> var e "HOST_CONFIG" <> [] /\ var e "CMAKE_BUILD_TYPE" <> [] /\ Forall Fine (trace r)) /\
  (exit_status r <> 0%Z ->
     (exists before ev, trace r = before ++ [ev] /\ result ev = exit_status r /\ Forall Fine before /\ ~ Unchecked ev) \/
     exit_status r = 1%Z /\ (var e "HOST_CONFIG" = [] \/ var e "CMAKE_BUILD_TYPE" = [])) /\
  (var e "HOST_CONFIG" <> [] -> var e "CMAKE_BUILD_TYPE" <> [] -> Forall Fine (trace r) -> exit_status r = 0%Z).
Proof.
  destruct (str_dec (var e "HOST_CONFIG") []) as [A|A].
  { destruct (unset_case (or_introl A)) as [N H]. split; [congruence|]. split; [|congruence]. intros _.
    destruct H as [H|H]; [left; exact H|right; auto]. }
  destruct (str_dec (var e "CMAKE_BUILD_TYPE") []) as [B|B].
  { destruct (unset_case (or_intror B)) as [N H]. split; [congruence|]. split; [|congruence]. intros _.
    destruct H as [H|H]; [left; exact H|right; auto]. }
  destruct (set_settled A B) as [[E F]|(N & b & ev & T & R & FB & U)].
  - split; [auto|]. split; [congruence|auto].
  - split; [congruence|]. split; [intros _; left; exists b, ev; auto|]. intros _ _ F. rewrite T in F.
    apply Forall_app in F. destruct F as [_ F]. inversion F as [|? ? [G|G] _]; subst; [congruence|contradiction].
Qed.
End Container.

(** What a successful run did. *)
Lemma or_die_ok w st ws rest : exit_status (or_die w st ws rest) = 0%Z ->
  or_die w st ws rest = rest (fst (exec w st ws)) /\ w (past st) (dir st) ws = 0%Z.
Proof.
  unfold or_die, exec. cbn [fst]. destruct (Z.eqb_spec (w (past st) (dir st) ws) 0) as [E|E]; [auto|].
  cbn [exit_status finish]. congruence.
Qed.

Lemma exec_in w st ws : (forall d, ws <> [lit "cd"; d]) -> dir (fst (exec w st ws)) = dir st.
Proof.
  intros H. unfold exec. cbn [fst dir]. destruct ws as [|a [|b [|]]]; try reflexivity.
  destruct (eqs a (lit "cd")) eqn:E; [|reflexivity]. apply eqs_eq in E. subst a. exfalso. exact (H b eq_refl).
Qed.
Lemma exec_past w st ws : past (fst (exec w st ws)) = past st ++ [{| at_dir := dir st; words := ws; result := w (past st) (dir st) ws |}].
Proof. reflexivity. Qed.
Lemma make_cd e d : make_words e <> [lit "cd"; d].
Proof. intros H. vm_compute in H. discriminate. Qed.

Lemma build_job_ok w e args st : dir st = lit "/tmp/build" -> exit_status (build_job w e args st) = 0%Z ->
  exists evs, trace (build_job w e args st) = past st ++ evs /\
  Forall2 Ran (if asks args "--build-exe" then
             make_words e :: (if asks args "--disable-unit-tests" then []
                              else [ctest_words "-E" "testUncrustifyCheck|testDoxygenCheck|testCppCheck|testClangTidy"])
           else []) evs.
Proof.
  intros D E. unfold build_job in *. destruct (asks args "--build-exe").
  2: { exists []. rewrite app_nil_r. split; [reflexivity|constructor]. }
  pose proof (or_die_ok _ _ _ _ E) as [E1 R1].
  rewrite E1 in *. destruct (asks args "--disable-unit-tests").
  - eexists. cbn [trace finish]. rewrite exec_past. split; [reflexivity|]. constructor; [|constructor].
    split; [reflexivity|]. split; [exact D|]. left. exact R1.
  - pose proof (or_die_ok _ _ _ _ E) as [E2 R2]. rewrite E2. cbn [trace finish]. rewrite !exec_past.
    rewrite <- app_assoc. eexists. split; [reflexivity|]. cbn [app]. constructor; [|constructor; [|constructor]].
    + split; [reflexivity|]. split; [exact D|]. left. exact R1.
    + split; [reflexivity|]. split; [|left; exact R2]. cbn [at_dir]. rewrite exec_in by apply make_cd. exact D.
Qed.

Lemma single_ok w st ws : dir st = lit "/tmp/build" -> exit_status (or_die w st ws (fun st => finish st 0)) = 0%Z ->
  exists evs, trace (or_die w st ws (fun st => finish st 0)) = past st ++ evs /\ Forall2 Ran [ws] evs.
Proof.
  intros D E. pose proof (or_die_ok _ _ _ _ E) as [E1 R1]. rewrite E1. cbn [trace finish]. rewrite exec_past.
  eexists. split; [reflexivity|]. constructor; [|constructor]. split; [reflexivity|]. split; [exact D|]. left. exact R1.
Qed.
Definition cp_words : list str :=
  map lit ["cp"; "-r"; "/tmp/build/shiva_coverage.info.cleaned"; "/tmp/Shiva/shiva_coverage.info.cleaned"]%string.
Lemma coverage_job_ok w e args st : dir st = lit "/tmp/build" ->
  exit_status (coverage_job w e args st (build_job w e args)) = 0%Z ->
  exists evs, trace (coverage_job w e args st (build_job w e args)) = past st ++ evs /\
  Forall2 Ran ((if asks args "--code-coverage" then
          [make_words e; map lit ["make"; "shiva_coverage"]%string; cp_words] else [])
       ++ (if asks args "--build-exe" then
             make_words e :: (if asks args "--disable-unit-tests" then []
                              else [ctest_words "-E" "testUncrustifyCheck|testDoxygenCheck|testCppCheck|testClangTidy"])
           else [])) evs.
Proof.
  intros D E. unfold coverage_job in *. destruct (asks args "--code-coverage"); [|exact (build_job_ok w e args st D E)].
  pose proof (or_die_ok _ _ _ _ E) as [E1 R1]. rewrite E1 in *. clear E1.
  pose proof (or_die_ok _ _ _ _ E) as [E2 R2]. rewrite E2 in *. clear E2.
  set (st1 := fst (exec w st (make_words e))) in *.
  assert (D1 : dir st1 = lit "/tmp/build") by (unfold st1; rewrite exec_in by apply make_cd; exact D).
  set (st2 := fst (exec w st1 _)) in *.
  assert (D2 : dir st2 = lit "/tmp/build").
  { unfold st2. rewrite exec_in; [exact D1|]. intros d H. vm_compute in H. discriminate. }
  set (st3 := fst (exec w st2 _)) in *.
  assert (D3 : dir st3 = lit "/tmp/build").
  { unfold st3. rewrite exec_in; [exact D2|]. intros d H. vm_compute in H. discriminate. }
  destruct (build_job_ok w e args st3 D3 E) as (evs & T & F). rewrite T. unfold st3 at 1. rewrite exec_past.
  unfold st2 at 1. rewrite exec_past. unfold st1 at 1. rewrite exec_past. rewrite <- !app_assoc.
  eexists. split; [reflexivity|]. cbn [app]. constructor; [|constructor; [|constructor; [|exact F]]].
  - split; [reflexivity|]. split; [exact D|]. left. exact R1.
  - split; [reflexivity|]. split; [exact D1|]. left. exact R2.
  - split; [reflexivity|]. split; [exact D2|]. right. eexists. right. reflexivity.
Qed.

Lemma plan_at w e cwd argv0 args : let r := in_container w e cwd argv0 args in
  exit_status r = 0%Z ->
  exists ev1 ev2 ev3 ev4 evs, trace r = [ev1; ev2; ev3; ev4] ++ evs /\
    at_dir ev3 = dir (fst (exec w (fst (exec w {| past := []; dir := cwd |} [lit "env"])) (command [[L "cd"]; [V (sh_dirname argv0); L "/.."]]))) /\
    words ev3 = configure_words e args /\ result ev3 = 0%Z /\
    words ev4 = [lit "cd"; lit "/tmp/build"] /\ result ev4 = 0%Z /\
    Forall2 Ran (commands (var e "NPROC") args) evs.
Proof.
  intros r E. assert (V := proj1 (status_lemma w e cwd argv0 args) E). destruct V as (V1 & V2 & _).
  unfold r in *. clear r. unfold in_container in *.
  rewrite (surjective_pairing (exec w {| past := []; dir := cwd |} [lit "env"])) in *.
  set (st0 := fst (exec w {| past := []; dir := cwd |} [lit "env"])) in *.
  pose proof (or_die_ok _ _ _ _ E) as [E1 R1]. rewrite E1 in *. clear E1.
  apply eqs_neq in V1, V2. rewrite V1, V2 in *.
  set (st1 := fst (exec w st0 _)) in *.
  pose proof (or_die_ok _ _ _ _ E) as [E2 R2]. rewrite E2 in *. clear E2.
  set (st2 := fst (exec w st1 _)) in *.
  pose proof (or_die_ok _ _ _ _ E) as [E3 R3]. rewrite E3 in *. clear E3.
  set (st3 := fst (exec w st2 _)) in *.
  assert (D : dir st3 = lit "/tmp/build").
  { unfold st3, exec. cbn [fst dir]. rewrite R3. reflexivity. }
  assert (P : past st3 = [ {| at_dir := cwd; words := [lit "env"]; result := w [] cwd [lit "env"] |};
     {| at_dir := dir st0; words := command [[L "cd"]; [V (sh_dirname argv0); L "/.."]]; result := w (past st0) (dir st0) (command [[L "cd"]; [V (sh_dirname argv0); L "/.."]]) |};
     {| at_dir := dir st1; words := configure_words e args; result := w (past st1) (dir st1) (configure_words e args) |};
     {| at_dir := dir st2; words := command [[L "cd"]; [L build_dir]]; result := w (past st2) (dir st2) (command [[L "cd"]; [L build_dir]]) |} ]).
  { unfold st3 at 1. rewrite exec_past. unfold st2 at 1. rewrite exec_past. unfold st1 at 1. rewrite exec_past. reflexivity. }
  assert (G : forall (X : run) js, (exists evs, trace X = past st3 ++ evs /\ Forall2 Ran js evs) ->
    exists ev1 ev2 ev3 ev4 evs, trace X = [ev1; ev2; ev3; ev4] ++ evs /\
    at_dir ev3 = dir (fst (exec w (fst (exec w {| past := []; dir := cwd |} [lit "env"])) (command [[L "cd"]; [V (sh_dirname argv0); L "/.."]]))) /\
    words ev3 = configure_words e args /\ result ev3 = 0%Z /\
    words ev4 = [lit "cd"; lit "/tmp/build"] /\ result ev4 = 0%Z /\
    Forall2 Ran js evs).
  { intros X js (evs & T & F). rewrite P in T. do 5 eexists. split; [exact T|]. cbn [words result at_dir].
    split; [reflexivity|]. split; [reflexivity|]. split; [exact R2|]. split; [reflexivity|]. split; [exact R3|]. exact F. }
  apply G. unfold commands. clear G P R1 R2 R3.
  destruct (asks args "--test-code-style"); [exact (single_ok _ _ _ D E)|].
  destruct (asks args "--test-doxygen"); [exact (single_ok _ _ _ D E)|].
  destruct (asks args "--code-checks"); [exact (single_ok _ _ _ D E)|].
  exact (coverage_job_ok w e args st3 D E).
Qed.

Lemma plan_lemma w e cwd argv0 args : let r := in_container w e cwd argv0 args in
  exit_status r = 0%Z ->
  exists ev1 ev2 ev3 ev4 evs, trace r = [ev1; ev2; ev3; ev4] ++ evs /\
    words ev3 = configure_words e args /\ result ev3 = 0%Z /\
    words ev4 = [lit "cd"; lit "/tmp/build"] /\ result ev4 = 0%Z /\
    Forall2 Ran (commands (var e "NPROC") args) evs.
Proof.
  intros r E. destruct (plan_at w e cwd argv0 args E) as (e1 & e2 & e3 & e4 & evs & T & _ & H). exists e1, e2, e3, e4, evs. auto.
Qed.

Lemma build_lemma w e cwd argv0 args : let r := in_container w e cwd argv0 args in
  exit_status r = 0%Z -> Asked args "--build-exe" ->
  ~ Asked args "--test-code-style" -> ~ Asked args "--test-doxygen" -> ~ Asked args "--code-checks" ->
  exists before make tests, trace r = before ++ make :: tests /\
    (exists conf, In conf before /\ hd [] (words conf) = lit "python3" /\ result conf = 0%Z) /\
    Passed (make_all (var e "NPROC")) make /\
    (Asked args "--disable-unit-tests" /\ tests = [] \/
     exists t, tests = [t] /\ Passed (ctest "-E" "testUncrustifyCheck|testDoxygenCheck|testCppCheck|testClangTidy") t).
Proof.
  intros r E B N1 N2 N3. destruct (plan_lemma w e cwd argv0 args E) as (e1 & e2 & e3 & e4 & evs & T & W3 & R3 & W4 & R4 & F).
  fold r in T. apply asks_spec in B. apply asks_false in N1, N2, N3. unfold commands in F. rewrite N1, N2, N3, B in F.
  apply Forall2_app_inv_l in F. destruct F as (cov & bld & _ & F & ->).
  inversion F as [|? mk ? ts RM FT]; subst. exists ([e1; e2; e3; e4] ++ cov), mk, ts.
  assert (P : forall ws ev, Ran ws ev -> (forall x, ws <> lit "env" :: x /\ ws <> lit "cp" :: x) -> Passed ws ev).
  { intros ws ev (A & D & [G|G]) X; [repeat split; auto|]. destruct G as (x & G). destruct (X x) as [X1 X2].
    rewrite A in G. destruct G; contradiction. }
  split; [rewrite T, <- !app_assoc; reflexivity|]. split.
  { exists e3. split; [apply in_or_app; left; cbn [In]; auto|]. rewrite W3. split; [reflexivity|exact R3]. }
  split; [apply P; [exact RM|apply make_not]|].
  destruct (asks args "--disable-unit-tests") eqn:Q.
  - left. split; [apply asks_spec, Q|]. inversion FT. reflexivity.
  - right. inversion FT as [|? t ? ? RT F0]; subst. inversion F0; subst. exists t. split; [reflexivity|].
    apply P; [exact RT|]. notcp.
Qed.

(** ** cmake's exit status *)
Lemma in_container_ext w w' e cwd argv0 args : (forall p d ws, w p d ws = w' p d ws) ->
  in_container w e cwd argv0 args = in_container w' e cwd argv0 args.
Proof.
  intros H.
  assert (X : forall st ws, exec w st ws = exec w' st ws) by (intros st ws; unfold exec; rewrite H; reflexivity).
  assert (O : forall st ws k k', (forall s, k s = k' s) -> or_die w st ws k = or_die w' st ws k').
  { intros st ws k k' K. unfold or_die. rewrite X. destruct (exec w' st ws) as [s z]. rewrite K. reflexivity. }
  unfold in_container. rewrite X. destruct (exec w' _ _) as [st z]. apply O. intros s1.
  destruct (eqs _ _); [reflexivity|]. destruct (eqs _ _); [reflexivity|]. apply O. intros s2. apply O. intros s3.
  destruct (asks args "--test-code-style"); [apply O; reflexivity|].
  destruct (asks args "--test-doxygen"); [apply O; reflexivity|].
  destruct (asks args "--code-checks"); [apply O; reflexivity|].
  assert (B : forall st, build_job w e args st = build_job w' e args st).
  { intros s. unfold build_job. destruct (asks _ _); [|reflexivity]. apply O. intros s'. destruct (asks _ _); [reflexivity|]. apply O. reflexivity. }
  unfold coverage_job. destruct (asks _ _); [|apply B]. apply O. intros s4. apply O. intros s5. rewrite X. apply B.
Qed.
Lemma cmake_ignored_lemma cm cm' fs rest e cwd argv0 args :
  (forall c, cm c <> None) -> (forall c, cm' c <> None) ->
  in_container (configuring cm fs rest) e cwd argv0 args = in_container (configuring cm' fs rest) e cwd argv0 args.
Proof.
  intros H H'. apply in_container_ext. intros p d ws. unfold configuring.
  do 11 (destruct ws as [|? ws]; [reflexivity|]). destruct ws; [|reflexivity]. destruct (eqs _ _); [|reflexivity].
  set (a := {| buildpath := _ |}).
  assert (S : started (config_build cm fs d s0 a) = started (config_build cm' fs d s0 a)).
  { unfold config_build. repeat (match goal with
      | |- context [cm ?x] => pose proof (H x); pose proof (H' x); destruct (cm x), (cm' x); try congruence
      | |- context [if ?b then _ else _] => destruct b
      | |- context [match ?b with _ => _ end] => destruct b
      end; try reflexivity). }
  destruct (ProofConfigBuild.exit_status cm fs d s0 a) as [A A0]. destruct (ProofConfigBuild.exit_status cm' fs d s0 a) as [B B0].
  rewrite S in A. assert (K : code (config_build cm fs d s0 a) = 0%Z <-> code (config_build cm' fs d s0 a) = 0%Z).
  { rewrite A, B. split; intros [K1 K2]; (split; [exact K1|]); intros; auto. }
  destruct A0 as [A0|A0], B0 as [B0|B0]; rewrite A0, B0 in *; try reflexivity; exfalso; destruct K as [K1 K2].
  - specialize (K1 eq_refl). discriminate.
  - specialize (K2 eq_refl). discriminate.
Qed.

(** ** docker *)
Lemma chars_unsplit s : Unsplit s -> chars (V s) = map (fun c => (c, false)) s.
Proof.
  intros H. apply map_ext_in. intros c Hc. destruct (H c Hc) as (A & B & D). f_equal. unfold ifs, blank.
  apply orb_false_iff. split; [apply orb_false_iff; split|]; apply Ascii.eqb_neq; assumption.
Qed.
Definition cat (cur : option str) (s : str) : option str :=
  match s with [] => cur | _ => Some (match cur with Some w => w | None => [] end ++ s) end.
Lemma cat_cat cur c s : cat (more cur c) s = cat cur (c :: s).
Proof. destruct s, cur; cbn; rewrite <- ?app_assoc; reflexivity. Qed.
Lemma fields_plain s : forall cur r, fields cur (map (fun c => (c, false)) s ++ r) = fields (cat cur s) r.
Proof.
  induction s as [|c s IH]; intros cur r; [reflexivity|]. cbn [map app fields]. rewrite IH, cat_cat. reflexivity.
Qed.
Lemma word_V s : Unsplit s -> word [V s] = match s with [] => [] | _ => [s] end.
Proof.
  intros H. unfold word. cbn [flat_map]. rewrite (chars_unsplit s H), fields_plain. destruct s; reflexivity.
Qed.
Lemma upto_none r : ~ In slash r -> upto_last_slash_rev r = [].
Proof.
  induction r as [|c r IH]; [reflexivity|]. intros H. cbn [upto_last_slash_rev]. destruct (Ascii.eqb_spec c slash) as [->|_].
  - exfalso. apply H. left. reflexivity.
  - apply IH. intros I. apply H. right. exact I.
Qed.
Lemma upto_at a b : ~ In slash a -> upto_last_slash_rev (a ++ slash :: b) = slash :: b.
Proof.
  induction a as [|c a IH]; intros H; [reflexivity|]. cbn [app upto_last_slash_rev]. destruct (Ascii.eqb_spec c slash) as [->|_].
  - exfalso. apply H. left. reflexivity.
  - apply IH. intros I. apply H. right. exact I.
Qed.
Lemma script_dir p d : ScriptDir p d -> sh_dirname p = d /\ (Unsplit p -> Unsplit d) /\ d <> [].
Proof.
  intros [d' c f Hc Hf|f Hf]; unfold sh_dirname, dirname.
  - rewrite rev_app_distr. cbn [rev]. rewrite <- app_assoc. cbn [app].
    change "/"%char with slash. rewrite upto_at by (intros I; apply in_rev in I; exact (Hf I)). rewrite rev_involutive.
    cbn [lstripc]. change (Ascii.eqb slash slash) with true. cbv iota. rewrite rev_app_distr. cbn [rev app lstripc].
    destruct (Ascii.eqb_spec c slash) as [E|_]; [contradiction|]. split; [|split].
    + rewrite rev_involutive. destruct d'; reflexivity.
    + intros U x I. apply U. apply in_or_app. left. exact I.
    + destruct d'; discriminate.
  - rewrite upto_none by (intros I; apply in_rev in I; exact (Hf I)). split; [reflexivity|]. split; [|discriminate].
    intros _ x [<-|[]]. repeat split; discriminate.
Qed.
Lemma word_VL s b : Unsplit s -> s <> [] -> word [V s; L b] = [s ++ lit b].
Proof.
  intros H N. unfold word. cbn [flat_map]. rewrite (chars_unsplit s H). change (chars (L b)) with (map (fun c => (c, false)) (lit b)).
  rewrite !fields_plain. destruct s as [|x l]; [contradiction|]. destruct (lit b); cbn; rewrite ?app_nil_r; reflexivity.
Qed.
Lemma word_LV a s : Unsplit s -> lit a <> [] -> word [L a; V s] = [lit a ++ s].
Proof.
  intros H N. unfold word. cbn [flat_map]. rewrite (chars_unsplit s H). change (chars (L a)) with (map (fun c => (c, false)) (lit a)).
  rewrite !fields_plain. destruct (lit a) as [|x l]; [contradiction|]. destruct s; cbn; rewrite ?app_nil_r; reflexivity.
Qed.
Lemma word_LVLL a s b c : Unsplit s -> lit a <> [] -> word [L a; V s; L b; L c] = [lit a ++ s ++ lit b ++ lit c].
Proof.
  intros H N. unfold word. cbn [flat_map]. rewrite (chars_unsplit s H).
  change (chars (L a)) with (map (fun c => (c, false)) (lit a)). change (chars (L b)) with (map (fun c => (c, false)) (lit b)).
  change (chars (L c)) with (map (fun c => (c, false)) (lit c)).
  rewrite !fields_plain. destruct (lit a) as [|x l]; [contradiction|].
  destruct s, (lit b), (lit c); cbn; rewrite <- ?app_assoc, ?app_nil_r; reflexivity.
Qed.
Lemma ifs_blank c : Blank c -> ifs c = true.
Proof. intros [-> | [-> | ->]]; reflexivity. Qed.
Lemma fields_blank b r : Forall Blank b -> fields None (map (fun c => (c, ifs c)) b ++ r) = fields None r.
Proof.
  induction b as [|c b IH]; intros H; [reflexivity|]. inversion H as [|? ? HC HB]; subst. cbn [map app fields].
  rewrite (ifs_blank c HC). cbn [flush]. apply IH, HB.
Qed.
Lemma word_Words s ws : Words s ws -> word [V s] = ws.
Proof.
  unfold word. cbn [flat_map]. intros H. rewrite app_nil_r. induction H as [b HB|b w HB NW UW|b w c r ws HB NW UW HC HR IH]; cbn [chars].
  - rewrite <- (app_nil_r (map _ b)), (fields_blank b [] HB). reflexivity.
  - rewrite map_app, (fields_blank b _ HB). change (map _ w) with (chars (V w)). rewrite (chars_unsplit w UW), <- (app_nil_r (map _ w)), fields_plain.
    destruct w; [contradiction|reflexivity].
  - rewrite map_app, (fields_blank b _ HB), map_app. change (map (fun c0 => (c0, ifs c0)) w) with (chars (V w)).
    rewrite (chars_unsplit w UW), fields_plain. destruct w as [|x w]; [contradiction|]. cbn [map cat fields app].
    rewrite (ifs_blank c HC). cbn [flush]. f_equal. exact IH.
Qed.

Lemma options_skip dargs : Options dargs -> forall opts r, docker_options opts (dargs ++ r) = docker_options opts r.
Proof.
  induction 1 as [|o v r NO NE NV _ IH|v r _ IH]; intros opts rest; [reflexivity| |].
  - rewrite <- (IH opts rest). set (w := lit "-" ++ o ++ lit "=" ++ v). cbn [app docker_options].
    assert (Q : occurs (lit "=") w = true) by (apply occurs_spec; exists (lit "-" ++ o), v; unfold w; rewrite <- app_assoc; reflexivity).
    assert (P : forall x, ~ In "="%char x -> eqs w x = false).
    { intros x Hx. apply eqs_neq. intros X. apply Hx. rewrite <- X. unfold w. apply in_or_app. right. apply in_or_app. right. left. reflexivity. }
    rewrite !P by (vm_compute; intuition discriminate).
    assert (S1 : startswith w (lit "-e") = false).
    { destruct (startswith w (lit "-e")) eqn:E; [|reflexivity]. exfalso. apply startswith_spec in E. destruct E as [x E].
      unfold w in E. cbn [lit list_ascii_of_string app] in E. injection E as E.
      destruct o as [|c o]; cbn [app] in E; [discriminate E|]. injection E as -> E. discriminate NE. }
    assert (S2 : startswith w (lit "--env") = false).
    { unfold startswith in *. unfold w. destruct (eat (lit "--env") (lit "-" ++ o ++ lit "=" ++ v)) eqn:E; [|reflexivity]. exfalso.
      apply eat_spec in E. cbn [lit list_ascii_of_string app] in E. injection E as E.
      destruct o as [|c1 [|c2 [|c3 [|c4 o]]]]; cbn in E; try discriminate E.
      injection E as -> -> -> -> E. cbn in NV. discriminate. }
    rewrite S1, S2, Q. reflexivity.
  - rewrite <- (IH opts rest). reflexivity.
Qed.
Lemma get_remove k (d : dict str) : get k (remove k d) = None.
Proof. induction d as [|[k' v] d IH]; [reflexivity|]. cbn [remove]. destruct (eqs k k') eqn:E; [exact IH|]. cbn [get]. rewrite E. exact IH. Qed.
Lemma get_remove_other k k' (d : dict str) : k' <> k -> get k' (remove k d) = get k' d.
Proof.
  intros N. induction d as [|[x v] d IH]; [reflexivity|]. cbn [remove get]. destruct (eqs k x) eqn:E.
  - apply eqs_eq in E. subst x. apply eqs_neq in N. rewrite N. exact IH.
  - cbn [get]. rewrite IH. reflexivity.
Qed.
Lemma env_copy outer c k : ~ In "="%char k -> get k (docker_env outer c k) = get k outer /\
  forall k', k' <> k -> get k' (docker_env outer c k) = get k' c.
Proof.
  intros H. unfold docker_env, split1.
  pose proof (span_app (fun x => negb (Ascii.eqb x "=")) k []) as S. rewrite app_nil_r in S. rewrite S; [|intros x Hx; apply negb_true_iff, Ascii.eqb_neq; intros ->; contradiction|exact I].
  destruct (get k outer) as [v|].
  - split; [apply get_put|]. intros k' N. apply get_put_other, N.
  - split; [apply get_remove|]. intros k' N. apply get_remove_other, N.
Qed.

Definition container_script : str := lit "/tmp/Shiva/scripts/ci_build_and_test_in_container.sh".
Section Docker.
Context (e : dict str) (dargs bargs : list str).
Context (HD : Words (var e "DOCKER_RUN_ARGS") dargs) (HB : Words (var e "BUILD_AND_TEST_ARGS") bargs).
Context (U1 : Unsplit (var e "GITHUB_WORKSPACE")) (U2 : Unsplit (var e "HOST_CONFIG")) (U3 : Unsplit (var e "CMAKE_C_COMPILER"))
  (U4 : Unsplit (var e "CMAKE_CXX_COMPILER")) (U5 : Unsplit (var e "ENABLE_CUDA")) (U6 : Unsplit (var e "CMAKE_CUDA_ARCHITECTURES"))
  (U7 : Unsplit (var e "DOCKER_REPOSITORY")) (N7 : var e "DOCKER_REPOSITORY" <> []).

Definition env_options : list str :=
  [lit "HOST_CONFIG=" ++ var e "HOST_CONFIG"; lit "CMAKE_C_COMPILER=" ++ var e "CMAKE_C_COMPILER";
   lit "CMAKE_CXX_COMPILER=" ++ var e "CMAKE_CXX_COMPILER"; lit "CC=" ++ var e "CMAKE_C_COMPILER";
   lit "CXX=" ++ var e "CMAKE_CXX_COMPILER"; lit "ENABLE_CUDA=" ++ var e "ENABLE_CUDA";
   lit "CMAKE_CUDA_ARCHITECTURES=" ++ var e "CMAKE_CUDA_ARCHITECTURES"; lit "CMAKE_BUILD_TYPE"; lit "NPROC"].
Lemma docker_words_eq : docker_words e =
  [lit "docker"; lit "run"; lit "--rm"; lit "--volume=" ++ var e "GITHUB_WORKSPACE" ++ lit ":" ++ lit "/tmp/Shiva"; lit "--cap-add=ALL"]
  ++ dargs ++ flat_map (fun o => [lit "-e"; o]) env_options ++ [var e "DOCKER_REPOSITORY"; container_script] ++ bargs.
Proof.
  unfold docker_words, command, mount_point. cbn [flat_map].
  rewrite (word_LVLL "--volume=" _ ":" "/tmp/Shiva" U1) by (vm_compute; discriminate).
  rewrite (word_Words _ _ HD), (word_Words _ _ HB).
  rewrite (word_LV "HOST_CONFIG=" _ U2), (word_LV "CMAKE_C_COMPILER=" _ U3), (word_LV "CMAKE_CXX_COMPILER=" _ U4),
    (word_LV "CC=" _ U3), (word_LV "CXX=" _ U4), (word_LV "ENABLE_CUDA=" _ U5), (word_LV "CMAKE_CUDA_ARCHITECTURES=" _ U6)
    by (vm_compute; discriminate).
  rewrite (word_V _ U7). destruct (var e "DOCKER_REPOSITORY") eqn:E; [contradiction|].
  rewrite app_nil_r. reflexivity.
Qed.
Lemma docker_run_eq image_env : Options dargs -> startswith (var e "DOCKER_REPOSITORY") (lit "-") = false ->
  docker_run image_env e (docker_words e) =
  Some (fold_left (docker_env e) env_options image_env, var e "DOCKER_REPOSITORY", container_script :: bargs).
Proof.
  intros HO HR. rewrite docker_words_eq. cbn [app]. unfold docker_run. cbv beta iota.
  change (eqs (lit "docker") (lit "docker") && eqs (lit "run") (lit "run")) with true. cbv beta iota.
  assert (O1 : Options [lit "--volume=" ++ var e "GITHUB_WORKSPACE" ++ lit ":" ++ lit "/tmp/Shiva"; lit "--cap-add=ALL"]).
  { apply (option_eq (lit "-volume") (var e "GITHUB_WORKSPACE" ++ lit ":/tmp/Shiva")); [vm_compute; intuition discriminate|reflexivity|reflexivity|].
    apply (option_eq (lit "-cap-add") (lit "ALL")); [vm_compute; intuition discriminate|reflexivity|reflexivity|constructor]. }
  match goal with |- context [docker_options [] (lit "--rm" :: ?a :: ?b :: ?r)] =>
    change (docker_options [] (lit "--rm" :: a :: b :: r)) with (docker_options [] ([a; b] ++ r)) end.
  rewrite (options_skip _ O1), (options_skip _ HO).
  assert (P : forall os opts r, docker_options opts (flat_map (fun o => [lit "-e"; o]) os ++ r) = docker_options (opts ++ os) r).
  { induction os as [|o os IH]; intros opts r; [rewrite app_nil_r; reflexivity|].
    change (docker_options opts (flat_map (fun o => [lit "-e"; o]) (o :: os) ++ r))
      with (docker_options (opts ++ [o]) (flat_map (fun o => [lit "-e"; o]) os ++ r)). rewrite IH, <- app_assoc. reflexivity. }
  rewrite P. cbn [app].
  assert (Q : forall opts x r, startswith x (lit "-") = false -> x <> [] -> docker_options opts (x :: r) = Some (opts, x :: r)).
  { intros opts x r H N. cbn [docker_options].
    assert (Y : forall y, eqs x (lit "-" ++ y) = false).
    { intros y. apply eqs_neq. intros ->. assert (startswith (lit "-" ++ y) (lit "-") = true) by (apply startswith_spec; exists y; reflexivity). congruence. }
    rewrite (Y (lit "-rm") : eqs x (lit "--rm") = false), (Y (lit "e") : eqs x (lit "-e") = false),
      (Y (lit "-gpus") : eqs x (lit "--gpus") = false).
    assert (Z : forall y, startswith x (lit "-" ++ y) = false).
    { intros y. destruct (startswith x (lit "-" ++ y)) eqn:E; [|reflexivity]. apply startswith_spec in E. destruct E as [z ->].
      assert (startswith ((lit "-" ++ y) ++ z) (lit "-") = true) by (apply startswith_spec; exists (y ++ z); rewrite app_assoc; reflexivity). congruence. }
    rewrite (Z (lit "e") : startswith x (lit "-e") = false), (Z (lit "-env") : startswith x (lit "--env") = false), H. reflexivity. }
  rewrite (Q _ _ _ HR N7). reflexivity.
Qed.
Lemma env_gets image_env : let c := fold_left (docker_env e) env_options image_env in
  get (lit "HOST_CONFIG") c = Some (var e "HOST_CONFIG") /\
  get (lit "CC") c = Some (var e "CMAKE_C_COMPILER") /\ get (lit "CXX") c = Some (var e "CMAKE_CXX_COMPILER") /\
  get (lit "ENABLE_CUDA") c = Some (var e "ENABLE_CUDA") /\
  get (lit "CMAKE_CUDA_ARCHITECTURES") c = Some (var e "CMAKE_CUDA_ARCHITECTURES") /\
  get (lit "CMAKE_BUILD_TYPE") c = get (lit "CMAKE_BUILD_TYPE") e /\
  get (lit "NPROC") c = get (lit "NPROC") e.
Proof.
  intros c. unfold c, env_options. cbn [fold_left].
  set (c0 := docker_env e _ (lit "HOST_CONFIG=" ++ _)). assert (E0 : c0 = put (lit "HOST_CONFIG") (var e "HOST_CONFIG") image_env) by reflexivity.
  set (c1 := docker_env e c0 _). assert (E1 : c1 = put (lit "CMAKE_C_COMPILER") (var e "CMAKE_C_COMPILER") c0) by reflexivity.
  set (c2 := docker_env e c1 _). assert (E2 : c2 = put (lit "CMAKE_CXX_COMPILER") (var e "CMAKE_CXX_COMPILER") c1) by reflexivity.
  set (c3 := docker_env e c2 _). assert (E3 : c3 = put (lit "CC") (var e "CMAKE_C_COMPILER") c2) by reflexivity.
  set (c4 := docker_env e c3 _). assert (E4 : c4 = put (lit "CXX") (var e "CMAKE_CXX_COMPILER") c3) by reflexivity.
  set (c5 := docker_env e c4 _). assert (E5 : c5 = put (lit "ENABLE_CUDA") (var e "ENABLE_CUDA") c4) by reflexivity.
  set (c6 := docker_env e c5 _). assert (E6 : c6 = put (lit "CMAKE_CUDA_ARCHITECTURES") (var e "CMAKE_CUDA_ARCHITECTURES") c5) by reflexivity.
  clearbody c0 c1 c2 c3 c4 c5 c6.
  destruct (env_copy e c6 (lit "CMAKE_BUILD_TYPE") ltac:(vm_compute; intuition discriminate)) as [A7 B7].
  set (c7 := docker_env e c6 _) in *. clearbody c7.
  destruct (env_copy e c7 (lit "NPROC") ltac:(vm_compute; intuition discriminate)) as [A8 B8].
  set (c8 := docker_env e c7 _) in *. clearbody c8.
  assert (K : forall k, k <> lit "NPROC" -> k <> lit "CMAKE_BUILD_TYPE" -> get k c8 = get k c6).
  { intros k K1 K2. rewrite (B8 k K1). exact (B7 k K2). }
  rewrite A8, (B8 (lit "CMAKE_BUILD_TYPE")), A7, !K by (vm_compute; discriminate).
  rewrite E6, E5, E4, E3, E2, E1, E0.
  repeat split; repeat (first [apply get_put | rewrite get_put_other by (vm_compute; discriminate)]).
Qed.
End Docker.

Lemma with_nproc_other e n x : lit x <> lit "NPROC" -> var (with_nproc e n) x = var e x.
Proof.
  intros H. unfold with_nproc. destruct (eqs _ _); [|reflexivity]. destruct (has _ _); [|reflexivity].
  unfold var. rewrite get_put_other by exact H. reflexivity.
Qed.
Lemma ci_lemma w image_env e nproc workdir dargs bargs :
  Words (var e "DOCKER_RUN_ARGS") dargs -> Options dargs -> Words (var e "BUILD_AND_TEST_ARGS") bargs ->
  Forall (fun x => Unsplit (var e x)) ["GITHUB_WORKSPACE"; "HOST_CONFIG"; "CMAKE_C_COMPILER"; "CMAKE_CXX_COMPILER"; "ENABLE_CUDA";
    "CMAKE_CUDA_ARCHITECTURES"; "DOCKER_REPOSITORY"]%string ->
  var e "DOCKER_REPOSITORY" <> [] -> startswith (var e "DOCKER_REPOSITORY") (lit "-") = false ->
  exists c, ci_job w image_env e nproc workdir = Some (in_container w c workdir container_script bargs) /\
    var c "HOST_CONFIG" = var e "HOST_CONFIG" /\ var c "CMAKE_BUILD_TYPE" = var e "CMAKE_BUILD_TYPE" /\
    var c "CC" = var e "CMAKE_C_COMPILER" /\ var c "CXX" = var e "CMAKE_CXX_COMPILER" /\
    var c "ENABLE_CUDA" = var e "ENABLE_CUDA" /\ var c "CMAKE_CUDA_ARCHITECTURES" = var e "CMAKE_CUDA_ARCHITECTURES" /\
    var c "NPROC" = match get (lit "NPROC") e with None => [] | Some [] => nproc | Some n => n end.
Proof.
  intros HD HO HB U N S. pose proof (with_nproc_other e nproc) as X. set (e' := with_nproc e nproc) in *.
  assert (V : forall x, lit x <> lit "NPROC" -> var e x = var e' x) by (intros x Hx; symmetry; apply X, Hx).
  rewrite (V "DOCKER_RUN_ARGS"%string) in HD by (vm_compute; discriminate).
  rewrite (V "BUILD_AND_TEST_ARGS"%string) in HB by (vm_compute; discriminate).
  rewrite (V "DOCKER_REPOSITORY"%string) in N, S by (vm_compute; discriminate).
  assert (U' : Forall (fun x => Unsplit (var e' x)) ["GITHUB_WORKSPACE"; "HOST_CONFIG"; "CMAKE_C_COMPILER"; "CMAKE_CXX_COMPILER"; "ENABLE_CUDA";
    "CMAKE_CUDA_ARCHITECTURES"; "DOCKER_REPOSITORY"]%string).
  { repeat (apply Forall_cons_iff in U; destruct U as [?H U]).
    repeat (apply Forall_cons; [rewrite <- V by (vm_compute; discriminate); assumption|]). apply Forall_nil. }
  clear U. repeat (apply Forall_cons_iff in U'; destruct U' as [?H U']).
  pose proof (docker_run_eq e' dargs bargs HD HB H H0 H1 H2 H3 H4 H5 N image_env HO S) as R.
  pose proof (env_gets e' image_env) as G. cbv zeta in G. set (c := fold_left _ _ _) in *. clearbody c.
  exists c. split.
  { unfold ci_job. fold e'. cbv zeta. rewrite R. unfold container_script. rewrite eqs_refl. reflexivity. }
  destruct G as (G1 & G2 & G3 & G4 & G5 & G6 & G7). unfold var at 1. rewrite G1. split; [symmetry; apply V; vm_compute; discriminate|].
  split. { unfold var at 1. rewrite G6. symmetry. apply V. vm_compute. discriminate. }
  split. { unfold var at 1. rewrite G2. symmetry. apply V. vm_compute. discriminate. }
  split. { unfold var at 1. rewrite G3. symmetry. apply V. vm_compute. discriminate. }
  split. { unfold var at 1. rewrite G4. symmetry. apply V. vm_compute. discriminate. }
  split. { unfold var at 1. rewrite G5. symmetry. apply V. vm_compute. discriminate. }
  unfold var at 1. rewrite G7. unfold e', with_nproc, var, has. destruct (get (lit "NPROC") e) as [[|x n]|] eqn:E; cbn [eqs].
  - rewrite get_put. reflexivity.
  - rewrite E. reflexivity.
  - rewrite E. reflexivity.
Qed.

(** ** CMake *)
Lemma falsy_spec s : falsy s = true <-> FalseConstant s.
Proof. unfold falsy, FalseConstant. cbv zeta. rewrite orb_true_iff, mem_In, ProofConfigBuild.endswith_spec. reflexivity. Qed.
Lemma on_spec v x : on v x = true <-> Enabled v x.
Proof.
  unfold on, Enabled. destruct (get (lit x) v) as [s|].
  - rewrite negb_true_iff. split.
    + intros H. exists s. split; [reflexivity|]. rewrite <- falsy_spec. congruence.
    + intros (s' & E & H). injection E as <-. rewrite <- falsy_spec in H. destruct (falsy s); congruence.
  - split; [discriminate|]. intros (s & E & _). discriminate.
Qed.
Lemma on_or v x y : on v x || on v y = true <-> Enabled v x \/ Enabled v y.
Proof. rewrite orb_true_iff, !on_spec. reflexivity. Qed.

Lemma header_lemma v version h : configure v version = Some h ->
  (cuda h = true <-> Enabled v "SHIVA_ENABLE_CUDA" \/ Enabled v "ENABLE_CUDA") /\
  (hip h = true <-> Enabled v "SHIVA_ENABLE_HIP" \/ Enabled v "ENABLE_HIP") /\
  (camp h = true <-> Enabled v "SHIVA_ENABLE_CAMP") /\
  (bounds h = true <-> Enabled v "SHIVA_ENABLE_BOUNDS_CHECK") /\
  ~ (cuda h = true /\ hip h = true).
Proof.
  rewrite <- !on_or, <- !on_spec. unfold configure. cbv zeta.
  set (cu := on v "SHIVA_ENABLE_CUDA" || on v "ENABLE_CUDA"). set (hi := on v "SHIVA_ENABLE_HIP" || on v "ENABLE_HIP").
  destruct (cu && hi) eqn:CH; [discriminate|]. intros H.
  assert (X : exists a b, h = {| cuda := cu; hip := hi; camp := on v "SHIVA_ENABLE_CAMP"; bounds := on v "SHIVA_ENABLE_BOUNDS_CHECK"; cuda_major := a; cuda_minor := b |}).
  { destruct version as [s|]; [destruct cu; [destruct s; [discriminate|]; destruct (splitc _ _) as [|? [|? ?]]; [discriminate| |]|]|];
      injection H as <-; eexists; eexists; reflexivity. }
  destruct X as (a & b & ->). cbn [cuda hip camp bounds]. repeat (split; [reflexivity|]).
  intros [C D]. rewrite C, D in CH. discriminate.
Qed.
Lemma configure_fails v version : configure v version = None <->
  (Enabled v "SHIVA_ENABLE_CUDA" \/ Enabled v "ENABLE_CUDA") /\
  ((Enabled v "SHIVA_ENABLE_HIP" \/ Enabled v "ENABLE_HIP") \/ version = Some []).
Proof.
  rewrite <- !on_or. unfold configure. cbv zeta.
  set (cu := on v "SHIVA_ENABLE_CUDA" || on v "ENABLE_CUDA"). set (hi := on v "SHIVA_ENABLE_HIP" || on v "ENABLE_HIP").
  destruct cu, hi; cbn [andb]; destruct version as [[|c s]|];
    try (destruct (splitc "." (c :: s)) as [|? [|? ?]] eqn:E; [destruct (ProofPath.splitc_not_nil _ _ E)| |]);
    split; try discriminate; intuition (try discriminate; auto).
Qed.
Lemma version_lemma v s a b h : configure v (Some s) = Some h -> cuda h = true -> Version s a b ->
  cuda_major h = a /\ cuda_minor h = b.
Proof.
  intros H C (Na & Nb & V). unfold configure in H. cbv zeta in H.
  destruct (on v "SHIVA_ENABLE_CUDA" || on v "ENABLE_CUDA") eqn:CU; cbn [andb] in H.
  2:{ injection H as <-. discriminate. }
  destruct (on v "SHIVA_ENABLE_HIP" || on v "ENABLE_HIP"); [discriminate|].
  assert (S : exists r, splitc "." s = a :: b :: r).
  { destruct V as [-> |[r ->]].
    - exists []. change (lit "." ++ b) with ("."%char :: b). rewrite ProofPath.splitc_app, !ProofPath.splitc_free by assumption. reflexivity.
    - exists (splitc "." r). change (lit "." ++ b ++ lit "." ++ r) with ("."%char :: (b ++ "."%char :: r)).
      rewrite !ProofPath.splitc_app, !ProofPath.splitc_free by assumption. reflexivity. }
  destruct S as [r S]. rewrite S in H. destruct s; [discriminate|]. injection H as <-. auto.
Qed.
Lemma standalone_version v parent compiler h : configure v (version_at_config true parent compiler) = Some h ->
  cuda_major h = lit "0" /\ cuda_minor h = lit "0".
Proof.
  unfold version_at_config. cbn [negb andb]. unfold configure. cbv zeta. destruct (_ && _); [discriminate|].
  intros H. injection H as <-. auto.
Qed.

Lemma build_tests v c t : Enabled v "SHIVA_ENABLE_BLT" ->
  selected (registered v c t) (lit "-E") (lit "testUncrustifyCheck|testDoxygenCheck|testCppCheck|testClangTidy") =
  if on v "SHIVA_ENABLE_UNIT_TESTS" then map (fun t => lit (fst t)) unit_tests else [].
Proof.
  intros H. apply on_spec in H. unfold registered. rewrite H.
  destruct (on v "SHIVA_ENABLE_UNIT_TESTS"), c, t; vm_compute; reflexivity.
Qed.
Lemma style_tests v c t :
  selected (registered v c t) (lit "-R") (lit "testDoxygenCheck") = [] /\
  selected (registered v c t) (lit "-R") (lit "testUncrustifyCheck") = [].
Proof.
  unfold registered. destruct (on v "SHIVA_ENABLE_BLT"); [|split; reflexivity].
  destruct (on v "SHIVA_ENABLE_UNIT_TESTS"), c, t; split; vm_compute; reflexivity.
Qed.
Lemma check_tests v c t : Enabled v "SHIVA_ENABLE_BLT" ->
  selected (registered v c t) (lit "-R") (lit "testCppCheck|testClangTidy") =
  (if c then [lit "testCppCheck"] else []) ++ (if t then [lit "testClangTidy"] else []).
Proof.
  intros H. apply on_spec in H. unfold registered. rewrite H.
  destruct (on v "SHIVA_ENABLE_UNIT_TESTS"), c, t; vm_compute; reflexivity.
Qed.
Lemma ctest_spec tests passes flag pattern : 
  ctest_status tests passes (ctest_words flag pattern) = 0%Z <-> Forall (fun t => passes t = true) (selected tests (lit flag) (lit pattern)).
Proof.
  unfold ctest_status, ctest_words. rewrite Forall_forall, <- forallb_forall. destruct (forallb _ _); split; congruence.
Qed.
Lemma build_tests_lemma v c t passes : Enabled v "SHIVA_ENABLE_BLT" -> Enabled v "SHIVA_ENABLE_UNIT_TESTS" ->
  (ctest_status (registered v c t) passes (ctest "-E" "testUncrustifyCheck|testDoxygenCheck|testCppCheck|testClangTidy") = 0%Z <->
   forall name file, In (name, file) unit_tests -> passes (lit name) = true).
Proof.
  intros B U. etransitivity; [apply ctest_spec|]. rewrite (build_tests v c t B). apply on_spec in U. rewrite U.
  rewrite Forall_map, Forall_forall. split.
  - intros H n f I. exact (H _ I).
  - intros H [n f] I. exact (H n f I).
Qed.
Lemma check_tests_lemma v c t passes : Enabled v "SHIVA_ENABLE_BLT" ->
  (ctest_status (registered v c t) passes (ctest "-R" "testCppCheck|testClangTidy") = 0%Z <->
   (c = true -> passes (lit "testCppCheck") = true) /\ (t = true -> passes (lit "testClangTidy") = true)).
Proof.
  intros B. etransitivity; [apply ctest_spec|]. rewrite (check_tests v c t B).
  destruct c, t; cbn [app]; rewrite ?Forall_cons_iff; intuition (try discriminate; auto).
Qed.
Lemma style_tests_lemma v c t passes :
  ctest_status (registered v c t) passes (ctest "-R" "testDoxygenCheck") = 0%Z /\
  ctest_status (registered v c t) passes (ctest "-R" "testUncrustifyCheck") = 0%Z.
Proof.
  destruct (style_tests v c t) as [D U].
  split; (refine (proj2 (ctest_spec _ _ _ _) _); rewrite ?D, ?U; constructor).
Qed.

Lemma match_literal l c s : match_here (map (fun x => (x, false)) l ++ [(c, true)]) s = startswith s l.
Proof.
  revert s. induction l as [|x l IH]; intros s; cbn [map app match_here].
  - destruct s; reflexivity.
  - destruct s as [|y s]; [reflexivity|]. rewrite IH, Ascii.eqb_sym. unfold startswith. cbn [eat]. destruct (Ascii.eqb x y); reflexivity.
Qed.
Lemma search_literal l c s : search (map (fun x => (x, false)) l ++ [(c, true)]) s = occurs l s.
Proof.
  induction s as [|y s IH]; cbn [search occurs]; rewrite match_literal; [reflexivity|]. rewrite IH. reflexivity.
Qed.
Lemma sources_lemma all s : In s (checked_sources all) <->
  In s all /\ ~ Part (lit "buil") s /\ ~ Part (lit "blt") s /\ ~ Part (lit "camp") s.
Proof.
  unfold checked_sources. rewrite filter_In, negb_true_iff.
  assert (X : existsb (fun x => search (regex x) s) excludes = occurs (lit "buil") s || (occurs (lit "blt") s || occurs (lit "camp") s)).
  { unfold excludes. cbn [existsb].
    change (regex (lit "build*")) with (map (fun x => (x, false)) (lit "buil") ++ [("d"%char, true)]).
    change (regex (lit "blt/*")) with (map (fun x => (x, false)) (lit "blt") ++ [("/"%char, true)]).
    change (regex (lit "camp/*")) with (map (fun x => (x, false)) (lit "camp") ++ [("/"%char, true)]).
    rewrite !search_literal, orb_false_r. reflexivity. }
  rewrite X, <- !occurs_spec.
  destruct (occurs (lit "buil") s), (occurs (lit "blt") s), (occurs (lit "camp") s); cbn [orb]; intuition congruence.
Qed.
Lemma check_lemma make lines : check_status make lines = 0%Z <-> make = 0%Z /\ exists k, lines = (256 * k)%N.
Proof.
  unfold check_status. destruct (Z.eqb_spec make 0) as [E|E].
  - split.
    + intros H. split; [exact E|]. exists (N.div lines 256). apply N2Z.inj. rewrite N2Z.inj_mul, N2Z.inj_div.
      pose proof (Z.div_mod (Z.of_N lines) 256). change (Z.of_N 256) with 256%Z. lia.
    + intros [_ [k ->]]. rewrite N2Z.inj_mul, Z.mul_comm. apply Z.mod_mul. discriminate.
  - intuition congruence.
Qed.

Lemma coverage_lemma w e cwd argv0 args : let r := in_container w e cwd argv0 args in
  exit_status r = 0%Z -> Asked args "--code-coverage" ->
  ~ Asked args "--test-code-style" -> ~ Asked args "--test-doxygen" -> ~ Asked args "--code-checks" ->
  exists before make cov cp after, trace r = before ++ make :: cov :: cp :: after /\
    Passed (make_all (var e "NPROC")) make /\ Passed (map lit ["make"; "shiva_coverage"]%string) cov /\
    words cp = map lit ["cp"; "-r"; "/tmp/build/shiva_coverage.info.cleaned"; "/tmp/Shiva/shiva_coverage.info.cleaned"]%string.
Proof.
  intros r E B N1 N2 N3. destruct (plan_lemma w e cwd argv0 args E) as (e1 & e2 & e3 & e4 & evs & T & W3 & R3 & W4 & R4 & F).
  fold r in T. apply asks_spec in B. apply asks_false in N1, N2, N3. unfold commands in F. rewrite N1, N2, N3, B in F.
  cbn [app] in F. inversion F as [|? mk ? ts RM F1]; subst. inversion F1 as [|? cv ? ts' RC F2]; subst.
  inversion F2 as [|? cp ? ts RP F3]; subst.
  assert (P : forall ws ev, Ran ws ev -> (forall x, ws <> lit "env" :: x /\ ws <> lit "cp" :: x) -> Passed ws ev).
  { intros ws ev (A & D & [G|G]) X; [repeat split; auto|]. destruct G as (x & G). destruct (X x) as [X1 X2].
    rewrite A in G. destruct G; contradiction. }
  exists [e1; e2; e3; e4], mk, cv, cp, ts. split; [exact T|]. split; [apply P; [exact RM|apply make_not]|].
  split; [apply P; [exact RC|notcp]|]. exact (proj1 RP).
Qed.

Lemma test_sources_lemma : (forall file, In file test_sources <-> exists name, In (name, file) unit_tests) /\
  (forall name file name' file', In (name, file) unit_tests -> In (name', file') unit_tests -> (name = name' <-> file = file')).
Proof.
  split.
  - intros file. replace test_sources with (map snd unit_tests) by reflexivity. rewrite in_map_iff. split.
    + intros [[n f] [<- I]]. exists n. exact I.
    + intros [n I]. exists (n, file). auto.
  - assert (F : forall x y, In x unit_tests -> In y unit_tests -> String.eqb (fst x) (fst y) = String.eqb (snd x) (snd y)).
    { assert (B : forallb (fun x => forallb (fun y => Bool.eqb (String.eqb (fst x) (fst y)) (String.eqb (snd x) (snd y))) unit_tests) unit_tests = true)
        by (vm_compute; reflexivity).
      intros x y Ix Iy. rewrite forallb_forall in B. specialize (B x Ix). rewrite forallb_forall in B. apply Bool.eqb_prop, B, Iy. }
    intros n f n' f' I J. specialize (F _ _ I J). cbn [fst snd] in F. rewrite <- String.eqb_eq, F. apply String.eqb_eq.
Qed.

(** ** Where and how the project is configured *)
Lemma configuration_lemma w e cwd argv0 args d : let r := in_container w e cwd argv0 args in
  exit_status r = 0%Z -> ScriptDir argv0 d -> Unsplit argv0 -> Unsplit (var e "HOST_CONFIG") -> Unsplit (var e "CMAKE_BUILD_TYPE") ->
  exists ev1 ev2 conf rest onoff, trace r = ev1 :: ev2 :: conf :: rest /\
    words conf = map lit ["python3"; "scripts/config-build.py"; "-hc"]%string ++ [var e "HOST_CONFIG"; lit "-bt"; var e "CMAKE_BUILD_TYPE"] ++
      map lit ["-bp"; "/tmp/build"; "-ip"; "/tmp/install"; String.append "-DENABLE_COVERAGE:BOOL=" onoff]%string /\
    (Asked args "--code-coverage" /\ onoff = "ON"%string \/ ~ Asked args "--code-coverage" /\ onoff = "OFF"%string) /\
    result conf = 0%Z /\ at_dir conf = abspath cwd (d ++ lit "/..").
Proof.
  intros r E S U0 U1 U2. assert (V := proj1 (status_lemma w e cwd argv0 args) E). destruct V as (V1 & V2 & _).
  destruct (script_dir _ _ S) as (SD & SU & SN).
  destruct (plan_at w e cwd argv0 args E) as (e1 & e2 & e3 & e4 & evs & T & A3 & W3 & R3 & _).
  exists e1, e2, e3, (e4 :: evs), (if asks args "--code-coverage" then "ON" else "OFF")%string.
  split; [exact T|]. split; [|split; [|split; [exact R3|]]].
  - rewrite W3. unfold configure_words, command. cbn [flat_map]. rewrite !word_V by assumption.
    destruct (var e "HOST_CONFIG") as [|x1 l1]; [congruence|]. destruct (var e "CMAKE_BUILD_TYPE") as [|x2 l2]; [congruence|].
    destruct (asks args "--code-coverage"); reflexivity.
  - destruct (asks args "--code-coverage") eqn:A; [left; split; [apply asks_spec, A|reflexivity]|right; split; [apply asks_false, A|reflexivity]].
  - rewrite A3. clear - E SD SU SN U0. unfold r in E. clear r. unfold in_container in E.
    rewrite (surjective_pairing (exec w {| past := []; dir := cwd |} [lit "env"])) in E.
    pose proof (or_die_ok _ _ _ _ E) as [_ R1]. unfold exec at 1. cbn [fst dir]. rewrite R1. clear R1 E.
    unfold command. cbn [flat_map]. rewrite SD, (word_VL d "/.." (SU U0) SN). reflexivity.
Qed.
