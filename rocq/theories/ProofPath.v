(** Facts about normalised paths. *)
From Coq Require Import Bool Ascii String NArith Arith List Lia.
From Verif Require Import ModelPython SpecAggregate ProofPython.
Import ListNotations.

Definition step (abs : bool) (acc : list str) (c : str) : list str :=
  if eqs c [] || eqs c dot then acc
  else if negb (eqs c dotdot) || match acc with [] => negb abs | d :: _ => eqs d dotdot end
  then c :: acc else tl acc.
Lemma normcomps_fold abs cs acc : normcomps abs acc cs = rev (fold_left (step abs) cs acc).
Proof.
  revert acc. induction cs as [|c cs IH]; intros acc; cbn [normcomps fold_left]; [reflexivity|].
  unfold step at 2. destruct (eqs c [] || eqs c dot); [apply IH|].
  destruct (negb _ || _); apply IH.
Qed.

Lemma splitc_not_nil c s : splitc c s <> [].
Proof.
  destruct s as [|x s]; cbn [splitc]; [discriminate|]. destruct (Ascii.eqb x c); [discriminate|].
  destruct (splitc c s); discriminate.
Qed.
Lemma splitc_app c a b : splitc c (a ++ c :: b) = splitc c a ++ splitc c b.
Proof.
  induction a as [|x a IH]; cbn [app splitc].
  - rewrite Ascii.eqb_refl. reflexivity.
  - rewrite IH. destruct (Ascii.eqb x c); [reflexivity|].
    destruct (splitc c a) eqn:E; [destruct (splitc_not_nil _ _ E)|]. reflexivity.
Qed.
Lemma splitc_free c s : ~ In c s -> splitc c s = [s].
Proof.
  induction s as [|x s IH]; cbn [splitc]; [reflexivity|]. intros H.
  rewrite IH by (intros X; apply H; right; exact X).
  destruct (Ascii.eqb x c) eqn:E; [|reflexivity].
  apply Ascii.eqb_eq in E. subst. exfalso. apply H. left. reflexivity.
Qed.
Lemma splitc_parts c s : Forall (fun p => ~ In c p) (splitc c s).
Proof.
  induction s as [|x s IH]; cbn [splitc]; [repeat constructor; intros []|].
  destruct (Ascii.eqb x c) eqn:E; [constructor; [intros []|exact IH]|].
  apply Ascii.eqb_neq in E. destruct (splitc c s); [constructor; [|constructor]|].
  - intros [X|[]]. auto.
  - inversion_clear IH. constructor; [|assumption]. intros [X|X]; auto.
Qed.
Lemma splitc_joinc c l : l <> [] -> Forall (fun p => ~ In c p) l -> splitc c (joinc c l) = l.
Proof.
  intros N H. induction H as [|p l Hp Hl IH]; [congruence|].
  destruct l as [|q l]; [apply splitc_free; exact Hp|].
  change (joinc c (p :: q :: l)) with (p ++ c :: joinc c (q :: l)).
  rewrite splitc_app, (splitc_free c p Hp), IH by discriminate. reflexivity.
Qed.

Definition clean (c : str) := c <> [] /\ c <> dot /\ ~ In slash c.
Definition cleanish (c : str) := ~ In slash c.
Lemma step_clean abs acc c : cleanish c -> Forall clean acc -> Forall clean (step abs acc c).
Proof.
  intros Hc H. unfold step. destruct (eqs c [] || eqs c dot) eqn:E; [exact H|].
  apply orb_false_iff in E as [E1 E2]. apply eqs_neq in E1, E2.
  destruct (negb _ || _).
  - constructor; [repeat split; assumption|exact H].
  - destruct H; cbn [tl]; auto.
Qed.
Lemma fold_clean abs cs acc : Forall cleanish cs -> Forall clean acc -> Forall clean (fold_left (step abs) cs acc).
Proof.
  intros H. revert acc. induction H as [|c cs Hc _ IH]; intros acc A; cbn [fold_left]; [exact A|].
  apply IH, step_clean; assumption.
Qed.
Lemma step_no_dotdot acc c : ~ In dotdot acc -> ~ In dotdot (step true acc c).
Proof.
  intros H. unfold step. destruct (_ || _); [exact H|].
  destruct (eqs c dotdot) eqn:E; cbn [negb orb].
  - destruct acc as [|d acc]; cbn [tl]; [exact H|]. destruct (eqs d dotdot) eqn:E'.
    + apply eqs_eq in E'. subst. exfalso. apply H. left. reflexivity.
    + intros X. apply H. right. exact X.
  - apply eqs_neq in E. intros [X|X]; auto.
Qed.
Lemma fold_no_dotdot cs acc : ~ In dotdot acc -> ~ In dotdot (fold_left (step true) cs acc).
Proof.
  revert acc. induction cs as [|c cs IH]; intros acc A; cbn [fold_left]; [exact A|].
  apply IH, step_no_dotdot, A.
Qed.
Lemma step_name abs acc c : clean c -> c <> dotdot -> step abs acc c = c :: acc.
Proof.
  intros (A & B & _) C. unfold step. apply eqs_neq in A, B, C. rewrite A, B, C. reflexivity.
Qed.
Lemma fold_names abs cs acc : Forall clean cs -> ~ In dotdot cs -> fold_left (step abs) cs acc = rev cs ++ acc.
Proof.
  intros H. revert acc. induction H as [|c cs Hc _ IH]; intros acc N; cbn [fold_left rev]; [reflexivity|].
  rewrite step_name, IH.
  - rewrite <- app_assoc. reflexivity.
  - intros X. apply N. right. exact X.
  - exact Hc.
  - intros ->. apply N. left. reflexivity.
Qed.
(** Normalising a relative path first makes no difference to what an absolute path followed
    by it normalises to. *)
Lemma fold_sim cs st acc : Forall cleanish cs -> Forall clean st ->
  fold_left (step true) (rev (fold_left (step false) cs st)) acc =
  fold_left (step true) cs (fold_left (step true) (rev st) acc).
Proof.
  intros H. revert st. induction H as [|c cs Hc _ IH]; intros st S; cbn [fold_left]; [reflexivity|].
  rewrite IH by (apply step_clean; assumption). f_equal.
  assert (P : fold_left (step true) (rev (c :: st)) acc = step true (fold_left (step true) (rev st) acc) c).
  { cbn [rev]. rewrite fold_left_app. reflexivity. }
  unfold step at 2. destruct (eqs c [] || eqs c dot) eqn:E.
  { unfold step at 2. rewrite E. reflexivity. }
  destruct (eqs c dotdot) eqn:D; cbn [negb orb]; [|exact P].
  destruct st as [|d st]; cbn [negb orb]; [exact P|].
  destruct (eqs d dotdot) eqn:D'; [exact P|]. cbn [tl].
  inversion_clear S as [|? ? Hd S'].
  cbn [rev]. rewrite fold_left_app. cbn [fold_left].
  rewrite (step_name true _ d Hd) by (apply eqs_neq; exact D').
  unfold step at 2. rewrite E, D. cbn [negb orb]. rewrite D'. reflexivity.
Qed.

Definition rel (x : str) := match x with [] => True | c :: _ => c <> slash end.
Lemma rel_startswith x : startswith x [slash] = false <-> rel x.
Proof.
  unfold startswith. destruct x as [|c x]; cbn [eat rel]; [tauto|].
  rewrite Ascii.eqb_sym. destruct (Ascii.eqb c slash) eqn:E.
  - apply Ascii.eqb_eq in E. split; [discriminate|congruence].
  - apply Ascii.eqb_neq in E. tauto.
Qed.
Lemma leading_0 x : leading x = 0 <-> rel x.
Proof.
  destruct x as [|a [|b [|c x]]]; cbn [leading rel]; try tauto;
    destruct (Ascii.eqb a slash) eqn:E; try (apply Ascii.eqb_eq in E; split; [|congruence]);
    try (apply Ascii.eqb_neq in E; tauto); try discriminate;
    destruct (Ascii.eqb b slash); try discriminate; destruct (Ascii.eqb c slash); discriminate.
Qed.
Lemma leading_2 x : leading x <= 2.
Proof.
  destruct x as [|a [|b [|c x]]]; cbn [leading]; repeat destruct (Ascii.eqb _ slash); lia.
Qed.
Lemma leading_repeat n x : n <= 2 -> rel x -> leading (repeat slash n ++ x) = n.
Proof.
  intros Hn Hx. destruct n as [|[|[|n]]]; [| | |lia]; cbn [repeat app].
  - apply leading_0, Hx.
  - destruct x as [|a [|b x]]; cbn [leading]; rewrite Ascii.eqb_refl; [reflexivity| |];
      cbn [rel] in Hx; apply Ascii.eqb_neq in Hx; rewrite Hx; reflexivity.
  - destruct x as [|a x]; cbn [leading]; rewrite !Ascii.eqb_refl; [reflexivity|].
    cbn [rel] in Hx; apply Ascii.eqb_neq in Hx; rewrite Hx; reflexivity.
Qed.
Lemma rel_joinc cs : Forall clean cs -> rel (joinc slash cs).
Proof.
  intros H. destruct H as [|c cs (Hc & _ & Hs) _]; [exact I|].
  destruct c as [|x c]; [congruence|]. destruct cs; cbn [joinc app rel];
    intros ->; apply Hs; left; reflexivity.
Qed.
Lemma fold_skip abs n cs acc : fold_left (step abs) (repeat [] n ++ cs) acc = fold_left (step abs) cs acc.
Proof. induction n as [|n IH]; cbn [repeat app fold_left]; [reflexivity|]. exact IH. Qed.
Lemma splitc_repeat n x : splitc slash (repeat slash n ++ x) = repeat [] n ++ splitc slash x.
Proof.
  induction n as [|n IH]; cbn [repeat app splitc]; [reflexivity|].
  rewrite Ascii.eqb_refl, IH. reflexivity.
Qed.

Definition stack (abs : bool) (p : str) := fold_left (step abs) (splitc slash p) [].
Lemma stack_clean abs p : Forall clean (stack abs p).
Proof. apply fold_clean; [apply splitc_parts|constructor]. Qed.
Lemma Forall_rev' {A} (P : A -> Prop) l : Forall P l -> Forall P (rev l).
Proof. intros H. apply Forall_forall. intros x X. apply in_rev in X. revert x X. apply Forall_forall, H. Qed.
Lemma clean_cleanish l : Forall clean l -> Forall cleanish l.
Proof. intros H. induction H as [|c l (_ & _ & H) _ IH]; constructor; assumption. Qed.

(** Splitting a joined clean list and folding *)
Lemma fold_split_joinc abs cs acc : Forall clean cs ->
  fold_left (step abs) (splitc slash (joinc slash cs)) acc = fold_left (step abs) cs acc.
Proof.
  intros H. destruct cs as [|c cs]; [reflexivity|].
  rewrite splitc_joinc; [reflexivity|discriminate|apply clean_cleanish, H].
Qed.
Lemma normpath_eq p : normpath p =
  match repeat slash (leading p) ++ joinc slash (rev (stack (negb (Nat.eqb (leading p) 0)) p)) with
  | [] => dot | s => s end.
Proof. unfold normpath, stack. rewrite normcomps_fold. destruct (_ ++ _); reflexivity. Qed.
Lemma normpath_abs p : leading p <> 0 ->
  normpath p = repeat slash (leading p) ++ joinc slash (rev (stack true p)).
Proof.
  intros H. rewrite normpath_eq. destruct (leading p); [congruence|]. reflexivity.
Qed.
Lemma normpath_congr p q : leading p <> 0 -> leading p = leading q -> stack true p = stack true q ->
  normpath p = normpath q.
Proof. intros H L S. rewrite !normpath_abs by congruence. rewrite L, S. reflexivity. Qed.
Lemma stack_normpath p : leading p <> 0 -> stack true (normpath p) = stack true p.
Proof.
  intros H. rewrite normpath_abs by exact H. unfold stack at 1. rewrite splitc_repeat, fold_skip.
  pose proof (stack_clean true p) as C. rewrite fold_split_joinc by (apply Forall_rev', C).
  rewrite fold_names.
  - rewrite rev_involutive. apply app_nil_r.
  - apply Forall_rev', C.
  - rewrite <- in_rev. apply fold_no_dotdot. intros [].
Qed.
Lemma leading_normpath p : leading (normpath p) = leading p.
Proof.
  rewrite normpath_eq. pose proof (Forall_rev' _ _ (stack_clean (negb (Nat.eqb (leading p) 0)) p)) as C.
  pose proof (leading_repeat (leading p) _ (leading_2 p) (rel_joinc _ C)) as L.
  destruct (repeat slash (leading p) ++ _) eqn:E; [|exact L].
  destruct (leading p); [reflexivity|discriminate E].
Qed.
Lemma normpath_idem p : leading p <> 0 -> normpath (normpath p) = normpath p.
Proof.
  intros H. apply normpath_congr.
  - rewrite leading_normpath. exact H.
  - apply leading_normpath.
  - apply stack_normpath. exact H.
Qed.

Lemma absolute_leading p : absolute p <-> leading p <> 0.
Proof.
  unfold absolute. rewrite leading_0, <- rel_startswith. destruct (startswith p [slash]); split; congruence.
Qed.
Lemma join_rel_shape cwd x : absolute cwd -> rel x -> exists a,
  (cwd = a ++ [slash] \/ cwd = a) /\ join cwd x = a ++ slash :: x.
Proof.
  intros A X. assert (N : cwd <> []) by (intros ->; discriminate A).
  destruct cwd as [|d a _] using rev_ind; [congruence|].
  unfold join. rewrite rev_unit. destruct (Ascii.eqb d slash) eqn:D.
  - apply Ascii.eqb_eq in D. subst d. exists a. split; [left; reflexivity|].
    destruct x as [|c x]; [reflexivity|]. cbn [rel] in X. apply Ascii.eqb_neq in X. rewrite X.
    rewrite <- app_assoc. reflexivity.
  - exists (a ++ [d]). split; [right; reflexivity|].
    destruct x as [|c x]; [reflexivity|]. cbn [rel] in X. apply Ascii.eqb_neq in X. rewrite X. reflexivity.
Qed.
Lemma stack_join cwd x : absolute cwd -> rel x ->
  stack true (join cwd x) = fold_left (step true) (splitc slash x) (stack true cwd).
Proof.
  intros A X. destruct (join_rel_shape cwd x A X) as (a & C & ->).
  unfold stack. rewrite splitc_app, fold_left_app. f_equal.
  destruct C as [->| ->]; [|reflexivity].
  rewrite splitc_app, fold_left_app. reflexivity.
Qed.
Lemma leading_join cwd x : absolute cwd -> rel x -> leading (join cwd x) = leading cwd.
Proof.
  intros A X. destruct cwd as [|a [|b [|c cwd]]]; [discriminate A| | |].
  - unfold absolute, startswith in A. cbn [eat] in A. rewrite Ascii.eqb_sym in A.
    destruct (Ascii.eqb a slash) eqn:E; [|discriminate]. apply Ascii.eqb_eq in E. subst a.
    unfold join. cbn [rev app]. rewrite Ascii.eqb_refl.
    destruct x as [|y x]; [reflexivity|]. cbn [rel] in X. apply Ascii.eqb_neq in X. rewrite X.
    destruct x; cbn [leading app]; rewrite Ascii.eqb_refl, X; reflexivity.
  - unfold join. cbn [rev app].
    destruct x as [|y x].
    + destruct (Ascii.eqb b slash) eqn:E; cbn [leading app]; rewrite ?E; try reflexivity.
    + cbn [rel] in X. apply Ascii.eqb_neq in X. rewrite X.
      destruct (Ascii.eqb b slash) eqn:E; cbn [leading app]; rewrite ?E, ?X; reflexivity.
  - unfold join. destruct (rev (a :: b :: c :: cwd)) as [|d r] eqn:R.
    + apply (f_equal (@rev ascii)) in R. rewrite rev_involutive in R. discriminate R.
    + destruct x as [|y x].
      * destruct (Ascii.eqb d slash); reflexivity.
      * cbn [rel] in X. apply Ascii.eqb_neq in X. rewrite X.
        destruct (Ascii.eqb d slash); reflexivity.
Qed.

Lemma abspath_cases cwd p : absolute cwd ->
  exists q, abspath cwd p = normpath q /\ leading q <> 0 /\
    (absolute p /\ q = p \/ rel p /\ q = join cwd p).
Proof.
  intros A. unfold abspath. destruct (startswith p [slash]) eqn:E.
  - exists p. split; [reflexivity|]. split; [apply absolute_leading; exact E|]. left. auto.
  - apply rel_startswith in E. exists (join cwd p). split; [reflexivity|]. split; [|right; auto].
    rewrite leading_join by assumption. apply absolute_leading. exact A.
Qed.
Lemma abspath_absolute cwd p : absolute cwd -> absolute (abspath cwd p).
Proof.
  intros A. destruct (abspath_cases cwd p A) as (q & -> & L & _).
  apply absolute_leading. rewrite leading_normpath. exact L.
Qed.
Lemma abspath_idem cwd p : absolute cwd -> abspath cwd (abspath cwd p) = abspath cwd p.
Proof.
  intros A. pose proof (abspath_absolute cwd p A) as B. unfold abspath at 1.
  unfold absolute in B. rewrite B.
  destruct (abspath_cases cwd p A) as (q & -> & L & _). apply normpath_idem. exact L.
Qed.
Lemma abspath_normpath cwd c : absolute cwd -> abspath cwd (normpath c) = abspath cwd c.
Proof.
  intros A. destruct (startswith c [slash]) eqn:E.
  - pose proof (proj1 (absolute_leading c) E) as L.
    assert (B : absolute (normpath c)) by (apply absolute_leading; rewrite leading_normpath; exact L).
    unfold abspath. unfold absolute in B. rewrite B, E. apply normpath_idem. exact L.
  - apply rel_startswith in E. assert (B : rel (normpath c)).
    { apply leading_0. rewrite leading_normpath. apply leading_0. exact E. }
    unfold abspath. rewrite (proj2 (rel_startswith _) B), (proj2 (rel_startswith _) E).
    apply normpath_congr.
    + rewrite leading_join by assumption. apply absolute_leading. exact A.
    + rewrite !leading_join by assumption. reflexivity.
    + rewrite !stack_join by assumption.
      rewrite normpath_eq, (proj2 (leading_0 c) E). cbn [repeat app Nat.eqb negb].
      pose proof (stack_clean false c) as C.
      assert (F : fold_left (step true) (rev (stack false c)) (stack true cwd) =
                  fold_left (step true) (splitc slash c) (stack true cwd)).
      { unfold stack at 1. rewrite fold_sim; [reflexivity|apply splitc_parts|constructor]. }
      rewrite <- F. rewrite <- (fold_split_joinc true _ (stack true cwd) (Forall_rev' _ _ C)).
      destruct (joinc slash (rev (stack false c))); reflexivity.
Qed.
Lemma join_absolute d p : absolute p -> join d p = p.
Proof.
  unfold absolute, startswith, join. destruct p as [|c p]; cbn [eat]; [discriminate|].
  rewrite Ascii.eqb_sym. destruct (Ascii.eqb c slash); [reflexivity|discriminate].
Qed.
