(** Lemmas about the base layer. *)
From Coq Require Import Sorting.Sorted.
From Verif Require Import Base.

Ltac Zify.zify_post_hook ::= Z.to_euclidean_division_equations.

Lemma bind_assoc {A B C} (m : outcome A) (f : A -> outcome B) (g : B -> outcome C) :
  bind (bind m f) g = bind m (fun x => bind (f x) g).
Proof. destruct m; reflexivity. Qed.

Lemma bind_ret {A} (m : outcome A) : bind m Ok = m.
Proof. destruct m; reflexivity. Qed.

Lemma bind_ext {A B} (m : outcome A) (f g : A -> outcome B) :
  (forall a, f a = g a) -> bind m f = bind m g.
Proof. intros H; destruct m; simpl; auto. Qed.

Lemma bind_Ok {A B} (m : outcome A) (f : A -> outcome B) b :
  bind m f = Ok b <-> exists a, m = Ok a /\ f a = Ok b.
Proof.
  destruct m; simpl; split.
  - intros H; eauto.
  - intros (a0 & H & H'). injection H as ->. exact H'.
  - discriminate.
  - intros (a0 & H & H'); discriminate.
  - discriminate.
  - intros (a0 & H & H'); discriminate.
  - discriminate.
  - intros (a0 & H & H'); discriminate.
  - discriminate.
  - intros (a0 & H & H'); discriminate.
Qed.

Lemma int_ok_iff z : int_ok z = true <-> INT_MIN <= z <= INT_MAX.
Proof. unfold int_ok. lia. Qed.

Lemma mkint_ok z : INT_MIN <= z <= INT_MAX -> mkint z = Ok z.
Proof. intros H. unfold mkint. rewrite (proj2 (int_ok_iff z) H). reflexivity. Qed.

Lemma mkint_inv z r : mkint z = Ok r -> r = z /\ INT_MIN <= z <= INT_MAX.
Proof.
  unfold mkint. destruct (int_ok z) eqn:E; intros H; inversion H; subst.
  split; [reflexivity | apply int_ok_iff; exact E].
Qed.

Lemma iadd_ok a b : INT_MIN <= a + b <= INT_MAX -> iadd a b = Ok (a + b).
Proof. apply mkint_ok. Qed.
Lemma isub_ok a b : INT_MIN <= a - b <= INT_MAX -> isub a b = Ok (a - b).
Proof. apply mkint_ok. Qed.
Lemma imul_ok a b : INT_MIN <= a * b <= INT_MAX -> imul a b = Ok (a * b).
Proof. apply mkint_ok. Qed.

Lemma zseq_length n : length (zseq n) = n.
Proof. unfold zseq. now rewrite map_length, seq_length. Qed.

Lemma in_zseq n k : In k (zseq n) <-> 0 <= k < Z.of_nat n.
Proof.
  unfold zseq. rewrite in_map_iff. split.
  - intros (x & Hx & Hin). apply in_seq in Hin. lia.
  - intros H. exists (Z.to_nat k). split; [lia | apply in_seq; lia].
Qed.

Lemma zseq_S n : zseq (S n) = zseq n ++ [Z.of_nat n].
Proof. unfold zseq. rewrite seq_S, map_app. reflexivity. Qed.

Lemma zseq_S_l n : zseq (S n) = 0 :: map Z.succ (zseq n).
Proof.
  unfold zseq. simpl. f_equal. rewrite <- seq_shift, !map_map.
  apply map_ext. intros; lia.
Qed.

Lemma nth_error_zseq n k : (k < n)%nat -> nth_error (zseq n) k = Some (Z.of_nat k).
Proof.
  intros H. unfold zseq. apply map_nth_error.
  rewrite nth_error_nth' with (d := O) by (rewrite seq_length; lia).
  now rewrite seq_nth.
Qed.

Lemma rd_app_mid {A} (pre : list A) a suf :
  rd (pre ++ a :: suf) (Z.of_nat (length pre)) = Ok a.
Proof.
  unfold rd. destruct (Z.ltb_spec (Z.of_nat (length pre)) 0); [lia|].
  rewrite Nat2Z.id, nth_error_app2 by lia. now rewrite Nat.sub_diag.
Qed.

Lemma upd_app_mid {A} (pre : list A) a suf x :
  upd (pre ++ a :: suf) (length pre) x = pre ++ x :: suf.
Proof. induction pre as [|p pre IH]; simpl; [reflexivity | now rewrite IH]. Qed.

Lemma wr_app_mid {A} (pre : list A) a suf x :
  wr (pre ++ a :: suf) (Z.of_nat (length pre)) x = Ok (pre ++ x :: suf).
Proof.
  unfold wr. rewrite app_length. simpl length.
  destruct (Z.leb_spec 0 (Z.of_nat (length pre))); [|lia].
  destruct (Z.ltb_spec (Z.of_nat (length pre)) (Z.of_nat (length pre + S (length suf)))); [|lia].
  simpl. now rewrite Nat2Z.id, upd_app_mid.
Qed.

Lemma upd_length {A} (l : list A) i x : length (upd l i x) = length l.
Proof. revert i; induction l as [|h t IH]; intros [|i]; simpl; auto. Qed.

Lemma nth_error_upd_eq {A} (l : list A) i x :
  (i < length l)%nat -> nth_error (upd l i x) i = Some x.
Proof.
  revert i; induction l as [|h t IH]; intros [|i] H; simpl in *; try lia; auto.
  apply IH; lia.
Qed.

Lemma nth_error_upd_neq {A} (l : list A) i j x :
  i <> j -> nth_error (upd l i x) j = nth_error l j.
Proof.
  revert i j; induction l as [|h t IH]; intros [|i] [|j] H; simpl; auto; try congruence.
Qed.

Lemma rd_ok {A} (l : list A) i : 0 <= i < Z.of_nat (length l) -> exists x, rd l i = Ok x.
Proof.
  intros H. unfold rd. destruct (Z.ltb_spec i 0); [lia|].
  destruct (nth_error l (Z.to_nat i)) eqn:E; eauto.
  apply nth_error_None in E. lia.
Qed.

Lemma rd_inv {A} (l : list A) i x :
  rd l i = Ok x <-> 0 <= i /\ nth_error l (Z.to_nat i) = Some x.
Proof.
  unfold rd. destruct (Z.ltb_spec i 0) as [H|H].
  - split; [discriminate | intros [H' _]; lia].
  - destruct (nth_error l (Z.to_nat i)); split; intros H1.
    + injection H1 as ->; auto.
    + destruct H1 as [_ H1]. injection H1 as ->; auto.
    + discriminate.
    + destruct H1; discriminate.
Qed.

Lemma wr_ok {A} (l : list A) i x :
  0 <= i < Z.of_nat (length l) -> wr l i x = Ok (upd l (Z.to_nat i) x).
Proof.
  intros H. unfold wr. destruct (Z.leb_spec 0 i); [|lia].
  destruct (Z.ltb_spec i (Z.of_nat (length l))); [|lia]. reflexivity.
Qed.

Lemma foldM_app {A S} (f : A -> S -> outcome S) l1 l2 s :
  foldM f (l1 ++ l2) s = (s' <- foldM f l1 s ;; foldM f l2 s').
Proof.
  revert s; induction l1 as [|a l IH]; intros s; simpl; [reflexivity|].
  rewrite bind_assoc. apply bind_ext. intros s'. apply IH.
Qed.

Lemma foldM_map {A B S} (f : B -> S -> outcome S) (g : A -> B) l s :
  foldM f (map g l) s = foldM (fun a => f (g a)) l s.
Proof.
  revert s; induction l as [|a l IH]; intros s; simpl; [reflexivity|].
  apply bind_ext. intros s'; apply IH.
Qed.

Lemma foldM_ext {A S} (f g : A -> S -> outcome S) l s :
  (forall a s, In a l -> f a s = g a s) -> foldM f l s = foldM g l s.
Proof.
  revert s; induction l as [|a l IH]; intros s H; simpl; [reflexivity|].
  rewrite H by now left. apply bind_ext. intros s'; apply IH. intros; apply H; now right.
Qed.

Lemma foldM_flat_map {A B S} (f : B -> S -> outcome S) (g : A -> list B) l s :
  foldM f (flat_map g l) s = foldM (fun a => foldM f (g a)) l s.
Proof.
  revert s; induction l as [|a l IH]; intros s; simpl; [reflexivity|].
  rewrite foldM_app. apply bind_ext. intros s'; apply IH.
Qed.

Lemma fold_comma_map {A S} (f : A -> S -> outcome S) l s :
  fold_comma (map f l) s = foldM f l s.
Proof.
  revert s; induction l as [|a l IH]; intros s; simpl; [reflexivity|].
  apply bind_ext. intros s'; apply IH.
Qed.

(** Two strictly sorted lists with the same elements are equal. *)
Lemma sorted_unique {A} (R : A -> A -> Prop)
  (irr : forall x, ~ R x x) (tr : forall x y z, R x y -> R y z -> R x z) :
  forall l1 l2, StronglySorted R l1 -> StronglySorted R l2 ->
    (forall x, In x l1 <-> In x l2) -> l1 = l2.
Proof.
  induction l1 as [|a l1 IH]; intros l2 S1 S2 H.
  - destruct l2 as [|b l2]; [reflexivity|]. destruct (H b) as [_ Hb].
    destruct Hb; now left.
  - destruct l2 as [|b l2]; [destruct (H a) as [Ha _]; destruct Ha; now left|].
    inversion S1 as [|? ? S1' F1]; subst. inversion S2 as [|? ? S2' F2]; subst.
    rewrite Forall_forall in F1, F2.
    assert (Eab : a = b).
    { destruct (proj1 (H a) (or_introl eq_refl)) as [E|E]; [congruence|].
      destruct (proj2 (H b) (or_introl eq_refl)) as [E'|E']; [congruence|].
      exfalso. apply (irr a). eapply tr; eauto. }
    subst b. f_equal. apply IH; auto.
    intros x; split; intros Hx.
    + destruct (proj1 (H x) (or_intror Hx)) as [E|E]; auto.
      subst x. exfalso. apply (irr a). auto.
    + destruct (proj2 (H x) (or_intror Hx)) as [E|E]; auto.
      subst x. exfalso. apply (irr a). auto.
Qed.

Lemma StronglySorted_app {A} (R : A -> A -> Prop) l1 l2 :
  StronglySorted R l1 -> StronglySorted R l2 ->
  (forall x y, In x l1 -> In y l2 -> R x y) -> StronglySorted R (l1 ++ l2).
Proof.
  induction l1 as [|a l1 IH]; intros S1 S2 H; simpl; [exact S2|].
  inversion S1 as [|? ? S1' F1]; subst. constructor.
  - apply IH; auto. intros; apply H; auto. now right.
  - apply Forall_app. split; [exact F1|]. apply Forall_forall.
    intros y Hy. apply H; [now left | exact Hy].
Qed.

Lemma StronglySorted_NoDup {A} (R : A -> A -> Prop) (irr : forall x, ~ R x x) l :
  StronglySorted R l -> NoDup l.
Proof.
  induction 1 as [|a l S IH F]; constructor; auto.
  intros Hin. rewrite Forall_forall in F. apply (irr a). auto.
Qed.
