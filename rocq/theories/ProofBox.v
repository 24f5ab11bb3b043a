(** The lexicographic enumeration of a box: existence, uniqueness, positions. *)
From Coq Require Import Sorting.Sorted.
From Verif Require Import Base ProofBase SpecIndex.

Definition zrange (l h : Z) : list Z := map (fun k => l + k) (zseq (Z.to_nat (h - l))).

Lemma in_zrange l h i : In i (zrange l h) <-> l <= i < h.
Proof.
  unfold zrange. rewrite in_map_iff. split.
  - intros (x & Hx & Hin). apply in_zseq in Hin. lia.
  - intros H. exists (i - l). split; [lia | apply in_zseq; lia].
Qed.

Lemma zrange_cons l h : l < h -> zrange l h = l :: zrange (l + 1) h.
Proof.
  intros H. unfold zrange.
  replace (Z.to_nat (h - l)) with (S (Z.to_nat (h - (l + 1)))) by lia.
  rewrite zseq_S_l. simpl. rewrite map_map. f_equal; [lia|].
  apply map_ext. intros; lia.
Qed.

Lemma zrange_nil l h : h <= l -> zrange l h = [].
Proof. intros H. unfold zrange. replace (Z.to_nat (h - l)) with O by lia. reflexivity. Qed.

Lemma zrange_0 h : zrange 0 h = zseq (Z.to_nat h).
Proof.
  unfold zrange. rewrite Z.sub_0_r. rewrite <- (map_id (zseq _)) at 2.
  apply map_ext. intros; lia.
Qed.

Lemma zrange_length l h : length (zrange l h) = Z.to_nat (h - l).
Proof. unfold zrange. now rewrite map_length, zseq_length. Qed.

Fixpoint box (lo hi : list Z) : list (list Z) :=
  match lo, hi with
  | [], [] => [[]]
  | l :: lo', h :: hi' => flat_map (fun i => map (cons i) (box lo' hi')) (zrange l h)
  | _, _ => []
  end.

Lemma in_box lo hi t : In t (box lo hi) <-> InBox lo hi t.
Proof.
  revert hi t; induction lo as [|l lo IH]; intros [|h hi] t; simpl.
  - split; [intros [H|[]]; subst; constructor | intros H; inversion H; now left].
  - split; [intros [] | intros H; inversion H].
  - split; [intros [] | intros H; inversion H].
  - rewrite in_flat_map. split.
    + intros (i & Hi & Ht). apply in_zrange in Hi. apply in_map_iff in Ht.
      destruct Ht as (t' & <- & Ht'). constructor; [exact Hi | now apply IH].
    + intros H; inversion H as [|? ? i ? ? t' Hi Ht']; subst. exists i.
      split; [now apply in_zrange|]. apply in_map. now apply IH.
Qed.

Lemma InBox_length lo hi t : InBox lo hi t -> length lo = length t /\ length hi = length t.
Proof. induction 1; simpl; lia. Qed.

Lemma LexLt_irrefl t : ~ LexLt t t.
Proof.
  induction t as [|a t IH]; intros H; inversion H; subst; [lia | contradiction].
Qed.

Lemma LexLt_length s t : LexLt s t -> length s = length t.
Proof. induction 1; simpl; lia. Qed.

Lemma LexLt_trans r s t : LexLt r s -> LexLt s t -> LexLt r t.
Proof.
  intros H; revert t; induction H as [a b s t Hab Hl | a s t H IH]; intros u Hu;
    inversion Hu as [a' b' s' t' Hab' Hl' | a' s' t' H']; subst.
  - constructor; lia.
  - constructor; [lia|]. apply LexLt_length in H'. lia.
  - constructor; [lia|]. apply LexLt_length in H. lia.
  - apply LexLt_next. auto.
Qed.

Lemma map_cons_sorted i l : StronglySorted LexLt l -> StronglySorted LexLt (map (cons i) l).
Proof.
  induction 1 as [|a l S IH F]; simpl; constructor; auto.
  apply Forall_forall. intros x Hx. apply in_map_iff in Hx. destruct Hx as (y & <- & Hy).
  apply LexLt_next. rewrite Forall_forall in F. auto.
Qed.

Lemma box_sorted lo hi : StronglySorted LexLt (box lo hi).
Proof.
  revert hi; induction lo as [|l lo IH]; intros [|h hi]; simpl; try (repeat constructor).
  remember (Z.to_nat (h - l)) as n eqn:En. revert l En.
  induction n as [|n IHn]; intros l En.
  - rewrite zrange_nil by lia. constructor.
  - rewrite zrange_cons by lia. simpl. apply StronglySorted_app.
    + apply map_cons_sorted, IH.
    + apply IHn. lia.
    + intros x y Hx Hy. apply in_map_iff in Hx. destruct Hx as (x' & <- & Hx').
      apply in_flat_map in Hy. destruct Hy as (i & Hi & Hy). apply in_zrange in Hi.
      apply in_map_iff in Hy. destruct Hy as (y' & <- & Hy').
      constructor; [lia|]. apply in_box, InBox_length in Hx'. apply in_box, InBox_length in Hy'.
      lia.
Qed.

Lemma box_LexEnum lo hi : LexEnum lo hi (box lo hi).
Proof.
  split; [apply box_sorted|]. split.
  - eapply StronglySorted_NoDup; [exact LexLt_irrefl | apply box_sorted].
  - intros t; apply in_box.
Qed.

Lemma LexEnum_unique lo hi E : LexEnum lo hi E -> E = box lo hi.
Proof.
  intros (HS & _ & HI). apply (sorted_unique LexLt).
  - exact LexLt_irrefl.
  - exact LexLt_trans.
  - exact HS.
  - apply box_sorted.
  - intros x. rewrite HI. symmetry. apply in_box.
Qed.

(** Positions *)

(** Arithmetic row-major offset. *)
Notation rowmajor := flat_offset.

Definition zbox (dims : list Z) := box (repeat 0 (length dims)) dims.

Lemma flat_map_const_length {A B} (f : A -> list B) (l : list A) n :
  (forall a, In a l -> length (f a) = n) -> length (flat_map f l) = (length l * n)%nat.
Proof.
  induction l as [|a l IH]; intros H; simpl; [reflexivity|].
  rewrite app_length, H by now left. rewrite IH; [reflexivity|].
  intros; apply H; now right.
Qed.

Lemma zbox_length dims : Forall (fun d => 0 <= d) dims ->
  Z.of_nat (length (zbox dims)) = prodZ dims.
Proof.
  unfold zbox. induction 1 as [|d ds Hd Hds IH]; simpl; [reflexivity|].
  rewrite flat_map_const_length with (n := length (box (repeat 0 (length ds)) ds)).
  - rewrite zrange_length, Nat2Z.inj_mul, IH, Z2Nat.id by lia.
    change (prodZ (d :: ds)) with (d * prodZ ds). ring.
  - intros a _. now rewrite map_length.
Qed.

Lemma prodZ_cons d ds : prodZ (d :: ds) = d * prodZ ds.
Proof. reflexivity. Qed.

Lemma prodZ_app a b : prodZ (a ++ b) = prodZ a * prodZ b.
Proof.
  induction a as [|x a IH]; [simpl; destruct (prodZ b); reflexivity|].
  change ((x :: a) ++ b) with (x :: (a ++ b)). rewrite !prodZ_cons, IH. ring.
Qed.

Lemma prodZ_nonneg ds : Forall (fun d => 0 <= d) ds -> 0 <= prodZ ds.
Proof.
  induction 1 as [|d ds Hd _ IH]; [unfold prodZ; simpl; lia|].
  rewrite prodZ_cons. apply Z.mul_nonneg_nonneg; auto.
Qed.

Lemma prodZ_pos ds : Forall (fun d => 0 < d) ds -> 0 < prodZ ds.
Proof.
  induction 1 as [|d ds Hd _ IH]; [unfold prodZ; simpl; lia|].
  rewrite prodZ_cons. apply Z.mul_pos_pos; auto.
Qed.

Lemma InRange_cons d ds t :
  InRange (d :: ds) t <-> exists i t', t = i :: t' /\ 0 <= i < d /\ InRange ds t'.
Proof.
  unfold InRange; simpl. split.
  - intros H; inversion H; subst; eauto.
  - intros (i & t' & -> & Hi & Ht). constructor; auto.
Qed.

Lemma InRange_nil t : InRange [] t <-> t = [].
Proof. unfold InRange; simpl. split; [intros H; now inversion H | intros ->; constructor]. Qed.

Lemma InRange_dims_pos ds t : InRange ds t -> Forall (fun d => 0 < d) ds.
Proof.
  revert t; induction ds as [|d ds IH]; intros t H; [constructor|].
  apply InRange_cons in H. destruct H as (i & t' & -> & Hi & Ht). constructor; [lia | eauto].
Qed.

Lemma rowmajor_bounds ds t : InRange ds t -> 0 <= rowmajor ds t < prodZ ds.
Proof.
  revert t; induction ds as [|d ds IH]; intros t H.
  - apply InRange_nil in H; subst. unfold prodZ; simpl; lia.
  - apply InRange_cons in H. destruct H as (i & t' & -> & Hi & Ht).
    pose proof (IH _ Ht). rewrite prodZ_cons. simpl. nia.
Qed.

Lemma nth_error_flat_map_const {A B} (f : A -> list B) (l : list A) n :
  (forall a, In a l -> length (f a) = n) ->
  forall i j a, nth_error l i = Some a -> (j < n)%nat ->
    nth_error (flat_map f l) (i * n + j) = nth_error (f a) j.
Proof.
  induction l as [|b l IH]; intros H i j a Hi Hj; [destruct i; discriminate|].
  simpl. destruct i as [|i]; simpl in Hi.
  - injection Hi as ->. rewrite nth_error_app1; [reflexivity|]. rewrite H by now left. lia.
  - rewrite nth_error_app2 by (rewrite H by (now left); lia).
    rewrite H by now left.
    replace (S i * n + j - n)%nat with (i * n + j)%nat by lia.
    apply IH; auto. intros; apply H; now right.
Qed.

Lemma zbox_nth ds t : InRange ds t ->
  nth_error (zbox ds) (Z.to_nat (rowmajor ds t)) = Some t.
Proof.
  revert t; induction ds as [|d ds IH]; intros t H.
  - apply InRange_nil in H; subst. reflexivity.
  - pose proof (InRange_dims_pos _ _ H) as Hpos.
    apply InRange_cons in H. destruct H as (i & t' & -> & Hi & Ht).
    pose proof (rowmajor_bounds _ _ Ht) as Hb.
    inversion Hpos as [|? ? Hd Hds]; subst.
    pose proof (prodZ_pos _ Hds) as Hp.
    assert (Hlen : Z.of_nat (length (zbox ds)) = prodZ ds).
    { apply zbox_length. eapply Forall_impl; [|exact Hds]. intros; simpl in *; lia. }
    unfold zbox. simpl.
    replace (Z.to_nat (i * prodZ ds + rowmajor ds t'))
      with (Z.to_nat i * length (zbox ds) + Z.to_nat (rowmajor ds t'))%nat by nia.
    rewrite nth_error_flat_map_const with (a := i).
    + apply map_nth_error. apply IH, Ht.
    + intros a _. rewrite map_length. reflexivity.
    + rewrite zrange_0, nth_error_zseq by lia. f_equal; lia.
    + lia.
Qed.

Lemma RowMajorPos_rowmajor ds t : InRange ds t -> RowMajorPos ds t (rowmajor ds t).
Proof.
  intros H. split; [apply rowmajor_bounds in H; lia|].
  exists (zbox ds). split; [apply box_LexEnum | apply zbox_nth, H].
Qed.

Lemma NoDup_nth_error_eq {A} (l : list A) i j x :
  NoDup l -> nth_error l i = Some x -> nth_error l j = Some x -> i = j.
Proof.
  intros ND Hi Hj. rewrite NoDup_nth_error in ND. apply ND.
  - apply nth_error_Some. congruence.
  - congruence.
Qed.

Lemma RowMajorPos_inv ds t k : RowMajorPos ds t k -> InRange ds t /\ k = rowmajor ds t.
Proof.
  intros (Hk & E & HE & Hn). pose proof HE as (_ & ND & HI).
  assert (Hin : InRange ds t) by (apply HI; eapply nth_error_In; eauto).
  split; [exact Hin|].
  pose proof (LexEnum_unique _ _ _ HE) as ->.
  pose proof (zbox_nth _ _ Hin) as Hn'. unfold zbox in Hn'.
  assert (Z.to_nat k = Z.to_nat (rowmajor ds t)) by (eapply NoDup_nth_error_eq; eauto).
  apply rowmajor_bounds in Hin. lia.
Qed.

Lemma rowmajor_inj ds t u : InRange ds t -> InRange ds u -> rowmajor ds t = rowmajor ds u -> t = u.
Proof.
  intros Ht Hu E. apply zbox_nth in Ht. apply zbox_nth in Hu. rewrite E in Ht. congruence.
Qed.

Lemma rowmajor_surj ds k : Forall (fun d => 0 < d) ds -> 0 <= k < prodZ ds ->
  exists t, InRange ds t /\ rowmajor ds t = k.
Proof.
  intros Hpos Hk.
  assert (Hlen : Z.of_nat (length (zbox ds)) = prodZ ds).
  { apply zbox_length. eapply Forall_impl; [|exact Hpos]. intros; simpl in *; lia. }
  destruct (nth_error (zbox ds) (Z.to_nat k)) as [t|] eqn:E.
  - exists t. assert (H : InRange ds t) by (apply in_box; eapply nth_error_In; eauto).
    split; [exact H|].
    pose proof (zbox_nth _ _ H) as E'.
    assert (Z.to_nat k = Z.to_nat (rowmajor ds t)).
    { eapply NoDup_nth_error_eq; [|exact E|exact E']. apply box_LexEnum. }
    apply rowmajor_bounds in H. lia.
  - apply nth_error_None in E. lia.
Qed.

Lemma CountInRange_prod ds : Forall (fun d => 0 <= d) ds -> CountInRange ds (prodZ ds).
Proof.
  intros H. exists (zbox ds). split; [apply box_LexEnum | apply zbox_length, H].
Qed.

Lemma CountInRange_inv ds n : Forall (fun d => 0 <= d) ds -> CountInRange ds n -> n = prodZ ds.
Proof.
  intros H (E & HE & <-). apply LexEnum_unique in HE. subst. symmetry.
  symmetry. now apply zbox_length.
Qed.
