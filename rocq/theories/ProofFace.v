(** Elements of any number type on a layer of support points: which sums they compute. *)
From Verif Require Import Base ProofBase Num SpecIndex ProofBox ModelSequence ModelIndex ProofIndex ModelAssert
  ModelCArray SpecCArray ModelSpacing ModelLagrange ModelBasisProduct ModelMath ModelTransforms ProofPoly ProofLagrange ProofTensor ProofGeneric ProofConform.
Open Scope Z_scope.

Lemma range_mid ns n ms : forall t1 i t2, InRange ns t1 -> 0 <= i < n -> InRange ms t2 -> InRange (ns ++ n :: ms) (t1 ++ i :: t2).
Proof.
  induction ns as [|m ns IH]; intros t1 i t2 R1 Hi R2.
  - apply InRange_nil in R1. subst t1. cbn [app]. apply InRange_cons. exists i, t2. auto.
  - apply InRange_cons in R1. destruct R1 as (k & t & -> & Hk & Ht). cbn [app]. apply InRange_cons. exists k, (t ++ i :: t2). auto.
Qed.
Lemma mid_range {A} (lA lB : list (local A)) (l : local A) t1 i t2 : InRange (lcounts lA) t1 -> 0 <= i < ln l -> InRange (lcounts lB) t2 ->
  InRange (lcounts (lA ++ l :: lB)) (t1 ++ i :: t2).
Proof. intros R1 Hi R2. unfold lcounts in *. rewrite map_app. cbn [map]. now apply range_mid. Qed.

Section Face.
Context (N : Num) (fin zero clean : T N -> Prop).
Notation A := (T N).
Context (mul_zero_l : forall x y, zero x -> fin (nmul N x y) -> zero (nmul N x y)).
Context (mul_zero_r : forall x y, zero y -> fin (nmul N x y) -> zero (nmul N x y)).
Context (mul_fin_l : forall x y, fin (nmul N x y) -> fin x) (mul_fin_r : forall x y, fin (nmul N x y) -> fin y).
Context (add_zero : forall s z, clean s -> zero z -> nadd N s z = s) (add_clean : forall s x, clean s -> clean (nadd N s x)).
Context (clean_0 : clean (nofZ N 0)).

Lemma mulR_zero (vs : list A) : Exists zero vs -> fin (mulR vs) -> zero (mulR vs).
Proof using All.
  induction vs as [|a vs IH]; intros H F; [inversion H|]. destruct vs as [|b vs].
  - inversion H as [? ? Z|? ? Z]; [exact Z|inversion Z].
  - change (mulR (a :: b :: vs)) with (nmul N a (mulR (b :: vs))) in *.
    inversion H as [? ? Z|? ? Z]; subst; [now apply mul_zero_l|].
    apply mul_zero_r; [|exact F]. apply IH; [exact Z|]. now apply mul_fin_r in F.
Qed.

Lemma addL_app {B} (f : B -> A) l1 l2 s : addL f (l1 ++ l2) s = addL f l2 (addL f l1 s).
Proof. unfold addL. apply fold_left_app. Qed.
Lemma addL_map {B C} (f : B -> A) (g : C -> B) l s : addL f (map g l) s = addL (fun x => f (g x)) l s.
Proof. revert s. induction l as [|x l IH]; intros s; [reflexivity|]. cbn [map]. rewrite !addL_cons. apply IH. Qed.
Lemma addL_ext {B} (f g : B -> A) l : (forall x, In x l -> f x = g x) -> forall s, addL f l s = addL g l s.
Proof.
  induction l as [|x l IH]; intros H s; [reflexivity|]. rewrite !addL_cons, H by (left; reflexivity).
  apply IH. intros y Hy. apply H. right; exact Hy.
Qed.
Lemma addL_clean {B} (f : B -> A) l s : clean s -> clean (addL f l s).
Proof using All. revert s. induction l as [|x l IH]; intros s H; [exact H|]. rewrite addL_cons. apply IH, add_clean, H. Qed.
Lemma addL_zero {B} (f : B -> A) l s : clean s -> (forall x, In x l -> zero (f x)) -> addL f l s = s.
Proof using All.
  intros C. induction l as [|x l IH]; intros H; [reflexivity|]. rewrite addL_cons, add_zero by (auto using in_eq).
  apply IH. intros y Hy. apply H. right; exact Hy.
Qed.

(** Summation over a box, first index outside. *)
Definition outer (g : list Z -> A) (ns : list Z) (l : list Z) (s : A) : A :=
  fold_left (fun s i => addL (fun t => g (i :: t)) (zbox ns) s) l s.
Lemma zbox_cons n ns : zbox (n :: ns) = flat_map (fun i => map (cons i) (zbox ns)) (zseq (Z.to_nat n)).
Proof. unfold zbox. cbn [length repeat box]. rewrite <- zrange_0. reflexivity. Qed.
Lemma addL_zbox g n ns s : addL g (zbox (n :: ns)) s = outer g ns (zseq (Z.to_nat n)) s.
Proof.
  unfold outer. rewrite zbox_cons. revert s. induction (zseq (Z.to_nat n)) as [|i l IH]; intros s; [reflexivity|].
  cbn [flat_map fold_left]. rewrite addL_app, addL_map. apply IH.
Qed.
Lemma outer_clean g ns l s : clean s -> clean (outer g ns l s).
Proof using All. revert s. induction l as [|i l IH]; intros s H; [exact H|]. cbn [outer fold_left]. apply IH, addL_clean, H. Qed.
Lemma outer_zero g ns l s : clean s -> (forall i t, In i l -> InRange ns t -> zero (g (i :: t))) -> outer g ns l s = s.
Proof using All.
  intros C. induction l as [|i l IH]; intros H; [reflexivity|]. cbn [outer fold_left].
  rewrite addL_zero; [apply IH; intros; apply H; [right|]; assumption|exact C|].
  intros t Ht. apply in_zbox in Ht. apply H; [left; reflexivity|exact Ht].
Qed.
Lemma zseq_split n a : 0 <= a < n -> exists l1 l2, zseq (Z.to_nat n) = l1 ++ a :: l2 /\ ~ In a l1 /\ ~ In a l2.
Proof.
  intros H. assert (I : In a (zseq (Z.to_nat n))) by (apply in_zseq; lia).
  apply in_split in I. destruct I as (l1 & l2 & E). exists l1, l2. split; [exact E|].
  pose proof (NoDup_zseq (Z.to_nat n)) as D. rewrite E in D. apply NoDup_remove_2 in D. rewrite in_app_iff in D. tauto.
Qed.
Lemma layer_sum g n ns a s : 0 <= a < n -> clean s ->
  (forall i t, 0 <= i < n -> i <> a -> InRange ns t -> zero (g (i :: t))) ->
  addL g (zbox (n :: ns)) s = addL (fun t => g (a :: t)) (zbox ns) s.
Proof using All.
  intros Ha C H. rewrite addL_zbox. destruct (zseq_split n a Ha) as (l1 & l2 & E & N1 & N2).
  assert (R : forall i, In i (zseq (Z.to_nat n)) -> 0 <= i < n) by (intros i Hi; apply in_zseq in Hi; lia).
  rewrite E in *. unfold outer. rewrite fold_left_app. cbn [fold_left]. fold (outer g ns l1 s).
  rewrite (outer_zero g ns l1 s C).
  - fold (outer g ns l2 (addL (fun t => g (a :: t)) (zbox ns) s)). apply outer_zero; [now apply addL_clean|].
    intros i t Hi Ht. apply H; [apply R, in_app_iff; right; right; exact Hi|intros ->; contradiction|exact Ht].
  - intros i t Hi Ht. apply H; [apply R, in_app_iff; left; exact Hi|intros ->; contradiction|exact Ht].
Qed.
Lemma slab_sum nA n nB a : 0 <= a < n -> forall g s, clean s ->
  (forall t1 i t2, InRange nA t1 -> 0 <= i < n -> i <> a -> InRange nB t2 -> zero (g (t1 ++ i :: t2))) ->
  addL g (zbox (nA ++ n :: nB)) s =
  addL (fun t => g (firstn (length nA) t ++ a :: skipn (length nA) t)) (zbox (nA ++ nB)) s.
Proof using All.
  intros Ha. induction nA as [|m nA IH]; intros g s C H.
  - cbn [app length firstn skipn]. apply layer_sum; [exact Ha|exact C|]. intros i t Hi Hn Ht.
    apply (H [] i t); [apply InRange_nil; reflexivity|assumption..].
  - cbn [app]. rewrite !addL_zbox. unfold outer.
    assert (HI : forall i, In i (zseq (Z.to_nat m)) -> 0 <= i < m) by (intros i Hi; apply in_zseq in Hi; lia).
    revert s C. induction (zseq (Z.to_nat m)) as [|i l IHl]; intros s C; [reflexivity|]. cbn [fold_left].
    rewrite (IH (fun t => g (i :: t)) s C).
    + cbn [length firstn skipn app].
      apply IHl; [intros k Hk; apply HI; right; exact Hk|now apply addL_clean].
    + intros t1 k t2 H1 Hk Hn H2. apply (H (i :: t1) k t2); try assumption. apply InRange_cons. exists i, t1.
      split; [reflexivity|]. split; [apply HI; left; reflexivity|exact H1].
Qed.
Lemma slabs_agree nA n1 n2 nB a1 a2 g1 g2 s : 0 <= a1 < n1 -> 0 <= a2 < n2 -> clean s ->
  (forall t1 i t2, InRange nA t1 -> 0 <= i < n1 -> i <> a1 -> InRange nB t2 -> zero (g1 (t1 ++ i :: t2))) ->
  (forall t1 i t2, InRange nA t1 -> 0 <= i < n2 -> i <> a2 -> InRange nB t2 -> zero (g2 (t1 ++ i :: t2))) ->
  (forall t1 t2, InRange nA t1 -> InRange nB t2 -> g1 (t1 ++ a1 :: t2) = g2 (t1 ++ a2 :: t2)) ->
  addL g1 (zbox (nA ++ n1 :: nB)) s = addL g2 (zbox (nA ++ n2 :: nB)) s.
Proof using All.
  intros H1 H2 C Z1 Z2 E. rewrite (slab_sum nA n1 nB a1), (slab_sum nA n2 nB a2) by assumption.
  apply addL_ext. intros t Ht. apply in_zbox in Ht.
  assert (S : exists t1 t2, t = t1 ++ t2 /\ length t1 = length nA /\ InRange nA t1 /\ InRange nB t2).
  { clear - Ht. revert t Ht. induction nA as [|m nA IH]; intros t Ht.
    - exists [], t. split; [reflexivity|]. split; [reflexivity|]. split; [apply InRange_nil; reflexivity|exact Ht].
    - cbn [app] in Ht. apply InRange_cons in Ht. destruct Ht as (i & t' & -> & Hi & Ht). destruct (IH t' Ht) as (t1 & t2 & -> & L & I1 & I2).
      exists (i :: t1), t2. split; [reflexivity|]. split; [cbn; congruence|]. split; [|exact I2]. apply InRange_cons. exists i, t1. auto. }
  destruct S as (t1 & t2 & -> & L & I1 & I2). rewrite <- L, firstn_app, skipn_app, Nat.sub_diag, firstn_all, skipn_all. cbn [firstn skipn app].
  rewrite app_nil_r. now apply E.
Qed.

(** Factors of a product on and off the layer. *)
Lemma factors_app (G : Z) (l1 l2 : list (local A)) : forall off t1 t2, length t1 = length l1 ->
  factors G off (l1 ++ l2) (t1 ++ t2) = factors G off l1 t1 ++ factors G (off + Z.of_nat (length l1)) l2 t2.
Proof.
  induction l1 as [|l l1 IH]; intros off t1 t2 H; destruct t1 as [|i t1]; try discriminate.
  - cbn [app factors length]. rewrite Z.add_0_r. reflexivity.
  - cbn [app factors length]. rewrite IH by (cbn in H; lia).
    replace (off + 1 + Z.of_nat (length l1)) with (off + Z.of_nat (S (length l1))) by lia. reflexivity.
Qed.
Lemma factors_layer G (lA lB : list (local A)) l1 l2 a1 a2 t1 t2 : length t1 = length lA -> G <> Z.of_nat (length lA) -> lv l1 a1 = lv l2 a2 ->
  factors G 0 (lA ++ l1 :: lB) (t1 ++ a1 :: t2) = factors G 0 (lA ++ l2 :: lB) (t1 ++ a2 :: t2).
Proof.
  intros H Hg E. rewrite !factors_app by exact H. rewrite Z.add_0_l. cbn [factors].
  destruct (Z.eqb_spec G (Z.of_nat (length lA))); [contradiction|]. rewrite E. reflexivity.
Qed.
Lemma factors_zero G (lA lB : list (local A)) l i t1 t2 : length t1 = length lA -> G <> Z.of_nat (length lA) -> zero (lv l i) ->
  Exists zero (factors G 0 (lA ++ l :: lB) (t1 ++ i :: t2)).
Proof.
  intros H Hg Z. rewrite factors_app by exact H. rewrite Z.add_0_l. cbn [factors].
  destruct (Z.eqb_spec G (Z.of_nat (length lA))); [contradiction|]. apply Exists_app. right. left. exact Z.
Qed.

(** Two elements that agree on a layer. *)
Section Two.
Context (lA lB : list (local A)) (l1 l2 : local A) (a1 a2 : Z).
Context (H1 : 0 <= a1 < ln l1) (H2 : 0 <= a2 < ln l2).
Context (V : lv l1 a1 = lv l2 a2) (Z1 : forall i, 0 <= i < ln l1 -> i <> a1 -> zero (lv l1 i)) (Z2 : forall i, 0 <= i < ln l2 -> i <> a2 -> zero (lv l2 i)).
Context (u w : list Z -> A) (G : Z) (HG : G <> Z.of_nat (length lA)).
Context (U : forall t1 t2, InRange (lcounts lA) t1 -> InRange (lcounts lB) t2 -> u (t1 ++ a1 :: t2) = w (t1 ++ a2 :: t2)).
Let f1 t := nmul N (mulR (factors G 0 (lA ++ l1 :: lB) t)) (u t).
Let f2 t := nmul N (mulR (factors G 0 (lA ++ l2 :: lB) t)) (w t).
Context (F1 : forall t, InRange (lcounts (lA ++ l1 :: lB)) t -> fin (f1 t)) (F2 : forall t, InRange (lcounts (lA ++ l2 :: lB)) t -> fin (f2 t)).
Lemma element_face : addL f1 (zbox (lcounts (lA ++ l1 :: lB))) (nofZ N 0) = addL f2 (zbox (lcounts (lA ++ l2 :: lB))) (nofZ N 0).
Proof using All.
  assert (E : forall l, lcounts (lA ++ l :: lB) = lcounts lA ++ ln l :: lcounts lB) by (intros l; unfold lcounts; rewrite map_app; reflexivity).
  rewrite !E. apply (slabs_agree (lcounts lA) (ln l1) (ln l2) (lcounts lB) a1 a2); [exact H1|exact H2|exact clean_0| | |].
  - intros t1 i t2 R1 Hi Hn R2. pose proof (F1 _ (mid_range lA lB l1 t1 i t2 R1 Hi R2)) as F. unfold f1 in *. apply mul_zero_l; [|exact F].
    apply mulR_zero; [|exact (mul_fin_l _ _ F)]. apply factors_zero; [now apply InRange_lcounts|exact HG|now apply Z1].
  - intros t1 i t2 R1 Hi Hn R2. pose proof (F2 _ (mid_range lA lB l2 t1 i t2 R1 Hi R2)) as F. unfold f2 in *. apply mul_zero_l; [|exact F].
    apply mulR_zero; [|exact (mul_fin_l _ _ F)]. apply factors_zero; [now apply InRange_lcounts|exact HG|now apply Z2].
  - intros t1 t2 R1 R2. unfold f1, f2. rewrite (factors_layer G lA lB l1 l2 a1 a2) by (assumption || now apply InRange_lcounts).
    rewrite U by assumption. reflexivity.
Qed.
End Two.
End Face.
