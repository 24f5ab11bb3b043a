(** Traces of parent elements and cells on the layers of their grids. *)
From Verif Require Import Base ProofBase Num SpecIndex ProofBox SpecMath ModelAssert ModelCArray ModelSpacing ModelLagrange
  ModelBasisProduct ModelMath ModelTransforms SpecCArray SpecNumeric SpecBasis ProofPoly ProofLagrange ProofSpacing ProofTensor ProofTransform.
From Coq Require Import Reals Lra.
Open Scope Z_scope.

Lemma interp_layer d B u z a : Nodal d -> 0 <= a < npts d ->
  interp (d :: B) u (pt d a :: z) = interp B (fun t => u (a :: t)) z.
Proof.
  intros HN Ha. rewrite interp_cons.
  rewrite (sumR_ext _ (fun i => (if i =? a then 1 else 0) * interp B (fun t => u (i :: t)) z)%R).
  2:{ intros i Hi. apply in_zseq in Hi. rewrite (nb_nodal _ _ _ _ HN) by lia. reflexivity. }
  rewrite (sumR_one _ _ a).
  - rewrite Z.eqb_refl. ring.
  - apply NoDup_zseq.
  - apply in_zseq. lia.
  - intros i _ Hne. apply Z.eqb_neq in Hne. rewrite Hne. ring.
Qed.

Lemma interp_trace A d B a z : Nodal d -> 0 <= a < npts d -> forall u y, length y = length A ->
  interp (A ++ d :: B) u (y ++ pt d a :: z) =
  interp (A ++ B) (fun t => u (firstn (length A) t ++ a :: skipn (length A) t)) (y ++ z).
Proof.
  intros HN Ha. induction A as [|e A IH]; intros u y Hy.
  - destruct y; [|discriminate]. cbn [app length firstn skipn]. apply interp_layer; assumption.
  - destruct y as [|x y]; [discriminate|]. injection Hy as Hy. cbn [app]. rewrite !interp_cons. apply sumR_ext. intros i _.
    rewrite IH by exact Hy. reflexivity.
Qed.
Lemma interp_conform A d1 d2 B a b : Nodal d1 -> 0 <= a < npts d1 -> Nodal d2 -> 0 <= b < npts d2 -> forall u w y z, length y = length A ->
  (forall t1 t2, InRange (counts A) t1 -> InRange (counts B) t2 -> u (t1 ++ a :: t2) = w (t1 ++ b :: t2)) ->
  interp (A ++ d1 :: B) u (y ++ pt d1 a :: z) = interp (A ++ d2 :: B) w (y ++ pt d2 b :: z).
Proof.
  intros N1 Ha N2 Hb u w y z Hy. revert u w y Hy. induction A as [|e A IH]; intros u w y Hy H.
  - destruct y; [|discriminate]. cbn [app]. rewrite !interp_layer by assumption. apply interp_ext. intros t Ht.
    apply (H [] t); [apply InRange_nil; reflexivity|exact Ht].
  - destruct y as [|x y]; [discriminate|]. injection Hy as Hy. cbn [app]. rewrite !interp_cons. apply sumR_ext. intros i Hi.
    apply in_zseq in Hi. f_equal. apply IH; [exact Hy|]. intros t1 t2 H1 H2. apply (H (i :: t1) t2); [|exact H2].
    change (counts (e :: A)) with (npts e :: counts A). apply InRange_cons. exists i, t1. split; [reflexivity|]. split; [lia|exact H1].
Qed.

(** Moving along the layer. *)
Lemma upd_app_l {A} (y : list A) : forall j r t, (j < length y)%nat -> upd (y ++ r) j t = upd y j t ++ r.
Proof.
  induction y as [|a y IH]; intros j r t H; [cbn in H; lia|]. destruct j as [|j]; [reflexivity|]. cbn. f_equal. apply IH. cbn in H. lia.
Qed.
Lemma upd_app_r {A} (y : list A) : forall j x z t, (length y < j)%nat -> upd (y ++ x :: z) j t = y ++ x :: upd z (j - length y - 1) t.
Proof.
  induction y as [|a y IH]; intros j x z t H.
  - destruct j as [|j]; [cbn in H; lia|]. cbn. rewrite Nat.sub_0_r. reflexivity.
  - destruct j as [|j]; [cbn in H; lia|]. cbn. f_equal. apply IH. cbn in H. lia.
Qed.
Lemma nth_app_conform (y : list R) x1 x2 z j : j <> length y -> nth j (y ++ x1 :: z) 0%R = nth j (y ++ x2 :: z) 0%R.
Proof.
  intros H. destruct (Nat.lt_ge_cases j (length y)) as [L|L]; [rewrite !app_nth1 by exact L; reflexivity|].
  rewrite !app_nth2 by lia. destruct (j - length y)%nat eqn:E; [lia|reflexivity].
Qed.
Lemma partial_conform f1 f2 (y : list R) x1 x2 z j l1 l2 : j <> length y ->
  (forall y' z', length y' = length y -> f1 (y' ++ x1 :: z') = f2 (y' ++ x2 :: z')) ->
  Partial f1 j (y ++ x1 :: z) l1 -> Partial f2 j (y ++ x2 :: z) l2 -> l1 = l2.
Proof.
  intros Hj H P1 P2. unfold Partial in *. rewrite (nth_app_conform y x1 x2 z j Hj) in P1.
  eapply uniqueness_limite; [exact P1|]. eapply deriv_ext; [|exact P2]. intros t. cbv beta.
  destruct (Nat.lt_ge_cases j (length y)) as [L|L].
  - rewrite !upd_app_l by exact L. symmetry. apply H. apply upd_length.
  - rewrite !upd_app_r by lia. symmetry. apply H. reflexivity.
Qed.

Lemma app_ne {A} (a : list A) x b : a ++ x :: b <> [].
Proof. destruct a; discriminate. Qed.
Lemma len_app {A} (a : list A) x b : length (a ++ x :: b) = S (length a + length b).
Proof. rewrite app_length. cbn. lia. Qed.
Lemma Forall_mid {A} (P : A -> Prop) a x b : Forall P (a ++ x :: b) -> P x.
Proof. intros H. apply Forall_app in H. destruct H as [_ H]. inversion H. assumption. Qed.
Lemma Forall2_mid {A B} (P : A -> B -> Prop) a x b a' x' b' : length a = length a' -> Forall2 P (a ++ x :: b) (a' ++ x' :: b') ->
  Forall2 P a a' /\ P x x' /\ Forall2 P b b'.
Proof.
  revert a'. induction a as [|p a IH]; intros a' L H; destruct a' as [|p' a']; try discriminate; cbn [app] in H; inversion H; subst.
  - split; [constructor|]. split; assumption.
  - destruct (IH a') as (I1 & I2 & I3); [cbn in L; lia|assumption|]. split; [constructor; assumption|]. split; assumption.
Qed.

(** The trace on a layer is the element of the layer. *)
Lemma trace_lemma bA b bB A d B a var u y z : Forall2 Evaluates bA A -> Evaluates b d -> Forall2 Evaluates bB B ->
  Nodal d -> A ++ B <> [] -> 0 <= a < npts d -> length y = length A -> (length B <= length z)%nat ->
  (forall t, InRange (counts (A ++ d :: B)) t -> var t = Ok (u t)) ->
  exists v,
    parent_value RNum (Z.of_nat (length (A ++ d :: B))) (bA ++ b :: bB) var (y ++ pt d a :: z) = Ok v /\
    parent_value RNum (Z.of_nat (length (A ++ B))) (bA ++ bB)
      (fun t => var (firstn (length A) t ++ a :: skipn (length A) t)) (y ++ z) = Ok v.
Proof.
  intros E1 E2 E3 HN Hne Ha Hy Hz Hu. exists (interp (A ++ d :: B) u (y ++ pt d a :: z)). split.
  - apply parent_value_ok; [apply Forall2_app; [exact E1|constructor; assumption]|apply app_ne|reflexivity|exact Hu|].
    rewrite !app_length. cbn [length]. lia.
  - rewrite interp_trace by assumption.
    apply (parent_value_ok _ _ _ _ (fun t => u (firstn (length A) t ++ a :: skipn (length A) t))); [apply Forall2_app; assumption|exact Hne|reflexivity| |rewrite !app_length; lia].
    intros t Ht. apply Hu. unfold counts in *. rewrite map_app in *. cbn [map].
    assert (L : length A = length (map npts A)) by (rewrite map_length; reflexivity). rewrite L. clear - Ht Ha.
    revert t Ht. induction (map npts A) as [|n ns IH]; intros t Ht.
    + cbn. apply InRange_cons. exists a, t. auto.
    + cbn [app] in Ht. apply InRange_cons in Ht. destruct Ht as (i & t' & -> & Hi & Ht). cbn. apply InRange_cons. exists i. eexists. split; [reflexivity|].
      split; [exact Hi|]. apply IH, Ht.
Qed.

Section Two.
Context (bA bB : list (basis RNum)) (b1 b2 : basis RNum) (A B : list direction) (d1 d2 : direction) (a1 a2 : Z).
Context (EA : Forall2 Evaluates bA A) (EB : Forall2 Evaluates bB B) (E1 : Evaluates b1 d1) (E2 : Evaluates b2 d2).
Context (NA : Forall Nodal A) (NB : Forall Nodal B) (N1 : Nodal d1) (N2 : Nodal d2) (H1 : 0 <= a1 < npts d1) (H2 : 0 <= a2 < npts d2).
Lemma EV1 : Forall2 Evaluates (bA ++ b1 :: bB) (A ++ d1 :: B).
Proof using All. apply Forall2_app; [exact EA|constructor; assumption]. Qed.
Lemma EV2 : Forall2 Evaluates (bA ++ b2 :: bB) (A ++ d2 :: B).
Proof using All. apply Forall2_app; [exact EA|constructor; assumption]. Qed.
Lemma DF1 : Forall Differentiates (A ++ d1 :: B).
Proof using All. apply Nodal_Differentiates, Forall_app. split; [exact NA|constructor; assumption]. Qed.
Lemma DF2 : Forall Differentiates (A ++ d2 :: B).
Proof using All. apply Nodal_Differentiates, Forall_app. split; [exact NA|constructor; assumption]. Qed.
Lemma conform_lemma c var1 var2 u w y z : Z.of_nat (length (A ++ d1 :: B)) <= INT_MAX -> length y = length A -> (length B <= length z)%nat ->
  (forall t, InRange (counts (A ++ d1 :: B)) t -> var1 t = Ok (u t)) ->
  (forall t, InRange (counts (A ++ d2 :: B)) t -> var2 t = Ok (w t)) ->
  (forall t1 t2, InRange (counts A) t1 -> InRange (counts B) t2 -> u (t1 ++ a1 :: t2) = w (t1 ++ a2 :: t2)) ->
  (exists v, parent_value RNum (Z.of_nat (length (A ++ d1 :: B))) (bA ++ b1 :: bB) var1 (y ++ pt d1 a1 :: z) = Ok v /\
     parent_value RNum (Z.of_nat (length (A ++ d2 :: B))) (bA ++ b2 :: bB) var2 (y ++ pt d2 a2 :: z) = Ok v) /\
  (exists g1 g2, parent_gradient RNum c (Z.of_nat (length (A ++ d1 :: B))) (bA ++ b1 :: bB) var1 (y ++ pt d1 a1 :: z) = Ok g1 /\
     parent_gradient RNum c (Z.of_nat (length (A ++ d2 :: B))) (bA ++ b2 :: bB) var2 (y ++ pt d2 a2 :: z) = Ok g2 /\
     length g1 = length (A ++ d1 :: B) /\ length g2 = length (A ++ d1 :: B) /\
     forall j, (j < length (A ++ d1 :: B))%nat -> j <> length A -> nth j g1 0%R = nth j g2 0%R).
Proof using All.
  intros Hm Hy Hz U W S.
  assert (L1 : (length (A ++ d1 :: B) <= length (y ++ pt d1 a1 :: z))%nat) by (rewrite !len_app; lia).
  assert (L2 : (length (A ++ d2 :: B) <= length (y ++ pt d2 a2 :: z))%nat) by (rewrite !len_app; lia).
  assert (L : length (A ++ d2 :: B) = length (A ++ d1 :: B)) by (rewrite !len_app; reflexivity).
  split.
  - exists (interp (A ++ d1 :: B) u (y ++ pt d1 a1 :: z)).
    split; [apply parent_value_ok; [apply EV1|apply app_ne|reflexivity|exact U|exact L1]|].
    rewrite (interp_conform A d1 d2 B a1 a2 N1 H1 N2 H2 u w y z Hy S).
    apply parent_value_ok; [apply EV2|apply app_ne|reflexivity|exact W|exact L2].
  - destruct (parent_gradient_nth c _ _ u var1 _ EV1 (app_ne _ _ _) Hm U L1) as (g1 & G1 & K1 & P1).
    assert (Hm' : Z.of_nat (length (A ++ d2 :: B)) <= INT_MAX) by (rewrite L; exact Hm).
    destruct (parent_gradient_nth c _ _ w var2 _ EV2 (app_ne _ _ _) Hm' W L2) as (g2 & G2 & K2 & P2).
    exists g1, g2. split; [exact G1|]. split; [exact G2|]. split; [exact K1|]. split; [congruence|].
    intros j Hj Hne. rewrite P1 by exact Hj. rewrite P2 by (rewrite L; exact Hj).
    apply (partial_conform (interp (A ++ d1 :: B) u) (interp (A ++ d2 :: B) w) y (pt d1 a1) (pt d2 a2) z j); [congruence| | |].
    + intros y' z' Hy'. apply interp_conform; try assumption. congruence.
    + apply interp_partial; [apply DF1|exact L1|exact Hj].
    + apply interp_partial; [apply DF2|exact L2|rewrite L; exact Hj].
Qed.
Lemma cells_lemma c mem1 mem2 X1 X2 y z : (length (A ++ d1 :: B) <= 3)%nat -> length y = length A -> length (y ++ pt d1 a1 :: z) = 3%nat ->
  Holds (owning (counts (A ++ d1 :: B) ++ [Z.of_nat (length (A ++ d1 :: B))])) mem1 X1 ->
  Holds (owning (counts (A ++ d2 :: B) ++ [Z.of_nat (length (A ++ d2 :: B))])) mem2 X2 ->
  (forall t1 t2 i, InRange (counts A) t1 -> InRange (counts B) t2 -> 0 <= i < Z.of_nat (length (A ++ d1 :: B)) ->
     X1 (t1 ++ a1 :: t2 ++ [i]) = X2 (t1 ++ a2 :: t2 ++ [i])) ->
  exists J1 J2 K1 K2,
    jacobian_wrapper RNum c (Z.of_nat (length (A ++ d1 :: B))) (bA ++ b1 :: bB) mem1 (y ++ pt d1 a1 :: z) = Ok J1 /\
    jacobian_wrapper RNum c (Z.of_nat (length (A ++ d2 :: B))) (bA ++ b2 :: bB) mem2 (y ++ pt d2 a2 :: z) = Ok J2 /\
    Holds (owning [Z.of_nat (length (A ++ d1 :: B)); Z.of_nat (length (A ++ d1 :: B))]) J1 K1 /\
    Holds (owning [Z.of_nat (length (A ++ d1 :: B)); Z.of_nat (length (A ++ d1 :: B))]) J2 K2 /\
    forall i j, 0 <= i < Z.of_nat (length (A ++ d1 :: B)) -> (j < length (A ++ d1 :: B))%nat -> j <> length A ->
      K1 [i; Z.of_nat j] = K2 [i; Z.of_nat j].
Proof using All.
  intros Hm Hy Hx M1 M2 S.
  assert (L : length (A ++ d2 :: B) = length (A ++ d1 :: B)) by (rewrite !len_app; reflexivity).
  assert (Hx' : length (y ++ pt d2 a2 :: z) = 3%nat) by (rewrite len_app in *; exact Hx).
  destruct (jacobian_lemma c _ _ mem1 X1 _ EV1 DF1 (app_ne _ _ _) Hm Hx M1) as (J1 & K1 & Q1 & _ & R1 & P1).
  assert (Hm' : (length (A ++ d2 :: B) <= 3)%nat) by lia.
  destruct (jacobian_lemma c _ _ mem2 X2 _ EV2 DF2 (app_ne _ _ _) Hm' Hx' M2) as (J2 & K2 & Q2 & _ & R2 & P2).
  exists J1, J2, K1, K2. split; [exact Q1|]. split; [exact Q2|]. split; [exact R1|]. split; [rewrite <- L; exact R2|].
  intros i j Hi Hj Hne. specialize (P1 i j Hi Hj). specialize (P2 i j ltac:(lia) ltac:(lia)).
  refine (partial_conform _ _ y (pt d1 a1) (pt d2 a2) z j _ _ _ _ P1 P2); [congruence|].
  intros y' z' Hy'. apply (interp_conform A d1 d2 B a1 a2 N1 H1 N2 H2 (fun s => X1 (s ++ [i])) (fun s => X2 (s ++ [i])) y' z'); [congruence|].
  intros t1 t2 T1 T2. cbv beta. rewrite <- !app_assoc. cbn [app]. apply S; assumption.
Qed.
End Two.

(** The library's bases that include the ends of the interval. *)
Definition closed_ok (so : spacing * Z) : Prop :=
  match fst so with
  | EqualSpacing => 1 <= snd so < INT_MAX
  | GaussLegendreSpacing => False
  | GaussLobattoSpacing => 1 <= snd so <= 8
  end.
Lemma closed_direction s o : closed_ok (s, o) ->
  exists d, Evaluates (LagrangeBasis RNum o s) d /\ Nodal d /\ npts d = o + 1 /\ pt d 0 = (-1)%R /\ pt d o = 1%R.
Proof.
  intros H. destruct (lagrange_direction s o) as (d & HE & HN & Hn & HP).
  { unfold closed_ok, spec_ok in *. cbn [fst snd] in *. destruct s; [exact H|contradiction|exact H]. }
  exists d. split; [exact HE|]. split; [exact HN|]. split; [exact Hn|].
  destruct s; unfold closed_ok in H; cbn [fst snd] in H; [|contradiction|].
  - pose proof (HP 0 ltac:(lia)) as P0. pose proof (HP o ltac:(lia)) as P1.
    destruct (equal_spacing_lemma (o + 1) ltac:(lia)) as (x & h & _ & _ & Hx & X0 & X1 & _).
    replace (o + 1 - 1) with o in X1 by lia. destruct (Hx 0) as (Q0 & _). destruct (Hx o) as (Q1 & _).
    rewrite Q0 in P0. rewrite Q1 in P1. injection P0 as P0. injection P1 as P1. split; congruence.
  - pose proof (HP 0 ltac:(lia)) as P0. pose proof (HP o ltac:(lia)) as P1.
    destruct (lobatto_roots_lemma (o + 1) ltac:(lia)) as (x & r & Hx & _ & _ & X0 & X1 & _).
    replace (o + 1 - 1) with o in X1 by lia. rewrite (Hx 0 ltac:(lia)) in P0. rewrite (Hx o ltac:(lia)) in P1.
    injection P0 as P0. injection P1 as P1. split; congruence.
Qed.

Definition lag (so : spacing * Z) : basis RNum := LagrangeBasis RNum (snd so) (fst so).
Lemma lagrange_conform_lemma c A B p q var1 var2 u w y z :
  Forall spec_ok (A ++ B) -> closed_ok p -> closed_ok q ->
  Z.of_nat (length (A ++ p :: B)) <= INT_MAX -> length y = length A -> (length B <= length z)%nat ->
  (forall t, InRange (map (fun so => snd so + 1) (A ++ p :: B)) t -> var1 t = Ok (u t)) ->
  (forall t, InRange (map (fun so => snd so + 1) (A ++ q :: B)) t -> var2 t = Ok (w t)) ->
  (forall t1 t2, InRange (map (fun so => snd so + 1) A) t1 -> InRange (map (fun so => snd so + 1) B) t2 ->
     u (t1 ++ snd p :: t2) = w (t1 ++ 0 :: t2)) ->
  (exists v, parent_value RNum (Z.of_nat (length (A ++ p :: B))) (map lag (A ++ p :: B)) var1 (y ++ 1%R :: z) = Ok v /\
     parent_value RNum (Z.of_nat (length (A ++ q :: B))) (map lag (A ++ q :: B)) var2 (y ++ (-1)%R :: z) = Ok v) /\
  (exists g1 g2, parent_gradient RNum c (Z.of_nat (length (A ++ p :: B))) (map lag (A ++ p :: B)) var1 (y ++ 1%R :: z) = Ok g1 /\
     parent_gradient RNum c (Z.of_nat (length (A ++ q :: B))) (map lag (A ++ q :: B)) var2 (y ++ (-1)%R :: z) = Ok g2 /\
     length g1 = length (A ++ p :: B) /\ length g2 = length (A ++ p :: B) /\
     forall j, (j < length (A ++ p :: B))%nat -> j <> length A -> nth j g1 0%R = nth j g2 0%R).
Proof.
  intros HS Hp Hq Hm Hy Hz U W S. apply Forall_app in HS. destruct HS as [SA SB].
  destruct (lagrange_directions_lemma A SA) as (dA & EA & NA & CA & _).
  destruct (lagrange_directions_lemma B SB) as (dB & EB & NB & CB & _).
  destruct p as [s1 o1]. destruct q as [s2 o2].
  destruct (closed_direction s1 o1 Hp) as (d1 & E1 & N1 & C1 & _ & P1).
  destruct (closed_direction s2 o2 Hq) as (d2 & E2 & N2 & C2 & P2 & _).
  assert (LA : length dA = length A) by (apply (f_equal (@length Z)) in CA; unfold counts in CA; rewrite !map_length in CA; exact CA).
  assert (LB : length dB = length B) by (apply (f_equal (@length Z)) in CB; unfold counts in CB; rewrite !map_length in CB; exact CB).
  assert (K1 : counts (dA ++ d1 :: dB) = map (fun so => snd so + 1) (A ++ (s1, o1) :: B)).
  { unfold counts in *. rewrite !map_app. cbn [map snd]. rewrite CA, CB, C1. reflexivity. }
  assert (K2 : counts (dA ++ d2 :: dB) = map (fun so => snd so + 1) (A ++ (s2, o2) :: B)).
  { unfold counts in *. rewrite !map_app. cbn [map snd]. rewrite CA, CB, C2. reflexivity. }
  assert (L1 : length (dA ++ d1 :: dB) = length (A ++ (s1, o1) :: B)) by (rewrite !len_app; lia).
  assert (L2 : length (dA ++ d2 :: dB) = length (A ++ (s2, o2) :: B)) by (rewrite !len_app; lia).
  assert (Hpos : 0 < o1 + 1 /\ 0 < o2 + 1) by (rewrite <- C1, <- C2; split; [apply E1|apply E2]).
  assert (Hy' : length y = length dA) by congruence. assert (Hz' : (length dB <= length z)%nat) by lia.
  cbn [snd] in S.
  assert (Hm' : Z.of_nat (length (dA ++ d1 :: dB)) <= INT_MAX) by (rewrite L1; exact Hm).
  assert (R1 : 0 <= o1 < npts d1) by lia. assert (R2 : 0 <= 0 < npts d2) by lia.
  pose proof (conform_lemma (map lag A) (map lag B) (lag (s1, o1)) (lag (s2, o2)) dA dB d1 d2 o1 0 EA EB E1 E2 NA NB N1 N2 R1 R2
    c var1 var2 u w y z Hm' Hy' Hz') as Q.
  rewrite K1, K2, L1, L2, P1, P2, CA, CB, LA in Q. rewrite !map_app. cbn [map].
  exact (Q U W S).
Qed.

(** Gauss-Legendre points stay inside the interval: no continuity. *)
Lemma legendre_jump_lemma o : 1 <= o <= 3 ->
  exists (u w : Z -> R) v1 v2, u o = w 0 /\
    parent_value RNum 1 [LagrangeBasis RNum o GaussLegendreSpacing] (fun t => Ok (u (nth 0 t 0))) [1%R] = Ok v1 /\
    parent_value RNum 1 [LagrangeBasis RNum o GaussLegendreSpacing] (fun t => Ok (w (nth 0 t 0))) [(-1)%R] = Ok v2 /\ v1 <> v2.
Proof.
  intros Ho. destruct (lagrange_direction GaussLegendreSpacing o Ho) as (d & HE & HN & Hn & HP).
  destruct (legendre_roots_lemma (o + 1) ltac:(lia)) as (x & r & Hx & _ & _ & _ & Hin & _).
  assert (Hlt : (pt d o < 1)%R).
  { pose proof (HP o ltac:(lia)) as P. rewrite (Hx o ltac:(lia)) in P. injection P as P. rewrite <- P. apply Hin. lia. }
  exists (pt d), (fun _ => pt d o), 1%R, (pt d o). split; [reflexivity|].
  assert (HF : Forall2 Evaluates [LagrangeBasis RNum o GaussLegendreSpacing] [d]) by (constructor; [exact HE|constructor]).
  split; [|split; [|lra]].
  - etransitivity; [apply (parent_value_ok 1 _ [d] _ (fun t => pt d (nth 0 t 0))); [exact HF|discriminate|reflexivity|reflexivity|cbn; lia]|].
    assert (V : interp [d] (fun t => pt d (nth 0 t 0)) [1%R] = 1%R); [|rewrite V; reflexivity]. rewrite interp_cons.
    pose proof (nb_reproduce _ _ _ _ HN [0%R; 1%R] 1%R) as HR. cbn [length] in HR. specialize (HR ltac:(lia)).
    transitivity (peval [0%R; 1%R] 1%R); [|cbn; ring]. rewrite <- HR, Zsum_sumR. apply sumR_ext. intros i _.
    change (interp [] (fun t => pt d (nth 0 (i :: t) 0)) []) with (1 * pt d i)%R.
    change (peval [0%R; 1%R] (pt d i)) with (0 + pt d i * (1 + pt d i * 0))%R. ring.
  - apply (parent_constant_lemma _ [d]); [exact HF|constructor; [exact HN|constructor]|discriminate|reflexivity|cbn; lia].
Qed.

(** A concrete mesh: two squares, one bilinear, one of higher order across the interface. *)
Lemma conform_hyps_lemma : Forall spec_ok [(GaussLegendreSpacing, 2)] /\ closed_ok (EqualSpacing, 1) /\ closed_ok (GaussLobattoSpacing, 4).
Proof. unfold closed_ok, spec_ok, INT_MAX; cbn [fst snd]. split; [constructor; [cbn; lia|constructor]|lia]. Qed.
