(** Proofs for C116. *)
From Verif Require Import Base ProofBase Num SpecIndex ProofBox ModelSequence ModelIndex ProofIndex ModelAssert
  ModelCArray SpecCArray ProofCArray ProofRep ModelSpacing ModelQuadrature ModelLagrange ModelBasisProduct ModelMath ModelTransforms
  SpecNumeric SpecMath SpecBasis SpecIntegral SpecGeometry ProofMath ProofSpacing ProofQuadrature ProofPoly ProofLagrange ProofTensor
  ProofTransform ProofIntegral ProofVolume ProofPatch.
From Coq Require Import Reals Lra Psatz.
Open Scope Z_scope.

(** Weighted means of four numbers. *)
Definition wt (a : Z) (x : R) : R := ((if a =? 0 then 1 - x else 1 + x) / 2)%R.
Definition mean (y z : R) (f : Z -> Z -> R) : R :=
  (wt 0 y * wt 0 z * f 0%Z 0%Z + wt 0 y * wt 1 z * f 0%Z 1%Z + wt 1 y * wt 0 z * f 1%Z 0%Z + wt 1 y * wt 1 z * f 1%Z 1%Z)%R.
Definition bit (k : Z) : Prop := k = 0 \/ k = 1.
Lemma bit0 : bit 0. Proof. left. reflexivity. Qed.
Lemma bit1 : bit 1. Proof. right. reflexivity. Qed.

Lemma weights4 y z : (-1 <= y <= 1)%R -> (-1 <= z <= 1)%R ->
  (0 <= wt 0 y * wt 0 z)%R /\ (0 <= wt 0 y * wt 1 z)%R /\ (0 <= wt 1 y * wt 0 z)%R /\ (0 <= wt 1 y * wt 1 z)%R /\
  (wt 0 y * wt 0 z + wt 0 y * wt 1 z + wt 1 y * wt 0 z + wt 1 y * wt 1 z = 1)%R.
Proof.
  intros Hy Hz. unfold wt. cbn [Z.eqb].
  repeat split; try (apply Rmult_le_pos; lra). field.
Qed.
Lemma convex_le p q r s a b c d m : (0 <= p)%R -> (0 <= q)%R -> (0 <= r)%R -> (0 <= s)%R -> (p + q + r + s = 1)%R ->
  (m <= a)%R -> (m <= b)%R -> (m <= c)%R -> (m <= d)%R -> (m <= p * a + q * b + r * c + s * d)%R.
Proof.
  intros. assert (E : (m = p * m + q * m + r * m + s * m)%R) by (replace m with (1 * m)%R at 1 by ring; rewrite <- H3; ring).
  rewrite E at 1. pose proof (Rmult_le_compat_l p m a). pose proof (Rmult_le_compat_l q m b).
  pose proof (Rmult_le_compat_l r m c). pose proof (Rmult_le_compat_l s m d). lra.
Qed.
Lemma mean_ge y z f m : (-1 <= y <= 1)%R -> (-1 <= z <= 1)%R -> (forall a b, bit a -> bit b -> (m <= f a b)%R) -> (m <= mean y z f)%R.
Proof.
  intros Hy Hz Hf. destruct (weights4 y z Hy Hz) as (W1 & W2 & W3 & W4 & W5).
  apply convex_le; auto using bit0, bit1.
Qed.
Lemma mean_ext y z f g : (forall a b, f a b = g a b) -> mean y z f = mean y z g.
Proof. intros H. unfold mean. now rewrite !H. Qed.
Lemma mean_scal y z k f : mean y z (fun a b => k * f a b)%R = (k * mean y z f)%R.
Proof. unfold mean. ring. Qed.
Lemma mean_le y z f m : (-1 <= y <= 1)%R -> (-1 <= z <= 1)%R -> (forall a b, bit a -> bit b -> (f a b <= m)%R) -> (mean y z f <= m)%R.
Proof.
  intros Hy Hz Hf. pose proof (mean_ge y z (fun a b => -1 * f a b)%R (- m) Hy Hz) as G. rewrite mean_scal in G.
  enough (- m <= -1 * mean y z f)%R by lra. apply G. intros a b Ha Hb. specialize (Hf a b Ha Hb). lra.
Qed.
(** One of the four is not larger. *)
Lemma mean_some y z f : (-1 <= y <= 1)%R -> (-1 <= z <= 1)%R -> exists a b, bit a /\ bit b /\ (f a b <= mean y z f)%R.
Proof.
  intros Hy Hz.
  destruct (Rle_dec (f 0 0) (mean y z f)) as [L|N0]; [exists 0, 0; auto using bit0, bit1|].
  destruct (Rle_dec (f 0 1) (mean y z f)) as [L|N1]; [exists 0, 1; auto using bit0, bit1|].
  destruct (Rle_dec (f 1 0) (mean y z f)) as [L|N2]; [exists 1, 0; auto using bit0, bit1|].
  destruct (Rle_dec (f 1 1) (mean y z f)) as [L|N3]; [exists 1, 1; auto using bit0, bit1|].
  exfalso. set (k := Rmin (Rmin (f 0 0) (f 0 1)) (Rmin (f 1 0) (f 1 1))).
  assert (K : (mean y z f < k)%R) by (unfold k; repeat apply Rmin_glb_lt; lra).
  assert (k <= mean y z f)%R; [|lra].
  apply mean_ge; auto. intros a b Ha Hb. unfold k.
  pose proof (Rmin_l (Rmin (f 0 0) (f 0 1)) (Rmin (f 1 0) (f 1 1))). pose proof (Rmin_r (Rmin (f 0 0) (f 0 1)) (Rmin (f 1 0) (f 1 1))).
  pose proof (Rmin_l (f 0 0) (f 0 1)). pose proof (Rmin_r (f 0 0) (f 0 1)). pose proof (Rmin_l (f 1 0) (f 1 1)). pose proof (Rmin_r (f 1 0) (f 1 1)).
  destruct Ha as [->| ->], Hb as [->| ->]; lra.
Qed.
Lemma mean_abs y z f : (-1 <= y <= 1)%R -> (-1 <= z <= 1)%R -> exists a b, bit a /\ bit b /\ (Rabs (mean y z f) <= Rabs (f a b))%R.
Proof.
  intros Hy Hz. destruct (mean_some y z (fun a b => - Rabs (f a b))%R Hy Hz) as (a & b & Ha & Hb & H).
  exists a, b. split; [exact Ha|]. split; [exact Hb|].
  replace (mean y z (fun a b => - Rabs (f a b))%R) with (- mean y z (fun a b => Rabs (f a b)))%R in H by (unfold mean; ring).
  assert (Rabs (mean y z f) <= mean y z (fun a b => Rabs (f a b)))%R; [|lra].
  destruct (weights4 y z Hy Hz) as (W1 & W2 & W3 & W4 & _). unfold mean.
  eapply Rle_trans; [apply Rabs_triang|]. apply Rplus_le_compat.
  - eapply Rle_trans; [apply Rabs_triang|]. apply Rplus_le_compat.
    + eapply Rle_trans; [apply Rabs_triang|]. apply Rplus_le_compat; rewrite Rabs_mult; rewrite (Rabs_pos_eq (_ * _)) by assumption; lra.
    + rewrite Rabs_mult; rewrite (Rabs_pos_eq (_ * _)) by assumption; lra.
  - rewrite Rabs_mult; rewrite (Rabs_pos_eq (_ * _)) by assumption; lra.
Qed.

(** The columns of the Jacobian are half the weighted means of the edges. *)
Lemma Jmat_edges d0 d1 d2 X x y z i : Forall Nodal [d0; d1; d2] -> Forall unit_direction [d0; d1; d2] ->
  Jmat [d0; d1; d2] X [x; y; z] [i; 0] = (/ 2 * mean y z (fun a b => edge X 0 a b i))%R /\
  Jmat [d0; d1; d2] X [x; y; z] [i; 1] = (/ 2 * mean x z (fun a b => edge X 1 a b i))%R /\
  Jmat [d0; d1; d2] X [x; y; z] [i; 2] = (/ 2 * mean x y (fun a b => edge X 2 a b i))%R.
Proof.
  intros HN HU. destruct (Jmat_hex d0 d1 d2 X x y z i HN HU) as (-> & -> & ->).
  unfold bil, colA, colB, colC, four, s8, sg, mean, wt, edge. cbn [Z.eqb]. repeat split; field.
Qed.

Lemma triple_mean y z (u : Z -> Z -> Z -> R) v w :
  triple (fun i => / 2 * mean y z (fun a b => u a b i))%R v w = (/ 2 * mean y z (fun a b => triple (u a b) v w))%R /\
  triple v (fun i => / 2 * mean y z (fun a b => u a b i))%R w = (/ 2 * mean y z (fun a b => triple v (u a b) w))%R /\
  triple v w (fun i => / 2 * mean y z (fun a b => u a b i))%R = (/ 2 * mean y z (fun a b => triple v w (u a b)))%R.
Proof. unfold triple, mean. repeat split; ring. Qed.

Lemma det_edges d0 d1 d2 X x y z : Forall Nodal [d0; d1; d2] -> Forall unit_direction [d0; d1; d2] ->
  det 3 (fun i j => Jmat [d0; d1; d2] X [x; y; z] [i; j]) =
    (/ 8 * mean y z (fun a b => mean x z (fun a' b' => mean x y (fun a'' b'' =>
       triple (edge X 0 a b) (edge X 1 a' b') (edge X 2 a'' b'')))))%R.
Proof.
  intros HN HU. rewrite det_transpose.
  transitivity (triple (fun i => / 2 * mean y z (fun a b => edge X 0 a b i))%R (fun i => / 2 * mean x z (fun a b => edge X 1 a b i))%R
    (fun i => / 2 * mean x y (fun a b => edge X 2 a b i))%R).
  - unfold triple. destruct (Jmat_edges d0 d1 d2 X x y z 0 HN HU) as (-> & -> & ->).
    destruct (Jmat_edges d0 d1 d2 X x y z 1 HN HU) as (-> & -> & ->).
    destruct (Jmat_edges d0 d1 d2 X x y z 2 HN HU) as (-> & -> & ->). reflexivity.
  - rewrite (proj1 (triple_mean y z (fun a b => edge X 0 a b) _ _)).
    transitivity (/ 2 * mean y z (fun a b => / 2 * mean x z (fun a' b' => / 2 * mean x y (fun a'' b'' =>
       triple (edge X 0 a b) (edge X 1 a' b') (edge X 2 a'' b'')))))%R.
    + f_equal. apply mean_ext. intros a b. rewrite (proj1 (proj2 (triple_mean x z (fun a b => edge X 1 a b) _ _))).
      f_equal. apply mean_ext. intros a' b'. exact (proj2 (proj2 (triple_mean x y (fun a b => edge X 2 a b) _ _))).
    + rewrite mean_scal.
      rewrite (mean_ext y z _ (fun a b => / 2 * mean x z (fun a' b' => mean x y (fun a'' b'' =>
       triple (edge X 0 a b) (edge X 1 a' b') (edge X 2 a'' b''))))%R) by (intros a b; apply mean_scal).
      rewrite mean_scal. field.
Qed.

Lemma bits6 a b c d e f : bit a -> bit b -> bit c -> bit d -> bit e -> bit f -> Forall (fun k => k = 0 \/ k = 1) [a; b; c; d; e; f].
Proof. intros. repeat (apply Forall_cons; [assumption|]). apply Forall_nil. Qed.

Lemma split3 (ds : list direction) : length ds = 3%nat -> exists d0 d1 d2, ds = [d0; d1; d2].
Proof. destruct ds as [|d0 [|d1 [|d2 [|]]]]; try discriminate. eauto. Qed.
Lemma xi3 (xi : list R) : length xi = 3%nat -> exists x y z, xi = [x; y; z].
Proof. destruct xi as [|x [|y [|z [|]]]]; try discriminate. eauto. Qed.
Lemma incell3 x y z : InCell [x; y; z] -> (-1 <= x <= 1)%R /\ (-1 <= y <= 1)%R /\ (-1 <= z <= 1)%R.
Proof. intros H. inversion H as [|? ? A H1]; subst. inversion H1 as [|? ? B H2]; subst. inversion H2; subst. auto. Qed.

Lemma det_between ds X xi m M : length ds = 3%nat -> Forall Nodal ds -> Forall unit_direction ds ->
  length xi = 3%nat -> InCell xi -> EdgeTriples X m M ->
  (m <= 8 * det 3 (fun i j => Jmat ds X xi [i; j]) <= M)%R.
Proof.
  intros Hd HN HU Hx HI HT. destruct (split3 ds Hd) as (d0 & d1 & d2 & ->). destruct (xi3 xi Hx) as (x & y & z & ->).
  destruct (incell3 x y z HI) as (Ix & Iy & Iz). rewrite (det_edges d0 d1 d2 X x y z HN HU).
  match goal with |- context [(8 * (/ 8 * ?t))%R] => replace (8 * (/ 8 * t))%R with t by field end.
  split.
  - apply mean_ge; auto. intros a b Ha Hb. apply mean_ge; auto. intros a' b' Ha' Hb'. apply mean_ge; auto. intros a'' b'' Ha'' Hb''.
    apply HT. apply bits6; assumption.
  - apply mean_le; auto. intros a b Ha Hb. apply mean_le; auto. intros a' b' Ha' Hb'. apply mean_le; auto. intros a'' b'' Ha'' Hb''.
    apply HT. apply bits6; assumption.
Qed.

Lemma edge_triples_lemma c bases ds mem X xi m M :
  Forall2 Evaluates bases ds -> Forall Nodal ds -> length ds = 3%nat ->
  Forall (fun d => npts d = 2 /\ pt d 0 = (-1)%R /\ pt d 1 = 1%R) ds ->
  Holds (owning [2; 2; 2; 3]) mem X -> EdgeTriples X m M -> length xi = 3%nat -> InCell xi ->
  (exists J K, jacobian_wrapper RNum c 3 bases mem xi = Ok J /\ Holds (owning [3; 3]) J K /\
     (m <= 8 * det 3 (fun i j => K [i; j]) <= M)%R) /\
  ((0 < m)%R -> exists d invJ, inverseJacobian_wrapper RNum c 3 bases mem xi = Ok (d, invJ) /\ (m <= 8 * d <= M)%R).
Proof.
  intros HE HN Hd HU HX HT Hx HI. pose proof (det_between ds X xi m M Hd HN HU Hx HI HT) as B.
  assert (HX' : Holds (owning (counts ds ++ [3])) mem X) by (rewrite (counts_hex ds Hd HU); exact HX).
  split.
  - destruct (wrapper_Jmat c bases ds mem X xi HE ltac:(destruct ds; discriminate) ltac:(lia) Hx) as (J & EJ & HJ);
      [rewrite Hd; exact HX'|]. rewrite Hd in EJ, HJ. exists J, (Jmat ds X xi). auto.
  - intros Hm. destruct (wrapper_inverse c bases ds mem X xi HE Hd Hx HX') as (I & _).
    destruct I as (invJ & _ & E & _ & _); [lra|]. eauto.
Qed.

(** Strictly diagonally dominant 3x3 matrices. *)
Lemma dominant_det a b c d e f g h i : (Rabs b + Rabs c < a)%R -> (Rabs d + Rabs f < e)%R -> (Rabs g + Rabs h < i)%R ->
  (0 < a * e * i + b * f * g + c * d * h - c * e * g - b * d * i - a * f * h)%R.
Proof.
  intros Ha He Hi.
  assert (L : forall x y z, (- (Rabs x * Rabs y * Rabs z) <= x * y * z <= Rabs x * Rabs y * Rabs z)%R).
  { intros x y z. rewrite <- !Rabs_mult. split; [|apply Rle_abs]. pose proof (Rle_abs (- (x * y * z))) as P. rewrite Rabs_Ropp in P. lra. }
  pose proof (Rabs_pos b) as Pb. pose proof (Rabs_pos c) as Pc. pose proof (Rabs_pos d) as Pd.
  pose proof (Rabs_pos f) as Pf. pose proof (Rabs_pos g) as Pg. pose proof (Rabs_pos h) as Ph.
  pose proof (L b f g) as (L1 & _). pose proof (L c d h) as (L2 & _).
  pose proof (L c e g) as (_ & L3). pose proof (L b d i) as (_ & L4). pose proof (L a f h) as (_ & L5).
  rewrite (Rabs_pos_eq e) in L3 by lra. rewrite (Rabs_pos_eq i) in L4 by lra. rewrite (Rabs_pos_eq a) in L5 by lra.
  set (B := Rabs b) in *. set (C := Rabs c) in *. set (D := Rabs d) in *. set (F := Rabs f) in *. set (G := Rabs g) in *. set (H := Rabs h) in *.
  assert (0 < a * e * i - B * F * G - C * D * H - C * e * G - B * D * i - a * F * H)%R; [|lra].
  replace a with ((a - B - C) + B + C)%R by ring. replace e with ((e - D - F) + D + F)%R by ring. replace i with ((i - G - H) + G + H)%R by ring.
  assert (A' : (0 < a - B - C)%R) by lra. assert (E' : (0 < e - D - F)%R) by lra. assert (I' : (0 < i - G - H)%R) by lra.
  set (a' := (a - B - C)%R) in *. set (e' := (e - D - F)%R) in *. set (i' := (i - G - H)%R) in *.
  clearbody a' e' i' B C D F G H. clear - Pb Pc Pd Pf Pg Ph A' E' I'.
  assert (P3 : (0 < a' * e' * i')%R) by (repeat apply Rmult_lt_0_compat; assumption).
  assert (M : forall x y z, (0 <= x)%R -> (0 <= y)%R -> (0 <= z)%R -> (0 <= x * y * z)%R) by (intros; repeat apply Rmult_le_pos; assumption).
  assert (a0 : (0 <= a')%R) by lra. assert (e0 : (0 <= e')%R) by lra. assert (i0 : (0 <= i')%R) by lra.
  match goal with |- (0 < ?t)%R => replace t with
   (a' * e' * i' + a' * e' * G + a' * e' * H + a' * D * i' + a' * D * G + a' * D * H + a' * F * i' + a' * F * G +
    B * e' * i' + B * e' * G + B * e' * H + B * F * i' + C * e' * i' + C * e' * H + C * D * i' + C * F * i')%R by ring end.
  pose proof (M a' e' G a0 e0 Pg). pose proof (M a' e' H a0 e0 Ph). pose proof (M a' D i' a0 Pd i0). pose proof (M a' D G a0 Pd Pg).
  pose proof (M a' D H a0 Pd Ph). pose proof (M a' F i' a0 Pf i0). pose proof (M a' F G a0 Pf Pg). pose proof (M B e' i' Pb e0 i0).
  pose proof (M B e' G Pb e0 Pg). pose proof (M B e' H Pb e0 Ph). pose proof (M B F i' Pb Pf i0). pose proof (M C e' i' Pc e0 i0).
  pose proof (M C e' H Pc e0 Ph). pose proof (M C D i' Pc Pd i0). pose proof (M C F i' Pc Pf i0). lra.
Qed.

(** Going from one point to another one coordinate at a time. *)
Lemma telescope d0 d1 d2 X i x y z x' y' z' : Forall Nodal [d0; d1; d2] -> Forall unit_direction [d0; d1; d2] ->
  (position [d0; d1; d2] X i [x; y; z] - position [d0; d1; d2] X i [x'; y'; z'])%R =
  ((x - x') / 2 * mean y z (fun a b => edge X 0 a b i) + (y - y') / 2 * mean x' z (fun a b => edge X 1 a b i) +
   (z - z') / 2 * mean x' y' (fun a b => edge X 2 a b i))%R.
Proof.
  intros HN HU.
  inversion HN as [|? ? N0 HN1]; subst. inversion HN1 as [|? ? N1 HN2]; subst. inversion HN2 as [|? ? N2 _]; subst.
  inversion HU as [|? ? U0 HU1]; subst. inversion HU1 as [|? ? U1 HU2]; subst. inversion HU2 as [|? ? U2 _]; subst.
  destruct (unit_values d0 N0 U0 x) as (V00 & V01), (unit_values d1 N1 U1 y) as (V10 & V11), (unit_values d2 N2 U2 z) as (V20 & V21).
  destruct (unit_values d0 N0 U0 x') as (W00 & W01), (unit_values d1 N1 U1 y') as (W10 & W11), (unit_values d2 N2 U2 z') as (W20 & W21).
  destruct U0 as (E0 & _), U1 as (E1 & _), U2 as (E2 & _).
  unfold position, counts, mean, wt, edge. cbn [map]. rewrite E0, E1, E2. cbn [BoxSum].
  rewrite !Zsum2. cbn.
  rewrite V00, V01, V10, V11, V20, V21, W00, W01, W10, W11, W20, W21. field.
Qed.

Lemma mean_along y z M i X j :
  mean y z (along M i X j) =
  (M i 0%Z * mean y z (fun a b => edge X j a b 0) + M i 1%Z * mean y z (fun a b => edge X j a b 1) + M i 2%Z * mean y z (fun a b => edge X j a b 2))%R.
Proof. unfold mean, along. ring. Qed.

(** The means inherit the dominance of the edges. *)
Lemma mean_dominant M X i j k p q r s t u : Dominant M X -> [i; j; k] = [0; 1; 2] \/ [i; j; k] = [1; 0; 2] \/ [i; j; k] = [2; 0; 1] ->
  InCell [p; q; r] -> InCell [s; t; u] ->
  (Rabs (mean r s (along M i X j)) + Rabs (mean t u (along M i X k)) < mean p q (along M i X i))%R.
Proof.
  intros HD Hijk H1 H2. destruct (incell3 _ _ _ H1) as (Ip & Iq & Ir), (incell3 _ _ _ H2) as (Is & It & Iu).
  destruct (mean_some p q (along M i X i) Ip Iq) as (a0 & b0 & A0 & B0 & L0).
  destruct (mean_abs r s (along M i X j) Ir Is) as (a1 & b1 & A1 & B1 & L1).
  destruct (mean_abs t u (along M i X k) It Iu) as (a2 & b2 & A2 & B2 & L2).
  pose proof (HD i j k Hijk a0 b0 a1 b1 a2 b2 (bits6 _ _ _ _ _ _ A0 B0 A1 B1 A2 B2)) as L. lra.
Qed.

Lemma incell_intro x y z : (-1 <= x <= 1)%R -> (-1 <= y <= 1)%R -> (-1 <= z <= 1)%R -> InCell [x; y; z].
Proof. intros. repeat (apply Forall_cons; [assumption|]). apply Forall_nil. Qed.

Lemma det_dominant ds X xi M : length ds = 3%nat -> Forall Nodal ds -> Forall unit_direction ds ->
  length xi = 3%nat -> InCell xi -> Dominant M X ->
  (0 < det 3 M * det 3 (fun i j => Jmat ds X xi [i; j]))%R.
Proof.
  intros Hd HN HU Hx HI HD. rewrite <- det_mul. destruct (split3 ds Hd) as (d0 & d1 & d2 & ->). destruct (xi3 xi Hx) as (x & y & z & ->).
  destruct (incell3 x y z HI) as (Ix & Iy & Iz).
  assert (E : forall i, matmul 3 M (fun i j => Jmat [d0; d1; d2] X [x; y; z] [i; j]) i 0 = (/ 2 * mean y z (along M i X 0))%R /\
    matmul 3 M (fun i j => Jmat [d0; d1; d2] X [x; y; z] [i; j]) i 1 = (/ 2 * mean x z (along M i X 1))%R /\
    matmul 3 M (fun i j => Jmat [d0; d1; d2] X [x; y; z] [i; j]) i 2 = (/ 2 * mean x y (along M i X 2))%R).
  { intros i. unfold matmul. change (zseq 3) with [0; 1; 2]. cbn [map Rsum fold_right].
    destruct (Jmat_edges d0 d1 d2 X x y z 0 HN HU) as (-> & -> & ->).
    destruct (Jmat_edges d0 d1 d2 X x y z 1 HN HU) as (-> & -> & ->).
    destruct (Jmat_edges d0 d1 d2 X x y z 2 HN HU) as (-> & -> & ->). rewrite !mean_along. repeat split; ring. }
  rewrite det3. destruct (E 0) as (-> & -> & ->), (E 1) as (-> & -> & ->), (E 2) as (-> & -> & ->).
  pose proof (mean_dominant M X 0 1 2 y z x z x y HD ltac:(auto) ltac:(apply incell_intro; auto) ltac:(apply incell_intro; auto)) as D0.
  pose proof (mean_dominant M X 1 0 2 x z y z x y HD ltac:(auto) ltac:(apply incell_intro; auto) ltac:(apply incell_intro; auto)) as D1.
  pose proof (mean_dominant M X 2 0 1 x y y z x z HD ltac:(auto) ltac:(apply incell_intro; auto) ltac:(apply incell_intro; auto)) as D2.
  pose proof (dominant_det _ _ _ _ _ _ _ _ _ D0 D1 D2) as P.
  match goal with |- (0 < ?t)%R => match type of P with (0 < ?s)%R => replace t with (/ 8 * s)%R by field end end. lra.
Qed.

Lemma one_to_one_core d0 d1 d2 X M x y z x' y' z' : Forall Nodal [d0; d1; d2] -> Forall unit_direction [d0; d1; d2] ->
  InCell [x; y; z] -> InCell [x'; y'; z'] -> Dominant M X ->
  (forall i, 0 <= i < 3 -> position [d0; d1; d2] X i [x; y; z] = position [d0; d1; d2] X i [x'; y'; z']) ->
  [x; y; z] = [x'; y'; z'].
Proof.
  intros HN HU H1 H2 HD HP. destruct (incell3 _ _ _ H1) as (Ix & Iy & Iz), (incell3 _ _ _ H2) as (Jx & Jy & Jz).
  assert (T : forall i, ((x - x') * mean y z (along M i X 0) + (y - y') * mean x' z (along M i X 1) + (z - z') * mean x' y' (along M i X 2) = 0)%R).
  { intros i. rewrite !mean_along.
    pose proof (telescope d0 d1 d2 X 0 x y z x' y' z' HN HU) as T0. rewrite (HP 0 ltac:(lia)) in T0.
    pose proof (telescope d0 d1 d2 X 1 x y z x' y' z' HN HU) as T1. rewrite (HP 1 ltac:(lia)) in T1.
    pose proof (telescope d0 d1 d2 X 2 x y z x' y' z' HN HU) as T2. rewrite (HP 2 ltac:(lia)) in T2.
    rewrite Rminus_eq_0 in T0, T1, T2.
    match type of T0 with (0 = ?s0)%R => match type of T1 with (0 = ?s1)%R => match type of T2 with (0 = ?s2)%R =>
      transitivity (2 * (M i 0%Z * s0 + M i 1%Z * s1 + M i 2%Z * s2))%R; [field|] end end end.
    rewrite <- T0, <- T1, <- T2. ring. }
  pose proof (mean_dominant M X 0 1 2 y z x' z x' y' HD ltac:(auto) ltac:(apply incell_intro; auto) ltac:(apply incell_intro; auto)) as D0.
  pose proof (mean_dominant M X 1 0 2 x' z y z x' y' HD ltac:(auto) ltac:(apply incell_intro; auto) ltac:(apply incell_intro; auto)) as D1.
  pose proof (mean_dominant M X 2 0 1 x' y' y z x' z HD ltac:(auto) ltac:(apply incell_intro; auto) ltac:(apply incell_intro; auto)) as D2.
  assert (K : forall p q r a b c, (p * a + q * b + r * c = 0)%R -> (Rabs q <= Rabs p)%R -> (Rabs r <= Rabs p)%R ->
    (Rabs b + Rabs c < a)%R -> p = 0%R).
  { clear. intros p q r a b c E Hq Hr Ha. destruct (Req_dec p 0) as [|N]; [assumption|exfalso].
    pose proof (Rabs_pos_lt p N) as Pp. pose proof (Rabs_pos b) as Pb. pose proof (Rabs_pos c) as Pc.
    assert (E' : (p * a = - (q * b + r * c))%R) by lra.
    apply (f_equal Rabs) in E'. rewrite Rabs_mult, Rabs_Ropp, (Rabs_pos_eq a) in E' by lra.
    pose proof (Rabs_triang (q * b) (r * c)) as Tr. rewrite !Rabs_mult in Tr.
    pose proof (Rmult_le_compat_r (Rabs b) _ _ Pb Hq) as Q1. pose proof (Rmult_le_compat_r (Rabs c) _ _ Pc Hr) as Q2.
    pose proof (Rmult_lt_compat_l (Rabs p) _ _ Pp Ha) as Q3. lra. }
  set (p := (x - x')%R) in *. set (q := (y - y')%R) in *. set (r := (z - z')%R) in *.
  assert (Z0 : forall u, Rabs u = 0%R -> u = 0%R) by (intros u Hu; destruct (Req_dec u 0) as [|N]; [assumption|apply Rabs_no_R0 in N; contradiction]).
  assert (G : p = 0%R /\ q = 0%R /\ r = 0%R).
  { destruct (Rle_dec (Rabs q) (Rabs p)) as [Lqp|Lqp].
    - destruct (Rle_dec (Rabs r) (Rabs p)) as [Lrp|Lrp].
      + pose proof (K p q r _ _ _ (T 0%Z) Lqp Lrp D0) as Hp. rewrite Hp, Rabs_R0 in *.
        split; [reflexivity|]. split; apply Z0; [pose proof (Rabs_pos q)|pose proof (Rabs_pos r)]; lra.
      + assert (E : (r * mean x' y' (along M 2 X 2) + p * mean y z (along M 2 X 0) + q * mean x' z (along M 2 X 1) = 0)%R) by (rewrite <- (T 2%Z); ring).
        pose proof (K r p q _ _ _ E ltac:(lra) ltac:(lra) D2) as Hr. rewrite Hr, Rabs_R0 in Lrp. pose proof (Rabs_pos p). lra.
    - destruct (Rle_dec (Rabs r) (Rabs q)) as [Lrq|Lrq].
      + assert (E : (q * mean x' z (along M 1 X 1) + p * mean y z (along M 1 X 0) + r * mean x' y' (along M 1 X 2) = 0)%R) by (rewrite <- (T 1%Z); ring).
        pose proof (K q p r _ _ _ E ltac:(lra) ltac:(lra) D1) as Hq. rewrite Hq, Rabs_R0 in Lqp. pose proof (Rabs_pos p). lra.
      + assert (E : (r * mean x' y' (along M 2 X 2) + p * mean y z (along M 2 X 0) + q * mean x' z (along M 2 X 1) = 0)%R) by (rewrite <- (T 2%Z); ring).
        pose proof (K r p q _ _ _ E ltac:(lra) ltac:(lra) D2) as Hr. rewrite Hr, Rabs_R0 in Lrq. pose proof (Rabs_pos q). lra. }
  destruct G as (Gp & Gq & Gr). unfold p, q, r in *. replace x with x' by lra. replace y with y' by lra. replace z with z' by lra. reflexivity.
Qed.

Lemma dominant_lemma c bases ds mem X M :
  Forall2 Evaluates bases ds -> Forall Nodal ds -> length ds = 3%nat ->
  Forall (fun d => npts d = 2 /\ pt d 0 = (-1)%R /\ pt d 1 = 1%R) ds ->
  Holds (owning [2; 2; 2; 3]) mem X -> Dominant M X ->
  (forall xi, length xi = 3%nat -> InCell xi -> exists d invJ,
     inverseJacobian_wrapper RNum c 3 bases mem xi = Ok (d, invJ) /\ (0 < det 3 M * d)%R) /\
  (forall xi eta, length xi = 3%nat -> length eta = 3%nat -> InCell xi -> InCell eta ->
     (forall i, 0 <= i < 3 -> parent_value RNum 3 bases (fun t => Ok (X (t ++ [i]))) xi = parent_value RNum 3 bases (fun t => Ok (X (t ++ [i]))) eta) ->
     xi = eta).
Proof.
  intros HE HN Hd HU HX HD.
  assert (HX' : Holds (owning (counts ds ++ [3])) mem X) by (rewrite (counts_hex ds Hd HU); exact HX).
  split.
  - intros xi Hx HI. pose proof (det_dominant ds X xi M Hd HN HU Hx HI HD) as P.
    destruct (wrapper_inverse c bases ds mem X xi HE Hd Hx HX') as (I & _).
    destruct I as (invJ & _ & E & _ & _); [intros Z; rewrite Z, Rmult_0_r in P; lra|]. eauto.
  - intros xi eta Hx Hy HI HJ HV.
    assert (S : forall p i, length p = 3%nat -> parent_value RNum 3 bases (fun t => Ok (X (t ++ [i]))) p = Ok (position ds X i p)).
    { intros p i Hp. pose proof (parent_sum_lemma bases ds (fun t => X (t ++ [i])) (fun t => Ok (X (t ++ [i]))) p HE) as Q.
      rewrite Hd in Q. change (Z.of_nat 3) with 3 in Q. apply Q; [destruct ds; discriminate|reflexivity|].
      apply Nat.eq_le_incl. symmetry. exact Hp. }
    assert (HP : forall i, 0 <= i < 3 -> position ds X i xi = position ds X i eta).
    { intros i Hi. specialize (HV i Hi). rewrite (S xi i Hx), (S eta i Hy) in HV. injection HV. auto. }
    destruct (split3 ds Hd) as (d0 & d1 & d2 & ->). destruct (xi3 xi Hx) as (x & y & z & ->). destruct (xi3 eta Hy) as (x' & y' & z' & ->).
    exact (one_to_one_core d0 d1 d2 X M x y z x' y' z' HN HU HI HJ HD HP).
Qed.

(** A buffer with given vertices. *)
Definition tuples24 : list (list Z) :=
  flat_map (fun a => flat_map (fun b => flat_map (fun e => map (fun i => [a; b; e; i]) [0; 1; 2]) [0; 1]) [0; 1]) [0; 1].
Definition cell_buffer (X : list Z -> R) : list R := map X tuples24.
Lemma cell_buffer_holds X : Holds (owning [2; 2; 2; 3]) (cell_buffer X) X.
Proof.
  apply Holds_iff. split.
  - unfold view_ok, pos_dims, buflen, cell_buffer. rewrite map_length. cbn [dims owning base length].
    split; [split; [discriminate|split; [repeat constructor|vm_compute; discriminate]]|split; vm_compute; discriminate].
  - intros t Ht.
    apply InRange_cons in Ht. destruct Ht as (a0 & t1 & -> & H0 & Ht).
    apply InRange_cons in Ht. destruct Ht as (a1 & t2 & -> & H1 & Ht).
    apply InRange_cons in Ht. destruct Ht as (a2 & t3 & -> & H2 & Ht).
    apply InRange_cons in Ht. destruct Ht as (i & t4 & -> & H3 & Ht). apply InRange_nil in Ht. subst t4.
    assert (C0 : a0 = 0 \/ a0 = 1) by lia. assert (C1 : a1 = 0 \/ a1 = 1) by lia. assert (C2 : a2 = 0 \/ a2 = 1) by lia.
    assert (Ci : i = 0 \/ i = 1 \/ i = 2) by lia.
    destruct C0 as [->| ->], C1 as [->| ->], C2 as [->| ->], Ci as [->|[->| ->]]; reflexivity.
Qed.

(** A point apart from finitely many others. *)
Lemma gap (l : list R) : forall u v, (u < v)%R ->
  exists u' v', (u <= u' /\ u' < v' /\ v' <= v)%R /\ forall x, In x l -> (x <= u' \/ v' <= x)%R.
Proof.
  induction l as [|x l IH]; intros u v Huv.
  - exists u, v. split; [lra|]. intros x [].
  - destruct (IH u v Huv) as (a & b & Hab & Hl). set (m := ((a + b) / 2)%R).
    destruct (Rle_dec x m) as [L|G].
    + exists m, b. unfold m in *. split; [lra|]. intros t [<-|Ht]; [left; exact L|]. destruct (Hl t Ht); [left|right]; lra.
    + exists a, m. unfold m in *. split; [lra|]. intros t [<-|Ht]; [right; lra|]. destruct (Hl t Ht); [left|right]; lra.
Qed.
Lemma apart (l : list R) : exists s e, (-1 <= s <= 1)%R /\ (0 < e)%R /\ forall x, In x l -> (e < Rabs (x - s))%R.
Proof.
  destruct (gap l (-1) 1 ltac:(lra)) as (u & v & Huv & H). exists ((u + v) / 2)%R, ((v - u) / 4)%R.
  split; [lra|]. split; [lra|]. intros x Hx. destruct (H x Hx) as [L|L].
  - rewrite Rabs_left1 by lra. lra.
  - rewrite Rabs_pos_eq by lra. lra.
Qed.

(** A twisted cell: the cross-section at [x] is spanned by (x - s, e) and (e, x - s). *)
Definition twisted (s e : R) (t : list Z) : R :=
  match t with
  | [a; b; k; i] =>
      let w := (IZR (2 * a - 1) - s)%R in
      match i with 0 => (4 * IZR a)%R | 1 => (2 * (IZR b * w + IZR k * e))%R | _ => (2 * (IZR b * e + IZR k * w))%R end
  | _ => 0%R
  end.
Lemma twisted_det s e d0 d1 d2 x y z : Forall Nodal [d0; d1; d2] -> Forall unit_direction [d0; d1; d2] ->
  det 3 (fun i j => Jmat [d0; d1; d2] (twisted s e) [x; y; z] [i; j]) = (2 * ((x - s) * (x - s) - e * e))%R.
Proof.
  intros HN HU. rewrite det_transpose. unfold triple.
  destruct (Jmat_edges d0 d1 d2 (twisted s e) x y z 0 HN HU) as (-> & -> & ->).
  destruct (Jmat_edges d0 d1 d2 (twisted s e) x y z 1 HN HU) as (-> & -> & ->).
  destruct (Jmat_edges d0 d1 d2 (twisted s e) x y z 2 HN HU) as (-> & -> & ->).
  unfold mean, wt, edge, twisted. cbn [Z.eqb Z.mul Z.sub Z.add Z.opp Z.pos_sub Pos.mul Pos.pred_double]. field.
Qed.

Lemma finite_check_lemma c (pts : list (list R)) : Forall (fun p => length p = 3%nat /\ InCell p) pts ->
  let b := LagrangeBasis RNum 1 EqualSpacing in
  exists mem X, Holds (owning [2; 2; 2; 3]) mem X /\
    (forall p, In p pts -> exists d invJ, inverseJacobian_wrapper RNum c 3 [b; b; b] mem p = Ok (d, invJ) /\ (0 < d)%R) /\
    exists xi d invJ, length xi = 3%nat /\ InCell xi /\ inverseJacobian_wrapper RNum c 3 [b; b; b] mem xi = Ok (d, invJ) /\ (d < 0)%R.
Proof.
  intros HP b. destruct (box_bases_lemma EqualSpacing (or_introl eq_refl)) as (d & HE & HN & Hn & P0 & P1).
  assert (HE3 : Forall2 Evaluates [b; b; b] [d; d; d]) by (constructor; [exact HE|constructor; [exact HE|constructor; [exact HE|constructor]]]).
  assert (HN3 : Forall Nodal [d; d; d]) by (constructor; [exact HN|constructor; [exact HN|constructor; [exact HN|constructor]]]).
  assert (HU1 : unit_direction d) by (split; [exact Hn|split; assumption]).
  assert (HU3 : Forall unit_direction [d; d; d]) by (constructor; [exact HU1|constructor; [exact HU1|constructor; [exact HU1|constructor]]]).
  destruct (apart (map (fun p => nth 0 p 0%R) pts)) as (s & e & Hs & He & Hap).
  exists (cell_buffer (twisted s e)), (twisted s e). pose proof (cell_buffer_holds (twisted s e)) as HX. split; [exact HX|].
  assert (HX' : Holds (owning (counts [d; d; d] ++ [3])) (cell_buffer (twisted s e)) (twisted s e))
    by (rewrite (counts_hex [d; d; d] eq_refl HU3); exact HX).
  split.
  - intros p Hp. rewrite Forall_forall in HP. destruct (HP p Hp) as (Lp & _).
    destruct (wrapper_inverse c _ _ _ _ p HE3 eq_refl Lp HX') as (I & _).
    destruct (xi3 p Lp) as (x & y & z & ->). rewrite (twisted_det s e d d d x y z HN3 HU3) in I.
    assert (Q : (0 < 2 * ((x - s) * (x - s) - e * e))%R).
    { pose proof (Hap x ltac:(apply in_map_iff; exists [x; y; z]; auto)) as Hx.
      assert ((x - s) * (x - s) = Rabs (x - s) * Rabs (x - s))%R as -> by (rewrite <- Rabs_mult; symmetry; apply Rabs_pos_eq; apply Rle_0_sqr). nra. }
    destruct I as (invJ & _ & E & _ & _); [lra|]. eauto.
  - exists [s; 0; 0]%R. destruct (wrapper_inverse c _ _ _ _ [s; 0; 0]%R HE3 eq_refl eq_refl HX') as (I & _).
    rewrite (twisted_det s e d d d s 0 0 HN3 HU3) in I.
    assert (Q : (2 * ((s - s) * (s - s) - e * e) < 0)%R) by (rewrite Rminus_eq_0; nra).
    destruct I as (invJ & _ & E & _ & _); [lra|]. exists (2 * ((s - s) * (s - s) - e * e))%R, invJ. split; [reflexivity|].
    split; [apply incell_intro; lra|]. split; [exact E|exact Q].
Qed.

(** Quadrilaterals: the determinant is an affine function of the two coordinates. *)
Lemma det2_formula (A : matrix) : det 2 A = (A 0%Z 0%Z * A 1%Z 1%Z - A 0%Z 1%Z * A 1%Z 0%Z)%R.
Proof. unfold det. cbn. ring. Qed.
Lemma Jmat_quad d0 d1 X x y z i : Forall Nodal [d0; d1] -> Forall unit_direction [d0; d1] ->
  Jmat [d0; d1] X [x; y; z] [i; 0] = ((wt 0 y * (X [1%Z; 0%Z; i] - X [0%Z; 0%Z; i]) + wt 1 y * (X [1%Z; 1%Z; i] - X [0%Z; 1%Z; i])) / 2)%R /\
  Jmat [d0; d1] X [x; y; z] [i; 1] = ((wt 0 x * (X [0%Z; 1%Z; i] - X [0%Z; 0%Z; i]) + wt 1 x * (X [1%Z; 1%Z; i] - X [1%Z; 0%Z; i])) / 2)%R.
Proof.
  intros HN HU.
  inversion HN as [|? ? N0 HN1]; subst. inversion HN1 as [|? ? N1 _]; subst.
  inversion HU as [|? ? U0 HU1]; subst. inversion HU1 as [|? ? U1 _]; subst.
  destruct (unit_values d0 N0 U0 x) as (V00 & V01), (unit_values d1 N1 U1 y) as (V10 & V11).
  destruct (unit_derivs d0 N0 U0 x) as (D00 & D01), (unit_derivs d1 N1 U1 y) as (D10 & D11).
  destruct U0 as (E0 & _), U1 as (E1 & _).
  unfold Jmat, dinterp, counts, wt. cbn [map]. rewrite E0, E1. cbn [BoxSum].
  rewrite !Zsum2. cbn. change (Pos.to_nat 1) with 1%nat. cbn.
  rewrite V00, V01, V10, V11, D00, D01, D10, D11. repeat split; field.
Qed.
Lemma det_quad d0 d1 X x y z : Forall Nodal [d0; d1] -> Forall unit_direction [d0; d1] ->
  det 2 (fun i j => Jmat [d0; d1] X [x; y; z] [i; j]) =
  mean x y (fun a b => det 2 (fun i j => Jmat [d0; d1] X [IZR (2 * a - 1); IZR (2 * b - 1); 0%R] [i; j])).
Proof.
  intros HN HU. unfold mean. rewrite !det2_formula.
  destruct (Jmat_quad d0 d1 X x y z 0 HN HU) as (-> & ->), (Jmat_quad d0 d1 X x y z 1 HN HU) as (-> & ->).
  cbn [Z.mul Z.sub Z.add Z.opp Z.pos_sub Pos.mul Pos.pred_double].
  assert (E : forall s t i, Jmat [d0; d1] X [s; t; 0%R] [i; 0] = ((wt 0 t * (X [1%Z; 0%Z; i] - X [0%Z; 0%Z; i]) + wt 1 t * (X [1%Z; 1%Z; i] - X [0%Z; 1%Z; i])) / 2)%R)
    by (intros; apply Jmat_quad; assumption).
  assert (E' : forall s t i, Jmat [d0; d1] X [s; t; 0%R] [i; 1] = ((wt 0 s * (X [0%Z; 1%Z; i] - X [0%Z; 0%Z; i]) + wt 1 s * (X [1%Z; 1%Z; i] - X [1%Z; 0%Z; i])) / 2)%R)
    by (intros; apply Jmat_quad; assumption).
  rewrite !E, !E'. unfold wt. cbn [Z.eqb]. field.
Qed.

Lemma quadrilateral_lemma c bases ds mem X :
  Forall2 Evaluates bases ds -> Forall Nodal ds -> length ds = 2%nat ->
  Forall (fun d => npts d = 2 /\ pt d 0 = (-1)%R /\ pt d 1 = 1%R) ds -> Holds (owning [2; 2; 2]) mem X ->
  exists D : list R -> R,
    (forall xi, length xi = 3%nat -> exists J K, jacobian_wrapper RNum c 2 bases mem xi = Ok J /\ Holds (owning [2; 2]) J K /\
       det 2 (fun i j => K [i; j]) = D xi) /\
    forall m M xi, (forall s t, s = 1%R \/ s = (-1)%R -> t = 1%R \/ t = (-1)%R -> (m <= D [s; t; 0%R] <= M)%R) ->
      length xi = 3%nat -> InCell xi -> (m <= D xi <= M)%R.
Proof.
  intros HE HN Hd HU HX. exists (fun xi => det 2 (fun i j => Jmat ds X xi [i; j])).
  assert (HC : counts ds = [2; 2]).
  { destruct ds as [|d0 [|d1 [|]]]; try discriminate. unfold counts. cbn [map].
    inversion HU as [|? ? (E0 & _) HU1]; subst. inversion HU1 as [|? ? (E1 & _) _]; subst. now rewrite E0, E1. }
  split.
  - intros xi Hx. destruct (wrapper_Jmat c bases ds mem X xi HE ltac:(destruct ds; discriminate) ltac:(lia) Hx) as (J & EJ & HJ);
      [rewrite HC, Hd; exact HX|]. rewrite Hd in EJ, HJ. exists J, (Jmat ds X xi). auto.
  - intros m M xi HV Hx HI. destruct ds as [|d0 [|d1 [|]]]; try discriminate. destruct (xi3 xi Hx) as (x & y & z & ->).
    destruct (incell3 x y z HI) as (Ix & Iy & _). rewrite (det_quad d0 d1 X x y z HN HU).
    assert (B : forall a, bit a -> IZR (2 * a - 1) = 1%R \/ IZR (2 * a - 1) = (-1)%R) by (intros a [->| ->]; [right|left]; reflexivity).
    split; [apply mean_ge|apply mean_le]; auto; intros a b Ha Hb; apply HV; apply B; assumption.
Qed.
