(** The volume of a hexahedral cell, by quadrature of the Jacobian determinant. *)
From Verif Require Import Base ProofBase Num SpecIndex ProofBox ModelSequence ModelIndex ProofIndex ModelAssert
  ModelCArray SpecCArray ProofCArray ProofRep ModelSpacing ModelQuadrature ModelLagrange ModelBasisProduct ModelMath ModelTransforms
  SpecNumeric SpecMath SpecBasis SpecIntegral ProofMath ProofSpacing ProofQuadrature ProofPoly ProofLagrange ProofTensor
  ProofTransform ProofIntegral.
From Coq Require Import Reals Lra.
Open Scope Z_scope.

Lemma Zsum2 f : Zsum 2 f = (f 0%Z + f 1%Z)%R.
Proof. unfold Zsum. change (zseq (Z.to_nat 2)) with [0; 1]. cbn [map fold_right]. ring. Qed.

(** The two-point basis on -1, 1. *)
Lemma unit_values d : Nodal d -> unit_direction d ->
  forall y, fval d 0 y = ((1 - y) / 2)%R /\ fval d 1 y = ((1 + y) / 2)%R.
Proof.
  intros HN (H2 & Hm & Hp) y. unfold Nodal in HN.
  pose proof (nb_unity _ _ _ _ HN y) as U. pose proof (nb_reproduce _ _ _ _ HN [0; 1]%R y) as L.
  rewrite H2 in *. rewrite Zsum2 in *. specialize (L ltac:(cbn; lia)). rewrite Hm, Hp in L. cbn [peval] in L. lra.
Qed.
Lemma unit_derivs d : Nodal d -> unit_direction d ->
  forall y, fder d 0 y = (- (1 / 2))%R /\ fder d 1 y = (1 / 2)%R.
Proof.
  intros HN HU y. pose proof (unit_values d HN HU) as HV. destruct HU as (H2 & _).
  assert (D : forall i, 0 <= i < 2 -> derivable_pt_lim (fval d i) y (fder d i y)).
  { intros i Hi. apply (nb_deriv _ _ _ _ HN). lia. }
  split.
  - apply (deriv_unique (fval d 0) y); [apply D; lia|].
    apply (deriv_ext (peval [1/2; -(1/2)]%R)); [intros t; destruct (HV t) as (-> & _); cbn [peval]; field|].
    pose proof (peval_deriv [1/2; -(1/2)]%R y) as E. replace (peval (pderiv _) y) with (- (1 / 2))%R in E by (cbn; field). exact E.
  - apply (deriv_unique (fval d 1) y); [apply D; lia|].
    apply (deriv_ext (peval [1/2; 1/2]%R)); [intros t; destruct (HV t) as (_ & ->); cbn [peval]; field|].
    pose proof (peval_deriv [1/2; 1/2]%R y) as E. replace (peval (pderiv _) y) with (1 / 2)%R in E by (cbn; field). exact E.
Qed.

(** The columns of the Jacobian as polynomials in the other two coordinates. *)
Definition sg (a : Z) : R := if a =? 0 then (-1)%R else 1%R.
Definition s8 (p : Z) (a b : Z) : R :=
  match p with 0 => 1 | 1 => sg a | 2 => sg b | _ => sg a * sg b end%R.
Definition four (f : Z -> Z -> R) : R := (f 0%Z 0%Z + f 0%Z 1%Z + f 1%Z 0%Z + f 1%Z 1%Z)%R.
Section Hex.
Context (X : list Z -> R).
Definition colA (p i : Z) : R := (four (fun b e => s8 p b e * (X [1%Z; b; e; i] - X [0%Z; b; e; i])) / 8)%R.
Definition colB (p i : Z) : R := (four (fun a e => s8 p a e * (X [a; 1%Z; e; i] - X [a; 0%Z; e; i])) / 8)%R.
Definition colC (p i : Z) : R := (four (fun a b => s8 p a b * (X [a; b; 1%Z; i] - X [a; b; 0%Z; i])) / 8)%R.
End Hex.
Definition bil (A : Z -> Z -> R) (i : Z) (y z : R) : R := (A 0%Z i + A 1%Z i * y + A 2%Z i * z + A 3%Z i * (y * z))%R.

Lemma Jmat_hex d0 d1 d2 X x y z i : Forall Nodal [d0; d1; d2] -> Forall unit_direction [d0; d1; d2] ->
  Jmat [d0; d1; d2] X [x; y; z] [i; 0] = bil (colA X) i y z /\
  Jmat [d0; d1; d2] X [x; y; z] [i; 1] = bil (colB X) i x z /\
  Jmat [d0; d1; d2] X [x; y; z] [i; 2] = bil (colC X) i x y.
Proof.
  intros HN HU.
  inversion HN as [|? ? N0 HN1]; subst. inversion HN1 as [|? ? N1 HN2]; subst. inversion HN2 as [|? ? N2 _]; subst.
  inversion HU as [|? ? U0 HU1]; subst. inversion HU1 as [|? ? U1 HU2]; subst. inversion HU2 as [|? ? U2 _]; subst.
  destruct (unit_values d0 N0 U0 x) as (V00 & V01), (unit_values d1 N1 U1 y) as (V10 & V11), (unit_values d2 N2 U2 z) as (V20 & V21).
  destruct (unit_derivs d0 N0 U0 x) as (D00 & D01), (unit_derivs d1 N1 U1 y) as (D10 & D11), (unit_derivs d2 N2 U2 z) as (D20 & D21).
  destruct U0 as (E0 & _), U1 as (E1 & _), U2 as (E2 & _).
  unfold Jmat, dinterp, counts, bil, colA, colB, colC, four, s8, sg. cbn [map]. rewrite E0, E1, E2. cbn [BoxSum].
  rewrite !Zsum2. cbn. change (Pos.to_nat 1) with 1%nat. change (Pos.to_nat 2) with 2%nat. cbn.
  rewrite V00, V01, V10, V11, V20, V21, D00, D01, D10, D11, D20, D21. repeat split; field.
Qed.

(** The determinant as a sum of 64 monomials. *)
Definition trip (A B C : Z -> Z -> R) (p q r : Z) : R := triple (A p) (B q) (C r).
Definition ex2 (p : Z) : Z * Z := match p with 0 => (0, 0) | 1 => (1, 0) | 2 => (0, 1) | _ => (1, 1) end.
Definition expo (p q r : Z) : list Z :=
  [fst (ex2 q) + fst (ex2 r); fst (ex2 p) + snd (ex2 r); snd (ex2 p) + snd (ex2 q)].
Definition pqr : list (Z * Z * Z) :=
  flat_map (fun p => flat_map (fun q => map (fun r => (p, q, r)) [0; 1; 2; 3]) [0; 1; 2; 3]) [0; 1; 2; 3].
Definition dterms (A B C : Z -> Z -> R) : list (R * list Z) :=
  map (fun t => (trip A B C (fst (fst t)) (snd (fst t)) (snd t), expo (fst (fst t)) (snd (fst t)) (snd t))) pqr.

Definition hexJ (A B C : Z -> Z -> R) (x y z : R) (i j : Z) : R :=
  if j =? 0 then bil A i y z else if j =? 1 then bil B i x z else bil C i x y.
Lemma det_transpose (K : matrix) : det 3 K = triple (fun i => K i 0) (fun i => K i 1) (fun i => K i 2).
Proof. rewrite det3. unfold triple. ring. Qed.

Lemma det_sparse A B C x y z : det 3 (hexJ A B C x y z) = sparse (dterms A B C) [x; y; z].
Proof.
  rewrite det_transpose. unfold hexJ. cbn [Z.eqb]. unfold bil.
  change (0 =? 0) with true. change (1 =? 0) with false. change (1 =? 1) with true. change (2 =? 0) with false. change (2 =? 1) with false.
  cbv iota. unfold sparse, dterms, pqr, trip, triple, expo, ex2. cbn -[Rplus Rmult Rminus pow]. 
  change (Pos.to_nat 1) with 1%nat. change (Pos.to_nat 2) with 2%nat. cbn [pow]. ring.
Qed.

Lemma em0 : exact_moment 0 = 2%R. Proof. unfold exact_moment. cbn. field. Qed.
Lemma em1 : exact_moment 1 = 0%R. Proof. unfold exact_moment. cbn. field. Qed.
Lemma em2 : exact_moment 2 = (2 / 3)%R. Proof. unfold exact_moment. cbn. field. Qed.

Lemma volume_sparse X :
  isparse (dterms (colA X) (colB X) (colC X)) = hexVolume (fun a b e i => X [a; b; e; i]).
Proof.
  unfold isparse, dterms, pqr, trip, expo, ex2. cbn -[Rplus Rmult Rminus triple hexVolume exact_moment Z.to_nat].
  change (Z.to_nat 0) with 0%nat. change (Z.to_nat 1) with 1%nat. change (Z.to_nat 2) with 2%nat.
  rewrite em0, em1, em2. unfold hexVolume, triple. cbv zeta. unfold colA, colB, colC, four, s8, sg. cbn. field.
Qed.

Lemma abs_inv x y : (Rabs x <= y)%R -> (- y <= x <= y)%R.
Proof. intros H. pose proof (Rle_abs x). pose proof (Rle_abs (- x)) as H1. rewrite Rabs_Ropp in H1. lra. Qed.
Lemma four_bound f M : (forall a b, 0 <= a < 2 -> 0 <= b < 2 -> (Rabs (f a b) <= 2 * M)%R) -> (Rabs (four f / 8) <= M)%R.
Proof.
  intros H. unfold four.
  pose proof (H 0 0 ltac:(lia) ltac:(lia)). pose proof (H 0 1 ltac:(lia) ltac:(lia)).
  pose proof (H 1 0 ltac:(lia) ltac:(lia)). pose proof (H 1 1 ltac:(lia) ltac:(lia)).
  repeat match goal with H : (Rabs _ <= _)%R |- _ => apply abs_inv in H end. apply Rabs_le. lra.
Qed.
Lemma s8_diff p a b u v M : (Rabs u <= M)%R -> (Rabs v <= M)%R -> (Rabs (s8 p a b * (u - v)) <= 2 * M)%R.
Proof.
  intros Hu Hv. rewrite Rabs_mult.
  assert (Hs : Rabs (s8 p a b) = 1%R).
  { assert (G : forall c, Rabs (sg c) = 1%R). { intros c. unfold sg. destruct (c =? 0); [rewrite Rabs_left by lra; ring|apply Rabs_R1]. }
    unfold s8. destruct p as [|[p|p|]|p]; try destruct p; rewrite ?Rabs_mult, ?G, ?Rabs_R1; ring. }
  rewrite Hs, Rmult_1_l. apply abs_inv in Hu. apply abs_inv in Hv. apply Rabs_le. lra.
Qed.

Lemma triple_bound u v w M : (0 <= M)%R -> (forall i, 0 <= i < 3 -> (Rabs (u i) <= M)%R /\ (Rabs (v i) <= M)%R /\ (Rabs (w i) <= M)%R) ->
  (Rabs (triple u v w) <= 6 * M ^ 3)%R.
Proof.
  intros HM H. destruct (H 0 ltac:(lia)) as (u0 & v0 & w0), (H 1 ltac:(lia)) as (u1 & v1 & w1), (H 2 ltac:(lia)) as (u2 & v2 & w2).
  assert (P : forall a b c, (Rabs a <= M)%R -> (Rabs b <= M)%R -> (Rabs c <= M)%R -> (Rabs (a * b * c) <= M ^ 3)%R).
  { intros a b c Ha Hb Hc. rewrite !Rabs_mult. replace (M ^ 3)%R with (M * M * M)%R by ring.
    apply Rmult_le_compat; try apply Rabs_pos; [apply Rmult_le_pos; apply Rabs_pos| |exact Hc].
    apply Rmult_le_compat; try apply Rabs_pos; assumption. }
  unfold triple.
  pose proof (P _ _ _ u0 v1 w2) as P1. pose proof (P _ _ _ u0 v2 w1) as P2. pose proof (P _ _ _ u1 v0 w2) as P3.
  pose proof (P _ _ _ u1 v2 w0) as P4. pose proof (P _ _ _ u2 v0 w1) as P5. pose proof (P _ _ _ u2 v1 w0) as P6.
  apply abs_inv in P1. apply abs_inv in P2. apply abs_inv in P3.
  apply abs_inv in P4. apply abs_inv in P5. apply abs_inv in P6.
  apply Rabs_le. lra.
Qed.

Lemma size_dterms A B C M : (0 <= M)%R ->
  (forall p i, 0 <= i < 3 -> (Rabs (A p i) <= M)%R /\ (Rabs (B p i) <= M)%R /\ (Rabs (C p i) <= M)%R) ->
  (size (dterms A B C) <= 384 * M ^ 3)%R.
Proof.
  intros HM H.
  assert (G : forall l, (size (map (fun t : Z * Z * Z => (trip A B C (fst (fst t)) (snd (fst t)) (snd t), expo (fst (fst t)) (snd (fst t)) (snd t))) l) <= INR (length l) * (6 * M ^ 3))%R).
  { induction l as [|t l IH]; [cbn; lra|]. cbn [map length]. rewrite S_INR.
    change (Rabs (trip A B C (fst (fst t)) (snd (fst t)) (snd t)) + size (map (fun t : Z * Z * Z => (trip A B C (fst (fst t)) (snd (fst t)) (snd t), expo (fst (fst t)) (snd (fst t)) (snd t))) l) <= (INR (length l) + 1) * (6 * M ^ 3))%R.
    assert (Rabs (trip A B C (fst (fst t)) (snd (fst t)) (snd t)) <= 6 * M ^ 3)%R.
    { apply triple_bound; [exact HM|]. intros i Hi. repeat split; apply H; exact Hi. }
    lra. }
  eapply Rle_trans; [apply G|]. change (length pqr) with 64%nat. right. cbn. ring.
Qed.

Lemma expo_degree rs : Forall supported rs -> length rs = 3%nat -> Forall (fun r => 2 <= degree r) rs ->
  forall A B C, Forall (fun t => Forall2 (fun k r => 0 <= k <= degree r) (snd t) rs) (dterms A B C).
Proof.
  intros Hs Hl Hd A B C. destruct rs as [|r0 [|r1 [|r2 [|]]]]; try discriminate.
  inversion Hd as [|? ? H0 Hd1]; subst. inversion Hd1 as [|? ? H1 Hd2]; subst. inversion Hd2 as [|? ? H2 _]; subst.
  apply Forall_forall. intros t Ht. unfold dterms in Ht. apply in_map_iff in Ht. destruct Ht as (((p & q) & r) & <- & _).
  cbn [snd fst]. unfold expo.
  assert (E : forall p, (0 <= fst (ex2 p) <= 1) /\ 0 <= snd (ex2 p) <= 1).
  { intros [|[n|n|]|n]; try destruct n; cbn; lia. }
  pose proof (E p). pose proof (E q). pose proof (E r).
  constructor; [lia|]. constructor; [lia|]. constructor; [lia|]. constructor.
Qed.

Lemma counts_hex (ds : list direction) : length ds = 3%nat -> Forall unit_direction ds -> counts ds = [2; 2; 2].
Proof.
  intros Hd HU. destruct ds as [|d0 [|d1 [|d2 [|]]]]; try discriminate. unfold counts. cbn [map].
  inversion HU as [|? ? (E0 & _) HU1]; subst. inversion HU1 as [|? ? (E1 & _) HU2]; subst.
  inversion HU2 as [|? ? (E2 & _) _]; subst. now rewrite E0, E1, E2.
Qed.

Lemma det_Jmat ds X x y z : length ds = 3%nat -> Forall Nodal ds -> Forall unit_direction ds ->
  det 3 (fun i j => Jmat ds X [x; y; z] [i; j]) = sparse (dterms (colA X) (colB X) (colC X)) [x; y; z].
Proof.
  intros Hd HN HU. destruct ds as [|d0 [|d1 [|d2 [|]]]]; try discriminate.
  rewrite <- det_sparse, !det_transpose. unfold triple, hexJ.
  destruct (Jmat_hex d0 d1 d2 X x y z 0 HN HU) as (-> & -> & ->).
  destruct (Jmat_hex d0 d1 d2 X x y z 1 HN HU) as (-> & -> & ->).
  destruct (Jmat_hex d0 d1 d2 X x y z 2 HN HU) as (-> & -> & ->). reflexivity.
Qed.

(** The hexahedron formula is the integral of the Jacobian determinant. *)
Lemma volume_integral_lemma ds X (K : list R -> matrix) :
  length ds = 3%nat -> Forall Nodal ds -> Forall (fun d => npts d = 2 /\ pt d 0 = (-1)%R /\ pt d 1 = 1%R) ds ->
  (forall xi i j, length xi = 3%nat -> 0 <= i < 3 -> (j < 3)%nat ->
     Partial (fun p => BoxSum [2; 2; 2] (fun t => tensor ds t p * X (t ++ [i]))%R) j xi (K xi i (Z.of_nat j))) ->
  Integral 3 (fun xi => det 3 (K xi)) (hexVolume (fun a b e i => X [a; b; e; i])).
Proof.
  intros Hd HN HU HK. rewrite <- volume_sparse.
  apply (Integral_ext 3 (sparse (dterms (colA X) (colB X) (colC X)))).
  - intros xi Hx. destruct xi as [|x [|y [|z [|]]]]; try discriminate. rewrite <- (det_Jmat ds X x y z Hd HN HU).
    rewrite !det3.
    assert (E : forall i j, 0 <= i < 3 -> 0 <= j < 3 -> K [x; y; z] i j = Jmat ds X [x; y; z] [i; j]).
    { intros i j Hi Hj. specialize (HK [x; y; z] i (Z.to_nat j) eq_refl Hi ltac:(lia)). rewrite Z2Nat.id in HK by lia.
      pose proof (Jmat_partial ds X [x; y; z] i (Z.to_nat j) (Nodal_Differentiates ds HN)) as P.
      rewrite Hd in P. specialize (P ltac:(cbn; lia) ltac:(lia)). rewrite Z2Nat.id in P by lia.
      unfold position, interp in P. rewrite (counts_hex ds Hd HU) in P. exact (uniqueness_limite _ _ _ _ HK P). }
    rewrite !E by lia. reflexivity.
  - apply Integral_sparse. apply Forall_forall. intros t Ht. unfold dterms in Ht. apply in_map_iff in Ht.
    destruct Ht as (((p & q) & r) & <- & _). reflexivity.
Qed.

(** The determinants the code returns at the quadrature points add up to the volume. *)
Lemma volume_lemma c bases ds mem X rs ws xs detJ M n :
  Forall2 Evaluates bases ds -> Forall Nodal ds -> length ds = 3%nat ->
  Forall (fun d => npts d = 2 /\ pt d 0 = (-1)%R /\ pt d 1 = 1%R) ds ->
  Holds (owning [2; 2; 2; 3]) mem X ->
  (forall t, InRange [2; 2; 2; 3] t -> (Rabs (X t) <= M)%R) ->
  Forall supported rs -> length rs = 3%nat -> Forall (fun r => 2 <= degree r) rs -> Rules rs ws xs ->
  (1 <= n)%nat -> Forall (fun r => (n <= digits r)%nat) rs ->
  (forall q, InRange (map snd rs) q -> exists invJ,
     inverseJacobian_wrapper RNum c 3 bases mem (point_at xs q) = Ok (detJ (point_at xs q), invJ)) ->
  (Rabs (quadrature rs ws xs detJ - hexVolume (fun a b e i => X [a; b; e; i])) <= 27 * tenth n * (384 * M ^ 3))%R.
Proof.
  intros HE HN Hd HU HX HM Hs Hl Hdeg HR Hn Hdig Hdet.
  assert (Hcn : counts ds = [2; 2; 2]) by (apply counts_hex; assumption).
  assert (HX3 : Holds (owning (counts ds ++ [3])) mem X) by (rewrite Hcn; exact HX).
  set (ts := dterms (colA X) (colB X) (colC X)).
  assert (E : quadrature rs ws xs detJ = quadrature rs ws xs (sparse ts)).
  { apply quadrature_ext. intros q Hq. destruct (Hdet q Hq) as (invJ & HI).
    assert (Hp : length (point_at xs q) = 3%nat).
    { destruct HR as (_ & H2 & _). rewrite Hl in H2. destruct xs as [|x0 [|x1 [|x2 [|]]]]; try discriminate.
      destruct rs as [|r0 [|r1 [|r2 [|]]]]; try discriminate. cbn [map] in Hq. apply InRange3 in Hq.
      destruct Hq as (a & b & e & -> & _). reflexivity. }
    set (xi := point_at xs q) in *.
    destruct (inverse_jacobian_lemma c bases ds mem X xi HE (Nodal_Differentiates ds HN) Hd Hp HX3) as (K & HK & I1 & I2).
    assert (Ed : det 3 K = sparse ts xi).
    { destruct xi as [|x [|y [|z [|]]]]; try discriminate. unfold ts. rewrite <- (det_Jmat ds X x y z Hd HN HU).
      rewrite !det3.
      assert (E : forall i j, 0 <= i < 3 -> 0 <= j < 3 -> K i j = Jmat ds X [x; y; z] [i; j]).
      { intros i j Hi Hj. specialize (HK i (Z.to_nat j) Hi ltac:(lia)). rewrite Z2Nat.id in HK by lia.
        pose proof (Jmat_partial ds X [x; y; z] i (Z.to_nat j) (Nodal_Differentiates ds HN)) as P.
        rewrite Hd in P. specialize (P ltac:(cbn; lia) ltac:(lia)). rewrite Z2Nat.id in P by lia.
        exact (uniqueness_limite _ _ _ _ HK P). }
      rewrite !E by lia. reflexivity. }
    rewrite <- Ed. destruct (Req_dec (det 3 K) 0) as [Z0|Z0].
    - rewrite (I2 Z0) in HI. discriminate HI.
    - destruct (I1 Z0) as (invJ' & B & HI' & _). assert (F : Ok (detJ xi, invJ) = Ok (det 3 K, invJ')) by exact (eq_trans (eq_sym HI) HI').
      injection F as F _. exact F. }
  rewrite E. rewrite <- volume_sparse. fold ts.
  assert (HMp : (0 <= M)%R).
  { eapply Rle_trans; [apply Rabs_pos|]. apply (HM [0; 0; 0; 0]). apply InRange4; lia. }
  pose proof (tensor_quadrature_lemma rs ws xs ts (isparse ts) n Hs HR Hn Hdig
    (expo_degree rs Hs Hl Hdeg _ _ _)) as T.
  rewrite Hl in T.
  assert (Hlen : Forall (fun t : R * list Z => length (snd t) = 3%nat) ts).
  { apply Forall_forall. intros t Ht. unfold ts, dterms in Ht. apply in_map_iff in Ht.
    destruct Ht as (((p & q) & r) & <- & _). reflexivity. }
  specialize (T (proj1 (Integral_sparse 3 ts Hlen))).
  eapply Rle_trans; [exact T|]. replace (3 ^ 3)%R with 27%R by (cbn; ring).
  apply Rmult_le_compat_l; [pose proof (tenth_pos n); nra|].
  apply size_dterms; [exact HMp|]. intros p i Hi.
  assert (B : forall a b e, 0 <= a < 2 -> 0 <= b < 2 -> 0 <= e < 2 -> (Rabs (X [a; b; e; i]) <= M)%R).
  { intros a b e Ha Hb He. apply HM. apply InRange4; lia. }
  repeat split; apply four_bound; intros a b Ha Hb; apply s8_diff; apply B; lia.
Qed.

Lemma box_volume :
  hexVolume (fun a b e i => IZR (if i =? 0 then 7 + 2 * a else if i =? 1 then 3 * b else 5 * e)) = 30%R.
Proof. unfold hexVolume, triple. cbn -[Rplus Rminus Rmult]. field. Qed.
Lemma cell_volume :
  hexVolume (fun a b e i => IZR ((if Z.testbit (a + 2 * b + 4 * e) i then 2 * (i + 1) else 0) +
    (if a + 2 * b + 4 * e =? 7 then 8 else 0))) = 136%R.
Proof. unfold hexVolume, triple. cbn -[Rplus Rminus Rmult]. field. Qed.
