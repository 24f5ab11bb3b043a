(** Nodal forces as determinants with one row replaced. *)
From Coq Require Import ZArith List Reals Lia Lra Permutation.
From Verif Require Import Base ProofBase Num SpecIndex ProofBox ModelAssert ModelCArray SpecCArray ProofCArray ProofRep ModelSpacing ModelQuadrature ModelLagrange
  ModelBasisProduct ModelMath ModelTransforms SpecNumeric SpecMath SpecBasis SpecIntegral SpecForce ProofPoly ProofLagrange ProofSpacing ProofQuadrature ProofTensor
  ProofTransform ProofMath ProofIntegral ProofVolume ProofPatch.
Import ListNotations.
Open Scope Z_scope.

Lemma same_length {A B} (P : A -> B -> Prop) l m : Forall2 P l m -> length l = length m.
Proof. induction 1; cbn; congruence. Qed.
Definition rowdet (K : matrix) (k : Z) (g : Z -> R) : R := det 3 (fun i j => if i =? k then g j else K i j).
Definition minorC (K : matrix) (k j : Z) : R := rowdet K k (fun i => if i =? j then 1%R else 0%R).
Lemma three k : 0 <= k < 3 -> k = 0 \/ k = 1 \/ k = 2. Proof. lia. Qed.
Lemma rowdet_ext K K' k g g' : (forall i j, 0 <= i < 3 -> 0 <= j < 3 -> K i j = K' i j) -> (forall j, 0 <= j < 3 -> g j = g' j) -> rowdet K k g = rowdet K' k g'.
Proof. intros HK Hg. apply det_ext. intros i j Hi Hj. destruct (i =? k); auto. Qed.
Lemma rowdet_lin K k g : 0 <= k < 3 -> rowdet K k g = (g 0%Z * minorC K k 0 + g 1%Z * minorC K k 1 + g 2%Z * minorC K k 2)%R.
Proof. intros Hk. unfold minorC, rowdet. rewrite !ProofTransform.det3. destruct (three k Hk) as [->|[->| ->]]; cbn [Z.eqb Pos.eqb]; ring. Qed.
Lemma rowdet_row K k l : 0 <= k < 3 -> 0 <= l < 3 -> rowdet K k (fun j => K l j) = (delta l k * det 3 K)%R.
Proof.
  intros Hk Hl. unfold rowdet, delta. rewrite !ProofTransform.det3.
  destruct (three k Hk) as [->|[->| ->]]; destruct (three l Hl) as [->|[->| ->]]; cbn [Z.eqb Pos.eqb]; ring.
Qed.
Lemma rowdet_add K k g s : 0 <= k < 3 -> det 3 (fun i j => if i =? k then (K i j + s * g j)%R else K i j) = (det 3 K + s * rowdet K k g)%R.
Proof. intros Hk. unfold rowdet. rewrite !ProofTransform.det3. destruct (three k Hk) as [->|[->| ->]]; cbn [Z.eqb Pos.eqb]; ring. Qed.
Lemma rowdet_inverse (K B : matrix) k g : 0 <= k < 3 -> Inverse 3 K B ->
  rowdet K k g = (det 3 K * Rsum (map (fun j => g j * B j k)%R (zseq 3)))%R.
Proof.
  intros Hk HI. set (h := fun l => Rsum (map (fun j => g j * B j l)%R (zseq 3))).
  assert (E : rowdet K k g = det 3 (matmul 3 (fun i j => if i =? k then h j else delta i j) K)).
  { apply det_ext. intros i j Hi Hj. unfold matmul. rewrite Rsum3. destruct (Z.eqb_spec i k) as [->|N].
    - unfold h. rewrite !Rsum3. destruct (HI 0 j ltac:(lia) Hj) as (_ & D0). destruct (HI 1 j ltac:(lia) Hj) as (_ & D1). destruct (HI 2 j ltac:(lia) Hj) as (_ & D2).
      unfold matmul in D0, D1, D2. rewrite Rsum3 in D0, D1, D2.
      transitivity (g 0%Z * delta 0 j + g 1%Z * delta 1 j + g 2%Z * delta 2 j)%R.
      + unfold delta. destruct (three j Hj) as [->|[->| ->]]; cbn [Z.eqb Pos.eqb]; ring.
      + rewrite <- D0, <- D1, <- D2. ring.
    - unfold delta. destruct (three i Hi) as [->|[->| ->]]; cbn [Z.eqb Pos.eqb]; ring. }
  rewrite E, det_mul, (Rmult_comm (det 3 K)). f_equal. change (Rsum _) with (h k). unfold delta. rewrite ProofTransform.det3.
  destruct (three k Hk) as [->|[->| ->]]; cbn [Z.eqb Pos.eqb]; ring.
Qed.

(** The entry of a sum at a quadrature point. *)
Definition JM (ds : list direction) (X : list Z -> R) (xi : list R) : matrix := fun i j => Jmat ds X xi [i; j].
Definition DN (ds : list direction) (t : list Z) (xi : list R) (j : Z) : R := dtensor (Z.to_nat j) ds t xi.
Definition force (ds : list direction) (X : list Z -> R) (t : list Z) (k : Z) (xi : list R) : R := rowdet (JM ds X xi) k (DN ds t xi).

Section Cell.
Context (c : ctx) (bases : list (basis RNum)) (ds : list direction) (mem : list R) (X : list Z -> R).
Context (HE : Forall2 Evaluates bases ds) (Hd : length ds = 3%nat) (HX : Holds (owning (counts ds ++ [3])) mem X).

Lemma at_inverse xi d invJ B : length xi = 3%nat -> inverseJacobian_wrapper RNum c 3 bases mem xi = Ok (d, invJ) -> Holds (owning [3; 3]) invJ B ->
  d = det 3 (JM ds X xi) /\ Inverse 3 (JM ds X xi) (fun i j => B [i; j]).
Proof using HE Hd HX.
  intros Hx EI HB. destruct (wrapper_inverse c bases ds mem X xi HE Hd Hx HX) as (W1 & W2).
  destruct (Req_dec (det 3 (fun i j => Jmat ds X xi [i; j])) 0) as [Z0|NZ]; [rewrite (W2 Z0) in EI; discriminate|].
  destruct (W1 NZ) as (invJ' & B' & E' & HB' & HI). rewrite E' in EI. injection EI as <- <-. split; [reflexivity|].
  intros i j Ii Ij. destruct (HI i j Ii Ij) as (I1 & I2). unfold matmul, JM in *. rewrite !Rsum3 in *.
  rewrite !(Holds_at c invJ' [3; 3] _ B B' HB HB') by (apply InRange_ij; lia). split; [exact I1|exact I2].
Qed.
Lemma at_det xi d invJ : length xi = 3%nat -> inverseJacobian_wrapper RNum c 3 bases mem xi = Ok (d, invJ) -> d = det 3 (JM ds X xi).
Proof using HE Hd HX.
  intros Hx EI. destruct (wrapper_inverse c bases ds mem X xi HE Hd Hx HX) as (W1 & W2).
  destruct (Req_dec (det 3 (fun i j => Jmat ds X xi [i; j])) 0) as [Z0|NZ]; [rewrite (W2 Z0) in EI; discriminate|].
  destruct (W1 NZ) as (invJ' & B' & E' & HB' & HI). rewrite E' in EI. injection EI as <- _. reflexivity.
Qed.
Lemma at_force xi t k g d invJ B : length xi = 3%nat -> 0 <= k < 3 -> InRange (counts ds) t ->
  parent_gradient_at RNum 3 bases t xi = Ok g -> inverseJacobian_wrapper RNum c 3 bases mem xi = Ok (d, invJ) -> Holds (owning [3; 3]) invJ B ->
  (d * Rsum (map (fun j => nth (Z.to_nat j) g 0 * B [j; k]) (zseq 3)))%R = force ds X t k xi.
Proof using HE Hd HX.
  intros Hx Hk Ht Hg EI HB. destruct (at_inverse xi d invJ B Hx EI HB) as (-> & HI).
  unfold force. rewrite (rowdet_inverse _ _ k _ Hk HI). f_equal.
  assert (Hb : length bases = 3%nat) by (rewrite (same_length _ _ _ HE); exact Hd).
  unfold parent_gradient_at, parent_ok, numDims in Hg. rewrite Hb in Hg. cbn [Z.of_nat Z.eqb Pos.eqb Pos.of_succ_nat Pos.succ bind] in Hg.
  rewrite (product_gradient_ok bases ds t xi) in Hg; [|exact HE|destruct ds; discriminate|rewrite Hd; unfold INT_MAX; lia|exact Ht|lia].
  injection Hg as <-. rewrite Hd. rewrite !Rsum3. reflexivity.
Qed.
End Cell.

Lemma point_length (rs : list (rule * Z)) (xs : list (Z -> R)) q : length rs = 3%nat -> length xs = 3%nat -> InRange (map snd rs) q -> length (point_at xs q) = 3%nat.
Proof.
  intros Hr Hx Hq. destruct xs as [|x0 [|x1 [|x2 [|]]]]; try discriminate.
  destruct rs as [|r0 [|r1 [|r2 [|]]]]; try discriminate. cbn [map] in Hq. apply InRange3 in Hq.
  destruct Hq as (a & b & e & -> & _). reflexivity.
Qed.
Lemma volume_sum c bases ds rs ws xs mem X v : Forall2 Evaluates bases ds -> length ds = 3%nat -> length rs = 3%nat -> length xs = 3%nat ->
  Holds (owning (counts ds ++ [3])) mem X -> QuadratureVolume c bases rs ws xs mem v -> v = quadrature rs ws xs (fun xi => det 3 (JM ds X xi)).
Proof.
  intros HE Hd Hr Hx HX (detJ & HJ & ->). apply BoxSum_ext. intros q Hq. destruct (HJ q Hq) as (invJ & E).
  rewrite (at_det c bases ds mem X HE Hd HX _ _ _ (point_length rs xs q Hr Hx Hq) E). reflexivity.
Qed.
Lemma force_sum c bases ds rs ws xs mem X t k f : Forall2 Evaluates bases ds -> length ds = 3%nat -> length rs = 3%nat -> length xs = 3%nat ->
  Holds (owning (counts ds ++ [3])) mem X -> InRange (counts ds) t -> 0 <= k < 3 ->
  NodeForce c bases rs ws xs mem t k f -> f = quadrature rs ws xs (force ds X t k).
Proof.
  intros HE Hd Hr Hx HX Ht Hk (h & HJ & ->). apply BoxSum_ext. intros q Hq. destruct (HJ q Hq) as (g & d & invJ & B & Eg & E & HB & ->).
  rewrite (at_force c bases ds mem X HE Hd HX _ t k g d invJ B (point_length rs xs q Hr Hx Hq) Hk Ht Eg E HB). reflexivity.
Qed.

(** Linear combinations of forces. *)
Lemma force_combination ds rs ws xs X k u : 0 <= k < 3 ->
  BoxSum (counts ds) (fun t => u t * quadrature rs ws xs (force ds X t k))%R =
  quadrature rs ws xs (fun xi => rowdet (JM ds X xi) k (fun j => dinterp (Z.to_nat j) ds u xi)).
Proof.
  intros Hk. unfold quadrature. rewrite (BoxSum_sumR (map snd rs)).
  transitivity (BoxSum (counts ds) (fun t => sumR (fun q => u t * (weights_at ws q * force ds X t k (point_at xs q))) (zbox (map snd rs)))%R).
  { apply BoxSum_ext. intros t _. rewrite BoxSum_sumR, <- sumR_scal. reflexivity. }
  rewrite BoxSum_swap. apply sumR_ext. intros q _. set (xi := point_at xs q).
  rewrite (rowdet_lin _ _ _ Hk). unfold dinterp.
  transitivity (BoxSum (counts ds) (fun t => weights_at ws q * ((dtensor (Z.to_nat 0) ds t xi * u t) * minorC (JM ds X xi) k 0 +
    (dtensor (Z.to_nat 1) ds t xi * u t) * minorC (JM ds X xi) k 1 + (dtensor (Z.to_nat 2) ds t xi * u t) * minorC (JM ds X xi) k 2))%R).
  { apply BoxSum_ext. intros t _. unfold force. rewrite (rowdet_lin _ _ _ Hk). unfold DN. ring. }
  rewrite BoxSum_scal. f_equal. rewrite !BoxSum_plus.
  rewrite !BoxSum_sumR, !sumR_scal_r. reflexivity.
Qed.

Lemma quadrature_zero rs ws xs f : (forall xi, f xi = 0%R) -> quadrature rs ws xs f = 0%R.
Proof. intros H. unfold quadrature. apply BoxSum_zero. intros q _. rewrite H. ring. Qed.

Lemma balance_lemma c bases ds rs ws xs mem X k (F : list Z -> R) : Forall2 Evaluates bases ds -> Forall Nodal ds -> length ds = 3%nat ->
  length rs = 3%nat -> length xs = 3%nat -> Holds (owning (counts ds ++ [3])) mem X -> 0 <= k < 3 ->
  (forall t, InRange (counts ds) t -> NodeForce c bases rs ws xs mem t k (F t)) ->
  BoxSum (counts ds) F = 0%R.
Proof.
  intros HE HN Hd Hr Hx HX Hk HF.
  rewrite (BoxSum_ext _ F (fun t => 1 * quadrature rs ws xs (force ds X t k))%R).
  2: { intros t Ht. rewrite Rmult_1_l. exact (force_sum c bases ds rs ws xs mem X t k (F t) HE Hd Hr Hx HX Ht Hk (HF t Ht)). }
  rewrite (force_combination ds rs ws xs X k (fun _ => 1%R) Hk). unfold quadrature. apply BoxSum_zero. intros q Hq.
  pose proof (point_length rs xs q Hr Hx Hq) as L. rewrite (rowdet_lin _ _ _ Hk).
  rewrite !dinterp_const by (auto; lia). ring.
Qed.
Lemma moment_lemma c bases ds rs ws xs mem X k l (F : list Z -> R) v : Forall2 Evaluates bases ds -> length ds = 3%nat ->
  length rs = 3%nat -> length xs = 3%nat -> Holds (owning (counts ds ++ [3])) mem X -> 0 <= k < 3 -> 0 <= l < 3 ->
  (forall t, InRange (counts ds) t -> NodeForce c bases rs ws xs mem t k (F t)) -> QuadratureVolume c bases rs ws xs mem v ->
  BoxSum (counts ds) (fun t => X (t ++ [l]) * F t)%R = if l =? k then v else 0%R.
Proof.
  intros HE Hd Hr Hx HX Hk Hl HF HV.
  rewrite (BoxSum_ext _ _ (fun t => X (t ++ [l]) * quadrature rs ws xs (force ds X t k))%R).
  2: { intros t Ht. f_equal. exact (force_sum c bases ds rs ws xs mem X t k (F t) HE Hd Hr Hx HX Ht Hk (HF t Ht)). }
  rewrite (force_combination ds rs ws xs X k (fun t => X (t ++ [l])) Hk).
  rewrite (volume_sum c bases ds rs ws xs mem X v HE Hd Hr Hx HX HV).
  transitivity (quadrature rs ws xs (fun xi => delta l k * det 3 (JM ds X xi))%R).
  { apply BoxSum_ext. intros q _. f_equal. rewrite <- rowdet_row by assumption. reflexivity. }
  unfold delta. destruct (l =? k).
  - apply BoxSum_ext. intros q _. ring.
  - apply quadrature_zero. intros xi. ring.
Qed.
Lemma gradient_lemma c bases ds rs ws xs mem X k (F : list Z -> R) var u s : Forall2 Evaluates bases ds -> length ds = 3%nat ->
  length rs = 3%nat -> length xs = 3%nat -> Holds (owning (counts ds ++ [3])) mem X -> 0 <= k < 3 ->
  (forall t, InRange (counts ds) t -> NodeForce c bases rs ws xs mem t k (F t)) ->
  (forall t, InRange (counts ds) t -> var t = Ok (u t)) -> GradientIntegral c bases rs ws xs mem var k s ->
  BoxSum (counts ds) (fun t => u t * F t)%R = s.
Proof.
  intros HE Hd Hr Hx HX Hk HF Hu (h & HG & ->).
  rewrite (BoxSum_ext _ _ (fun t => u t * quadrature rs ws xs (force ds X t k))%R).
  2: { intros t Ht. f_equal. exact (force_sum c bases ds rs ws xs mem X t k (F t) HE Hd Hr Hx HX Ht Hk (HF t Ht)). }
  rewrite (force_combination ds rs ws xs X k u Hk). apply BoxSum_ext. intros q Hq. f_equal.
  destruct (HG q Hq) as (g & d & invJ & B & Eg & EI & HB & ->). pose proof (point_length rs xs q Hr Hx Hq) as L. set (xi := point_at xs q) in *.
  destruct (at_inverse c bases ds mem X HE Hd HX xi d invJ B L EI HB) as (-> & HI).
  assert (Hne : ds <> []) by (destruct ds; discriminate).
  assert (Hi : Z.of_nat (length ds) <= INT_MAX) by (rewrite Hd; unfold INT_MAX; lia).
  assert (Hlx : (length ds <= length xi)%nat) by (rewrite Hd; apply Nat.eq_le_incl; symmetry; exact L).
  destruct (parent_gradient_nth c bases ds u var xi HE Hne Hi Hu Hlx) as (g' & Eg' & Lg & Pg).
  rewrite Hd in Eg'. change (Z.of_nat 3) with 3 in Eg'. rewrite Eg in Eg'. injection Eg' as <-.
  rewrite (rowdet_inverse _ _ k _ Hk HI). f_equal. rewrite !Rsum3. rewrite !Pg by (rewrite Hd; lia). reflexivity.
Qed.

(** One coordinate of one node moved by [s]. *)
Definition MovedNode (ns : list Z) (t : list Z) (k : Z) (s : R) (X X' : list Z -> R) : Prop :=
  forall t' i, InRange ns t' -> 0 <= i < 3 -> X' (t' ++ [i]) = (X (t' ++ [i]) + if andb (tuple_eqb t' t) (i =? k) then s else 0)%R.
Lemma dinterp_one j ds t xi : InRange (counts ds) t -> dinterp j ds (fun t' => if tuple_eqb t' t then 1%R else 0%R) xi = dtensor j ds t xi.
Proof.
  intros Ht. unfold dinterp. rewrite BoxSum_sumR. rewrite (sumR_one _ _ t (NoDup_zbox _)); [|now apply in_zbox|].
  - replace (tuple_eqb t t) with true by (symmetry; now apply tuple_eqb_spec). ring.
  - intros b _ N. destruct (tuple_eqb b t) eqn:E; [apply tuple_eqb_spec in E; contradiction|]. ring.
Qed.
Lemma JM_moved ds t k s X X' xi : InRange (counts ds) t -> MovedNode (counts ds) t k s X X' -> forall i j, 0 <= i < 3 -> 0 <= j < 3 ->
  JM ds X' xi i j = if i =? k then (JM ds X xi i j + s * DN ds t xi j)%R else JM ds X xi i j.
Proof.
  intros Ht HM i j Hi Hj. unfold JM, Jmat, DN. cbn [nth]. rewrite <- (dinterp_one (Z.to_nat j) ds t xi Ht).
  destruct (i =? k) eqn:Ek.
  - rewrite <- dinterp_scal, <- dinterp_plus. apply dinterp_ext. intros t' Ht'. rewrite HM by assumption. rewrite Ek, Bool.andb_true_r.
    destruct (tuple_eqb t' t); ring.
  - apply dinterp_ext. intros t' Ht'. rewrite HM by assumption. rewrite Ek, Bool.andb_false_r. ring.
Qed.
Lemma moved_quadrature ds rs ws xs t k s X X' : InRange (counts ds) t -> 0 <= k < 3 -> MovedNode (counts ds) t k s X X' ->
  quadrature rs ws xs (fun xi => det 3 (JM ds X' xi)) = (quadrature rs ws xs (fun xi => det 3 (JM ds X xi)) + s * quadrature rs ws xs (force ds X t k))%R.
Proof.
  intros Ht Hk HM. unfold quadrature. rewrite <- BoxSum_scal, <- BoxSum_plus. apply BoxSum_ext. intros q _.
  rewrite (det_ext (JM ds X' (point_at xs q)) _ (JM_moved ds t k s X X' (point_at xs q) Ht HM)).
  rewrite rowdet_add by exact Hk. unfold force. ring.
Qed.
Lemma derivative_lemma c bases ds rs ws xs mem mem' X X' t k s f v v' : Forall2 Evaluates bases ds -> length ds = 3%nat ->
  length rs = 3%nat -> length xs = 3%nat -> Holds (owning (counts ds ++ [3])) mem X -> Holds (owning (counts ds ++ [3])) mem' X' ->
  InRange (counts ds) t -> 0 <= k < 3 ->
  (forall t' i, InRange (counts ds) t' -> 0 <= i < 3 -> X' (t' ++ [i]) = (X (t' ++ [i]) + if andb (tuple_eqb t' t) (i =? k) then s else 0)%R) ->
  NodeForce c bases rs ws xs mem t k f -> QuadratureVolume c bases rs ws xs mem v -> QuadratureVolume c bases rs ws xs mem' v' ->
  v' = (v + s * f)%R.
Proof.
  intros HE Hd Hr Hx HX HX' Ht Hk HM HF HV HV'.
  rewrite (volume_sum c bases ds rs ws xs mem' X' v' HE Hd Hr Hx HX' HV'), (volume_sum c bases ds rs ws xs mem X v HE Hd Hr Hx HX HV),
    (force_sum c bases ds rs ws xs mem X t k f HE Hd Hr Hx HX Ht Hk HF).
  now apply moved_quadrature.
Qed.
