(** C124: what neighbouring elements and cells share in doubles and in floats. *)
From Coq Require Import Reals Lra.
From Flocq Require Import Core IEEE754.BinarySingleNaN.
From Verif Require Import Base Num ModelB64 ModelF32 SpecB64 SpecF32 SpecIndex SpecMath ModelAssert ModelCArray SpecCArray ModelSpacing ModelLagrange
  ModelBasisProduct ModelMath ModelTransforms SpecElement64 SpecElement32 SpecFace ProofBox ProofB64 ProofNodes64 ProofF32 ProofQuad32 ProofFace64 ProofFace32.
Open Scope Z_scope.

(** Doubles.  Two elements with the same bases along a shared face (the face [+1] of the one and [-1] of the
    next, in the direction after [A]) and the same data on it: at every point of the face they give the same
    double, and the same doubles for the derivatives along the face. *)
Theorem C124_continuous : forall A B p q y z,
  Forall Supported64 A -> Forall Supported64 B -> Matching64 p q -> (length (A ++ p :: B) <= 3)%nat ->
  Forall InReference y -> Forall InReference z -> length y = length A -> (length B <= length z)%nat ->
  forall c var1 var2 u w,
  (forall t, InRange (sizes64 (A ++ p :: B)) t -> var1 t = Ok (u t) /\ Data64 (u t)) ->
  (forall t, InRange (sizes64 (A ++ q :: B)) t -> var2 t = Ok (w t) /\ Data64 (w t)) ->
  (forall t1 t2, InRange (sizes64 A) t1 -> InRange (sizes64 B) t2 -> u (t1 ++ snd p :: t2) = w (t1 ++ 0 :: t2)) ->
  (exists v, parent_value B64Num (Z.of_nat (length (A ++ p :: B))) (map basis64 (A ++ p :: B)) var1 (y ++ b64_ofZ 1 :: z) = Ok v /\
     parent_value B64Num (Z.of_nat (length (A ++ q :: B))) (map basis64 (A ++ q :: B)) var2 (y ++ b64_ofZ (-1) :: z) = Ok v) /\
  (exists g1 g2, parent_gradient B64Num c (Z.of_nat (length (A ++ p :: B))) (map basis64 (A ++ p :: B)) var1 (y ++ b64_ofZ 1 :: z) = Ok g1 /\
     parent_gradient B64Num c (Z.of_nat (length (A ++ q :: B))) (map basis64 (A ++ q :: B)) var2 (y ++ b64_ofZ (-1) :: z) = Ok g2 /\
     length g1 = length (A ++ p :: B) /\ length g2 = length (A ++ p :: B) /\
     forall j, (j < length (A ++ p :: B))%nat -> j <> length A -> nth j g1 (b64_ofZ 1) = nth j g2 (b64_ofZ 1)).
Proof. exact face_field64. Qed.
Print Assumptions C124_continuous.

(** Cells with common vertices on the face: the same doubles in the columns of the Jacobians along the face. *)
Theorem C124_cells : forall A B p q y z,
  Forall Supported64 A -> Forall Supported64 B -> Matching64 p q -> (length (A ++ p :: B) <= 3)%nat ->
  Forall InReference y -> Forall InReference z -> length y = length A -> (length B <= length z)%nat ->
  forall c mem1 mem2 X1 X2, length (y ++ b64_ofZ 1 :: z) = 3%nat ->
  Holds (owning (sizes64 (A ++ p :: B) ++ [Z.of_nat (length (A ++ p :: B))])) mem1 X1 ->
  Holds (owning (sizes64 (A ++ q :: B) ++ [Z.of_nat (length (A ++ q :: B))])) mem2 X2 ->
  (forall t i, InRange (sizes64 (A ++ p :: B)) t -> 0 <= i < Z.of_nat (length (A ++ p :: B)) -> Data64 (X1 (t ++ [i]))) ->
  (forall t i, InRange (sizes64 (A ++ q :: B)) t -> 0 <= i < Z.of_nat (length (A ++ q :: B)) -> Data64 (X2 (t ++ [i]))) ->
  (forall t1 t2 i, InRange (sizes64 A) t1 -> InRange (sizes64 B) t2 -> 0 <= i < Z.of_nat (length (A ++ p :: B)) ->
     X1 (t1 ++ snd p :: t2 ++ [i]) = X2 (t1 ++ 0 :: t2 ++ [i])) ->
  exists J1 J2 K1 K2,
    jacobian_wrapper B64Num c (Z.of_nat (length (A ++ p :: B))) (map basis64 (A ++ p :: B)) mem1 (y ++ b64_ofZ 1 :: z) = Ok J1 /\
    jacobian_wrapper B64Num c (Z.of_nat (length (A ++ q :: B))) (map basis64 (A ++ q :: B)) mem2 (y ++ b64_ofZ (-1) :: z) = Ok J2 /\
    Holds (owning [Z.of_nat (length (A ++ p :: B)); Z.of_nat (length (A ++ p :: B))]) J1 K1 /\
    Holds (owning [Z.of_nat (length (A ++ p :: B)); Z.of_nat (length (A ++ p :: B))]) J2 K2 /\
    forall i j, 0 <= i < Z.of_nat (length (A ++ p :: B)) -> (j < length (A ++ p :: B))%nat -> j <> length A ->
      K1 [i; Z.of_nat j] = K2 [i; Z.of_nat j].
Proof. exact face_cell64. Qed.
Print Assumptions C124_cells.

(** Not for all orders.  The constant field 1 on two elements of equal spacing and order 9 that share a vertex:
    1 - 2^-53 on one side, 1 on the other; likewise order 13, and Gauss-Lobatto elements of orders 4 and 5. *)
Definition left64 (so : spacing * Z) : outcome b64 := parent_value B64Num 1 [basis64 so] (fun _ => Ok (b64_ofZ 1)) [b64_ofZ 1].
Definition right64 (so : spacing * Z) : outcome b64 := parent_value B64Num 1 [basis64 so] (fun _ => Ok (b64_ofZ 1)) [b64_ofZ (-1)].
Definition ulp_below : b64 := @B754_finite prec64 emax64 false 9007199254740991 (-53) eq_refl.
Definition two_below : b64 := @B754_finite prec64 emax64 false 9007199254740990 (-53) eq_refl.
Lemma ulp_below_num : IsNum ulp_below (1 - pow2 (-53))%R.
Proof. split; [reflexivity|]. cbn [B2R ulp_below]. unfold F2R. cbn [Defs.Fnum Defs.Fexp cond_Zopp]. change (bpow radix2 (-53)) with (/ 9007199254740992)%R. lra. Qed.
Lemma two_below_num : IsNum two_below (1 - pow2 (-52))%R.
Proof.
  split; [reflexivity|]. cbn [B2R two_below]. unfold F2R. cbn [Defs.Fnum Defs.Fexp cond_Zopp].
  change (bpow radix2 (-53)) with (/ 9007199254740992)%R. change (bpow radix2 (-52)) with (/ 4503599627370496)%R. lra.
Qed.
Lemma one_num : IsNum (b64_ofZ 1) 1%R.
Proof. destruct (b64_ofZ_exact 1 ltac:(lia)) as [F E]. split; [exact F|exact E]. Qed.
Theorem C124_continuous_refuted :
  (exists v1 v2, left64 (EqualSpacing, 9) = Ok v1 /\ right64 (EqualSpacing, 9) = Ok v2 /\ IsNum v1 (1 - pow2 (-53))%R /\ IsNum v2 1%R) /\
  (exists v1 v2, left64 (EqualSpacing, 13) = Ok v1 /\ right64 (EqualSpacing, 13) = Ok v2 /\ IsNum v1 1%R /\ IsNum v2 (1 - pow2 (-52))%R) /\
  (exists v1 v2, left64 (GaussLobattoSpacing, 4) = Ok v1 /\ right64 (GaussLobattoSpacing, 5) = Ok v2 /\ IsNum v1 1%R /\ IsNum v2 (1 - pow2 (-52))%R).
Proof.
  split; [|split].
  - exists ulp_below, (b64_ofZ 1). split; [apply gives64_ok; vm_compute; reflexivity|]. split; [apply gives64_ok; vm_compute; reflexivity|].
    split; [exact ulp_below_num|exact one_num].
  - exists (b64_ofZ 1), two_below. split; [apply gives64_ok; vm_compute; reflexivity|]. split; [apply gives64_ok; vm_compute; reflexivity|].
    split; [exact one_num|exact two_below_num].
  - exists (b64_ofZ 1), two_below. split; [apply gives64_ok; vm_compute; reflexivity|]. split; [apply gives64_ok; vm_compute; reflexivity|].
    split; [exact one_num|exact two_below_num].
Qed.
Print Assumptions C124_continuous_refuted.

(** The hypotheses are met: a Gauss-Lobatto element of order 4 next to an equally spaced one of order 10, with a
    Gauss-Legendre direction along the face; data that differ away from the face. *)
Example C124_witness :
  Matching64 (GaussLobattoSpacing, 4) (EqualSpacing, 10) /\ Matching64 (GaussLobattoSpacing, 8) (GaussLobattoSpacing, 8) /\
  Supported64 (GaussLegendreSpacing, 3) /\
  exists v, parent_value B64Num 2 [basis64 (GaussLobattoSpacing, 4); basis64 (GaussLegendreSpacing, 3)]
      (fun t => Ok (if nth 0 t 0 =? 4 then b64_ofZ (nth 1 t 0 + 3) else b64_ofZ 100)) [b64_ofZ 1; b64_lit 5 1] = Ok v /\
    parent_value B64Num 2 [basis64 (EqualSpacing, 10); basis64 (GaussLegendreSpacing, 3)]
      (fun t => Ok (if nth 0 t 0 =? 0 then b64_ofZ (nth 1 t 0 + 3) else b64_ofZ (-7))) [b64_ofZ (-1); b64_lit 5 1] = Ok v.
Proof.
  split; [left; cbn; lia|]. split; [right; cbn; repeat split; lia|]. split; [cbn; lia|].
  assert (D : forall z, Z.abs z <= 100 -> Data64 (b64_ofZ z)).
  { intros z H. destruct (b64_ofZ_exact z ltac:(lia)) as [F E]. split; [exact F|]. rewrite E, <- abs_IZR.
    apply Rle_trans with (bpow radix2 7); [change (bpow radix2 7) with (IZR 128); apply IZR_le; lia|apply bpow_le; lia]. }
  eapply proj1. apply (C124_continuous [] [(GaussLegendreSpacing, 3)] (GaussLobattoSpacing, 4) (EqualSpacing, 10) [] [b64_lit 5 1]) with (c := host_runtime true)
    (u := fun t => if nth 0 t 0 =? 4 then b64_ofZ (nth 1 t 0 + 3) else b64_ofZ 100)
    (w := fun t => if nth 0 t 0 =? 0 then b64_ofZ (nth 1 t 0 + 3) else b64_ofZ (-7)).
  - constructor.
  - constructor; [cbn; lia|constructor].
  - left. cbn. lia.
  - cbn. lia.
  - constructor.
  - constructor; [apply half_reference|constructor].
  - reflexivity.
  - cbn. lia.
  - intros t Ht. split; [reflexivity|]. apply InRange_cons in Ht as (i & t1 & -> & Hi & Ht). apply InRange_cons in Ht as (j & t2 & -> & Hj & _).
    cbn in Hj. cbn [nth]. destruct (i =? 4); apply D; lia.
  - intros t Ht. split; [reflexivity|]. apply InRange_cons in Ht as (i & t1 & -> & Hi & Ht). apply InRange_cons in Ht as (j & t2 & -> & Hj & _).
    cbn in Hj. cbn [nth]. destruct (i =? 0); apply D; lia.
  - intros t1 t2 R1 R2. inversion R1; subst. reflexivity.
Qed.

(** Floats. *)
Theorem C124_continuous_float : forall A B p q y z,
  Forall Supported32 A -> Forall Supported32 B -> Matching32 p q -> (length (A ++ p :: B) <= 3)%nat ->
  Forall InReference32 y -> Forall InReference32 z -> length y = length A -> (length B <= length z)%nat ->
  forall c var1 var2 u w,
  (forall t, InRange (sizes64 (A ++ p :: B)) t -> var1 t = Ok (u t) /\ Data32 (u t)) ->
  (forall t, InRange (sizes64 (A ++ q :: B)) t -> var2 t = Ok (w t) /\ Data32 (w t)) ->
  (forall t1 t2, InRange (sizes64 A) t1 -> InRange (sizes64 B) t2 -> u (t1 ++ snd p :: t2) = w (t1 ++ 0 :: t2)) ->
  (exists v, parent_value F32Num (Z.of_nat (length (A ++ p :: B))) (map basis32 (A ++ p :: B)) var1 (y ++ b32_ofZ 1 :: z) = Ok v /\
     parent_value F32Num (Z.of_nat (length (A ++ q :: B))) (map basis32 (A ++ q :: B)) var2 (y ++ b32_ofZ (-1) :: z) = Ok v) /\
  (exists g1 g2, parent_gradient F32Num c (Z.of_nat (length (A ++ p :: B))) (map basis32 (A ++ p :: B)) var1 (y ++ b32_ofZ 1 :: z) = Ok g1 /\
     parent_gradient F32Num c (Z.of_nat (length (A ++ q :: B))) (map basis32 (A ++ q :: B)) var2 (y ++ b32_ofZ (-1) :: z) = Ok g2 /\
     length g1 = length (A ++ p :: B) /\ length g2 = length (A ++ p :: B) /\
     forall j, (j < length (A ++ p :: B))%nat -> j <> length A -> nth j g1 (b32_ofZ 1) = nth j g2 (b32_ofZ 1)).
Proof. exact face_field32. Qed.
Print Assumptions C124_continuous_float.
Theorem C124_cells_float : forall A B p q y z,
  Forall Supported32 A -> Forall Supported32 B -> Matching32 p q -> (length (A ++ p :: B) <= 3)%nat ->
  Forall InReference32 y -> Forall InReference32 z -> length y = length A -> (length B <= length z)%nat ->
  forall c mem1 mem2 X1 X2, length (y ++ b32_ofZ 1 :: z) = 3%nat ->
  Holds (owning (sizes64 (A ++ p :: B) ++ [Z.of_nat (length (A ++ p :: B))])) mem1 X1 ->
  Holds (owning (sizes64 (A ++ q :: B) ++ [Z.of_nat (length (A ++ q :: B))])) mem2 X2 ->
  (forall t i, InRange (sizes64 (A ++ p :: B)) t -> 0 <= i < Z.of_nat (length (A ++ p :: B)) -> Data32 (X1 (t ++ [i]))) ->
  (forall t i, InRange (sizes64 (A ++ q :: B)) t -> 0 <= i < Z.of_nat (length (A ++ q :: B)) -> Data32 (X2 (t ++ [i]))) ->
  (forall t1 t2 i, InRange (sizes64 A) t1 -> InRange (sizes64 B) t2 -> 0 <= i < Z.of_nat (length (A ++ p :: B)) ->
     X1 (t1 ++ snd p :: t2 ++ [i]) = X2 (t1 ++ 0 :: t2 ++ [i])) ->
  exists J1 J2 K1 K2,
    jacobian_wrapper F32Num c (Z.of_nat (length (A ++ p :: B))) (map basis32 (A ++ p :: B)) mem1 (y ++ b32_ofZ 1 :: z) = Ok J1 /\
    jacobian_wrapper F32Num c (Z.of_nat (length (A ++ q :: B))) (map basis32 (A ++ q :: B)) mem2 (y ++ b32_ofZ (-1) :: z) = Ok J2 /\
    Holds (owning [Z.of_nat (length (A ++ p :: B)); Z.of_nat (length (A ++ p :: B))]) J1 K1 /\
    Holds (owning [Z.of_nat (length (A ++ p :: B)); Z.of_nat (length (A ++ p :: B))]) J2 K2 /\
    forall i j, 0 <= i < Z.of_nat (length (A ++ p :: B)) -> (j < length (A ++ p :: B))%nat -> j <> length A ->
      K1 [i; Z.of_nat j] = K2 [i; Z.of_nat j].
Proof. exact face_cell32. Qed.
Print Assumptions C124_cells_float.
Example C124_witness_float : Matching32 (GaussLobattoSpacing, 3) (EqualSpacing, 2) /\ Supported32 (GaussLegendreSpacing, 1) /\
  InReference32 (narrow (b64_lit 5 1)) /\ Data32 (b32_ofZ 7).
Proof.
  split; [unfold Matching32, Supported32; cbn; repeat split; lia || congruence|]. split; [unfold Supported32; cbn; lia|].
  split; [apply half_reference32|]. destruct (b32_ofZ_exact 7 ltac:(lia)) as [F E]. split; [exact F|]. rewrite E, <- abs_IZR.
  apply Rle_trans with (bpow radix2 3); [change (bpow radix2 3) with (IZR 8); apply IZR_le; lia|apply bpow_le; lia].
Qed.
