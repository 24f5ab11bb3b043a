(** C135: how much gradients amplify errors of the data. *)
From Coq Require Import Reals QArith.
From Flocq Require Import Core IEEE754.BinarySingleNaN.
From Verif Require Import Base Num ModelB64 ModelF32 SpecIndex SpecNumeric SpecBasis SpecB64 SpecF32 SpecApprox SpecAccuracy SpecElement64 SpecElement32 SpecCArray
  SpecStability ModelAssert ModelCArray ModelSpacing ModelLagrange ModelBasisProduct ModelMath ModelTransforms ProofGradStability ProofGradStability64.
Open Scope Z_scope.

(** Two sets of data at most eps apart give j-th parent derivatives at most the j-th constant times eps apart. *)
Theorem C135_gradient_stability : forall c specs u w var1 var2 eps xi,
  Forall ValidOrder specs -> specs <> [] -> Z.of_nat (length specs) <= INT_MAX ->
  length xi = length specs -> InCube (-1) 1 xi ->
  (forall t, InRange (map (fun so => snd so + 1) specs) t -> var1 t = Ok (u t) /\ var2 t = Ok (w t) /\ (Rabs (u t - w t) <= eps)%R) ->
  exists p q, parent_gradient RNum c (Z.of_nat (length specs)) (map (fun so => LagrangeBasis RNum (snd so) (fst so)) specs) var1 xi = Ok p /\
    parent_gradient RNum c (Z.of_nat (length specs)) (map (fun so => LagrangeBasis RNum (snd so) (fst so)) specs) var2 xi = Ok q /\
    length p = length specs /\ length q = length specs /\
    forall j, (j < length specs)%nat -> (Rabs (nth j p 0 - nth j q 0) <= ElementGradientStability j specs * eps)%R.
Proof. exact gradient_stability_lemma. Qed.
Print Assumptions C135_gradient_stability.

(** If f is within eps of a polynomial of the element, and their j-th derivatives within |e| at a point, the j-th
    derivative of the interpolated f is, there, within |e| plus the constant times eps of that of f. *)
Theorem C135_gradient_near_best : forall specs, Forall ValidOrder specs -> specs <> [] -> Z.of_nat (length specs) <= INT_MAX ->
  exists ds, Forall2 GridR specs ds /\
  forall c f coef var xi eps, length xi = length specs -> InCube (-1) 1 xi ->
  (forall t, InRange (counts ds) t -> var t = Ok (f (gridpoint ds t))) ->
  (forall p, length p = length specs -> InCube (-1) 1 p -> (Rabs (f p - tpoly (counts ds) coef p) <= eps)%R) ->
  exists g, parent_gradient RNum c (Z.of_nat (length specs)) (map (fun so => LagrangeBasis RNum (snd so) (fst so)) specs) var xi = Ok g /\
    length g = length specs /\
    forall j D e, (j < length specs)%nat -> Partial f j xi D -> Partial (fun p => f p - tpoly (counts ds) coef p)%R j xi e ->
    (Rabs (D - nth j g 0) <= Rabs e + ElementGradientStability j specs * eps)%R.
Proof. exact gradient_near_best_lemma. Qed.
Print Assumptions C135_gradient_near_best.

(** Rounding errors of parent gradients and of Jacobians, for data and coordinates of size at most M. *)
Theorem C135_double_gradient_error : forall c specs, specs <> [] -> (length specs <= 3)%nat -> Forall Supported64 specs ->
  exists ds, Forall2 Grid64 specs ds /\
  forall xi var w M, Forall InReference xi -> (length specs <= length xi)%nat -> (0 <= M)%R ->
  (forall t, InRange (sizes64 specs) t -> var t = Ok (w t) /\ Data64 (w t) /\ (Rabs (B2R (w t)) <= M)%R) ->
  exists g, parent_gradient B64Num c (Z.of_nat (length specs)) (map basis64 specs) var xi = Ok g /\ length g = length specs /\
    forall j, (j < length specs)%nat -> exists D,
      Partial (fun p => BoxSum (counts ds) (fun t => tensor ds t p * B2R (w t)))%R j (map B2R xi) D /\
      is_finite (nth j g (b64_ofZ 0)) = true /\
      (Rabs (B2R (nth j g (b64_ofZ 0)) - D)
        <= IZR (roundings64 specs) * bpow radix2 (-53) * (ElementGradientStability j specs * M) + bpow radix2 (-400))%R.
Proof. exact double_gradient_lemma. Qed.
Print Assumptions C135_double_gradient_error.

Theorem C135_double_jacobian_error : forall c specs, specs <> [] -> (length specs <= 3)%nat -> Forall Supported64 specs ->
  exists ds, Forall2 Grid64 specs ds /\
  forall xi mem X M, Forall InReference xi -> length xi = 3%nat -> (0 <= M)%R ->
  Holds (owning (sizes64 specs ++ [Z.of_nat (length specs)])) mem X ->
  (forall t i, InRange (sizes64 specs) t -> 0 <= i < Z.of_nat (length specs) -> Data64 (X (t ++ [i])) /\ (Rabs (B2R (X (t ++ [i]))) <= M)%R) ->
  exists J Jm, jacobian_wrapper B64Num c (Z.of_nat (length specs)) (map basis64 specs) mem xi = Ok J /\
    Holds (owning [Z.of_nat (length specs); Z.of_nat (length specs)]) J Jm /\
    forall i j, 0 <= i < Z.of_nat (length specs) -> (j < length specs)%nat -> exists D,
      Partial (fun p => BoxSum (counts ds) (fun t => tensor ds t p * B2R (X (t ++ [i]))))%R j (map B2R xi) D /\
      is_finite (Jm [i; Z.of_nat j]) = true /\
      (Rabs (B2R (Jm [i; Z.of_nat j]) - D)
        <= IZR (roundings64 specs) * bpow radix2 (-53) * (ElementGradientStability j specs * M) + bpow radix2 (-400))%R.
Proof. exact double_jacobian_lemma. Qed.
Print Assumptions C135_double_jacobian_error.

Theorem C135_float_gradient_error : forall c specs, specs <> [] -> (length specs <= 3)%nat -> Forall Supported32 specs ->
  exists ds, Forall2 Grid32 specs ds /\
  forall xi var w M, Forall InReference32 xi -> (length specs <= length xi)%nat -> (0 <= M)%R ->
  (forall t, InRange (sizes64 specs) t -> var t = Ok (w t) /\ Data32 (w t) /\ (Rabs (B2R (w t)) <= M)%R) ->
  exists g, parent_gradient F32Num c (Z.of_nat (length specs)) (map basis32 specs) var xi = Ok g /\ length g = length specs /\
    forall j, (j < length specs)%nat -> exists D,
      Partial (fun p => BoxSum (counts ds) (fun t => tensor ds t p * B2R (w t)))%R j (map B2R xi) D /\
      is_finite (nth j g (b32_ofZ 0)) = true /\
      (Rabs (B2R (nth j g (b32_ofZ 0)) - D)
        <= IZR (roundings64 specs) * bpow radix2 (-24) * (ElementGradientStability j specs * M) + bpow radix2 (-64))%R.
Proof. exact float_gradient_lemma. Qed.
Print Assumptions C135_float_gradient_error.

Theorem C135_float_jacobian_error : forall c specs, specs <> [] -> (length specs <= 3)%nat -> Forall Supported32 specs ->
  exists ds, Forall2 Grid32 specs ds /\
  forall xi mem X M, Forall InReference32 xi -> length xi = 3%nat -> (0 <= M)%R ->
  Holds (owning (sizes64 specs ++ [Z.of_nat (length specs)])) mem X ->
  (forall t i, InRange (sizes64 specs) t -> 0 <= i < Z.of_nat (length specs) -> Data32 (X (t ++ [i])) /\ (Rabs (B2R (X (t ++ [i]))) <= M)%R) ->
  exists J Jm, jacobian_wrapper F32Num c (Z.of_nat (length specs)) (map basis32 specs) mem xi = Ok J /\
    Holds (owning [Z.of_nat (length specs); Z.of_nat (length specs)]) J Jm /\
    forall i j, 0 <= i < Z.of_nat (length specs) -> (j < length specs)%nat -> exists D,
      Partial (fun p => BoxSum (counts ds) (fun t => tensor ds t p * B2R (X (t ++ [i]))))%R j (map B2R xi) D /\
      is_finite (Jm [i; Z.of_nat j]) = true /\
      (Rabs (B2R (Jm [i; Z.of_nat j]) - D)
        <= IZR (roundings64 specs) * bpow radix2 (-24) * (ElementGradientStability j specs * M) + bpow radix2 (-64))%R.
Proof. exact float_jacobian_lemma. Qed.
Print Assumptions C135_float_jacobian_error.

(** The largest bundled hexahedron. *)
Example C135_witness : let specs := repeat (GaussLobattoSpacing, 8) 3 in
  Forall ValidOrder specs /\ Forall Supported64 specs /\ InCube (-1) 1 [/ 2; -1; / 3]%R /\
  (forall j, (j < 3)%nat -> ElementGradientStability j specs = 1152%R).
Proof.
  cbv zeta. split; [|split; [|split]].
  - repeat constructor; cbn; discriminate.
  - repeat constructor; cbn; discriminate.
  - repeat constructor; Lra.lra.
  - intros j Hj. do 3 (destruct j as [|j]; [cbn [ElementGradientStability repeat]; unfold ElementStability, GradientStability, Stability; cbn [map fold_right fst snd pow]; ring|]). Lia.lia.
Qed.
(** Data 1, -1, 1 on three points has derivative 4 at the last one; the constant is 8. *)
Example C135_witness_steep :
  match parent_gradient QNum (host_runtime true) 1 [LagrangeBasis QNum 2 GaussLobattoSpacing]
    (fun t => Ok (if Z.even (nth 0 t 0) then 1%Q else (-1)%Q)) [1%Q] with
  | Ok [v] => Qeq_bool v 4
  | _ => false
  end = true.
Proof. vm_compute. reflexivity. Qed.
