(** C98: determinant and inverse of the Jacobian of an interpolated cell computed in doubles. *)
From Coq Require Import Reals.
From Flocq Require Import Core IEEE754.BinarySingleNaN.
From Verif Require Import Base Num ModelB64 SpecIndex SpecB64 SpecNumeric SpecBasis SpecMath SpecAccuracy SpecElement64 SpecCArray ModelAssert
  ModelCArray ModelSpacing ModelLagrange ModelBasisProduct ModelMath ModelTransforms ProofElement64 ProofCell64.
Open Scope Z_scope.

(** C98.  [ds]: the exact one-dimensional bases of the points stored in doubles; [K]: the exact
    derivatives of the map to the cell with the vertices [X]; [S]: the sums of the absolute values
    of the terms of those derivatives. *)
Theorem C98_cell_accuracy : forall c specs, length specs = 3%nat -> Forall Supported64 specs ->
  exists ds, Forall2 Grid64 specs ds /\
  forall xi mem X, Forall InReference xi -> length xi = 3%nat ->
  Holds (owning (sizes64 specs ++ [3])) mem X ->
  (forall s i, InRange (sizes64 specs) s -> 0 <= i < 3 -> Data64 (X (s ++ [i]))) ->
  let S := cell_size ds (map B2R xi) (fun s => B2R (X s)) in
  (forall i j, 0 <= i < 3 -> 0 <= j < 3 -> (S i j <= bpow radix2 299)%R) ->
  exists K : matrix,
    (forall i j, 0 <= i < 3 -> (j < 3)%nat ->
      Partial (fun p => BoxSum (counts ds) (fun s => tensor ds s p * B2R (X (s ++ [i]))))%R j (map B2R xi) (K i (Z.of_nat j))) /\
    exists d invJ Y, inverseJacobian_wrapper B64Num c 3 (map basis64 specs) mem xi = Ok (d, invJ) /\
      Holds (owning [3; 3]) invJ Y /\ is_finite d = true /\ (Rabs (det 3 K) <= perm 3 S)%R /\
      (Rabs (B2R d - det 3 K) <= IZR (5 * roundings64 specs + 12) * bpow radix2 (-53) * perm 3 S + bpow radix2 (-767))%R /\
      ((bpow radix2 (-399) <= Rabs (det 3 K))%R ->
       (IZR (10 * roundings64 specs + 50) * bpow radix2 (-53) * perm 3 S <= Rabs (det 3 K))%R ->
       exists B, Inverse 3 K B /\
       forall i j, 0 <= i < 3 -> 0 <= j < 3 -> is_finite (Y [i; j]) = true /\
         (Rabs (B2R (Y [i; j]) - B i j) <=
           IZR (16 * roundings64 specs + 120) * bpow radix2 (-53) * (perm 3 S / Rabs (det 3 K)) * (perm 2 (minor S j i) / Rabs (det 3 K))
             + bpow radix2 (-670))%R).
Proof. exact cell64. Qed.
Print Assumptions C98_cell_accuracy.

(** Eight vertices with coordinates of size at most [L]: the determinant is off by at most
    1100 L^3 2^-53; if it is not below 2400 L^3 2^-53 every entry of the inverse is off by at
    most 8000 (L^5 / det^2) 2^-53. *)
Theorem C98_hexahedron : forall c specs, Hex64 specs ->
  forall xi mem X L, Forall InReference xi -> length xi = 3%nat ->
  Holds (owning [2; 2; 2; 3]) mem X ->
  (bpow radix2 (-110) <= L <= bpow radix2 290)%R ->
  (forall t, InRange [2; 2; 2; 3] t -> is_finite (X t) = true /\ (Rabs (B2R (X t)) <= L)%R) ->
  exists K : matrix,
    (forall i j, 0 <= i < 3 -> (j < 3)%nat ->
      Partial (fun p => BoxSum [2; 2; 2]%Z (fun s => trilinear s p * B2R (X (s ++ [i]))))%R j (map B2R xi) (K i (Z.of_nat j))) /\
    exists d invJ Y, inverseJacobian_wrapper B64Num c 3 (map basis64 specs) mem xi = Ok (d, invJ) /\
      Holds (owning [3; 3]) invJ Y /\ is_finite d = true /\
      (Rabs (B2R d - det 3 K) <= 1100 * bpow radix2 (-53) * L ^ 3)%R /\
      ((2400 * bpow radix2 (-53) * L ^ 3 <= Rabs (det 3 K))%R ->
       exists B, Inverse 3 K B /\
       forall i j, 0 <= i < 3 -> 0 <= j < 3 -> is_finite (Y [i; j]) = true /\
         (Rabs (B2R (Y [i; j]) - B i j) <= 8000 * bpow radix2 (-53) * (L ^ 5 / (det 3 K) ^ 2))%R).
Proof. exact hex64. Qed.
Print Assumptions C98_hexahedron.

(** The cube [0,2]^3: the hypotheses hold with L = 2, and the exact determinant, 1, is large
    enough for the second part. *)
Example C98_witness : (exists X, Holds (owning [2; 2; 2; 3]) cube64 X /\
    forall t, InRange [2; 2; 2; 3] t -> is_finite (X t) = true /\ (Rabs (B2R (X t)) <= 2)%R) /\
  ((bpow radix2 (-110) <= 2 <= bpow radix2 290)%R /\ (2400 * bpow radix2 (-53) * 2 ^ 3 <= 1)%R).
Proof. exact (conj cube64_ok cube64_bound). Qed.
Example C98_witness_specs : Hex64 [(EqualSpacing, 1); (GaussLobattoSpacing, 1); (EqualSpacing, 1)].
Proof. split; [reflexivity|]. repeat (constructor; [cbn; auto|]). constructor. Qed.
Example C98_witness_result :
  match inverseJacobian_wrapper B64Num (host_runtime true) 3 (map basis64 [(EqualSpacing, 1); (GaussLobattoSpacing, 1); (EqualSpacing, 1)])
          cube64 [b64_lit 5 1; b64_ofZ 0; b64_ofZ (-1)] with
  | Ok (d, invJ) => (B2SF d, map B2SF invJ) =
      (B2SF (b64_ofZ 1), map (fun z => B2SF (b64_ofZ z)) [1; 0; 0; 0; 1; 0; 0; 0; 1])
  | _ => False
  end.
Proof. vm_compute. reflexivity. Qed.
