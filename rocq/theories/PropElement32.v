(** C123: gradients, parent elements and cells computed in floats (single precision). *)
From Coq Require Import Reals.
From Flocq Require Import Core IEEE754.BinarySingleNaN.
From Verif Require Import Base Num ModelB64 ModelF32 SpecIndex SpecF32 SpecNumeric SpecBasis SpecMath SpecAccuracy SpecElement64 SpecElement32 SpecCArray
  ModelAssert ModelCArray ModelSpacing ModelLagrange ModelBasisProduct ModelMath ModelTransforms ProofQuad32 ProofGrad32 ProofElement32 ProofCell32.
Open Scope Z_scope.

(** C123.  On [-1,1] the derivative of a basis function computed in floats is a number within
    (6 ORDER + 2) 2^-24 times the sum of the absolute values of its summands (and an absolute
    error for underflow) of the derivative of the exact basis function of the same points. *)
Theorem C123_gradient_accuracy : forall ORDER q coordinate x i y,
  0 <= ORDER < INT_MAX -> 0 <= q <= 120 -> (ORDER + 2) * (q + 5) < 128 ->
  Points32 coordinate (ORDER + 1) x -> Separated32 q (ORDER + 1) x ->
  0 <= i < ORDER + 1 -> InReference32 y ->
  exists g dphi, bgradient (lagrange_of F32Num ORDER coordinate) i y = Ok g /\
    bgradient (lagrange_of RNum ORDER (fun k => Ok (B2R (x k)))) i (B2R y) = Ok dphi /\
    is_finite g = true /\
    (Rabs (B2R g - dphi) <= IZR (6 * ORDER + 2) * bpow radix2 (-24) * gradient_size (ORDER + 1) (fun k => B2R (x k)) i (B2R y)
      + bpow radix2 (-149 + (ORDER + 1) * (q + 5)))%R.
Proof. exact gradient32_lemma. Qed.
Print Assumptions C123_gradient_accuracy.

Theorem C123_bundled_gradient_accuracy : forall s ORDER i y,
  match s with
  | EqualSpacing => 1 <= ORDER <= 24
  | GaussLegendreSpacing => 1 <= ORDER <= 3
  | GaussLobattoSpacing => 1 <= ORDER <= 8
  end -> ORDER <= 8 ->
  0 <= i < ORDER + 1 -> InReference32 y ->
  exists x g dphi, Points32 (coord_ct32 s (ORDER + 1)) (ORDER + 1) x /\
    bgradient (LagrangeBasis32 ORDER s) i y = Ok g /\
    bgradient (lagrange_of RNum ORDER (fun k => Ok (B2R (x k)))) i (B2R y) = Ok dphi /\
    is_finite g = true /\
    (Rabs (B2R g - dphi) <= IZR (6 * ORDER + 2) * bpow radix2 (-24) * gradient_size (ORDER + 1) (fun k => B2R (x k)) i (B2R y)
      + bpow radix2 (-68))%R.
Proof. exact bundled_gradient32_lemma. Qed.
Print Assumptions C123_bundled_gradient_accuracy.

(** 1/2 is a point at which the theorem applies. *)
Example C123_witness : InReference32 (narrow (b64_lit 5 1)) /\ B2R (narrow (b64_lit 5 1)) = (/ 2)%R.
Proof. exact half_reference32. Qed.

(** C123.  [ds]: the exact one-dimensional bases of the points stored in floats.  The field
    interpolated at a point of [-1,1]^d. *)
Theorem C123_value_accuracy : forall specs, specs <> [] -> (length specs <= 3)%nat -> Forall Supported32 specs ->
  exists ds, Forall2 Grid32 specs ds /\
  forall xi var w, Forall InReference32 xi -> (length specs <= length xi)%nat ->
  (forall t, InRange (sizes64 specs) t -> var t = Ok (w t) /\ Data32 (w t)) ->
  exists v, parent_value F32Num (Z.of_nat (length specs)) (map basis32 specs) var xi = Ok v /\ is_finite v = true /\
    (Rabs (B2R v - BoxSum (counts ds) (fun t => tensor ds t (map B2R xi) * B2R (w t)))
      <= IZR (roundings64 specs) * bpow radix2 (-24) * BoxSum (counts ds) (fun t => Rabs (tensor ds t (map B2R xi)) * Rabs (B2R (w t)))
         + bpow radix2 (-64))%R.
Proof. exact element_value32. Qed.
Print Assumptions C123_value_accuracy.

(** A constant field. *)
Theorem C123_constant_accuracy : forall specs, specs <> [] -> (length specs <= 3)%nat -> Forall Supported32 specs ->
  exists ds, Forall2 Grid32 specs ds /\
  forall xi var k, Forall InReference32 xi -> (length specs <= length xi)%nat -> Data32 k ->
  (forall t, InRange (sizes64 specs) t -> var t = Ok k) ->
  exists v, parent_value F32Num (Z.of_nat (length specs)) (map basis32 specs) var xi = Ok v /\ is_finite v = true /\
    (Rabs (B2R v - B2R k)
      <= IZR (roundings64 specs) * bpow radix2 (-24) * BoxSum (counts ds) (fun t => Rabs (tensor ds t (map B2R xi))) * Rabs (B2R k)
         + bpow radix2 (-64))%R.
Proof. exact element_constant32. Qed.
Print Assumptions C123_constant_accuracy.

(** Order 1 by order 3 at (1/2, 0): the hypotheses hold; the field with the value of the first
    index at each support point; 8 and 20 roundings for the two bases, 8 for the sum, 2 for the products. *)
Example C123_witness_field : demo <> [] /\ (length demo <= 3)%nat /\ Forall Supported32 demo /\
  Forall InReference32 [narrow (b64_lit 5 1); b32_ofZ 0] /\ Data32 (b32_ofZ 7).
Proof. exact demo_ok. Qed.
Example C123_witness_field_value :
  exists v, parent_value F32Num 2 (map basis32 demo) (fun t => Ok (b32_ofZ (nth 0 t 0))) [narrow (b64_lit 5 1); b32_ofZ 0] = Ok v /\
  IsFloat v (3 / 4).
Proof. exact demo_value. Qed.
Example C123_witness_field_roundings : roundings64 demo = 38.
Proof. reflexivity. Qed.

(** C123.  The gradient of the interpolated field. *)
Theorem C123_field_gradient_accuracy : forall c specs, specs <> [] -> (length specs <= 3)%nat -> Forall Supported32 specs ->
  exists ds, Forall2 Grid32 specs ds /\
  forall xi var w, Forall InReference32 xi -> (length specs <= length xi)%nat ->
  (forall t, InRange (sizes64 specs) t -> var t = Ok (w t) /\ Data32 (w t)) ->
  exists g, parent_gradient F32Num c (Z.of_nat (length specs)) (map basis32 specs) var xi = Ok g /\ length g = length specs /\
    forall j, (j < length specs)%nat -> exists D,
      Partial (fun p => BoxSum (counts ds) (fun t => tensor ds t p * B2R (w t)))%R j (map B2R xi) D /\
      is_finite (nth j g (b32_ofZ 0)) = true /\
      (Rabs (B2R (nth j g (b32_ofZ 0)) - D)
      <= IZR (roundings64 specs) * bpow radix2 (-24) * BoxSum (counts ds) (fun t => dtensor_size j ds t (map B2R xi) * Rabs (B2R (w t)))
         + bpow radix2 (-64))%R.
Proof. exact element_gradient32. Qed.
Print Assumptions C123_field_gradient_accuracy.

(** The derivative in the second direction is not exactly 0, but 2^-26: a rounding error. *)
Example C123_witness_field_gradient :
  match parent_gradient F32Num (host_runtime true) 2 (map basis32 demo) (fun t => Ok (b32_ofZ (nth 0 t 0))) [narrow (b64_lit 5 1); b32_ofZ 0] with
  | Ok [g0; g1] => (B2SF g0, B2SF g1) = (B2SF (narrow (b64_lit 5 1)), SpecFloat.S754_finite false (2 ^ 23) (-49))
  | _ => False
  end.
Proof. vm_compute. reflexivity. Qed.

(** C123.  The Jacobian of a cell with the vertices [X]. *)
Theorem C123_jacobian_accuracy : forall c specs, specs <> [] -> (length specs <= 3)%nat -> Forall Supported32 specs ->
  exists ds, Forall2 Grid32 specs ds /\
  forall xi mem X, Forall InReference32 xi -> length xi = 3%nat ->
  Holds (owning (sizes64 specs ++ [Z.of_nat (length specs)])) mem X ->
  (forall t i, InRange (sizes64 specs) t -> 0 <= i < Z.of_nat (length specs) -> Data32 (X (t ++ [i]))) ->
  exists J Jm, jacobian_wrapper F32Num c (Z.of_nat (length specs)) (map basis32 specs) mem xi = Ok J /\
    Holds (owning [Z.of_nat (length specs); Z.of_nat (length specs)]) J Jm /\
    forall i j, 0 <= i < Z.of_nat (length specs) -> (j < length specs)%nat -> exists D,
      Partial (fun p => BoxSum (counts ds) (fun t => tensor ds t p * B2R (X (t ++ [i]))))%R j (map B2R xi) D /\
      is_finite (Jm [i; Z.of_nat j]) = true /\
      (Rabs (B2R (Jm [i; Z.of_nat j]) - D)
      <= IZR (roundings64 specs) * bpow radix2 (-24) * BoxSum (counts ds) (fun t => dtensor_size j ds t (map B2R xi) * Rabs (B2R (X (t ++ [i]))))
         + bpow radix2 (-64))%R.
Proof. exact jacobian32. Qed.
Print Assumptions C123_jacobian_accuracy.

(** The linear segment from 3 to 8: its Jacobian is 5/2. *)
Example C123_witness_jacobian :
  match jacobian_wrapper F32Num (host_runtime true) 1 (map basis32 [(EqualSpacing, 1)]) [b32_ofZ 3; b32_ofZ 8]
          [b32_ofZ 1; b32_ofZ 0; b32_ofZ 0] with
  | Ok [j] => B2SF j = B2SF (narrow (b64_lit 25 1))
  | _ => False
  end.
Proof. vm_compute. reflexivity. Qed.

(** C123.  [ds]: the exact one-dimensional bases of the points stored in floats; [K]: the exact
    derivatives of the map to the cell with the vertices [X]; [S]: the sums of the absolute values
    of the terms of those derivatives. *)
Theorem C123_cell_accuracy : forall c specs, length specs = 3%nat -> Forall Supported32 specs ->
  exists ds, Forall2 Grid32 specs ds /\
  forall xi mem X, Forall InReference32 xi -> length xi = 3%nat ->
  Holds (owning (sizes64 specs ++ [3])) mem X ->
  (forall s i, InRange (sizes64 specs) s -> 0 <= i < 3 -> Data32 (X (s ++ [i]))) ->
  let S := cell_size32 ds (map B2R xi) (fun s => B2R (X s)) in
  (forall i j, 0 <= i < 3 -> 0 <= j < 3 -> (S i j <= bpow radix2 29)%R) ->
  exists K : matrix,
    (forall i j, 0 <= i < 3 -> (j < 3)%nat ->
      Partial (fun p => BoxSum (counts ds) (fun s => tensor ds s p * B2R (X (s ++ [i]))))%R j (map B2R xi) (K i (Z.of_nat j))) /\
    exists d invJ Y, inverseJacobian_wrapper F32Num c 3 (map basis32 specs) mem xi = Ok (d, invJ) /\
      Holds (owning [3; 3]) invJ Y /\ is_finite d = true /\ (Rabs (det 3 K) <= perm 3 S)%R /\
      (Rabs (B2R d - det 3 K) <= IZR (5 * roundings64 specs + 12) * bpow radix2 (-24) * perm 3 S + bpow radix2 (-112))%R /\
      ((bpow radix2 (-39) <= Rabs (det 3 K))%R ->
       (IZR (10 * roundings64 specs + 50) * bpow radix2 (-24) * perm 3 S <= Rabs (det 3 K))%R ->
       exists B, Inverse 3 K B /\
       forall i j, 0 <= i < 3 -> 0 <= j < 3 -> is_finite (Y [i; j]) = true /\
         (Rabs (B2R (Y [i; j]) - B i j) <=
           IZR (16 * roundings64 specs + 120) * bpow radix2 (-24) * (perm 3 S / Rabs (det 3 K)) * (perm 2 (minor S j i) / Rabs (det 3 K))
             + bpow radix2 (-105))%R).
Proof. exact cell32. Qed.
Print Assumptions C123_cell_accuracy.

(** Eight vertices with coordinates of size at most [L]: the determinant is off by at most
    1100 L^3 2^-24; if it is not below 2400 L^3 2^-24 every entry of the inverse is off by at
    most 8000 (L^5 / det^2) 2^-24. *)
Theorem C123_hexahedron : forall c specs, Hex64 specs ->
  forall xi mem X L, Forall InReference32 xi -> length xi = 3%nat ->
  Holds (owning [2; 2; 2; 3]) mem X ->
  (bpow radix2 (-8) <= L <= bpow radix2 20)%R ->
  (forall t, InRange [2; 2; 2; 3] t -> is_finite (X t) = true /\ (Rabs (B2R (X t)) <= L)%R) ->
  exists K : matrix,
    (forall i j, 0 <= i < 3 -> (j < 3)%nat ->
      Partial (fun p => BoxSum [2; 2; 2]%Z (fun s => trilinear s p * B2R (X (s ++ [i]))))%R j (map B2R xi) (K i (Z.of_nat j))) /\
    exists d invJ Y, inverseJacobian_wrapper F32Num c 3 (map basis32 specs) mem xi = Ok (d, invJ) /\
      Holds (owning [3; 3]) invJ Y /\ is_finite d = true /\
      (Rabs (B2R d - det 3 K) <= 1100 * bpow radix2 (-24) * L ^ 3)%R /\
      ((2400 * bpow radix2 (-24) * L ^ 3 <= Rabs (det 3 K))%R ->
       exists B, Inverse 3 K B /\
       forall i j, 0 <= i < 3 -> 0 <= j < 3 -> is_finite (Y [i; j]) = true /\
         (Rabs (B2R (Y [i; j]) - B i j) <= 8000 * bpow radix2 (-24) * (L ^ 5 / (det 3 K) ^ 2))%R).
Proof. exact hex32. Qed.
Print Assumptions C123_hexahedron.

(** The cube [0,2]^3: the hypotheses hold with L = 2, and the exact determinant, 1, is large
    enough for the second part. *)
Example C123_witness_cell : (exists X, Holds (owning [2; 2; 2; 3]) cube32 X /\
    forall t, InRange [2; 2; 2; 3] t -> is_finite (X t) = true /\ (Rabs (B2R (X t)) <= 2)%R) /\
  ((bpow radix2 (-8) <= 2 <= bpow radix2 20)%R /\ (2400 * bpow radix2 (-24) * 2 ^ 3 <= 1)%R).
Proof. exact (conj cube32_ok cube32_bound). Qed.
Example C123_witness_cell_specs : Hex64 [(EqualSpacing, 1); (GaussLobattoSpacing, 1); (EqualSpacing, 1)].
Proof. split; [reflexivity|]. repeat (constructor; [cbn; auto|]). constructor. Qed.
Example C123_witness_cell_result :
  match inverseJacobian_wrapper F32Num (host_runtime true) 3 (map basis32 [(EqualSpacing, 1); (GaussLobattoSpacing, 1); (EqualSpacing, 1)])
          cube32 [narrow (b64_lit 5 1); b32_ofZ 0; b32_ofZ (-1)] with
  | Ok (d, invJ) => (B2SF d, map B2SF invJ) =
      (B2SF (b32_ofZ 1), map (fun z => B2SF (b32_ofZ z)) [1; 0; 0; 0; 1; 0; 0; 0; 1])
  | _ => False
  end.
Proof. vm_compute. reflexivity. Qed.
