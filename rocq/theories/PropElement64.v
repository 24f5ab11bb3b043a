(** C84-C87: gradients, parent elements and cell Jacobians computed in doubles. *)
From Coq Require Import Reals.
From Flocq Require Import Core IEEE754.BinarySingleNaN.
From Verif Require Import Base Num ModelB64 SpecIndex SpecB64 SpecNumeric SpecBasis SpecAccuracy SpecElement64 SpecCArray ModelAssert
  ModelCArray ModelSpacing ModelLagrange ModelBasisProduct ModelMath ModelTransforms ProofNodes64 ProofGrad64 ProofElement64.
Open Scope Z_scope.

(** C84.  On [-1,1] the derivative of a basis function computed in doubles is a number within
    (6 ORDER + 2) 2^-53 times the sum of the absolute values of its summands (and an absolute
    error for underflow) of the derivative of the exact basis function of the same points. *)
Theorem C84_gradient_accuracy : forall ORDER q coordinate x i y,
  0 <= ORDER < INT_MAX -> 0 <= q <= 1000 -> (ORDER + 2) * (q + 5) < 1024 ->
  Points64 coordinate (ORDER + 1) x -> Separated q (ORDER + 1) x ->
  0 <= i < ORDER + 1 -> InReference y ->
  exists g dphi, bgradient (lagrange_of B64Num ORDER coordinate) i y = Ok g /\
    bgradient (lagrange_of RNum ORDER (fun k => Ok (B2R (x k)))) i (B2R y) = Ok dphi /\
    is_finite g = true /\
    (Rabs (B2R g - dphi) <= IZR (6 * ORDER + 2) * bpow radix2 (-53) * gradient_size (ORDER + 1) (fun k => B2R (x k)) i (B2R y)
      + bpow radix2 (-1074 + (ORDER + 1) * (q + 5)))%R.
Proof. exact gradient64_lemma. Qed.
Print Assumptions C84_gradient_accuracy.

Theorem C84_bundled_gradient_accuracy : forall s ORDER i y,
  match s with
  | EqualSpacing => 1 <= ORDER <= 126
  | GaussLegendreSpacing => 1 <= ORDER <= 3
  | GaussLobattoSpacing => 1 <= ORDER <= 8
  end -> ORDER <= 15 ->
  0 <= i < ORDER + 1 -> InReference y ->
  exists x g dphi, Points64 (coord_ct B64Num s (ORDER + 1)) (ORDER + 1) x /\
    bgradient (LagrangeBasis B64Num ORDER s) i y = Ok g /\
    bgradient (lagrange_of RNum ORDER (fun k => Ok (B2R (x k)))) i (B2R y) = Ok dphi /\
    is_finite g = true /\
    (Rabs (B2R g - dphi) <= IZR (6 * ORDER + 2) * bpow radix2 (-53) * gradient_size (ORDER + 1) (fun k => B2R (x k)) i (B2R y)
      + bpow radix2 (-930))%R.
Proof. exact bundled_gradient64_lemma. Qed.
Print Assumptions C84_bundled_gradient_accuracy.

(** 1/2 is a point at which the theorem applies. *)
Example C84_witness : InReference (b64_lit 5 1) /\ B2R (b64_lit 5 1) = (/ 2)%R.
Proof. exact half_reference. Qed.

(** C85.  [ds]: the exact one-dimensional bases of the points stored in doubles.  The field
    interpolated at a point of [-1,1]^d. *)
Theorem C85_value_accuracy : forall specs, specs <> [] -> (length specs <= 3)%nat -> Forall Supported64 specs ->
  exists ds, Forall2 Grid64 specs ds /\
  forall xi var w, Forall InReference xi -> (length specs <= length xi)%nat ->
  (forall t, InRange (sizes64 specs) t -> var t = Ok (w t) /\ Data64 (w t)) ->
  exists v, parent_value B64Num (Z.of_nat (length specs)) (map basis64 specs) var xi = Ok v /\ is_finite v = true /\
    (Rabs (B2R v - BoxSum (counts ds) (fun t => tensor ds t (map B2R xi) * B2R (w t)))
      <= IZR (roundings64 specs) * bpow radix2 (-53) * BoxSum (counts ds) (fun t => Rabs (tensor ds t (map B2R xi)) * Rabs (B2R (w t)))
         + bpow radix2 (-400))%R.
Proof. exact element_value64. Qed.
Print Assumptions C85_value_accuracy.

(** A constant field. *)
Theorem C85_constant_accuracy : forall specs, specs <> [] -> (length specs <= 3)%nat -> Forall Supported64 specs ->
  exists ds, Forall2 Grid64 specs ds /\
  forall xi var k, Forall InReference xi -> (length specs <= length xi)%nat -> Data64 k ->
  (forall t, InRange (sizes64 specs) t -> var t = Ok k) ->
  exists v, parent_value B64Num (Z.of_nat (length specs)) (map basis64 specs) var xi = Ok v /\ is_finite v = true /\
    (Rabs (B2R v - B2R k)
      <= IZR (roundings64 specs) * bpow radix2 (-53) * BoxSum (counts ds) (fun t => Rabs (tensor ds t (map B2R xi))) * Rabs (B2R k)
         + bpow radix2 (-400))%R.
Proof. exact element_constant64. Qed.
Print Assumptions C85_constant_accuracy.

(** Order 1 by order 3 at (1/2, 0): the hypotheses hold; the field with the value of the first
    index at each support point; 8 and 20 roundings for the two bases, 8 for the sum, 2 for the products. *)
Example C85_witness : demo <> [] /\ (length demo <= 3)%nat /\ Forall Supported64 demo /\
  Forall InReference [b64_lit 5 1; b64_ofZ 0] /\ Data64 (b64_ofZ 7).
Proof. exact demo_ok. Qed.
Example C85_witness_value :
  exists v, parent_value B64Num 2 (map basis64 demo) (fun t => Ok (b64_ofZ (nth 0 t 0))) [b64_lit 5 1; b64_ofZ 0] = Ok v /\
  IsNum v (3 / 4).
Proof. exact demo_value. Qed.
Example C85_witness_roundings : roundings64 demo = 38.
Proof. reflexivity. Qed.

(** C86.  The gradient of the interpolated field. *)
Theorem C86_gradient_accuracy : forall c specs, specs <> [] -> (length specs <= 3)%nat -> Forall Supported64 specs ->
  exists ds, Forall2 Grid64 specs ds /\
  forall xi var w, Forall InReference xi -> (length specs <= length xi)%nat ->
  (forall t, InRange (sizes64 specs) t -> var t = Ok (w t) /\ Data64 (w t)) ->
  exists g, parent_gradient B64Num c (Z.of_nat (length specs)) (map basis64 specs) var xi = Ok g /\ length g = length specs /\
    forall j, (j < length specs)%nat -> exists D,
      Partial (fun p => BoxSum (counts ds) (fun t => tensor ds t p * B2R (w t)))%R j (map B2R xi) D /\
      is_finite (nth j g (b64_ofZ 0)) = true /\
      (Rabs (B2R (nth j g (b64_ofZ 0)) - D)
      <= IZR (roundings64 specs) * bpow radix2 (-53) * BoxSum (counts ds) (fun t => dtensor_size j ds t (map B2R xi) * Rabs (B2R (w t)))
         + bpow radix2 (-400))%R.
Proof. exact element_gradient64. Qed.
Print Assumptions C86_gradient_accuracy.

Example C86_witness :
  match parent_gradient B64Num (host_runtime true) 2 (map basis64 demo) (fun t => Ok (b64_ofZ (nth 0 t 0))) [b64_lit 5 1; b64_ofZ 0] with
  | Ok [g0; g1] => (B2SF g0, B2SF g1) = (B2SF (b64_lit 5 1), B2SF (b64_ofZ 0))
  | _ => False
  end.
Proof. vm_compute. reflexivity. Qed.

(** C87.  The Jacobian of a cell with the vertices [X]. *)
Theorem C87_jacobian_accuracy : forall c specs, specs <> [] -> (length specs <= 3)%nat -> Forall Supported64 specs ->
  exists ds, Forall2 Grid64 specs ds /\
  forall xi mem X, Forall InReference xi -> length xi = 3%nat ->
  Holds (owning (sizes64 specs ++ [Z.of_nat (length specs)])) mem X ->
  (forall t i, InRange (sizes64 specs) t -> 0 <= i < Z.of_nat (length specs) -> Data64 (X (t ++ [i]))) ->
  exists J Jm, jacobian_wrapper B64Num c (Z.of_nat (length specs)) (map basis64 specs) mem xi = Ok J /\
    Holds (owning [Z.of_nat (length specs); Z.of_nat (length specs)]) J Jm /\
    forall i j, 0 <= i < Z.of_nat (length specs) -> (j < length specs)%nat -> exists D,
      Partial (fun p => BoxSum (counts ds) (fun t => tensor ds t p * B2R (X (t ++ [i]))))%R j (map B2R xi) D /\
      is_finite (Jm [i; Z.of_nat j]) = true /\
      (Rabs (B2R (Jm [i; Z.of_nat j]) - D)
      <= IZR (roundings64 specs) * bpow radix2 (-53) * BoxSum (counts ds) (fun t => dtensor_size j ds t (map B2R xi) * Rabs (B2R (X (t ++ [i]))))
         + bpow radix2 (-400))%R.
Proof. exact jacobian64. Qed.
Print Assumptions C87_jacobian_accuracy.

(** The linear segment from 3 to 8: its Jacobian is 5/2. *)
Example C87_witness :
  match jacobian_wrapper B64Num (host_runtime true) 1 (map basis64 [(EqualSpacing, 1)]) [b64_ofZ 3; b64_ofZ 8]
          [b64_ofZ 1; b64_ofZ 0; b64_ofZ 0] with
  | Ok [j] => B2SF j = B2SF (b64_lit 25 1)
  | _ => False
  end.
Proof. vm_compute. reflexivity. Qed.
