(** C140: total errors on box cells in doubles and in floats. *)
From Coq Require Import ZArith Reals List.
From Flocq Require Import Core IEEE754.BinarySingleNaN.
From Verif Require Import Base Num SpecIndex SpecNumeric SpecBasis ModelB64 ModelF32 ModelAssert ModelSpacing ModelLagrange ModelBasisProduct
  SpecB64 SpecF32 SpecAccuracy SpecElement64 SpecElement32 SpecApprox SpecStability SpecGradError SpecConvergence
  ModelMath ModelTransforms ModelTransforms32 ProofTotalError.
Import ListNotations.
Open Scope R_scope.

(** Doubles.  The data [w] are within [eta] of the values of [f] at the support points, as placed in the box. *)
Theorem C140_double_value : forall specs, specs <> [] -> (length specs <= 3)%nat -> Forall Supported64 specs ->
  exists ds, Forall2 Grid64 specs ds /\
  forall (D : nat -> nat -> list R -> R) f M c h eta Mx xi var w,
  Forall InReference xi -> length xi = length specs -> length M = length specs -> length c = length specs -> length h = length specs ->
  Forall (fun l => 0 < l) h -> 0 <= eta -> 0 <= Mx ->
  (forall t, InRange (sizes64 specs) t -> var t = Ok (w t) /\ Data64 (w t) /\ Rabs (B2R (w t)) <= Mx /\ Rabs (B2R (w t) - f (place c h (gridpoint ds t))) <= eta) ->
  (forall k p, (k < length specs)%nat -> InBox c h p -> D k 0%nat p = f p) ->
  (forall k i d p, nth_error ds k = Some d -> (i < Z.to_nat (npts d))%nat -> InBox c h p -> Partial (D k i) k p (D k (S i) p)) ->
  (forall k d p, nth_error ds k = Some d -> InBox c h p -> Rabs (D k (Z.to_nat (npts d)) p) <= nth k M 0) ->
  exists v, parent_value B64Num (Z.of_nat (length specs)) (map basis64 specs) var xi = Ok v /\ is_finite v = true /\
    Rabs (B2R v - f (place c h (map B2R xi)))
      <= value_convergence specs M h + ElementStability specs * eta
         + IZR (roundings64 specs) * bpow radix2 (-53) * (ElementStability specs * Mx) + bpow radix2 (-400).
Proof. exact value_total64. Qed.
Print Assumptions C140_double_value.

(** Derivatives: the parent gradient over half the side length.  [g] is the derivative of [f] in direction [j]. *)
Theorem C140_double_gradient : forall ctx specs, specs <> [] -> (length specs <= 3)%nat -> Forall Supported64 specs ->
  exists ds, Forall2 Grid64 specs ds /\
  forall (E : nat -> nat -> list R -> R) f g j M c h eta Mx xi var w,
  (j < length specs)%nat -> Forall InReference xi -> length xi = length specs -> length M = length specs -> length c = length specs -> length h = length specs ->
  Forall (fun l => 0 < l) h -> 0 <= eta -> 0 <= Mx ->
  (forall t, InRange (sizes64 specs) t -> var t = Ok (w t) /\ Data64 (w t) /\ Rabs (B2R (w t)) <= Mx /\ Rabs (B2R (w t) - f (place c h (gridpoint ds t))) <= eta) ->
  (forall p, InBox c h p -> Partial f j p (g p)) ->
  (forall k p, (k < length specs)%nat -> InBox c h p -> E k 0%nat p = g p) ->
  (forall k i d p, nth_error ds k = Some d -> (i < times j k d)%nat -> InBox c h p -> Partial (E k i) k p (E k (S i) p)) ->
  (forall k d p, nth_error ds k = Some d -> InBox c h p -> Rabs (E k (times j k d) p) <= nth k M 0) ->
  exists v, parent_gradient B64Num ctx (Z.of_nat (length specs)) (map basis64 specs) var xi = Ok v /\ length v = length specs /\
    is_finite (nth j v (b64_ofZ 0)) = true /\
    Rabs (/ (nth j h 0 / 2) * B2R (nth j v (b64_ofZ 0)) - g (place c h (map B2R xi)))
      <= gradient_convergence j specs M h
         + / (nth j h 0 / 2) * (ElementGradientStability j specs * eta
             + IZR (roundings64 specs) * bpow radix2 (-53) * (ElementGradientStability j specs * Mx) + bpow radix2 (-400)).
Proof. exact gradient_total64. Qed.
Print Assumptions C140_double_gradient.

(** In three dimensions, times the inverse the Scaling transform computes in doubles; [G] bounds the derivative. *)
Theorem C140_double_cell_gradient : forall ctx specs, length specs = 3%nat -> Forall Supported64 specs ->
  exists ds, Forall2 Grid64 specs ds /\
  forall (E : nat -> nat -> list R -> R) f g j M c (h0 h1 h2 : b64) eta Mx G xi var w,
  (j < 3)%nat -> Forall InReference xi -> length xi = 3%nat -> length M = 3%nat -> length c = 3%nat ->
  (forall h, In h [h0; h1; h2] -> is_finite h = true /\ bpow radix2 (- 300) <= B2R h <= bpow radix2 300) -> 0 <= eta -> 0 <= Mx ->
  (forall t, InRange (sizes64 specs) t -> var t = Ok (w t) /\ Data64 (w t) /\ Rabs (B2R (w t)) <= Mx /\
     Rabs (B2R (w t) - f (place c [B2R h0; B2R h1; B2R h2] (gridpoint ds t))) <= eta) ->
  (forall p, InBox c [B2R h0; B2R h1; B2R h2] p -> Partial f j p (g p) /\ Rabs (g p) <= G) ->
  (forall k p, (k < 3)%nat -> InBox c [B2R h0; B2R h1; B2R h2] p -> E k 0%nat p = g p) ->
  (forall k i d p, nth_error ds k = Some d -> (i < times j k d)%nat -> InBox c [B2R h0; B2R h1; B2R h2] p -> Partial (E k i) k p (E k (S i) p)) ->
  (forall k d p, nth_error ds k = Some d -> InBox c [B2R h0; B2R h1; B2R h2] p -> Rabs (E k (times j k d) p) <= nth k M 0) ->
  exists v detJ invJ, parent_gradient B64Num ctx 3 (map basis64 specs) var xi = Ok v /\ scaling_inverseJacobian_wrapper B64Num ctx [h0; h1; h2] = Ok (detJ, invJ) /\
    length v = 3%nat /\ length invJ = 3%nat /\ is_finite (nth j v (b64_ofZ 0)) = true /\ is_finite (nth j invJ (b64_ofZ 0)) = true /\
    let total := gradient_convergence j specs M [B2R h0; B2R h1; B2R h2]
         + / (B2R (nth j [h0; h1; h2] (b64_ofZ 0)) / 2) * (ElementGradientStability j specs * eta
             + IZR (roundings64 specs) * bpow radix2 (-53) * (ElementGradientStability j specs * Mx) + bpow radix2 (-400)) in
    Rabs (B2R (nth j invJ (b64_ofZ 0)) * B2R (nth j v (b64_ofZ 0)) - g (place c [B2R h0; B2R h1; B2R h2] (map B2R xi))) <= total + bpow radix2 (-53) * (G + total).
Proof. exact cell_gradient_total64. Qed.
Print Assumptions C140_double_cell_gradient.

(** The same in floats. *)
Theorem C140_float_value : forall specs, specs <> [] -> (length specs <= 3)%nat -> Forall Supported32 specs ->
  exists ds, Forall2 Grid32 specs ds /\
  forall (D : nat -> nat -> list R -> R) f M c h eta Mx xi var w,
  Forall InReference32 xi -> length xi = length specs -> length M = length specs -> length c = length specs -> length h = length specs ->
  Forall (fun l => 0 < l) h -> 0 <= eta -> 0 <= Mx ->
  (forall t, InRange (sizes64 specs) t -> var t = Ok (w t) /\ Data32 (w t) /\ Rabs (B2R (w t)) <= Mx /\ Rabs (B2R (w t) - f (place c h (gridpoint ds t))) <= eta) ->
  (forall k p, (k < length specs)%nat -> InBox c h p -> D k 0%nat p = f p) ->
  (forall k i d p, nth_error ds k = Some d -> (i < Z.to_nat (npts d))%nat -> InBox c h p -> Partial (D k i) k p (D k (S i) p)) ->
  (forall k d p, nth_error ds k = Some d -> InBox c h p -> Rabs (D k (Z.to_nat (npts d)) p) <= nth k M 0) ->
  exists v, parent_value F32Num (Z.of_nat (length specs)) (map basis32 specs) var xi = Ok v /\ is_finite v = true /\
    Rabs (B2R v - f (place c h (map B2R xi)))
      <= value_convergence specs M h + ElementStability specs * eta
         + IZR (roundings64 specs) * bpow radix2 (-24) * (ElementStability specs * Mx) + bpow radix2 (-64).
Proof. exact value_total32. Qed.
Print Assumptions C140_float_value.

Theorem C140_float_gradient : forall ctx specs, specs <> [] -> (length specs <= 3)%nat -> Forall Supported32 specs ->
  exists ds, Forall2 Grid32 specs ds /\
  forall (E : nat -> nat -> list R -> R) f g j M c h eta Mx xi var w,
  (j < length specs)%nat -> Forall InReference32 xi -> length xi = length specs -> length M = length specs -> length c = length specs -> length h = length specs ->
  Forall (fun l => 0 < l) h -> 0 <= eta -> 0 <= Mx ->
  (forall t, InRange (sizes64 specs) t -> var t = Ok (w t) /\ Data32 (w t) /\ Rabs (B2R (w t)) <= Mx /\ Rabs (B2R (w t) - f (place c h (gridpoint ds t))) <= eta) ->
  (forall p, InBox c h p -> Partial f j p (g p)) ->
  (forall k p, (k < length specs)%nat -> InBox c h p -> E k 0%nat p = g p) ->
  (forall k i d p, nth_error ds k = Some d -> (i < times j k d)%nat -> InBox c h p -> Partial (E k i) k p (E k (S i) p)) ->
  (forall k d p, nth_error ds k = Some d -> InBox c h p -> Rabs (E k (times j k d) p) <= nth k M 0) ->
  exists v, parent_gradient F32Num ctx (Z.of_nat (length specs)) (map basis32 specs) var xi = Ok v /\ length v = length specs /\
    is_finite (nth j v (b32_ofZ 0)) = true /\
    Rabs (/ (nth j h 0 / 2) * B2R (nth j v (b32_ofZ 0)) - g (place c h (map B2R xi)))
      <= gradient_convergence j specs M h
         + / (nth j h 0 / 2) * (ElementGradientStability j specs * eta
             + IZR (roundings64 specs) * bpow radix2 (-24) * (ElementGradientStability j specs * Mx) + bpow radix2 (-64)).
Proof. exact gradient_total32. Qed.
Print Assumptions C140_float_gradient.

Theorem C140_float_cell_gradient : forall ctx specs, length specs = 3%nat -> Forall Supported32 specs ->
  exists ds, Forall2 Grid32 specs ds /\
  forall (E : nat -> nat -> list R -> R) f g j M c (h0 h1 h2 : b32) eta Mx G xi var w,
  (j < 3)%nat -> Forall InReference32 xi -> length xi = 3%nat -> length M = 3%nat -> length c = 3%nat ->
  (forall h, In h [h0; h1; h2] -> is_finite h = true /\ bpow radix2 (- 40) <= B2R h <= bpow radix2 40) -> 0 <= eta -> 0 <= Mx ->
  (forall t, InRange (sizes64 specs) t -> var t = Ok (w t) /\ Data32 (w t) /\ Rabs (B2R (w t)) <= Mx /\
     Rabs (B2R (w t) - f (place c [B2R h0; B2R h1; B2R h2] (gridpoint ds t))) <= eta) ->
  (forall p, InBox c [B2R h0; B2R h1; B2R h2] p -> Partial f j p (g p) /\ Rabs (g p) <= G) ->
  (forall k p, (k < 3)%nat -> InBox c [B2R h0; B2R h1; B2R h2] p -> E k 0%nat p = g p) ->
  (forall k i d p, nth_error ds k = Some d -> (i < times j k d)%nat -> InBox c [B2R h0; B2R h1; B2R h2] p -> Partial (E k i) k p (E k (S i) p)) ->
  (forall k d p, nth_error ds k = Some d -> InBox c [B2R h0; B2R h1; B2R h2] p -> Rabs (E k (times j k d) p) <= nth k M 0) ->
  exists v detJ invJ, parent_gradient F32Num ctx 3 (map basis32 specs) var xi = Ok v /\ scaling_inverseJacobian_wrapper32 ctx [h0; h1; h2] = Ok (detJ, invJ) /\
    length v = 3%nat /\ length invJ = 3%nat /\ is_finite (nth j v (b32_ofZ 0)) = true /\ is_finite (nth j invJ (b32_ofZ 0)) = true /\
    let total := gradient_convergence j specs M [B2R h0; B2R h1; B2R h2]
         + / (B2R (nth j [h0; h1; h2] (b32_ofZ 0)) / 2) * (ElementGradientStability j specs * eta
             + IZR (roundings64 specs) * bpow radix2 (-24) * (ElementGradientStability j specs * Mx) + bpow radix2 (-64)) in
    Rabs (B2R (nth j invJ (b32_ofZ 0)) * B2R (nth j v (b32_ofZ 0)) - g (place c [B2R h0; B2R h1; B2R h2] (map B2R xi))) <= total + bpow radix2 (-24) * (G + total).
Proof. exact cell_gradient_total32. Qed.
Print Assumptions C140_float_cell_gradient.

(** The squares on [-1,1] meet the hypotheses, with exact data. *)
Example C140_witness :
  let specs := [(EqualSpacing, 1%Z)] in
  let f := fun p : list R => nth 0 p 0 * nth 0 p 0 in
  let D := fun (k i : nat) p => match i with O => f p | S O => 2 * nth 0 p 0 | _ => 2 end in
  let E := fun (k i : nat) p => match i with O => 2 * nth 0 p 0 | _ => 2 end in
  Forall Supported64 specs /\
  forall ds, Forall2 Grid64 specs ds ->
  (forall t, InRange (sizes64 specs) t -> Data64 (b64_ofZ 1) /\ Rabs (B2R (b64_ofZ 1)) <= 1 /\ Rabs (B2R (b64_ofZ 1) - f (place [0] [2] (gridpoint ds t))) <= 0) /\
  (forall k i d p, nth_error ds k = Some d -> (i < Z.to_nat (npts d))%nat -> InBox [0] [2] p -> Partial (D k i) k p (D k (S i) p)) /\
  (forall k d p, nth_error ds k = Some d -> InBox [0] [2] p -> Rabs (D k (Z.to_nat (npts d)) p) <= nth k [2] 0) /\
  (forall p, InBox [0] [2] p -> Partial f 0 p (2 * nth 0 p 0)) /\
  (forall k i d p, nth_error ds k = Some d -> (i < times 0 k d)%nat -> InBox [0] [2] p -> Partial (E k i) k p (E k (S i) p)) /\
  (forall k d p, nth_error ds k = Some d -> InBox [0] [2] p -> Rabs (E k (times 0 k d) p) <= nth k [2] 0).
Proof. exact total_example. Qed.
Print Assumptions C140_witness.
(** And in three dimensions, on the cube with side lengths 2. *)
Example C140_cell_witness :
  let specs := [(EqualSpacing, 1%Z); (EqualSpacing, 1%Z); (EqualSpacing, 1%Z)] in
  let f := fun p : list R => nth 0 p 0 * nth 0 p 0 in
  let g := fun p : list R => 2 * nth 0 p 0 in
  let E := fun (k i : nat) p => match i, k with O, _ => g p | _, O => 2 | _, _ => 0 end in
  let h := b64_ofZ 2 in let hs := [B2R h; B2R h; B2R h] in let c := [0; 0; 0] in
  Forall Supported64 specs /\ is_finite h = true /\ bpow radix2 (- 300) <= B2R h <= bpow radix2 300 /\
  forall ds, Forall2 Grid64 specs ds ->
  (forall t, InRange (sizes64 specs) t -> Data64 (b64_ofZ 1) /\ Rabs (B2R (b64_ofZ 1)) <= 1 /\ Rabs (B2R (b64_ofZ 1) - f (place c hs (gridpoint ds t))) <= 0) /\
  (forall p, InBox c hs p -> Partial f 0 p (g p) /\ Rabs (g p) <= 2) /\
  (forall k i d p, nth_error ds k = Some d -> (i < times 0 k d)%nat -> InBox c hs p -> Partial (E k i) k p (E k (S i) p)) /\
  (forall k d p, nth_error ds k = Some d -> InBox c hs p -> Rabs (E k (times 0 k d) p) <= nth k [2; 0; 0] 0).
Proof. exact cell_example. Qed.
Print Assumptions C140_cell_witness.
