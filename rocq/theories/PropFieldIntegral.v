(** C142: integrals of interpolated fields over box cells in doubles and in floats. *)
From Coq Require Import ZArith Reals List.
From Flocq Require Import Core IEEE754.BinarySingleNaN.
From Verif Require Import Base Num SpecIndex SpecNumeric SpecBasis SpecIntegral SpecStability SpecConvergence SpecQuadError ModelAssert ModelB64 ModelF32
  ModelSpacing ModelLagrange ModelBasisProduct ModelQuadrature ModelTransforms ModelTransforms32 SpecVolume SpecQuadTotal SpecAccuracy SpecElement64 SpecElement32
  ProofFieldIntegral.
Import ListNotations.
Open Scope R_scope.

(** Doubles, in three dimensions.  The data [w] at the support points are within [eta] of the values of [f]; [F q] is what
    the element returns at the quadrature point [q], [d] the determinant the Scaling transform computes, [V] the integral
    of [f] over the box.  [values] is the bound of C140 for the values of the element. *)
Theorem C142_double_integral : forall ctx specs rs ws xs, length specs = 3%nat -> Forall Supported64 specs -> Rules64 rs ws xs -> Forall supported rs -> length rs = 3%nat ->
  exists ds, Forall2 Grid64 specs ds /\
  forall (D : nat -> nat -> list R -> R) f B M c (h0 h1 h2 : b64) V eta Mx m var w,
  length B = 3%nat -> length M = 3%nat -> length c = 3%nat -> 0 <= eta -> 0 <= Mx ->
  (forall h, In h [h0; h1; h2] -> is_finite h = true /\ bpow radix2 (- 300) <= B2R h <= bpow radix2 300) ->
  (forall t, InRange (sizes64 specs) t -> var t = Ok (w t) /\ Data64 (w t) /\ Rabs (B2R (w t)) <= Mx /\
     Rabs (B2R (w t) - f (place c [B2R h0; B2R h1; B2R h2] (gridpoint ds t))) <= eta) ->
  (forall k p, (k < 3)%nat -> InBox c [B2R h0; B2R h1; B2R h2] p -> D k 0%nat p = f p) ->
  (forall k i d r p, nth_error ds k = Some d -> nth_error rs k = Some r -> (i < Nat.max (Z.to_nat (npts d)) (smoothness r))%nat ->
     InBox c [B2R h0; B2R h1; B2R h2] p -> Partial (D k i) k p (D k (S i) p)) ->
  (forall k d p, nth_error ds k = Some d -> InBox c [B2R h0; B2R h1; B2R h2] p -> Rabs (D k (Z.to_nat (npts d)) p) <= nth k M 0) ->
  (forall k i r p, nth_error rs k = Some r -> (i <= smoothness r)%nat -> InBox c [B2R h0; B2R h1; B2R h2] p -> Rabs (D k i p) <= nth k B (fun _ => 0) i) ->
  (forall p, InBox c [B2R h0; B2R h1; B2R h2] p -> Rabs (f p) <= m) ->
  BoxIntegral c [B2R h0; B2R h1; B2R h2] f V ->
  exists F d invJ,
    (forall q, InRange (map snd rs) q -> parent_value B64Num 3 (map basis64 specs) var (pick xs q) = Ok (F q) /\ is_finite (F q) = true) /\
    scaling_inverseJacobian_wrapper B64Num ctx [h0; h1; h2] = Ok (d, invJ) /\ is_finite d = true /\
    let values := value_convergence specs M [B2R h0; B2R h1; B2R h2] + ElementStability specs * eta
         + IZR (roundings64 specs) * bpow radix2 (-53) * (ElementStability specs * Mx) + bpow radix2 (-400) in
    Rabs (B2R d * BoxSum (map snd rs) (fun q => product (map B2R (pick ws q)) * B2R (F q)) - V) <=
      B2R h0 / 2 * (B2R h1 / 2) * (B2R h2 / 2) *
        ((2 + table64 rs) ^ 2 * directions_error (table64 rs) rs B [B2R h0; B2R h1; B2R h2] + (2 + table64 rs) ^ 3 * (values + (3 * bpow radix2 (-53)) * (m + values))).
Proof. exact interpolated64. Qed.
Print Assumptions C142_double_integral.

(** The same in floats. *)
Theorem C142_float_integral : forall ctx specs rs ws xs, length specs = 3%nat -> Forall Supported32 specs -> Rules32 rs ws xs -> Forall supported rs -> length rs = 3%nat ->
  exists ds, Forall2 Grid32 specs ds /\
  forall (D : nat -> nat -> list R -> R) f B M c (h0 h1 h2 : b32) V eta Mx m var w,
  length B = 3%nat -> length M = 3%nat -> length c = 3%nat -> 0 <= eta -> 0 <= Mx ->
  (forall h, In h [h0; h1; h2] -> is_finite h = true /\ bpow radix2 (- 40) <= B2R h <= bpow radix2 40) ->
  (forall t, InRange (sizes64 specs) t -> var t = Ok (w t) /\ Data32 (w t) /\ Rabs (B2R (w t)) <= Mx /\
     Rabs (B2R (w t) - f (place c [B2R h0; B2R h1; B2R h2] (gridpoint ds t))) <= eta) ->
  (forall k p, (k < 3)%nat -> InBox c [B2R h0; B2R h1; B2R h2] p -> D k 0%nat p = f p) ->
  (forall k i d r p, nth_error ds k = Some d -> nth_error rs k = Some r -> (i < Nat.max (Z.to_nat (npts d)) (smoothness r))%nat ->
     InBox c [B2R h0; B2R h1; B2R h2] p -> Partial (D k i) k p (D k (S i) p)) ->
  (forall k d p, nth_error ds k = Some d -> InBox c [B2R h0; B2R h1; B2R h2] p -> Rabs (D k (Z.to_nat (npts d)) p) <= nth k M 0) ->
  (forall k i r p, nth_error rs k = Some r -> (i <= smoothness r)%nat -> InBox c [B2R h0; B2R h1; B2R h2] p -> Rabs (D k i p) <= nth k B (fun _ => 0) i) ->
  (forall p, InBox c [B2R h0; B2R h1; B2R h2] p -> Rabs (f p) <= m) ->
  BoxIntegral c [B2R h0; B2R h1; B2R h2] f V ->
  exists F d invJ,
    (forall q, InRange (map snd rs) q -> parent_value F32Num 3 (map basis32 specs) var (pick xs q) = Ok (F q) /\ is_finite (F q) = true) /\
    scaling_inverseJacobian_wrapper32 ctx [h0; h1; h2] = Ok (d, invJ) /\ is_finite d = true /\
    let values := value_convergence specs M [B2R h0; B2R h1; B2R h2] + ElementStability specs * eta
         + IZR (roundings64 specs) * bpow radix2 (-24) * (ElementStability specs * Mx) + bpow radix2 (-64) in
    Rabs (B2R d * BoxSum (map snd rs) (fun q => product (map B2R (pick ws q)) * B2R (F q)) - V) <=
      B2R h0 / 2 * (B2R h1 / 2) * (B2R h2 / 2) *
        ((2 + bpow radix2 (-23)) ^ 2 * directions_error (bpow radix2 (-23)) rs B [B2R h0; B2R h1; B2R h2] + (2 + bpow radix2 (-23)) ^ 3 * (values + (bpow radix2 (-24) + bpow radix2 (-52)) * (m + values))).
Proof. exact interpolated32. Qed.
Print Assumptions C142_float_integral.

(** exp x on the cube with side lengths 2 and the data 1 meet the hypotheses; C125_witness provides the rules. *)
Example C142_witness :
  let specs := [(EqualSpacing, 1%Z); (GaussLobattoSpacing, 2%Z); (EqualSpacing, 1%Z)] in
  let f := fun p : list R => exp (nth 0 p 0) in
  let D := fun (k i : nat) (p : list R) => match k, i with O, _ => f p | _, O => f p | _, _ => 0 end in
  let h := b64_ofZ 2 in let hs := [B2R h; B2R h; B2R h] in let c := [0; 0; 0] in
  Forall Supported64 specs /\ is_finite h = true /\ bpow radix2 (- 300) <= B2R h <= bpow radix2 300 /\
  (forall ds t, Forall2 Grid64 specs ds -> InRange (sizes64 specs) t ->
     Data64 (b64_ofZ 1) /\ Rabs (B2R (b64_ofZ 1)) <= 1 /\ Rabs (B2R (b64_ofZ 1) - f (place c hs (gridpoint ds t))) <= 2) /\
  (forall k p, (k < 3)%nat -> InBox c hs p -> D k 0%nat p = f p) /\
  (forall k i p, (k < 3)%nat -> InBox c hs p -> Partial (D k i) k p (D k (S i) p)) /\
  (forall k i p, (k < 3)%nat -> InBox c hs p -> Rabs (D k i p) <= 3) /\
  (forall p, InBox c hs p -> Rabs (f p) <= 3) /\
  exists V, BoxIntegral c hs f V.
Proof. exact interpolated_example. Qed.
Print Assumptions C142_witness.
