(** C141: quadrature of smooth functions on box cells in doubles and in floats. *)
From Coq Require Import ZArith Reals List.
From Flocq Require Import Core IEEE754.BinarySingleNaN.
From Verif Require Import Base Num SpecIndex SpecNumeric SpecBasis SpecIntegral SpecConvergence SpecQuadError ModelAssert ModelB64 ModelF32
  ModelSpacing ModelQuadrature ModelTransforms ModelTransforms32 SpecVolume SpecQuadTotal ProofQuadTotal.
Import ListNotations.
Open Scope R_scope.

(** The weights and points are those of doubles; the values [F] are within [eta] of the values of [f] at these points.
    [D k i] is the i-th derivative of [f] in direction [k], [nth k B _ i] a bound of it, [V] the integral over the box.
    [table64 rs] is the accuracy of the tables. *)
Theorem C141_double_quadrature : forall rs ws xs (D : nat -> nat -> list R -> R) f B c h V F eta,
  Rules64 rs ws xs -> Forall supported rs -> 0 <= eta ->
  length B = length rs -> length c = length rs -> length h = length rs -> Forall (fun l => 0 < l) h ->
  (forall k p, (k < length rs)%nat -> InBox c h p -> D k 0%nat p = f p) ->
  (forall k i r p, nth_error rs k = Some r -> (i < smoothness r)%nat -> InBox c h p -> Partial (D k i) k p (D k (S i) p)) ->
  (forall k i r p, nth_error rs k = Some r -> (i <= smoothness r)%nat -> InBox c h p -> Rabs (D k i p) <= nth k B (fun _ => 0) i) ->
  (forall q, InRange (map snd rs) q -> Rabs (F q - f (place c h (map B2R (pick xs q)))) <= eta) ->
  BoxIntegral c h f V ->
  Rabs (jacobian h * BoxSum (map snd rs) (fun q => product (map B2R (pick ws q)) * F q) - V) <=
    jacobian h * ((2 + (table64 rs)) ^ (length rs - 1) * directions_error (table64 rs) rs B h + (2 + (table64 rs)) ^ length rs * eta).
Proof. exact quadrature_total64. Qed.
Print Assumptions C141_double_quadrature.

(** In three dimensions, with the determinant [d] the Scaling transform computes in doubles; [m] bounds [f]. *)
Theorem C141_double_cell : forall ctx rs ws xs (D : nat -> nat -> list R -> R) f B c (h0 h1 h2 : b64) V F eta m,
  Rules64 rs ws xs -> Forall supported rs -> length rs = 3%nat -> 0 <= eta ->
  (forall h, In h [h0; h1; h2] -> is_finite h = true /\ bpow radix2 (- 300) <= B2R h <= bpow radix2 300) ->
  length B = 3%nat -> length c = 3%nat ->
  (forall k p, (k < 3)%nat -> InBox c [B2R h0; B2R h1; B2R h2] p -> D k 0%nat p = f p) ->
  (forall k i r p, nth_error rs k = Some r -> (i < smoothness r)%nat -> InBox c [B2R h0; B2R h1; B2R h2] p -> Partial (D k i) k p (D k (S i) p)) ->
  (forall k i r p, nth_error rs k = Some r -> (i <= smoothness r)%nat -> InBox c [B2R h0; B2R h1; B2R h2] p -> Rabs (D k i p) <= nth k B (fun _ => 0) i) ->
  (forall q, InRange (map snd rs) q -> Rabs (F q - f (place c [B2R h0; B2R h1; B2R h2] (map B2R (pick xs q)))) <= eta) ->
  (forall p, InBox c [B2R h0; B2R h1; B2R h2] p -> Rabs (f p) <= m) ->
  BoxIntegral c [B2R h0; B2R h1; B2R h2] f V ->
  exists d invJ, scaling_inverseJacobian_wrapper B64Num ctx [h0; h1; h2] = Ok (d, invJ) /\ is_finite d = true /\
    Rabs (B2R d * BoxSum (map snd rs) (fun q => product (map B2R (pick ws q)) * F q) - V) <=
      B2R h0 / 2 * (B2R h1 / 2) * (B2R h2 / 2) *
        ((2 + (table64 rs)) ^ 2 * directions_error (table64 rs) rs B [B2R h0; B2R h1; B2R h2] + (2 + (table64 rs)) ^ 3 * (eta + (3 * bpow radix2 (-53)) * (m + eta))).
Proof. exact cell_total64. Qed.
Print Assumptions C141_double_cell.

(** The same in floats. *)
Theorem C141_float_quadrature : forall rs ws xs (D : nat -> nat -> list R -> R) f B c h V F eta,
  Rules32 rs ws xs -> Forall supported rs -> 0 <= eta ->
  length B = length rs -> length c = length rs -> length h = length rs -> Forall (fun l => 0 < l) h ->
  (forall k p, (k < length rs)%nat -> InBox c h p -> D k 0%nat p = f p) ->
  (forall k i r p, nth_error rs k = Some r -> (i < smoothness r)%nat -> InBox c h p -> Partial (D k i) k p (D k (S i) p)) ->
  (forall k i r p, nth_error rs k = Some r -> (i <= smoothness r)%nat -> InBox c h p -> Rabs (D k i p) <= nth k B (fun _ => 0) i) ->
  (forall q, InRange (map snd rs) q -> Rabs (F q - f (place c h (map B2R (pick xs q)))) <= eta) ->
  BoxIntegral c h f V ->
  Rabs (jacobian h * BoxSum (map snd rs) (fun q => product (map B2R (pick ws q)) * F q) - V) <=
    jacobian h * ((2 + (bpow radix2 (-23))) ^ (length rs - 1) * directions_error (bpow radix2 (-23)) rs B h + (2 + (bpow radix2 (-23))) ^ length rs * eta).
Proof. exact quadrature_total32. Qed.
Print Assumptions C141_float_quadrature.

Theorem C141_float_cell : forall ctx rs ws xs (D : nat -> nat -> list R -> R) f B c (h0 h1 h2 : b32) V F eta m,
  Rules32 rs ws xs -> Forall supported rs -> length rs = 3%nat -> 0 <= eta ->
  (forall h, In h [h0; h1; h2] -> is_finite h = true /\ bpow radix2 (- 40) <= B2R h <= bpow radix2 40) ->
  length B = 3%nat -> length c = 3%nat ->
  (forall k p, (k < 3)%nat -> InBox c [B2R h0; B2R h1; B2R h2] p -> D k 0%nat p = f p) ->
  (forall k i r p, nth_error rs k = Some r -> (i < smoothness r)%nat -> InBox c [B2R h0; B2R h1; B2R h2] p -> Partial (D k i) k p (D k (S i) p)) ->
  (forall k i r p, nth_error rs k = Some r -> (i <= smoothness r)%nat -> InBox c [B2R h0; B2R h1; B2R h2] p -> Rabs (D k i p) <= nth k B (fun _ => 0) i) ->
  (forall q, InRange (map snd rs) q -> Rabs (F q - f (place c [B2R h0; B2R h1; B2R h2] (map B2R (pick xs q)))) <= eta) ->
  (forall p, InBox c [B2R h0; B2R h1; B2R h2] p -> Rabs (f p) <= m) ->
  BoxIntegral c [B2R h0; B2R h1; B2R h2] f V ->
  exists d invJ, scaling_inverseJacobian_wrapper32 ctx [h0; h1; h2] = Ok (d, invJ) /\ is_finite d = true /\
    Rabs (B2R d * BoxSum (map snd rs) (fun q => product (map B2R (pick ws q)) * F q) - V) <=
      B2R h0 / 2 * (B2R h1 / 2) * (B2R h2 / 2) *
        ((2 + (bpow radix2 (-23))) ^ 2 * directions_error (bpow radix2 (-23)) rs B [B2R h0; B2R h1; B2R h2] + (2 + (bpow radix2 (-23))) ^ 3 * (eta + (bpow radix2 (-24) + bpow radix2 (-52)) * (m + eta))).
Proof. exact cell_total32. Qed.
Print Assumptions C141_float_cell.

(** exp x meets the hypotheses on f on every box; C125_witness provides the rules and C82_witness a length. *)
Example C141_witness : forall a b e l m n, 0 < l -> 0 < m -> 0 < n ->
  let f := fun p : list R => exp (nth 0 p 0) in
  let D := fun (k i : nat) (p : list R) => match k, i with O, _ => f p | _, O => f p | _, _ => 0 end in
  let B := [fun _ : nat => exp (a + l / 2); fun _ : nat => exp (a + l / 2); fun _ : nat => exp (a + l / 2)] in
  (forall k p, (k < 3)%nat -> InBox [a; b; e] [l; m; n] p -> D k 0%nat p = f p) /\
  (forall k i p, (k < 3)%nat -> InBox [a; b; e] [l; m; n] p -> Partial (D k i) k p (D k (S i) p)) /\
  (forall k i p, (k < 3)%nat -> InBox [a; b; e] [l; m; n] p -> Rabs (D k i p) <= nth k B (fun _ => 0) i) /\
  (forall p, InBox [a; b; e] [l; m; n] p -> Rabs (f p) <= exp (a + l / 2)) /\
  BoxIntegral [a; b; e] [l; m; n] f (n * m * exp (a + l / 2) - n * m * exp (a - l / 2)).
Proof. exact exp_box_example. Qed.
Print Assumptions C141_witness.
