(** C138: the error of tensor-product quadrature on box cells for smooth functions. *)
From Coq Require Import Reals.
From Verif Require Import Base Num SpecIndex SpecNumeric SpecBasis SpecIntegral SpecConvergence SpecQuadError
  ModelAssert ModelSpacing ModelQuadrature ModelMath ModelTransforms ProofQuadError.
Open Scope R_scope.

(** [D k i] is the i-th derivative of [f] in direction [k], [nth k B _ i] a bound of it, [V] the integral over the box.
    A rule of degree g in a direction with side length l contributes (l/2)^(g+1) / (g+1)!, next to the [n] decimals of its tables. *)
Theorem C138_box_quadrature : forall rs ws xs (D : nat -> nat -> list R -> R) f B c h V n,
  Forall supported rs -> Rules rs ws xs -> Forall (fun r => (n <= digits r)%nat) rs ->
  length B = length rs -> length c = length rs -> length h = length rs -> Forall (fun l => 0 < l) h ->
  (forall k p, (k < length rs)%nat -> InBox c h p -> D k 0%nat p = f p) ->
  (forall k i r p, nth_error rs k = Some r -> (i < smoothness r)%nat -> InBox c h p -> Partial (D k i) k p (D k (S i) p)) ->
  (forall k i r p, nth_error rs k = Some r -> (i <= smoothness r)%nat -> InBox c h p -> Rabs (D k i p) <= nth k B (fun _ => 0) i) ->
  BoxIntegral c h f V ->
  Rabs (jacobian h * quadrature rs ws xs (fun xi => f (place c h xi)) - V) <=
    jacobian h * (2 + tenth n) ^ (length rs - 1) * directions_error (tenth n) rs B h.
Proof. exact box_quadrature_lemma. Qed.
Print Assumptions C138_box_quadrature.

(** In three dimensions, with the determinant the Scaling transform returns. *)
Theorem C138_cell_quadrature : forall rs ws xs ctx (D : nat -> nat -> list R -> R) f B c h0 h1 h2 V n,
  Forall supported rs -> length rs = 3%nat -> Rules rs ws xs -> Forall (fun r => (n <= digits r)%nat) rs ->
  length B = 3%nat -> length c = 3%nat -> 0 < h0 -> 0 < h1 -> 0 < h2 ->
  (forall k p, (k < 3)%nat -> InBox c [h0; h1; h2] p -> D k 0%nat p = f p) ->
  (forall k i r p, nth_error rs k = Some r -> (i < smoothness r)%nat -> InBox c [h0; h1; h2] p -> Partial (D k i) k p (D k (S i) p)) ->
  (forall k i r p, nth_error rs k = Some r -> (i <= smoothness r)%nat -> InBox c [h0; h1; h2] p -> Rabs (D k i p) <= nth k B (fun _ => 0) i) ->
  BoxIntegral c [h0; h1; h2] f V ->
  exists detJ invJ, scaling_inverseJacobian_wrapper RNum ctx [h0; h1; h2] = Ok (detJ, invJ) /\
    Rabs (quadrature rs ws xs (fun xi => detJ * f (place c [h0; h1; h2] xi)) - V) <=
      detJ * (2 + tenth n) ^ 2 * directions_error (tenth n) rs B [h0; h1; h2].
Proof. exact cell_quadrature_lemma. Qed.
Print Assumptions C138_cell_quadrature.

(** exp (x + y) on any rectangle meets the hypotheses; C71_rules_exist provides the rules. *)
Example C138_witness : forall a b l m, 0 < l -> 0 < m ->
  let f := fun p => exp (nth 0 p 0 + nth 1 p 0) in let D := fun (k i : nat) => f in
  let B := [fun _ : nat => exp (a + l / 2 + (b + m / 2)); fun _ : nat => exp (a + l / 2 + (b + m / 2))] in
  (forall k i p, (k < 2)%nat -> InBox [a; b] [l; m] p -> Partial (D k i) k p (D k (S i) p)) /\
  (forall k i p, (k < 2)%nat -> InBox [a; b] [l; m] p -> Rabs (D k i p) <= nth k B (fun _ => 0) i) /\
  exists V, BoxIntegral [a; b] [l; m] f V.
Proof. exact exp_example. Qed.
Example C138_degree : supported (QuadratureGaussLegendre, 2%Z) /\ smoothness (QuadratureGaussLegendre, 2%Z) = 4%nat /\
  smoothness (QuadratureGaussLobatto, 3%Z) = 4%nat.
Proof. split; [split; discriminate|]. split; reflexivity. Qed.
