(** C137: the order of convergence on box cells. *)
From Coq Require Import Reals.
From Verif Require Import Base Num SpecIndex SpecNumeric SpecBasis SpecApprox SpecStability SpecGradError SpecConvergence
  ModelAssert ModelSpacing ModelLagrange ModelBasisProduct ModelMath ModelTransforms ProofConvergence.
Open Scope R_scope.

(** A function [f] with derivatives [D k i] (the i-th in direction [k]) on the box, sampled at the support points. *)
Theorem C137_value_convergence : forall specs, Forall ValidOrder specs -> specs <> [] ->
  exists ds, Forall2 GridR specs ds /\
  forall (D : nat -> nat -> list R -> R) f M c h var xi,
  length xi = length specs -> length M = length specs -> length c = length specs -> length h = length specs ->
  Forall (fun l => 0 < l) h -> InCube (-1) 1 xi ->
  (forall t, InRange (counts ds) t -> var t = Ok (f (place c h (gridpoint ds t)))) ->
  (forall k p, (k < length specs)%nat -> InBox c h p -> D k 0%nat p = f p) ->
  (forall k i d p, nth_error ds k = Some d -> (i < Z.to_nat (npts d))%nat -> InBox c h p -> Partial (D k i) k p (D k (S i) p)) ->
  (forall k d p, nth_error ds k = Some d -> InBox c h p -> Rabs (D k (Z.to_nat (npts d)) p) <= nth k M 0) ->
  exists v, parent_value RNum (Z.of_nat (length specs)) (map (fun so => LagrangeBasis RNum (snd so) (fst so)) specs) var xi = Ok v /\
    Rabs (f (place c h xi) - v) <= value_convergence specs M h.
Proof. exact value_convergence_lemma. Qed.
Print Assumptions C137_value_convergence.

(** Derivatives: the parent gradient times the inverse of half the side length.  [g] is the derivative of [f] in direction
    [j], [E k i] the i-th derivative of [g] in direction [k], as far as it is needed. *)
Theorem C137_gradient_convergence : forall specs, Forall ValidOrder specs -> specs <> [] -> (Z.of_nat (length specs) <= INT_MAX)%Z ->
  exists ds, Forall2 GridR specs ds /\
  forall ctx (E : nat -> nat -> list R -> R) f g j M c h var xi,
  (j < length specs)%nat -> length xi = length specs -> length M = length specs -> length c = length specs -> length h = length specs ->
  Forall (fun l => 0 < l) h -> InCube (-1) 1 xi ->
  (forall t, InRange (counts ds) t -> var t = Ok (f (place c h (gridpoint ds t)))) ->
  (forall p, InBox c h p -> Partial f j p (g p)) ->
  (forall k p, (k < length specs)%nat -> InBox c h p -> E k 0%nat p = g p) ->
  (forall k i d p, nth_error ds k = Some d -> (i < times j k d)%nat -> InBox c h p -> Partial (E k i) k p (E k (S i) p)) ->
  (forall k d p, nth_error ds k = Some d -> InBox c h p -> Rabs (E k (times j k d) p) <= nth k M 0) ->
  exists v, parent_gradient RNum ctx (Z.of_nat (length specs)) (map (fun so => LagrangeBasis RNum (snd so) (fst so)) specs) var xi = Ok v /\
    length v = length specs /\ Rabs (g (place c h xi) - / (nth j h 0 / 2) * nth j v 0) <= gradient_convergence j specs M h.
Proof. exact gradient_convergence_lemma. Qed.
Print Assumptions C137_gradient_convergence.

(** In three dimensions that inverse is the one the Scaling transform returns for the side lengths. *)
Theorem C137_cell_gradient : forall specs, Forall ValidOrder specs -> length specs = 3%nat ->
  exists ds, Forall2 GridR specs ds /\
  forall ctx (E : nat -> nat -> list R -> R) f g j M c h0 h1 h2 var xi,
  (j < 3)%nat -> length xi = 3%nat -> length M = 3%nat -> length c = 3%nat -> 0 < h0 -> 0 < h1 -> 0 < h2 -> InCube (-1) 1 xi ->
  (forall t, InRange (counts ds) t -> var t = Ok (f (place c [h0; h1; h2] (gridpoint ds t)))) ->
  (forall p, InBox c [h0; h1; h2] p -> Partial f j p (g p)) ->
  (forall k p, (k < 3)%nat -> InBox c [h0; h1; h2] p -> E k 0%nat p = g p) ->
  (forall k i d p, nth_error ds k = Some d -> (i < times j k d)%nat -> InBox c [h0; h1; h2] p -> Partial (E k i) k p (E k (S i) p)) ->
  (forall k d p, nth_error ds k = Some d -> InBox c [h0; h1; h2] p -> Rabs (E k (times j k d) p) <= nth k M 0) ->
  exists v detJ invJ, parent_gradient RNum ctx 3 (map (fun so => LagrangeBasis RNum (snd so) (fst so)) specs) var xi = Ok v /\
    scaling_inverseJacobian_wrapper RNum ctx [h0; h1; h2] = Ok (detJ, invJ) /\ length v = 3%nat /\ length invJ = 3%nat /\
    Rabs (g (place c [h0; h1; h2] xi) - nth j invJ 0 * nth j v 0) <= gradient_convergence j specs M [h0; h1; h2].
Proof. exact gradient_convergence_cell. Qed.
Print Assumptions C137_cell_gradient.

(** x^2 on any segment meets the hypotheses; the bound is the square of its length. *)
Example C137_witness : forall a l, 0 < l ->
  let D := fun (k i : nat) p => match i with O => nth 0 p 0 * nth 0 p 0 | S O => 2 * nth 0 p 0 | _ => 2 end in
  Forall ValidOrder [(EqualSpacing, 1%Z)] /\ value_convergence [(EqualSpacing, 1%Z)] [2] [l] = l * l /\
  forall ds, Forall2 GridR [(EqualSpacing, 1%Z)] ds ->
  (forall k i d p, nth_error ds k = Some d -> (i < Z.to_nat (npts d))%nat -> InBox [a] [l] p -> Partial (D k i) k p (D k (S i) p)) /\
  (forall k d p, nth_error ds k = Some d -> InBox [a] [l] p -> Rabs (D k (Z.to_nat (npts d)) p) <= nth k [2] 0).
Proof. exact convergence_example. Qed.
