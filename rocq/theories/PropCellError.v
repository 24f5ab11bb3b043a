(** C139: the error of gradients in physical coordinates on any cell. *)
From Coq Require Import Reals.
From Verif Require Import Base Num SpecIndex SpecMath SpecCArray SpecNumeric SpecBasis SpecApprox SpecStability SpecGradError SpecCellError
  ModelAssert ModelCArray ModelSpacing ModelLagrange ModelBasisProduct ModelMath ModelTransforms ProofCellError.
Open Scope R_scope.

(** [F] is a function of the physical coordinates with gradient [G] at the point in question, sampled at the support points
    of an element; the cell is given by its vertices [X] in [mem].  [g j] is the derivative of the function on the reference
    cell in direction [j], [E j k i] its i-th derivative in direction [k], [M j] bounds those that matter.  The bound is
    that of C136 for each direction of the reference cell, times the entry of the inverse Jacobian. *)
Theorem C139_cell_gradient_error : forall specs, Forall ValidOrder specs -> length specs = 3%nat ->
  exists es, Forall2 GridR specs es /\
  forall ctx bases ds mem X d invJ B F G (g : nat -> list R -> R) (E : nat -> nat -> nat -> list R -> R) M var xi,
  Forall2 Evaluates bases ds -> Forall Differentiates ds -> length ds = 3%nat -> Holds (owning (counts ds ++ [3%Z])) mem X ->
  length xi = 3%nat -> InCube (-1) 1 xi ->
  inverseJacobian_wrapper RNum ctx 3 bases mem xi = Ok (d, invJ) -> Holds (owning [3; 3]%Z) invJ B ->
  (forall t, InRange (counts es) t -> var t = Ok (F (position ds X (gridpoint es t)))) -> GradientAt F (position ds X xi) G ->
  (forall j, (j < 3)%nat -> length (M j) = 3%nat) ->
  (forall j p, (j < 3)%nat -> length p = 3%nat -> InCube (-1) 1 p -> Partial (fun p => F (position ds X p)) j p (g j p)) ->
  (forall j k p, (j < 3)%nat -> (k < 3)%nat -> length p = 3%nat -> InCube (-1) 1 p -> E j k 0%nat p = g j p) ->
  (forall j k i e p, (j < 3)%nat -> nth_error es k = Some e -> (i < times j k e)%nat -> length p = 3%nat -> InCube (-1) 1 p ->
     Partial (E j k i) k p (E j k (S i) p)) ->
  (forall j k e p, (j < 3)%nat -> nth_error es k = Some e -> length p = 3%nat -> InCube (-1) 1 p -> Rabs (E j k (times j k e) p) <= nth k (M j) 0) ->
  exists v, parent_gradient RNum ctx 3 (map (fun so => LagrangeBasis RNum (snd so) (fst so)) specs) var xi = Ok v /\ length v = 3%nat /\
    forall k, (k < 3)%nat ->
      Rabs (G k - sum3 (fun j => nth j v 0 * B [Z.of_nat j; Z.of_nat k])) <=
        sum3 (fun j => gradient_error_bound j es (map Stability specs) (M j) xi * Rabs (B [Z.of_nat j; Z.of_nat k])).
Proof. exact cell_gradient_lemma. Qed.
Print Assumptions C139_cell_gradient_error.

(** The square of the first coordinate on any cell with parallel faces, interpolated with order 1. *)
Example C139_witness : forall ds X o (A : nat -> R) xi, Forall Nodal ds -> Forall (fun d => (2 <= npts d)%Z) ds -> length ds = 3%nat ->
  (forall t, InRange (counts ds) t -> X (t ++ [0%Z]) = o + sum3 (fun k => A k * nth k (gridpoint ds t) 0)) -> length xi = 3%nat ->
  let F := fun y => nth 0 y 0 * nth 0 y 0 in let a := fun p => o + sum3 (fun k => A k * nth k p 0) in
  let g := fun j p => 2 * A j * a p in
  let E := fun j (k i : nat) p => match i with O => g j p | 1%nat => 2 * A j * A k | _ => 0 end in
  let M := fun j => map (fun k => if Nat.eqb k j then Rabs (2 * A j * A j) else 0) [0; 1; 2]%nat in
  GradientAt F (position ds X xi) (fun k => if Nat.eqb k 0 then 2 * a xi else 0) /\
  (forall j p, (j < 3)%nat -> length p = 3%nat -> Partial (fun p => F (position ds X p)) j p (g j p)) /\
  forall es, Forall2 GridR (repeat (EqualSpacing, 1%Z) 3) es ->
  (forall j k i e p, (j < 3)%nat -> nth_error es k = Some e -> (i < times j k e)%nat -> length p = 3%nat -> Partial (E j k i) k p (E j k (S i) p)) /\
  (forall j k e p, (j < 3)%nat -> nth_error es k = Some e -> length p = 3%nat -> Rabs (E j k (times j k e) p) <= nth k (M j) 0).
Proof. exact cell_error_example. Qed.
