(** Gradients of functions in physical coordinates on cells given by their vertices. *)
From Verif Require Import Base SpecIndex SpecNumeric SpecBasis.
From Coq Require Import Reals.
Open Scope R_scope.

Definition sum3 (a : nat -> R) : R := a 0%nat + a 1%nat + a 2%nat.

(** The point of the cell that belongs to the point [p] of [-1,1]^3; [X (t ++ [i])] is coordinate [i] of vertex [t]. *)
Definition position (ds : list direction) (X : list Z -> R) (p : list R) : list R :=
  map (fun i => BoxSum (counts ds) (fun t => tensor ds t p * X (t ++ [i]))) [0; 1; 2]%Z.

(** [F] is differentiable at [x] with gradient [G]. *)
Definition GradientAt (F : list R -> R) (x : list R) (G : nat -> R) : Prop :=
  forall eps, 0 < eps -> exists delta, 0 < delta /\
    forall y, length y = 3%nat -> (forall k, (k < 3)%nat -> Rabs (nth k y 0 - nth k x 0) < delta) ->
      Rabs (F y - F x - sum3 (fun k => G k * (nth k y 0 - nth k x 0))) <= eps * sum3 (fun k => Rabs (nth k y 0 - nth k x 0)).
