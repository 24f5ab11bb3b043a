(** Vocabulary for the matrices of an element: how many quadrature points per coordinate
    suffice, and the gradient in physical coordinates. *)
From Verif Require Import Base SpecNumeric.
From Coq Require Import Reals.
Open Scope Z_scope.

(** At least as many points as nodes in every coordinate. *)
Definition Full (nodes points : list Z) : Prop := Forall2 Z.le nodes points.

(** At most one point is missing, in at most one coordinate. *)
Definition OneMissing (nodes points : list Z) : Prop :=
  exists j : nat, forall k n m, nth_error nodes k = Some n -> nth_error points k = Some m ->
    n - 1 <= m /\ (k <> j -> n <= m).

(** A quadratic form on vectors of length [d] that vanishes only at the zero vector. *)
Definition PositiveDefinite (d : nat) (form : list R -> R) : Prop :=
  forall g, length g = d -> (0 <= form g)%R /\ (form g = 0%R <-> Forall (fun x => x = 0%R) g).

(** Entry (i,j) of a 3x3 matrix stored by rows. *)
Definition entry3 (M : list R) (i j : Z) : R := nth (Z.to_nat (3 * i + j)) M 0%R.
(** The chain rule: component i of the gradient with respect to the physical coordinates, from the
    gradient [g] with respect to the reference coordinates and the inverse of the Jacobian. *)
Definition physical (invJ g : list R) (i : Z) : R :=
  Zsum 3 (fun k => nth (Z.to_nat k) g 0 * entry3 invJ k i)%R.
Definition norm2 (invJ g : list R) : R := Zsum 3 (fun i => physical invJ g i * physical invJ g i)%R.
