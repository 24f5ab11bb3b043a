(** Bounds on the errors of interpolated derivatives. *)
From Verif Require Import Base SpecIndex SpecNumeric SpecBasis SpecApprox.
From Coq Require Import Reals.
Open Scope R_scope.

(** For each gap between neighbouring points, the distance to the farther of the two. *)
Definition gap_distances (d : direction) (y : R) : R :=
  Zprod (npts d - 1) (fun i => Rmax (Rabs (y - pt d i)) (Rabs (y - pt d (i + 1)%Z))).

(** The derivative in direction [j] (counted from 0).  In that direction, with n points: M / (n-1)! times the product
    of the distances of the coordinate to the gaps; in the others M / n! times the product of the distances to the
    points.  [L] bounds the sums of the absolute values of the functions. *)
Fixpoint gradient_error_bound (j : nat) (ds : list direction) (L M xi : list R) : R :=
  match ds, L, M, xi with
  | d :: ds', l :: L', m :: M', x :: xi' =>
      match j with
      | O => m / INR (fact (Z.to_nat (npts d - 1))) * gap_distances d x * fold_right Rmult 1 L' + error_bound ds' L' M' xi'
      | S j' => m / INR (fact (Z.to_nat (npts d))) * Zprod (npts d) (fun i => Rabs (x - pt d i)) + l * gradient_error_bound j' ds' L' M' xi'
      end
  | _, _, _, _ => 0
  end.
(** How often the derivative in direction [j] is differentiated in direction [k]. *)
Definition times (j k : nat) (d : direction) : nat := Z.to_nat (if Nat.eqb k j then npts d - 1 else npts d).
