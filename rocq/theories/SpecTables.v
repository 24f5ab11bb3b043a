(** The exact Gauss rules the tabulated points and weights stand for. *)
From Verif Require Import Base ModelSpacing ModelQuadrature SpecNumeric.
From Coq Require Import Reals.
Open Scope Z_scope.

(** The sizes for which points and weights are tabulated. *)
Definition Tabulated (q : rule) (N : Z) : Prop :=
  2 <= N <= match q with QuadratureGaussLegendre => 4 | QuadratureGaussLobatto => 9 end.

(** [r] are the N points of the Gauss-Legendre rule (the roots of P_N), or of the
    Gauss-Lobatto rule (-1, 1 and the critical points of P_(N-1)), in increasing order. *)
Definition ExactPoints (q : rule) (N : Z) (r : Z -> R) : Prop :=
  Increasing N r /\
  match q with
  | QuadratureGaussLegendre => forall i, 0 <= i < N -> legendre (Z.to_nat N) (r i) = 0%R
  | QuadratureGaussLobatto => r 0 = (-1)%R /\ r (N - 1) = 1%R /\
      forall i, 0 < i < N - 1 -> derivable_pt_lim (legendre (Z.to_nat (N - 1))) (r i) 0%R
  end.

(** The weight of the point [r]: 2 (1 - r^2) / (N P_(N-1)(r))^2 for Gauss-Legendre and
    2 / (N (N-1) P_(N-1)(r)^2) for Gauss-Lobatto. *)
Definition ExactWeight (q : rule) (N : Z) (r : R) : R :=
  let p := legendre (Z.to_nat (N - 1)) r in
  match q with
  | QuadratureGaussLegendre => 2 * (1 - r * r) / (IZR N * p * (IZR N * p))
  | QuadratureGaussLobatto => 2 / (IZR N * IZR (N - 1) * (p * p))
  end%R.

(** How far the tabulated numbers may be off. *)
Definition PointError (N : Z) : R :=
  (if N <=? 5 then 5 * tenth 39 else if N =? 6 then 5 * tenth 16
   else if N =? 7 then 15 * tenth 15 else 4 * tenth 15)%R.
Definition WeightError (N : Z) : R := (if N <=? 5 then 5 * tenth 35 else 7 * tenth 15)%R.
