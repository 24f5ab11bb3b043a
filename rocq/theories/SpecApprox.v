(** Bounds on interpolation errors. *)
From Verif Require Import Base SpecIndex SpecNumeric SpecBasis.
From Coq Require Import Reals.
Open Scope R_scope.

(** The product of f i over 0 <= i < n. *)
Definition Zprod (n : Z) (f : Z -> R) : R := fold_right Rmult 1 (map f (zseq (Z.to_nat n))).

(** In each direction with n points: M / n! times the product of the distances of the coordinate to the points,
    where M bounds the n-th derivative in that direction.  The error of the later directions is amplified by L,
    which bounds the sum of the absolute values of the functions of this direction. *)
Fixpoint error_bound (ds : list direction) (L M xi : list R) : R :=
  match ds, L, M, xi with
  | d :: ds', l :: L', m :: M', x :: xi' =>
      m / INR (fact (Z.to_nat (npts d))) * Zprod (npts d) (fun i => Rabs (x - pt d i)) + l * error_bound ds' L' M' xi'
  | _, _, _, _ => 0
  end.
(** [L] bounds the sums of absolute values at [xi], direction by direction. *)
Fixpoint Amplifies (ds : list direction) (L xi : list R) : Prop :=
  match ds, L, xi with
  | [], [], _ => True
  | d :: ds', l :: L', x :: xi' => Zsum (npts d) (fun i => Rabs (fval d i x)) <= l /\ Amplifies ds' L' xi'
  | _, _, _ => False
  end.
(** All coordinates in [a, b]. *)
Definition InCube (a b : R) (p : list R) : Prop := Forall (fun t => a <= t <= b) p.
