(** Vocabulary for the accuracy of matrices and cells computed in floats. *)
From Coq Require Import Reals.
From Flocq Require Import Core IEEE754.BinarySingleNaN.
From Verif Require Import Base Num ModelB64 ModelF32 SpecMath.
Open Scope Z_scope.

(** A matrix of floats: finite entries of size at most 2^30. *)
Definition Entries32 (A : Z -> Z -> b32) : Prop :=
  forall i j, 0 <= i < 3 -> 0 <= j < 3 -> is_finite (A i j) = true /\ (Rabs (B2R (A i j)) <= bpow radix2 30)%R.
Definition real_matrix32 (A : Z -> Z -> b32) : matrix := fun i j => B2R (A i j).
