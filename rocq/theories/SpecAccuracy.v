(** Vocabulary for the accuracy of matrices and cells computed in doubles. *)
From Coq Require Import Reals.
From Flocq Require Import Core IEEE754.BinarySingleNaN.
From Verif Require Import Base Num ModelB64 SpecMath SpecNumeric.
Open Scope Z_scope.

(** The permanent: the determinant without signs. *)
Definition perm (n : nat) (A : matrix) : R :=
  Rsum (map (fun p => Rprod (map (fun ij => A (fst ij) (snd ij)) (combine (zseq n) p))) (permutations (zseq n))).
(** Row [i] and column [j] removed. *)
Definition minor (A : matrix) (i j : Z) : matrix :=
  fun a b => A (if a <? i then a else a + 1) (if b <? j then b else b + 1).
(** Entrywise absolute values. *)
Definition absm (A : matrix) : matrix := fun i j => Rabs (A i j).

(** A matrix of doubles: finite entries of size at most 2^300. *)
Definition Entries64 (A : Z -> Z -> b64) : Prop :=
  forall i j, 0 <= i < 3 -> 0 <= j < 3 -> is_finite (A i j) = true /\ (Rabs (B2R (A i j)) <= bpow radix2 300)%R.
Definition real_matrix (A : Z -> Z -> b64) : matrix := fun i j => B2R (A i j).

(** x_0 * ... * x_(n-1). *)
Definition Zprod (n : Z) (x : Z -> R) : R := fold_right Rmult 1%R (map x (zseq (Z.to_nat n))).
(** The derivative at [y] of the product of the factors (y - x_k) / (x_i - x_k), k <> i, with every
    summand replaced by its absolute value. *)
Definition gradient_size (n : Z) (x : Z -> R) (i : Z) (y : R) : R :=
  (Zsum n (fun a => if a =? i then 0 else
    / Rabs (x i - x a) * Zprod n (fun k => if (k =? a) || (k =? i) then 1 else Rabs ((y - x k) / (x i - x k)))))%R.
