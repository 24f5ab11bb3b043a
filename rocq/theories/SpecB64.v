(** Vocabulary for statements about binary64 results. *)
From Coq Require Import Reals.
From Flocq Require Import Core IEEE754.BinarySingleNaN.
From Verif Require Import Base Num ModelB64 ModelSpacing.
Open Scope Z_scope.

(** [x] is a number (not NaN, not infinite) with value [r]. *)
Definition IsNum (x : b64) (r : R) : Prop := is_finite x = true /\ B2R x = r.
(** Finite and in [-1, 1]. *)
Definition InReference (x : b64) : Prop := is_finite x = true /\ (Rabs (B2R x) <= 1)%R.

(** The accessor [c] yields the doubles x_0 .. x_(N-1). *)
Definition Points64 (c : Z -> outcome b64) (N : Z) (x : Z -> b64) : Prop :=
  forall i, 0 <= i < N -> c i = Ok (x i).

(** Points of [-1, 1] pairwise at least 2^-q apart. *)
Definition Separated (q N : Z) (x : Z -> b64) : Prop :=
  (forall i, 0 <= i < N -> InReference (x i)) /\
  (forall i k, 0 <= i < N -> 0 <= k < N -> i <> k ->
     (bpow radix2 (- q) <= Rabs (B2R (x i) - B2R (x k)))%R).

(** Same double (same sign and value; all NaNs are identified). *)
Definition same64 (a b : outcome b64) : Prop :=
  exists x y, a = Ok x /\ b = Ok y /\ B2SF x = B2SF y.
