(** Vocabulary for exact changes of unit. *)
From Coq Require Import Reals ZArith.
From Flocq Require Import Core IEEE754.BinarySingleNaN.
Local Open Scope R_scope.

(** [c] is plus or minus a power of two with an exponent of at most [K] in magnitude. *)
Definition PowerOfTwo (K : Z) (c : R) : Prop :=
  exists k, (- K <= k <= K)%Z /\ (c = bpow radix2 k \/ c = - bpow radix2 k).
(** The number is zero or lies between 2^-B and 2^B in magnitude. *)
Definition Moderate {prec emax} (B : Z) (x : binary_float prec emax) : Prop :=
  is_finite x = true /\ (B2R x = 0 \/ bpow radix2 (- B) <= Rabs (B2R x) <= bpow radix2 B).
(** Both are numbers, and [x'] is exactly [c] times [x]. *)
Definition Scaled {prec emax} (c : R) (x x' : binary_float prec emax) : Prop :=
  is_finite x = true /\ is_finite x' = true /\ B2R x' = c * B2R x.
