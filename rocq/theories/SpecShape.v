(** Vocabulary for computed numbers that carry a number of rounding errors. *)
From Coq Require Import Reals ZArith.
From Flocq Require Import Core IEEE754.BinarySingleNaN.
From Verif Require Import Base ModelB64 ModelF32.
Open Scope R_scope.

(** [x] is a number that differs from [r] as if by [n] roundings of relative size 2^-53 (double)
    or 2^-24 (float). *)
Definition Near64 (n : nat) (x : b64) (r : R) : Prop :=
  is_finite x = true /\ Rabs (B2R x - r) <= ((1 + bpow radix2 (-53)) ^ n - 1) * Rabs r.
Definition Near32 (n : nat) (x : b32) (r : R) : Prop :=
  is_finite x = true /\ Rabs (B2R x - r) <= ((1 + bpow radix2 (-24)) ^ n - 1) * Rabs r.

(** The call yields a value, and the value passes the test. *)
Definition holds {A} (o : outcome A) (p : A -> bool) : bool := match o with Ok x => p x | _ => false end.
