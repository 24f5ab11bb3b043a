(** Correct rounding: no finite number of the type is closer to the real number. *)
From Verif Require Import Base ModelB64 ModelF32.
From Coq Require Import Reals.
From Flocq Require Import Core IEEE754.BinarySingleNaN.
Open Scope R_scope.

Definition Nearest64 (x : b64) (r : R) : Prop :=
  is_finite x = true /\ forall y : b64, is_finite y = true -> Rabs (B2R x - r) <= Rabs (B2R y - r).
Definition Nearest32 (x : b32) (r : R) : Prop :=
  is_finite x = true /\ forall y : b32, is_finite y = true -> Rabs (B2R x - r) <= Rabs (B2R y - r).
