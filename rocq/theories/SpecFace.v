(** Vocabulary for elements that share a face, in doubles and in floats. *)
From Verif Require Import Base Num ModelSpacing ModelLagrange SpecElement64 SpecElement32.
Open Scope Z_scope.

(** Spacings and orders whose first and last function are exactly 1 on their faces in doubles. *)
Definition FaceExact64 (so : spacing * Z) : Prop :=
  match fst so with
  | EqualSpacing => 1 <= snd so <= 15 /\ snd so <> 9 /\ snd so <> 13
  | GaussLegendreSpacing => False
  | GaussLobattoSpacing => 1 <= snd so <= 4
  end.
(** [p] on one side of a face and [q] on the other side. *)
Definition Matching64 (p q : spacing * Z) : Prop :=
  (FaceExact64 p /\ FaceExact64 q) \/ (p = q /\ fst p = GaussLobattoSpacing /\ 1 <= snd p <= 8).

(** The same in floats. *)
Definition Matching32 (p q : spacing * Z) : Prop :=
  Supported32 p /\ Supported32 q /\ fst p <> GaussLegendreSpacing /\ fst q <> GaussLegendreSpacing.
