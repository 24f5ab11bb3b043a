(** Vocabulary for the statements about integer types. *)
From Coq Require Import ZArith List.
From Verif Require Import ModelInteger.
Import ListNotations.
Open Scope Z_scope.

(** [signed char], [short], [int], [long] and their unsigned companions. *)
Definition Standard (t : ity) : Prop := In (bits t) [8; 16; 32; 64].
Definition Uchar : ity := {| bits := 8; signed := false |}.
Definition Short : ity := {| bits := 16; signed := true |}.
Definition Ushort : ity := {| bits := 16; signed := false |}.
Definition Uint : ity := {| bits := 32; signed := false |}.
Definition Long : ity := {| bits := 64; signed := true |}.
Definition Ulong : ity := {| bits := 64; signed := false |}.

(** [z] is a value of the type. *)
Definition Value (t : ity) (z : Z) : Prop :=
  if signed t then - 2 ^ (bits t - 1) <= z < 2 ^ (bits t - 1) else 0 <= z < 2 ^ bits t.

(** The type keeps its overflows to itself: signed, and not narrower than [int]. *)
Definition Checked (t : ity) : Prop := signed t = true /\ 32 <= bits t.

(** [v] is what is left of [z] in the type: its value that differs from [z] by a multiple of
    2^bits. *)
Definition Remainder (t : ity) (z v : Z) : Prop := Value t v /\ exists k, z = v + k * 2 ^ bits t.

(** The largest [N] whose factorial is a value of the type. *)
Definition last_factorial (t : ity) : Z :=
  match bits t with
  | 8 => 5
  | 16 => if signed t then 7 else 8
  | 32 => 12
  | _ => 20
  end.
