(** Vocabulary for threads that share a buffer. *)
From Coq Require Import List ZArith.
From Verif Require Import Base SpecIndex ModelAssert ModelCArray SpecCArray ModelThreads.
Import ListNotations.
Open Scope Z_scope.

(** Whatever it reads, the program reads only tuples in [R] and assigns only tuples in [W],
    all in range of [a]. *)
Fixpoint Keeps {T} (a : arr) (R W : list Z -> Prop) (pr : prog T) : Prop :=
  match pr with
  | Stop => True
  | Store p idx _ k => InRange (dims a) idx /\ path_ok p a /\ W idx /\ Keeps a R W k
  | Load p idx k => InRange (dims a) idx /\ path_ok p a /\ R idx /\ forall v, Keeps a R W (k v)
  end.

(** No thread touches what another one assigns. *)
Definition Apart (R W : nat -> list Z -> Prop) : Prop :=
  forall i j t, i <> j -> W i t -> ~ R j t /\ ~ W j t.

(** Number of turns of thread [i] in a schedule. *)
Definition turns (i : nat) (sched : list nat) : nat := count_occ Nat.eq_dec sched i.

(** Every thread gets all the turns it needs. *)
Definition Enough {T} (c : ctx) (mem : list T) (ts : list (arr * prog T)) (sched : list nat) : Prop :=
  forall i a pr m rs k, nth_error ts i = Some (a, pr) -> alone c a pr mem = Ok (m, rs, k) -> (k <= turns i sched)%nat.

(** The next thing the program does is to read or ([w]) assign the tuple [t]. *)
Definition Next {T} (a : arr) (pr : prog T) (t : list Z) (w : bool) : Prop :=
  match pr with
  | Stop => False
  | Store p idx _ _ => idx = t /\ InRange (dims a) idx /\ path_ok p a /\ w = true
  | Load p idx _ => idx = t /\ InRange (dims a) idx /\ path_ok p a /\ w = false
  end.
