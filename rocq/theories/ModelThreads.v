(** Several threads that use one buffer through CArray objects (CArray.hpp:139-159, 112-131 and
    194-251, by [access] of ModelCArray).  CArray has no synchronisation of its own, so neither have the threads:
    two accesses of one element by two threads, at least one of them an assignment, are a
    data race ([intro.races]/21), which is undefined behaviour.

    Simplification: an access of an element is one step; in an execution without data races,
    the only kind that has defined behaviour, its duration cannot be observed. *)
From Coq Require Import List ZArith Bool.
From Verif Require Import Base ModelAssert ModelCArray.
Import ListNotations.
Open Scope Z_scope.

(** What a thread does with the arrays: any program that assigns elements and reads elements,
    going on as it likes with the value it has read. *)
Inductive prog (T : Type) : Type :=
| Stop
| Store (p : path) (idx : list Z) (x : T) (k : prog T)
| Load (p : path) (idx : list Z) (k : T -> prog T).
Arguments Stop {T}. Arguments Store {T}. Arguments Load {T}.

(** A thread: the array object it uses, what it has still to do, and the values it has read. *)
Record thread (T : Type) := { view : arr; code : prog T; got : list T }.
Arguments view {T}. Arguments code {T}. Arguments got {T}.

(** The buffer, the threads, and the accesses so far: thread, position, assignment or not. *)
Record machine (T : Type) := { memory : list T; threads : list (thread T); past : list (nat * Z * bool) }.
Arguments memory {T}. Arguments threads {T}. Arguments past {T}.

(** Whether an access of position [z] by thread [i] conflicts with one of another thread. *)
Definition conflicts (i : nat) (z : Z) (write : bool) (l : list (nat * Z * bool)) : bool :=
  existsb (fun '(j, z', write') => negb (Nat.eqb i j) && (z =? z') && (write || write')) l.

Fixpoint replace {A} (l : list A) (i : nat) (x : A) : list A :=
  match l, i with
  | [], _ => []
  | _ :: l', O => x :: l'
  | y :: l', S i' => y :: replace l' i' x
  end.

(** Thread [i] takes a turn. *)
Definition turn {T} (c : ctx) (st : machine T) (i : nat) : outcome (machine T) :=
  match nth_error (threads st) i with
  | None => Ok st
  | Some th =>
      match code th with
      | Stop => Ok st
      | Store p idx x k =>
          lv <- access c (buflen (memory st)) (view th) p idx ;;
          if conflicts i (addr lv) true (past st) then UB DataRace else
          m <- assign (memory st) lv x ;;
          Ok {| memory := m; threads := replace (threads st) i {| view := view th; code := k; got := got th |};
                past := past st ++ [(i, addr lv, true)] |}
      | Load p idx k =>
          lv <- access c (buflen (memory st)) (view th) p idx ;;
          if conflicts i (addr lv) false (past st) then UB DataRace else
          v <- load (memory st) lv ;;
          Ok {| memory := memory st; threads := replace (threads st) i {| view := view th; code := k v; got := got th ++ [v] |};
                past := past st ++ [(i, addr lv, false)] |}
      end
  end.

(** The threads take turns as the schedule says. *)
Fixpoint run {T} (c : ctx) (sched : list nat) (st : machine T) : outcome (machine T) :=
  match sched with
  | [] => Ok st
  | i :: sched' => st <- turn c st i ;; run c sched' st
  end.

(** Threads that have not begun. *)
Definition begin_ {T} (mem : list T) (ts : list (arr * prog T)) : machine T :=
  {| memory := mem; threads := map (fun t => {| view := fst t; code := snd t; got := [] |}) ts; past := [] |}.

(** The same program on its own: the buffer it leaves, the values it reads and the number of
    its accesses. *)
Fixpoint alone {T} (c : ctx) (a : arr) (pr : prog T) (mem : list T) : outcome (list T * list T * nat) :=
  match pr with
  | Stop => Ok (mem, [], O)
  | Store p idx x k =>
      mem <- put c a p idx x mem ;;
      '(m, rs, n) <- alone c a k mem ;; Ok (m, rs, S n)
  | Load p idx k =>
      v <- fetch c a p idx mem ;;
      '(m, rs, n) <- alone c a (k v) mem ;; Ok (m, v :: rs, S n)
  end.
