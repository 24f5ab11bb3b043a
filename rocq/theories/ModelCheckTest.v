(** The tests testCppCheck and testClangTidy, /repo/cmake/Macros.cmake lines 54-66:

      bash -c "make TARGET 2> >(tee ERR) >/dev/null && exit $(cat ERR | wc -l)"

    The shell starts tee, runs make and, when make succeeds, reads ERR.  It waits for make but not
    for tee (bash manual, "Process Substitution": the process runs asynchronously), so make, tee
    and the shell are three processes with a pipe between make and tee.

    Simplifications.  make ends: it writes the pieces of text [err] to its error output and then
    exits with [status].  cat reads the file at one moment.  Without the file cat writes nothing
    and wc prints 0. *)
From Coq Require Import Bool Ascii String ZArith List.
From Verif Require Import ModelPython.
Import ListNotations.
Open Scope Z_scope.

(** wc -l counts the newline characters. *)
Fixpoint newlines (s : str) : Z :=
  match s with
  | [] => 0
  | c :: r => (if Ascii.eqb c nl then 1 else 0) + newlines r
  end.
(** exit N: the status is N modulo 256. *)
Definition exit_code (n : Z) : Z := n mod 256.

Inductive shell := WaitsForMake | Counts | Exits (status : Z).
Record state := {
  pending : list str;     (* what make has still to write *)
  pipe : str;             (* written by make, not yet read by tee *)
  teeing : bool;          (* tee has opened the file *)
  file : option str;      (* contents of ERR *)
  sh_at : shell }.

(** When the test starts; [old] is what an earlier run has left in ERR. *)
Definition start (err : list str) (old : option str) : state :=
  {| pending := err; pipe := []; teeing := false; file := old; sh_at := WaitsForMake |}.

Inductive step (status : Z) : state -> state -> Prop :=
| make_writes a l p t f : step status
    {| pending := a :: l; pipe := p; teeing := t; file := f; sh_at := WaitsForMake |}
    {| pending := l; pipe := p ++ a; teeing := t; file := f; sh_at := WaitsForMake |}
| make_exits p t f : step status
    {| pending := []; pipe := p; teeing := t; file := f; sh_at := WaitsForMake |}
    {| pending := []; pipe := p; teeing := t; file := f; sh_at := if status =? 0 then Counts else Exits status |}
| tee_opens l p f s : step status
    {| pending := l; pipe := p; teeing := false; file := f; sh_at := s |}
    {| pending := l; pipe := p; teeing := true; file := Some []; sh_at := s |}
| tee_copies l a b f s : a <> [] -> step status
    {| pending := l; pipe := a ++ b; teeing := true; file := Some f; sh_at := s |}
    {| pending := l; pipe := b; teeing := true; file := Some (f ++ a); sh_at := s |}
| shell_counts l p t f : step status
    {| pending := l; pipe := p; teeing := t; file := f; sh_at := Counts |}
    {| pending := l; pipe := p; teeing := t; file := f;
       sh_at := Exits (exit_code (newlines (match f with Some u => u | None => [] end))) |}.

Inductive steps (status : Z) : state -> state -> Prop :=
| steps_none s : steps status s s
| steps_more s t u : step status s t -> steps status t u -> steps status s u.
