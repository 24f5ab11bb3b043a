(** Vocabulary for the kernel wrappers of pmpl. *)
From Verif Require Import Base ModelPmpl.
Open Scope Z_scope.

(** What the kernel finds in device memory: the first N host elements, or, when that copy
    failed, whatever the failed copy left there. *)
Definition delivered {A} (o : @oracle A) (N : Z) (w : @world A) : list A :=
  match copy_in o with
  | None => firstn (Z.to_nat N) (host w)
  | Some junk => blit (Z.to_nat N) junk (firstn (Z.to_nat N) (garbage o))
  end.

(** The kernel reads and writes only the first N elements behind its pointer. *)
Definition Within {A} (N : Z) (kernel : list A -> outcome (list A)) : Prop :=
  forall l, N <= Z.of_nat (length l) -> exists f,
    kernel (firstn (Z.to_nat N) l) = Ok f /\ length f = Z.to_nat N /\ kernel l = Ok (f ++ skipn (Z.to_nat N) l).

(** The pointers passed to malloc and to free, in order. *)
Fixpoint mallocs (tr : list event) : list nat :=
  match tr with [] => [] | EMalloc p :: tr' => p :: mallocs tr' | _ :: tr' => mallocs tr' end.
Fixpoint frees (tr : list event) : list nat :=
  match tr with [] => [] | EFree p :: tr' => p :: frees tr' | _ :: tr' => frees tr' end.

(** A runtime without failures, a state and a kernel, for the examples. *)
Definition fine : @oracle Z :=
  {| malloc_ok := true; garbage := [7; 7; 7]; copy_in := None; launched := true; trapped := [];
     sync_err := false; copy_out := None; free_ok := true |}.
Definition start : @world Z := {| host := [1; 2; 3; 4]; blocks := [(0%nat, [9])]; fresh := 1; log := [] |}.
(** Doubles the first two elements behind its pointer. *)
Definition doubling (l : list Z) : outcome (list Z) :=
  match l with x :: y :: l' => Ok (2 * x :: 2 * y :: l') | _ => UB OutOfBounds end.


(** [fine] except for one call. *)
Definition failing_copy_in : @oracle Z :=
  {| malloc_ok := true; garbage := [7; 7; 7]; copy_in := Some []; launched := true; trapped := [];
     sync_err := false; copy_out := None; free_ok := true |}.
Definition failing_launch : @oracle Z :=
  {| malloc_ok := true; garbage := [7; 7; 7]; copy_in := None; launched := false; trapped := [];
     sync_err := false; copy_out := None; free_ok := true |}.
Definition failing_copy_out : @oracle Z :=
  {| malloc_ok := true; garbage := [7; 7; 7]; copy_in := None; launched := true; trapped := [];
     sync_err := false; copy_out := Some []; free_ok := true |}.
