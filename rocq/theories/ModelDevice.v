(** Several host threads that call [genericKernelWrapper( N, hostData, func, abortOnError )]
    (pmpl.hpp:155-185) at the same time in a CUDA build.  The threads share the device, its
    memory, its queue of kernels and its error state; each has its own host data.

    What the runtime does: a launch only queues the kernel; queued kernels run at any
    time, in any order (which covers one common stream and one stream per thread);
    [cudaDeviceSynchronize] returns when everything that was queued when it was called has been
    done; a kernel that traps breaks the device, and from then on every call fails and
    does nothing.  Simplifications: device pointers are not used again after they are freed; the copies do not
    wait for kernels of other threads (so that the threads have more freedom than in
    reality); every call takes effect at one moment. *)
From Coq Require Import List ZArith Bool.
From Verif Require Import Base.
Import ListNotations.
Open Scope Z_scope.

Section Device.
Context {A : Type}.

(** The arguments of one call, [hostData] excepted. *)
Record call := { size : Z; kernel : list A -> outcome (list A); abortOnError : bool }.

(** Where a thread is: at the call named, with its device pointer, the kernels it waits for and
    the result of the synchronisation. *)
Inductive place : Type :=
| Idle                                   (* pmpl.hpp:161, before the allocation *)
| CopyIn (p : option nat)                (* 162; [None]: the pointer was never set *)
| Launch (p : nat)                       (* 164 *)
| Sync (p : nat)                         (* 166, before *)
| Waiting (p : nat) (ks : list nat)      (* 166, inside *)
| CopyOut (p : nat) (err : bool)         (* 167 *)
| Free (p : nat) (err : bool)            (* 168 *)
| Report (err : bool).                   (* 169-178 *)

(** A thread: its host data, where it is, and its calls (the present one first). *)
Record caller := { data : list A; now : place; todo : list call }.

(** The process: threads, device memory, next pointer, queued kernels with the block each works
    on, error state, threads that have printed a message, and whether the process has aborted. *)
Record system := {
  callers : list caller;
  mem : nat -> option (list A);
  fresh : nat;
  queue : list (nat * (list A -> outcome (list A)));
  broken : bool;
  printed : list nat;
  dead : bool
}.

Fixpoint replace {B} (l : list B) (i : nat) (x : B) : list B :=
  match l, i with
  | [], _ => []
  | _ :: l', O => x :: l'
  | y :: l', S i' => y :: replace l' i' x
  end.
Fixpoint drop {B} (k : nat) (l : list B) : list B :=
  match l, k with
  | [], _ => []
  | _ :: l', O => l'
  | y :: l', S k' => y :: drop k' l'
  end.
Definition set (m : nat -> option (list A)) (p : nat) (x : option (list A)) (q : nat) : option (list A) :=
  if Nat.eqb q p then x else m q.

Definition with_caller (s : system) (i : nat) (c : caller) : system :=
  {| callers := replace (callers s) i c; mem := mem s; fresh := fresh s; queue := queue s; broken := broken s;
     printed := printed s; dead := dead s |}.
Definition with_mem (s : system) (m : nat -> option (list A)) : system :=
  {| callers := callers s; mem := m; fresh := fresh s; queue := queue s; broken := broken s;
     printed := printed s; dead := dead s |}.
Definition with_queue (s : system) (q : list (nat * (list A -> outcome (list A)))) : system :=
  {| callers := callers s; mem := mem s; fresh := fresh s; queue := q; broken := broken s;
     printed := printed s; dead := dead s |}.

(** What a new block holds. *)
Context (garbage : nat -> list A).

(** pmpl.hpp:161 *)
Definition do_malloc (s : system) (i : nat) (c : caller) (k : call) : system :=
  if negb (broken s) && (0 <=? size k) then
    with_caller
      {| callers := callers s; mem := set (mem s) (fresh s) (Some (garbage (fresh s))); fresh := S (fresh s);
         queue := queue s; broken := broken s; printed := printed s; dead := dead s |}
      i {| data := data c; now := CopyIn (Some (fresh s)); todo := todo c |}
  else with_caller s i {| data := data c; now := CopyIn None; todo := todo c |}.

(** pmpl.hpp:162 *)
Definition do_copy_in (s : system) (i : nat) (c : caller) (k : call) (p : option nat) : outcome system :=
  match p with
  | None => UB BadMemory
  | Some p =>
      if Z.of_nat (length (data c)) <? size k then UB OutOfBounds else
      match mem s p with
      | None => UB BadMemory
      | Some _ =>
          let s := if broken s then s else with_mem s (set (mem s) p (Some (firstn (Z.to_nat (size k)) (data c)))) in
          Ok (with_caller s i {| data := data c; now := Launch p; todo := todo c |})
      end
  end.

(** pmpl.hpp:164 *)
Definition do_launch (s : system) (i : nat) (c : caller) (k : call) (p : nat) : system :=
  let s := if broken s then s else with_queue s (queue s ++ [(p, kernel k)]) in
  with_caller s i {| data := data c; now := Sync p; todo := todo c |}.

(** pmpl.hpp:166: notes what is queued ... *)
Definition do_sync (s : system) (i : nat) (c : caller) (p : nat) : system :=
  with_caller s i {| data := data c; now := Waiting p (map fst (queue s)); todo := todo c |}.
(** ... and returns, when none of it is queued any more, whether the device is broken. *)
Definition do_return (s : system) (i : nat) (c : caller) (p : nat) (ks : list nat) : option system :=
  if existsb (fun e => existsb (Nat.eqb (fst e)) ks) (queue s) then None
  else Some (with_caller s i {| data := data c; now := CopyOut p (broken s); todo := todo c |}).

(** pmpl.hpp:167 *)
Definition do_copy_out (s : system) (i : nat) (c : caller) (k : call) (p : nat) (err : bool) : outcome system :=
  match mem s p with
  | None => UB BadMemory
  | Some l =>
      let n := Z.to_nat (size k) in
      let d := if broken s then data c else firstn n l ++ skipn n (data c) in
      Ok (with_caller s i {| data := d; now := Free p err; todo := todo c |})
  end.

(** pmpl.hpp:168 *)
Definition do_free (s : system) (i : nat) (c : caller) (p : nat) (err : bool) : system :=
  let s := if broken s then s else with_mem s (set (mem s) p None) in
  with_caller s i {| data := data c; now := Report err; todo := todo c |}.

(** pmpl.hpp:169-178 *)
Definition do_report (s : system) (i : nat) (c : caller) (k : call) (ks : list call) (err : bool) : system :=
  let s := with_caller s i {| data := data c; now := Idle; todo := ks |} in
  {| callers := callers s; mem := mem s; fresh := fresh s; queue := queue s; broken := broken s;
     printed := if err then printed s ++ [i] else printed s;
     dead := err && abortOnError k |}.

(** Who moves: thread [i], or the device, with the [k]-th queued kernel. *)
Inductive mover : Set := Host (i : nat) | Device (k : nat).

(** [None]: this step is not possible now. *)
Definition step (l : mover) (s : system) : option (outcome system) :=
  if dead s then None else
  match l with
  | Host i =>
      match nth_error (callers s) i with
      | None => None
      | Some c =>
          match todo c with
          | [] => None
          | k :: ks =>
              match now c with
              | Idle => Some (Ok (do_malloc s i c k))
              | CopyIn p => Some (do_copy_in s i c k p)
              | Launch p => Some (Ok (do_launch s i c k p))
              | Sync p => Some (Ok (do_sync s i c p))
              | Waiting p ws => option_map Ok (do_return s i c p ws)
              | CopyOut p err => Some (do_copy_out s i c k p err)
              | Free p err => Some (Ok (do_free s i c p err))
              | Report err => Some (Ok (do_report s i c k ks err))
              end
          end
      end
  | Device k =>
      match nth_error (queue s) k with
      | None => None
      | Some (p, f) =>
          Some (match mem s p with
                | None => UB BadMemory
                | Some l =>
                    match f l with
                    | Ok l' => Ok (with_queue (with_mem s (set (mem s) p (Some l'))) (drop k (queue s)))
                    | Aborted =>
                        Ok {| callers := callers s; mem := mem s; fresh := fresh s; queue := []; broken := true;
                              printed := printed s; dead := dead s |}
                    | UB e => UB e
                    | IllFormed => IllFormed
                    | OutOfFuel => OutOfFuel
                    end
                end)
      end
  end.

(** An execution; [None] if one of its steps is not possible. *)
Fixpoint exec (tr : list mover) (s : system) : option (outcome system) :=
  match tr with
  | [] => Some (Ok s)
  | l :: tr' =>
      match step l s with
      | None => None
      | Some (Ok s') => exec tr' s'
      | Some bad => Some bad
      end
  end.

(** Threads that have made none of their calls, on a sound device. *)
Definition beginning (ts : list (list A * list call)) (m : nat -> option (list A)) (n : nat) : system :=
  {| callers := map (fun t => {| data := fst t; now := Idle; todo := snd t |}) ts; mem := m; fresh := n;
     queue := []; broken := false; printed := []; dead := false |}.
End Device.
Arguments call : clear implicits.
Arguments caller : clear implicits.
Arguments system : clear implicits.
