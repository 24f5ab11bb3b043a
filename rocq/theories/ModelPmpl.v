(** Model of include/shiva/common/pmpl.hpp: [check], the kernel wrappers and
    [deallocateData].

    The device runtime is a parameter: an [oracle] says, call by call, what the
    runtime does, including failures.  Nothing is assumed about failures: a failed copy
    or a kernel that trapped may leave anything in the memory it was writing. *)
From Verif Require Import Base Num.
Open Scope Z_scope.

(** pmpl.hpp:71-75, [check( a, b, tolerance )]. *)
Definition check (F : Num) (a b tolerance : T F) : bool :=
  nlt F (nmul F (nsub F a b) (nsub F a b)) (nmul F tolerance tolerance).

(** pmpl.hpp:30-52: no device, SHIVA_ENABLE_CUDA or SHIVA_ENABLE_HIP. *)
Inductive backend : Set := NoDevice | Cuda | Hip.

Section Wrapper.
Context {A : Type}.

(** Calls of the wrapper observable from outside. *)
Inductive event : Type :=
| EMalloc (p : nat) | ECopyIn (p : nat) | ELaunch | ESync | ECopyOut (p : nat) | EFree (p : nat) | EPrint.

(** Host data, live device blocks, next fresh device pointer, and the calls made so far. *)
Record world := {
  host : list A;
  blocks : list (nat * list A);
  fresh : nat;
  log : list event
}.

(** What the device runtime does during one call of the wrapper.  [None] is success,
    [Some l]: the call failed and left [l] in the destination. *)
Record oracle := {
  malloc_ok : bool;
  garbage   : list A;            (* contents of the new block *)
  copy_in   : option (list A);
  launched  : bool;              (* the kernel is started *)
  trapped   : list A;            (* contents left by a kernel that trapped *)
  sync_err  : bool;              (* deviceDeviceSynchronize() <> deviceSuccess *)
  copy_out  : option (list A);
  free_ok   : bool
}.
Definition no_failure (o : oracle) : Prop :=
  malloc_ok o = true /\ copy_in o = None /\ launched o = true /\ sync_err o = false /\
  copy_out o = None /\ free_ok o = true.

(** Overwrites the first elements of [dst] by at most [n] elements of [src]. *)
Definition blit (n : nat) (src dst : list A) : list A :=
  firstn n src ++ skipn (length (firstn n src)) dst.

Definition tick (e : event) (w : world) : world :=
  {| host := host w; blocks := blocks w; fresh := fresh w; log := log w ++ [e] |}.
Definition set_host (h : list A) (w : world) : world :=
  {| host := h; blocks := blocks w; fresh := fresh w; log := log w |}.
Definition set_blocks (b : list (nat * list A)) (w : world) : world :=
  {| host := host w; blocks := b; fresh := fresh w; log := log w |}.

Fixpoint lookup (p : nat) (b : list (nat * list A)) : option (list A) :=
  match b with
  | [] => None
  | (q, l) :: b' => if Nat.eqb p q then Some l else lookup p b'
  end.
Fixpoint store (p : nat) (l : list A) (b : list (nat * list A)) : list (nat * list A) :=
  match b with
  | [] => []
  | (q, l') :: b' => if Nat.eqb p q then (q, l) :: b' else (q, l') :: store p l b'
  end.
Fixpoint remove (p : nat) (b : list (nat * list A)) : list (nat * list A) :=
  match b with
  | [] => []
  | (q, l') :: b' => if Nat.eqb p q then b' else (q, l') :: remove p b'
  end.
Definition block (p : nat) (w : world) : outcome (list A) :=
  match lookup p (blocks w) with Some l => Ok l | None => UB BadMemory end.

(** How a call of the wrapper ends. *)
Inductive ending : Set := Returned | ProcessAborted.

(** pmpl.hpp:161: [deviceMalloc( &deviceData, N * sizeof(DATA_TYPE) )].  The result of the
    call is ignored; on failure [deviceData] stays uninitialised, which is [None] here.
    For negative [N] the byte count wraps to nearly 2^64, which no device can allocate. *)
Definition device_malloc (o : oracle) (N : Z) (w : world) : option nat * world :=
  if malloc_ok o && (0 <=? N) then
    let p := fresh w in
    let l := firstn (Z.to_nat N) (garbage o) in
    (Some p, tick (EMalloc p) {| host := host w; blocks := (p, l) :: blocks w; fresh := S p; log := log w |})
  else (None, w).

(** pmpl.hpp:162: [deviceMemCpy( deviceData, hostData, ... )], result ignored. *)
Definition copy_to_device (o : oracle) (N : Z) (p : nat) (w : world) : outcome world :=
  if Z.of_nat (length (host w)) <? N then UB OutOfBounds else
  l <- block p w ;;
  let l' := match copy_in o with
            | None => firstn (Z.to_nat N) (host w)
            | Some junk => blit (Z.to_nat N) junk l
            end in
  Ok (tick (ECopyIn p) (set_blocks (store p l' (blocks w)) w)).

(** pmpl.hpp:164-166 (with 136-140): the launch and the synchronisation.  A kernel that traps
    makes the synchronisation fail. *)
Definition launch_and_sync (o : oracle) (kernel : list A -> outcome (list A)) (p : nat) (w : world)
  : outcome (bool * world) :=
  l <- block p w ;;
  '(err, l') <- (if launched o then
                   match kernel l with
                   | Ok l' => Ok (sync_err o, l')
                   | Aborted => Ok (true, trapped o)
                   | UB f => UB f
                   | IllFormed => IllFormed
                   | OutOfFuel => OutOfFuel
                   end
                 else Ok (sync_err o, l)) ;;
  let w := set_blocks (store p l' (blocks w)) w in
  Ok (err, tick ESync (if launched o then tick ELaunch w else w)).

(** pmpl.hpp:167: [deviceMemCpy( hostData, deviceData, ... )], result ignored. *)
Definition copy_to_host (o : oracle) (N : Z) (p : nat) (w : world) : outcome world :=
  l <- block p w ;;
  let h := match copy_out o with
           | None => blit (Z.to_nat N) l (host w)
           | Some junk => blit (Z.to_nat N) junk (host w)
           end in
  Ok (tick (ECopyOut p) (set_host h w)).

(** pmpl.hpp:168: [deviceFree( deviceData )], result ignored; a failing call releases nothing. *)
Definition device_free (o : oracle) (p : nat) (w : world) : world :=
  tick (EFree p) (if free_ok o then set_blocks (remove p (blocks w)) w else w).

(** pmpl.hpp:169-178. *)
Definition report (err abortOnError : bool) (w : world) : ending * world :=
  if err then
    let w := tick EPrint w in
    if abortOnError then (ProcessAborted, w) else (Returned, w)
  else (Returned, w).

(** pmpl.hpp:155-185, [genericKernelWrapper( N, hostData, func, abortOnError )].
    [kernel] is [func]: it maps the memory behind its pointer argument to the memory
    afterwards.  Line 162 names [cudaMemcpyHostToDevice], which does not exist in a HIP
    build: the header does not compile there.  On the host the kernel gets the pointer to
    the host data itself. *)
Definition genericKernelWrapper_data (b : backend) (o : oracle) (N : Z)
  (kernel : list A -> outcome (list A)) (abortOnError : bool) (w : world) : outcome (ending * world) :=
  match b with
  | NoDevice =>
      h <- kernel (host w) ;; Ok (Returned, tick ELaunch (set_host h w))
  | Hip => IllFormed
  | Cuda =>
      let '(deviceData, w) := device_malloc o N w in
      match deviceData with
      | None => UB BadMemory
      | Some p =>
          w <- copy_to_device o N p w ;;
          '(err, w) <- launch_and_sync o kernel p w ;;
          w <- copy_to_host o N p w ;;
          let w := device_free o p w in
          Ok (report err abortOnError w)
      end
  end.

(** A history of calls of the wrapper, one oracle per call; it stops when the process aborts. *)
Fixpoint run_all (b : backend) (calls : list (oracle * Z * (list A -> outcome (list A)) * bool)) (w : world)
  : outcome (ending * world) :=
  match calls with
  | [] => Ok (Returned, w)
  | (o, N, kernel, a) :: calls' =>
      '(e, w) <- genericKernelWrapper_data b o N kernel a w ;;
      match e with
      | Returned => run_all b calls' w
      | ProcessAborted => Ok (ProcessAborted, w)
      end
  end.
End Wrapper.

(** pmpl.hpp:99-122 (with 84-88), [genericKernelWrapper( func, abortOnError )].  [kernel] acts on
    the memory [S] reachable from the closure; [launched] and [sync_err] as above.  The boolean
    of the result is true if the kernel ran, the next one if a message was printed. *)
Definition genericKernelWrapper_plain {S : Type} (b : backend) (launched sync_err : bool) (trapped : S)
  (kernel : S -> outcome S) (abortOnError : bool) (s : S) : outcome (ending * bool * bool * S) :=
  match b with
  | NoDevice => s <- kernel s ;; Ok (Returned, true, false, s)
  | Hip => IllFormed
  | Cuda =>
      '(err, s) <- (if launched then
                      match kernel s with
                      | Ok s' => Ok (sync_err, s')
                      | Aborted => Ok (true, trapped)
                      | UB f => UB f
                      | IllFormed => IllFormed
                      | OutOfFuel => OutOfFuel
                      end
                    else Ok (sync_err, s)) ;;
      Ok (if err && abortOnError then ProcessAborted else Returned, launched, err, s)
  end.

(** pmpl.hpp:192-200, [deallocateData( data )]: [delete[]] on the host, [deviceFree] (result
    ignored) on a device.  [heap] lists the live blocks of the respective allocator; [None]
    is the null pointer.  Freeing a device pointer that is not live is an error the function
    does not look at; deleting one on the host is undefined behaviour. *)
Definition deallocateData (b : backend) (data : option nat) (heap : list nat) : outcome (list nat) :=
  match b, data with
  | Hip, _ => IllFormed
  | _, None => Ok heap
  | NoDevice, Some p => if in_dec Nat.eq_dec p heap then Ok (List.remove Nat.eq_dec p heap) else UB BadMemory
  | Cuda, Some p => Ok (List.remove Nat.eq_dec p heap)
  end.
