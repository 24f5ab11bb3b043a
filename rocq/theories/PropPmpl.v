(** Properties C51, C53, C54 and C64: the portability layer. *)
From Verif Require Import Base Num ModelPmpl SpecPmpl ProofPmpl.
From Coq Require Import Reals QArith.
Open Scope Z_scope.

(** C51. *)
Theorem C51_check : forall a b tol : R,
  check RNum a b tol = true <-> (Rabs (a - b) < Rabs tol)%R.
Proof. exact check_lemma. Qed.
Print Assumptions C51_check.

Theorem C51_check_symmetric : forall a b tol : R,
  check RNum a b tol = check RNum b a tol /\ check RNum a b (- tol)%R = check RNum a b tol.
Proof. exact check_sym_lemma. Qed.
Print Assumptions C51_check_symmetric.

Theorem C51_check_zero_tolerance : forall a b : R, check RNum a b 0%R = false.
Proof. exact check_zero_lemma. Qed.
Print Assumptions C51_check_zero_tolerance.

Example C51_witness :
  check QNum 1%Q (9 # 10)%Q (1 # 5)%Q = true /\ check QNum 1%Q (9 # 10)%Q (1 # 10)%Q = false /\
  check QNum 1%Q 1%Q 0%Q = false.
Proof. repeat split; reflexivity. Qed.

(** C53.  Host build: the kernel runs once, on the host data itself. *)
Theorem C53_host : forall (A : Type) o N kernel a (w : @world A) h, kernel (host w) = Ok h ->
  exists w', genericKernelWrapper_data NoDevice o N kernel a w = Ok (Returned, w') /\ host w' = h /\
    blocks w' = blocks w /\ log w' = log w ++ [ELaunch].
Proof. exact @host_lemma. Qed.
Print Assumptions C53_host.

(** Device build, no runtime failure. *)
Theorem C53_device : forall (A : Type) o N kernel a (w : @world A) l', no_failure o ->
  0 <= N <= Z.of_nat (length (host w)) ->
  kernel (firstn (Z.to_nat N) (host w)) = Ok l' -> length l' = Z.to_nat N ->
  exists w', genericKernelWrapper_data Cuda o N kernel a w = Ok (Returned, w') /\
    host w' = l' ++ skipn (Z.to_nat N) (host w) /\ blocks w' = blocks w /\
    log w' = log w ++ [EMalloc (fresh w); ECopyIn (fresh w); ELaunch; ESync; ECopyOut (fresh w); EFree (fresh w)].
Proof. exact @device_success_lemma. Qed.
Print Assumptions C53_device.

(** Any history of calls: host and device builds end with the same host data. *)
Theorem C53_host_device_agree : forall (A : Type)
  (calls : list (@oracle A * Z * (list A -> outcome (list A)) * bool)) w,
  Forall (fun '(o, N, kernel, _) => no_failure o /\ 0 <= N <= Z.of_nat (length (host w)) /\ Within N kernel) calls ->
  exists wd wh, run_all Cuda calls w = Ok (Returned, wd) /\ run_all NoDevice calls w = Ok (Returned, wh) /\
    host wd = host wh /\ blocks wd = blocks w.
Proof. exact @history_lemma. Qed.
Print Assumptions C53_host_device_agree.

(** The closure-only wrapper: once on the host; on a device once if started, reported and
    aborted as in C54. *)
Theorem C53_closure_wrapper : forall (S : Type) b la se (tr : S) kernel a s, b <> Hip ->
  (b = NoDevice -> forall s', kernel s = Ok s' ->
     genericKernelWrapper_plain b la se tr kernel a s = Ok (Returned, true, false, s')) /\
  (b = Cuda -> (exists s', kernel s = Ok s') \/ kernel s = Aborted ->
     exists e err s', genericKernelWrapper_plain b la se tr kernel a s = Ok (e, la, err, s') /\
       (err = true <-> se = true \/ la = true /\ kernel s = Aborted) /\
       (e = ProcessAborted <-> err = true /\ a = true) /\
       (la = true -> forall t, kernel s = Ok t -> s' = t)).
Proof. exact @plain_lemma. Qed.
Print Assumptions C53_closure_wrapper.

(** The host-to-device copy names a CUDA constant: no HIP build. *)
Theorem C53_hip_does_not_compile : forall (A : Type) o N kernel a (w : @world A),
  genericKernelWrapper_data Hip o N kernel a w = IllFormed.
Proof. exact (fun _ _ _ _ _ _ => eq_refl). Qed.
Print Assumptions C53_hip_does_not_compile.

Example C53_witness : no_failure fine /\ Within 2 doubling /\
  genericKernelWrapper_data Cuda fine 2 doubling true start =
  Ok (Returned, {| host := [2; 4; 3; 4]; blocks := [(0%nat, [9])]; fresh := 2;
    log := [EMalloc 1; ECopyIn 1; ELaunch; ESync; ECopyOut 1; EFree 1] |}).
Proof.
  split; [repeat split|]. split; [exact doubling_within|reflexivity].
Qed.

(** C54.  Whatever fails after a successful allocation: which calls are made, when the error is
    reported and when the process aborts; host elements from the N-th on are never touched. *)
Theorem C54_failures : forall (A : Type) o N kernel a (w : @world A), malloc_ok o = true ->
  0 <= N <= Z.of_nat (length (host w)) ->
  (exists l', kernel (delivered o N w) = Ok l') \/ kernel (delivered o N w) = Aborted ->
  exists (e : ending) (w' : @world A) (err : bool),
    genericKernelWrapper_data Cuda o N kernel a w = Ok (e, w') /\
    log w' = log w ++ [EMalloc (fresh w); ECopyIn (fresh w)] ++ (if launched o then [ELaunch] else []) ++
               [ESync; ECopyOut (fresh w); EFree (fresh w)] ++ (if err then [EPrint] else []) /\
    (err = true <-> sync_err o = true \/ (launched o = true /\ kernel (delivered o N w) = Aborted)) /\
    (e = ProcessAborted <-> err = true /\ a = true) /\
    (free_ok o = true -> blocks w' = blocks w) /\
    skipn (Z.to_nat N) (host w') = skipn (Z.to_nat N) (host w) /\ length (host w') = length (host w) /\
    fresh w' = S (fresh w) /\
    (no_failure o -> forall l', kernel (firstn (Z.to_nat N) (host w)) = Ok l' -> length l' = Z.to_nat N ->
       host w' = l' ++ skipn (Z.to_nat N) (host w)).
Proof. exact @device_lemma. Qed.
Print Assumptions C54_failures.

(** Over any history of calls that stays defined, each allocation is freed exactly once, in
    allocation order; nothing is left allocated unless a free itself failed. *)
Theorem C54_every_allocation_freed_once : forall (A : Type)
  (calls : list (@oracle A * Z * (list A -> outcome (list A)) * bool)) (w : @world A) e w',
  run_all Cuda calls w = Ok (e, w') ->
  exists tr ps, log w' = log w ++ tr /\ mallocs tr = ps /\ frees tr = ps /\ NoDup ps /\
    (forall p, In p ps -> (fresh w <= p)%nat) /\
    (Forall (fun '(o, _, _, _) => free_ok o = true) calls -> blocks w' = blocks w).
Proof. exact @balanced_lemma. Qed.
Print Assumptions C54_every_allocation_freed_once.

(** "Whatever runtime calls fail" is false: a failed allocation is never noticed and the
    uninitialised pointer is used. *)
Theorem C54_allocation_failure_undefined : forall (A : Type) o N kernel a (w : @world A),
  malloc_ok o = false \/ N < 0 -> genericKernelWrapper_data Cuda o N kernel a w = UB BadMemory.
Proof. exact @malloc_failure_lemma. Qed.
Print Assumptions C54_allocation_failure_undefined.

(** Failed copies and launches go unreported: the call returns normally, prints nothing, and the
    host data is not what the kernel computes. *)
Theorem C54_failures_reported_refuted : forall o, In o [failing_copy_in; failing_launch; failing_copy_out] ->
  exists w', genericKernelWrapper_data Cuda o 2 doubling true start = Ok (Returned, w') /\
    ~ In EPrint (log w') /\ doubling (host start) = Ok [2; 4; 3; 4] /\ host w' <> [2; 4; 3; 4].
Proof. exact silent_lemma. Qed.
Print Assumptions C54_failures_reported_refuted.

Example C54_witness :
  genericKernelWrapper_data Cuda
    {| malloc_ok := true; garbage := [7; 7; 7]; copy_in := None; launched := true; trapped := [5; 5];
       sync_err := false; copy_out := Some [8]; free_ok := false |} 2 (fun _ => Aborted) true start =
  Ok (ProcessAborted, {| host := [8; 2; 3; 4]; blocks := [(1%nat, [5; 5]); (0%nat, [9])]; fresh := 2;
    log := [EMalloc 1; ECopyIn 1; ELaunch; ESync; ECopyOut 1; EFree 1; EPrint] |}).
Proof. reflexivity. Qed.

(** C64. *)
Theorem C64_deallocateData : forall p heap, NoDup heap -> In p heap ->
  (forall b, b <> Hip -> exists heap', deallocateData b (Some p) heap = Ok heap' /\ ~ In p heap' /\
     (forall q, q <> p -> (In q heap' <-> In q heap)) /\ deallocateData b None heap = Ok heap) /\
  (heap' <- deallocateData NoDevice (Some p) heap ;; deallocateData NoDevice (Some p) heap') = UB BadMemory /\
  (exists heap', (heap' <- deallocateData Cuda (Some p) heap ;; deallocateData Cuda (Some p) heap') = Ok heap' /\
     deallocateData Cuda (Some p) heap = Ok heap').
Proof. exact deallocate_lemma. Qed.
Print Assumptions C64_deallocateData.

Example C64_witness : deallocateData NoDevice (Some 2%nat) [1; 2; 3]%nat = Ok [1; 3]%nat.
Proof. reflexivity. Qed.
