(** Concurrent calls of the kernel wrapper (property C113). *)
From Coq Require Import List ZArith Lia.
From Verif Require Import Base ModelDevice SpecDevice ProofDevice.
From Verif Require ModelPmpl.
Import ListNotations.
Open Scope Z_scope.

(** Threads that call the wrapper at the same time, with kernels that do not fail: in every
    execution nothing is undefined and nothing is reported; a thread that has returned from
    its calls has in its data what the calls make of them one after the other; when all
    have returned, the device memory is as it was. *)
Theorem C113_concurrent_calls : forall (A : Type) (garbage : nat -> list A) ts m n ends,
  Unused m n -> (forall i d ks, nth_error ts i = Some (d, ks) -> Serial d ks (ends i)) ->
  forall tr r, exec garbage tr (beginning ts m n) = Some r ->
  exists s, r = Ok s /\ printed s = [] /\ dead s = false /\
    (forall i c, nth_error (callers s) i = Some c -> Finished c -> data c = ends i) /\
    ((forall c, In c (callers s) -> Finished c) -> forall p, mem s p = m p).
Proof. exact @concurrent_lemma. Qed.
Print Assumptions C113_concurrent_calls.

(** No deadlock: as long as a thread has not returned from its calls, a step is possible ... *)
Theorem C113_no_deadlock : forall (A : Type) (garbage : nat -> list A) ts m n ends,
  Unused m n -> (forall i d ks, nth_error ts i = Some (d, ks) -> Serial d ks (ends i)) ->
  forall tr s, exec garbage tr (beginning ts m n) = Some (Ok s) ->
  (forall c, In c (callers s) -> Finished c) \/ exists l s', step garbage l s = Some (Ok s').
Proof. exact @progress_lemma. Qed.
Print Assumptions C113_no_deadlock.

(** ... and no execution goes on for ever, whatever the kernels do: there are at most nine steps
    to a call. *)
Theorem C113_terminates : forall (A : Type) (garbage : nat -> list A) ts m n tr s,
  exec garbage tr (beginning ts m n) = Some (Ok s) -> (length tr <= 9 * calls ts)%nat.
Proof. exact @terminates_lemma. Qed.
Print Assumptions C113_terminates.

(** So every execution goes on until all have returned. *)
Theorem C113_completes : forall (A : Type) (garbage : nat -> list A) ts m n ends,
  Unused m n -> (forall i d ks, nth_error ts i = Some (d, ks) -> Serial d ks (ends i)) ->
  forall tr s, exec garbage tr (beginning ts m n) = Some (Ok s) ->
  exists tr' s', exec garbage (tr ++ tr') (beginning ts m n) = Some (Ok s') /\ forall c, In c (callers s') -> Finished c.
Proof. exact @completes_lemma. Qed.
Print Assumptions C113_completes.

(** "One after the other" is what the wrapper of C53 does. *)
Theorem C113_as_alone : forall (A : Type) (o : @ModelPmpl.oracle A) d ks e,
  ModelPmpl.no_failure o -> Serial d ks e -> forall w, ModelPmpl.host w = d ->
  exists w', ModelPmpl.run_all ModelPmpl.Cuda (map (fun k => (o, size k, kernel k, abortOnError k)) ks) w =
      Ok (ModelPmpl.Returned, w') /\ ModelPmpl.host w' = e /\ ModelPmpl.blocks w' = ModelPmpl.blocks w.
Proof. exact @serial_wrapper. Qed.
Print Assumptions C113_as_alone.

(** A thread whose own kernel traps is told so, whatever the other threads and their kernels do. *)
Theorem C113_own_failure_reported : forall (A : Type) (garbage : nat -> list A) ts m n i d k,
  nth_error ts i = Some (d, [k]) -> 0 <= size k <= Z.of_nat (length d) ->
  kernel k (firstn (Z.to_nat (size k)) d) = Aborted ->
  forall tr s c, exec garbage tr (beginning ts m n) = Some (Ok s) ->
  nth_error (callers s) i = Some c -> Finished c -> In i (printed s).
Proof. exact @own_trap_lemma. Qed.
Print Assumptions C113_own_failure_reported.

(** The process is aborted only on behalf of a thread that was told of a failure and whose calls asked for it, and
    then it is. *)
Theorem C113_abort_only_if_asked : forall (A : Type) (garbage : nat -> list A) ts m n tr s,
  exec garbage tr (beginning ts m n) = Some (Ok s) ->
  (dead s = true -> exists i d ks k, nth_error ts i = Some (d, ks) /\ In k ks /\ abortOnError k = true /\ In i (printed s)) /\
  (forall i d ks, In i (printed s) -> nth_error ts i = Some (d, ks) -> (forall k, In k ks -> abortOnError k = true) -> dead s = true).
Proof. exact @abort_lemma. Qed.
Print Assumptions C113_abort_only_if_asked.

(** But failures are not kept apart.  A thread whose kernel succeeded is told that it failed, and
    the process is aborted on its behalf, because the kernel of another thread trapped ... *)
Theorem C113_only_own_failures_refuted : exists tr s c,
  exec zeros tr (beginning (two true) nothing 0) = Some (Ok s) /\
  dead s = true /\ printed s = [1%nat] /\ nth_error (callers s) 1 = Some c /\ data c = [7] /\
  Serial [7] [doubles true] [14].
Proof. exact innocent_aborted. Qed.
Print Assumptions C113_only_own_failures_refuted.

(** ... or it returns normally, with nothing reported, and the result is lost: the other kernel
    trapped between its synchronisation and its copy, whose error is ignored ... *)
Theorem C113_results_delivered_refuted : exists tr s c,
  exec zeros tr (beginning (two true) nothing 0) = Some (Ok s) /\
  dead s = false /\ printed s = [] /\ nth_error (callers s) 1 = Some c /\ Finished c /\ data c = [7] /\
  Serial [7] [doubles true] [14].
Proof. exact silent_loss. Qed.
Print Assumptions C113_results_delivered_refuted.

(** ... or it uses a pointer that was never set. *)
Theorem C113_defined_refuted : exists tr, exec zeros tr (beginning (two false) nothing 0) = Some (UB BadMemory).
Proof. exact undefined_after_trap. Qed.
Print Assumptions C113_defined_refuted.

(** Non-vacuity: two threads, one with two calls, beside a block that was there before. *)
Definition ex_ts : list (list Z * list (call Z)) := [([1; 2], [doubles true; doubles false]); ([7], [doubles true])].
Definition ex_mem (p : nat) : option (list Z) := if Nat.eqb p 3 then Some [9; 9] else None.
Example C113_hypotheses : Unused ex_mem 4 /\
  (forall i d ks, nth_error ex_ts i = Some (d, ks) -> Serial d ks (nth i [[4; 2]; [14]] [])) /\
  (exists tr s, exec zeros tr (beginning ex_ts ex_mem 4) = Some (Ok s) /\ map data (callers s) = [[4; 2]; [14]] /\
     map todo (callers s) = [[]; []] /\ mem s 3%nat = Some [9; 9]).
Proof.
  split; [|split].
  - intros p H. unfold ex_mem. destruct (Nat.eqb_spec p 3); [lia|reflexivity].
  - intros i d ks H. destruct i as [|[|i]]; [| |destruct i; discriminate H]; injection H as <- <-; cbn [nth].
    + eapply Serial_cons with (l := [2]); [cbn; lia|reflexivity|reflexivity|].
      eapply Serial_cons with (l := [4]); [cbn; lia|reflexivity|reflexivity|]. apply Serial_nil.
    + eapply Serial_cons with (l := [14]); [cbn; lia|reflexivity|reflexivity|]. apply Serial_nil.
  - exists [Host 0; Host 1; Host 1; Host 0; Host 0; Host 1; Host 1; Host 0; Device 1; Device 0; Host 0; Host 1; Host 1; Host 0; Host 0; Host 1; Host 1;
      Host 0; Host 0; Host 0; Host 0; Host 0; Device 0; Host 0; Host 0; Host 0; Host 0].
    eexists. split; [vm_compute; reflexivity|]. split; [reflexivity|]. split; reflexivity.
Qed.
