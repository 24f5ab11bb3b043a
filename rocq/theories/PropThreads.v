(** Threads that share a buffer through CArray objects (property C112). *)
From Coq Require Import List ZArith Bool Lia.
From Verif Require Import Base SpecIndex ModelAssert ModelCArray SpecCArray ModelThreads SpecThreads
  ProofBox ProofCArray ProofThreads.
Import ListNotations.
Open Scope Z_scope.

(** Threads that use one array object, none of which touches an element another one assigns,
    never race, in no order of their steps; a thread that has had all its turns has read what
    it reads on its own and has left its elements as it leaves them on its own.  An element
    nobody assigns, and everything outside the array, keeps its value.  The array is writable
    unless nobody assigns anything. *)
Theorem C112_separate_elements : forall (T : Type) c a (mem : list T) ts R W,
  view_ok (buflen mem) a -> is_writable a = true \/ (forall i t, ~ W i t) -> Apart R W ->
  (forall i b pr, nth_error ts i = Some (b, pr) -> b = a /\ Keeps a (R i) (W i) pr) ->
  forall sched, exists st, run c sched (begin_ mem ts) = Ok st /\
  (forall i b pr, nth_error ts i = Some (b, pr) -> exists m rs k th,
     alone c a pr mem = Ok (m, rs, k) /\ nth_error (threads st) i = Some th /\
     ((k <= turns i sched)%nat -> code th = Stop /\ got th = rs /\
       forall p t, InRange (dims a) t -> path_ok p a -> R i t \/ W i t ->
         fetch c a p t (memory st) = fetch c a p t m)) /\
  (forall p t, InRange (dims a) t -> path_ok p a -> (forall i, (i < length ts)%nat -> ~ W i t) ->
     fetch c a p t (memory st) = fetch c a p t mem) /\
  SameOutside a mem (memory st).
Proof. exact @separate_lemma. Qed.
Print Assumptions C112_separate_elements.

(** ... so the order of the steps makes no difference to the buffer or to what they read. *)
Theorem C112_schedule_independent : forall (T : Type) c a (mem : list T) ts R W,
  view_ok (buflen mem) a -> is_writable a = true \/ (forall i t, ~ W i t) -> Apart R W ->
  (forall i b pr, nth_error ts i = Some (b, pr) -> b = a /\ Keeps a (R i) (W i) pr) ->
  forall s1 s2 st1 st2, Enough c mem ts s1 -> Enough c mem ts s2 ->
  run c s1 (begin_ mem ts) = Ok st1 -> run c s2 (begin_ mem ts) = Ok st2 ->
  memory st1 = memory st2 /\ map got (threads st1) = map got (threads st2).
Proof. exact @independent_lemma. Qed.
Print Assumptions C112_schedule_independent.

(** Threads that each take their own slice of an array with operator[] may do in it what they
    like, in range: they never race, and the other slices keep their values. *)
Theorem C112_slices : forall (T : Type) c a (mem : list T) ts row d ds,
  dims a = d :: ds -> ds <> [] -> view_ok (buflen mem) a -> is_writable a = true ->
  (forall i j, (i < length ts)%nat -> (j < length ts)%nat -> row i = row j -> i = j) ->
  (forall i b pr, nth_error ts i = Some (b, pr) ->
     bracket c (buflen mem) a (row i) = Ok (inl b) /\ 0 <= row i < d /\ Keeps b (fun _ => True) (fun _ => True) pr) ->
  forall sched, exists st, run c sched (begin_ mem ts) = Ok st /\
  (forall i b pr, nth_error ts i = Some (b, pr) -> exists m rs k th,
     alone c b pr mem = Ok (m, rs, k) /\ nth_error (threads st) i = Some th /\
     ((k <= turns i sched)%nat -> code th = Stop /\ got th = rs /\
       forall p t, InRange (dims b) t -> path_ok p b -> fetch c b p t (memory st) = fetch c b p t m)) /\
  (forall p j t, InRange (dims a) (j :: t) -> path_ok p a -> (forall i, (i < length ts)%nat -> row i <> j) ->
     fetch c a p (j :: t) (memory st) = fetch c a p (j :: t) mem) /\
  SameOutside a mem (memory st).
Proof. exact @slices_lemma. Qed.
Print Assumptions C112_slices.

Theorem C112_slices_schedule_independent : forall (T : Type) c a (mem : list T) ts row d ds,
  dims a = d :: ds -> ds <> [] -> view_ok (buflen mem) a -> is_writable a = true ->
  (forall i j, (i < length ts)%nat -> (j < length ts)%nat -> row i = row j -> i = j) ->
  (forall i b pr, nth_error ts i = Some (b, pr) ->
     bracket c (buflen mem) a (row i) = Ok (inl b) /\ 0 <= row i < d /\ Keeps b (fun _ => True) (fun _ => True) pr) ->
  forall s1 s2 st1 st2, Enough c mem ts s1 -> Enough c mem ts s2 ->
  run c s1 (begin_ mem ts) = Ok st1 -> run c s2 (begin_ mem ts) = Ok st2 ->
  memory st1 = memory st2 /\ map got (threads st1) = map got (threads st2).
Proof. exact @slices_independent. Qed.
Print Assumptions C112_slices_schedule_independent.

(** Two threads whose next steps are at one element, one of them an assignment: a data race,
    whichever comes first, and no execution in which both take a turn has defined behaviour. *)
Theorem C112_race : forall (T : Type) c (mem : list T) a ts i j pi pj t wi wj,
  view_ok (buflen mem) a -> is_writable a = true -> i <> j ->
  nth_error ts i = Some (a, pi) -> nth_error ts j = Some (a, pj) ->
  Next a pi t wi -> Next a pj t wj -> wi || wj = true ->
  run c [i; j] (begin_ mem ts) = UB DataRace /\
  forall sched, In i sched -> In j sched -> forall st, run c sched (begin_ mem ts) <> Ok st.
Proof. exact @race_lemma. Qed.
Print Assumptions C112_race.

(** Different tuples are different elements only as long as they are in range: without bounds
    checks, the out-of-range tuple (0,4) of a 2 x 3 array is the element (1,1), and two threads
    that each assign their own tuple race. *)
Theorem C112_distinct_tuples_refuted : exists (ts : list (arr * prog Z)), unchecked (host_runtime false) /\
  ts = [(owning [2; 3], Store {| brackets := 0; last := Paren |} [0; 4] 7 Stop);
        (owning [2; 3], Store {| brackets := 0; last := Paren |} [1; 1] 8 Stop)] /\
  run (host_runtime false) [0%nat; 1%nat] (begin_ [0; 0; 0; 0; 0; 0] ts) = UB DataRace.
Proof. exact unchecked_race. Qed.
Print Assumptions C112_distinct_tuples_refuted.

(** Non-vacuity: three threads on a 3 x 2 array inside a longer buffer.  Thread [i] reads its
    two elements, assigns their sum to the first and twice the sum to the second. *)
Definition ex_path : path := {| brackets := 1; last := Paren |}.
Definition ex_prog (i : Z) : prog Z :=
  Load ex_path [i; 0] (fun x => Load ex_path [i; 1] (fun y =>
  Store ex_path [i; 0] (x + y) (Store ex_path [i; 1] (2 * (x + y)) Stop))).
Definition ex_arr : arr := {| dims := [3; 2]; base := 1; elt_const := false; obj_const := false |}.
Definition ex_mem : list Z := [99; 1; 2; 3; 4; 5; 6; 98].
Definition ex_ts : list (arr * prog Z) := [(ex_arr, ex_prog 0); (ex_arr, ex_prog 1); (ex_arr, ex_prog 2)].

Lemma ex_view : view_ok (buflen ex_mem) ex_arr.
Proof.
  split; [|split; [cbn; lia|vm_compute; discriminate]]. split; [discriminate|]. split; [|vm_compute; discriminate].
  constructor; [lia|]. constructor; [lia|]. constructor.
Qed.

Lemma in2 i j : 0 <= i < 3 -> 0 <= j < 2 -> InRange (dims ex_arr) [i; j].
Proof.
  intros Hi Hj. apply InRange_cons. exists i, [j]. split; [reflexivity|]. split; [exact Hi|].
  apply InRange_cons. exists j, []. split; [reflexivity|]. split; [exact Hj|]. now apply InRange_nil.
Qed.
Lemma ex_keeps i : 0 <= i < 3 -> Keeps ex_arr (fun t => hd 0 t = i) (fun t => hd 0 t = i) (ex_prog i).
Proof.
  intros Hi. assert (P : path_ok ex_path ex_arr) by (unfold path_ok; cbn; lia).
  assert (I0 := in2 i 0 Hi ltac:(lia)). assert (I1 := in2 i 1 Hi ltac:(lia)). cbn [Keeps ex_prog].
  split; [exact I0|]. split; [exact P|]. split; [reflexivity|]. intros x.
  split; [exact I1|]. split; [exact P|]. split; [reflexivity|]. intros y.
  split; [exact I0|]. split; [exact P|]. split; [reflexivity|].
  split; [exact I1|]. split; [exact P|]. split; [reflexivity|exact I].
Qed.

Example C112_hypotheses : view_ok (buflen ex_mem) ex_arr /\ is_writable ex_arr = true /\
  Apart (fun i t => hd 0 t = Z.of_nat i) (fun i t => hd 0 t = Z.of_nat i) /\
  (forall i b pr, nth_error ex_ts i = Some (b, pr) ->
     b = ex_arr /\ Keeps ex_arr (fun t => hd 0 t = Z.of_nat i) (fun t => hd 0 t = Z.of_nat i) pr) /\
  (exists st, run (host_runtime true) [2; 0; 1; 1; 0; 2; 2; 0; 1; 2; 0; 1]%nat (begin_ ex_mem ex_ts) = Ok st /\
     memory st = [99; 3; 6; 7; 14; 11; 22; 98] /\ map got (threads st) = [[1; 2]; [3; 4]; [5; 6]]).
Proof.
  split; [exact ex_view|]. split; [reflexivity|]. split; [|split].
  - intros i j t N H. lia.
  - intros i b pr H. destruct i as [|[|[|i]]]; [| | |destruct i; discriminate H]; injection H as <- <-; (split; [reflexivity|]);
      apply ex_keeps; lia.
  - eexists. split; [vm_compute; reflexivity|]. split; reflexivity.
Qed.

(** The same through slices, the rows in another order. *)
Definition ex_row : prog Z :=
  Load ex_path [0] (fun x => Load ex_path [1] (fun y => Store ex_path [0] (x + y) (Store ex_path [1] (2 * (x + y)) Stop))).
Example C112_slices_hypotheses : exists s0 s2,
  bracket (host_runtime true) (buflen ex_mem) ex_arr 2 = Ok (inl s0) /\ bracket (host_runtime true) (buflen ex_mem) ex_arr 0 = Ok (inl s2) /\
  Keeps s0 (fun _ => True) (fun _ => True) ex_row /\
  (exists st, run (host_runtime true) [1; 0; 0; 1; 0; 1; 1; 0]%nat (begin_ ex_mem [(s0, ex_row); (s2, ex_row)]) = Ok st /\
     memory st = [99; 3; 6; 3; 4; 11; 22; 98]).
Proof.
  eexists _, _. split; [reflexivity|]. split; [reflexivity|]. split.
  - assert (J : forall j, 0 <= j < 2 -> InRange [2] [j]).
    { intros j Hj. apply InRange_cons. exists j, []. split; [reflexivity|]. split; [exact Hj|]. now apply InRange_nil. }
    cbn [Keeps ex_row].
    split; [apply J; lia|]. split; [unfold path_ok; cbn; lia|]. split; [exact I|]. intros x.
    split; [apply J; lia|]. split; [unfold path_ok; cbn; lia|]. split; [exact I|]. intros y.
    split; [apply J; lia|]. split; [unfold path_ok; cbn; lia|]. split; [exact I|].
    split; [apply J; lia|]. split; [unfold path_ok; cbn; lia|]. split; exact I.
  - eexists. split; [vm_compute; reflexivity|reflexivity].
Qed.

(** Two threads that both assign element (1,0). *)
Example C112_race_hypotheses :
  Next ex_arr (Store ex_path [1; 0] 5 Stop) [1; 0] true /\ Next ex_arr (ex_prog 1) [1; 0] false /\
  run (host_runtime true) [0; 1]%nat (begin_ ex_mem [(ex_arr, Store ex_path [1; 0] 5 Stop); (ex_arr, ex_prog 1)]) = UB DataRace.
Proof.
  split; [|split; [|reflexivity]].
  - cbn [Next]. split; [reflexivity|]. split; [apply in2; lia|split; [unfold path_ok; cbn; lia|reflexivity]].
  - cbn [Next ex_prog]. split; [reflexivity|]. split; [apply in2; lia|split; [unfold path_ok; cbn; lia|reflexivity]].
Qed.
