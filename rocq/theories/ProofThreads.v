(** Proofs about threads that share a buffer. *)
From Coq Require Import List ZArith Bool Lia.
From Verif Require Import Base SpecIndex ModelAssert ModelCArray SpecCArray ModelThreads SpecThreads
  ProofBase ProofBox ProofIndex ProofCArray.
Import ListNotations.
Open Scope Z_scope.

Lemma replace_length {A} (l : list A) i x : length (replace l i x) = length l.
Proof. revert i; induction l as [|y l IH]; intros [|i]; cbn; auto. Qed.
Lemma nth_replace_eq {A} (l : list A) i x : (i < length l)%nat -> nth_error (replace l i x) i = Some x.
Proof. revert i; induction l as [|y l IH]; intros [|i] H; cbn in *; try lia; [reflexivity|]. apply IH. lia. Qed.
Lemma nth_replace_neq {A} (l : list A) i j x : i <> j -> nth_error (replace l i x) j = nth_error l j.
Proof. revert i j; induction l as [|y l IH]; intros [|i] [|j] H; cbn; try reflexivity; [congruence|]. apply IH. congruence. Qed.

Lemma nth_error_same {A} (l : list A) : forall l', (forall i, nth_error l i = nth_error l' i) -> l = l'.
Proof.
  induction l as [|x l IH]; intros [|y l'] H; [reflexivity|discriminate (H O)|discriminate (H O)|].
  pose proof (H O) as H0. injection H0 as ->. f_equal. apply IH. intros i. exact (H (S i)).
Qed.

Section Positions.
Context {T : Type} (c : ctx) (mem0 : list T) (ts : list (arr * prog T)).
(** What each thread may read and assign, by position. *)
Context (R W : nat -> Z -> Prop).
Context (APART : forall i j z, i <> j -> W i z -> ~ R j z /\ ~ W j z).
Notation n := (buflen mem0).

Fixpoint PosKeeps (a : arr) (R W : Z -> Prop) (pr : prog T) : Prop :=
  match pr with
  | Stop => True
  | Store p idx _ k => exists z, 0 <= z < n /\ access c n a p idx = Ok {| addr := z; writable := true |} /\ W z /\ PosKeeps a R W k
  | Load p idx k => exists z w, 0 <= z < n /\ access c n a p idx = Ok {| addr := z; writable := w |} /\ R z /\ forall v, PosKeeps a R W (k v)
  end.
Context (KEEPS : forall i a pr, nth_error ts i = Some (a, pr) -> PosKeeps a (R i) (W i) pr).

Definition prefix (g : list T) (s : nat) (o : outcome (list T * list T * nat)) : outcome (list T * list T * nat) :=
  '(m, rs, k) <- o ;; Ok (m, g ++ rs, (s + k)%nat).

Lemma alone_ok a Ri Wi pr : PosKeeps a Ri Wi pr -> forall m, length m = length mem0 ->
  exists m' rs k, alone c a pr m = Ok (m', rs, k) /\ length m' = length mem0 /\ (k = O -> pr = Stop) /\
    (forall z, ~ Wi (Z.of_nat z) -> nth_error m' z = nth_error m z).
Proof.
  induction pr as [|p idx x k IH|p idx k IH]; cbn [PosKeeps alone]; intros H m L.
  - exists m, [], O. repeat split; auto.
  - destruct H as (z & Z & A & HW & H). unfold put, buflen in *. rewrite L, A. cbn [bind]. unfold assign. cbn [writable addr].
    rewrite wr_ok by lia. cbn [bind]. destruct (IH H (upd m (Z.to_nat z) x)) as (m' & rs & k' & E & L' & _ & U).
    { now rewrite upd_length. }
    rewrite E. cbn [bind]. exists m', rs, (S k'). repeat split; auto; [discriminate|].
    intros y Hy. rewrite (U y Hy). destruct (Nat.eq_dec y (Z.to_nat z)) as [->|N].
    + exfalso. apply Hy. rewrite Z2Nat.id by lia. exact HW.
    + apply nth_error_upd_neq. congruence.
  - destruct H as (z & w & Z & A & HR & H). unfold fetch, buflen in *. rewrite L, A. cbn [bind]. unfold load. cbn [addr].
    destruct (rd_ok m z) as (v & E); [lia|]. rewrite E. cbn [bind].
    destruct (IH v (H v) m L) as (m' & rs & k' & E' & L' & _ & U). rewrite E'. cbn [bind].
    exists m', (v :: rs), (S k'). repeat split; auto. discriminate.
Qed.

Record TInv (cnt : nat) (mem : list T) (i : nat) (a : arr) (pr0 : prog T) (th : thread T) (m : list T) (s : nat) : Prop := {
  t_view : view th = a;
  t_keeps : PosKeeps a (R i) (W i) (code th);
  t_len : length m = length mem0;
  t_alone : alone c a pr0 mem0 = prefix (got th) s (alone c a (code th) m);
  t_mem : forall z, R i (Z.of_nat z) \/ W i (Z.of_nat z) -> nth_error mem z = nth_error m z;
  t_other : forall z, ~ W i (Z.of_nat z) -> nth_error m z = nth_error mem0 z;
  t_cnt : code th = Stop \/ s = cnt
}.

Record Inv (cnt : nat -> nat) (st : machine T) : Prop := {
  i_len : length (memory st) = length mem0;
  i_thr : length (threads st) = length ts;
  i_rest : forall z, (forall i, ~ In (i, Z.of_nat z, true) (past st)) -> nth_error (memory st) z = nth_error mem0 z;
  i_past : forall j z b, In (j, z, b) (past st) -> (j < length ts)%nat /\ if b then W j z else R j z;
  i_each : forall i a pr, nth_error ts i = Some (a, pr) -> exists th m s,
    nth_error (threads st) i = Some th /\ TInv (cnt i) (memory st) i a pr th m s
}.

Definition bump (cnt : nat -> nat) (i j : nat) : nat := if Nat.eq_dec j i then S (cnt j) else cnt j.

Lemma no_conflict cnt st i z (b : bool) : Inv cnt st -> (if b then W i z else R i z) -> conflicts i z b (past st) = false.
Proof.
  intros I H. unfold conflicts. destruct (existsb _ _) eqn:E; [|reflexivity]. exfalso.
  apply existsb_exists in E as (((j, z'), b') & P & E). apply andb_prop in E as (E & B). apply andb_prop in E as (N & E).
  apply Z.eqb_eq in E. subst z'. apply negb_true_iff, Nat.eqb_neq in N. pose proof (i_past _ _ I _ _ _ P) as (_ & Q).
  destruct b; cbn in H.
  - destruct (APART i j z N H) as (NR & NW). destruct b'; cbn in Q; auto.
  - destruct b'; [|discriminate B]. cbn in Q. destruct (APART j i z) as (NR & _); [congruence|exact Q|]. auto.
Qed.

Lemma begin_inv : Inv (fun _ => O) (begin_ mem0 ts).
Proof.
  constructor; cbn [begin_ memory threads past]; auto.
  - now rewrite map_length.
  - intros j z b [].
  - intros i a pr H. exists {| view := a; code := pr; got := [] |}, mem0, O. split.
    + rewrite nth_error_map, H. reflexivity.
    + constructor; cbn [view code got]; auto. unfold prefix. cbn [app]. destruct (alone c a pr mem0) as [((m, rs), k)| | | |]; reflexivity.
Qed.


Lemma turn_inv cnt st i : Inv cnt st -> exists st', turn c st i = Ok st' /\ Inv (bump cnt i) st'.
Proof.
  intros I. unfold turn. destruct (nth_error (threads st) i) as [th|] eqn:Eth.
  2:{ exists st. split; [reflexivity|]. constructor; try apply I. intros j a pr Hj. destruct (i_each _ _ I j a pr Hj) as (th & m & s & E & TI).
      exists th, m, s. split; [exact E|]. unfold bump. destruct (Nat.eq_dec j i) as [->|]; [congruence|exact TI]. }
  assert (Li : (i < length ts)%nat). { rewrite <- (i_thr _ _ I). apply nth_error_Some. congruence. }
  destruct (nth_error ts i) as [(a, pr)|] eqn:Ets. 2:{ apply nth_error_None in Ets. lia. }
  destruct (i_each _ _ I i a pr Ets) as (th' & m & s & E & TI). rewrite Eth in E. injection E as <-.
  assert (OTHERS : forall mem' th2, (forall j, j <> i -> forall z, R j (Z.of_nat z) \/ W j (Z.of_nat z) -> nth_error mem' z = nth_error (memory st) z) ->
    forall j a' pr', j <> i -> nth_error ts j = Some (a', pr') -> exists th m s,
      nth_error (replace (threads st) i th2) j = Some th /\ TInv (bump cnt i j) mem' j a' pr' th m s).
  { intros mem' th2 HM j a' pr' N Hj. destruct (i_each _ _ I j a' pr' Hj) as (thj & mj & sj & Ej & TJ). exists thj, mj, sj. split.
    - rewrite nth_replace_neq by congruence. exact Ej.
    - unfold bump. destruct (Nat.eq_dec j i); [congruence|]. destruct TJ. constructor; auto. intros z Hz. rewrite (HM j N z Hz). auto. }
  pose proof TI as TI0. destruct TI as [Tv Tk Tl Ta Tm To Tc].
  destruct (code th) as [|p idx x k|p idx k] eqn:Ec.
  - exists st. split; [reflexivity|]. constructor; try apply I. intros j a' pr' Hj. destruct (i_each _ _ I j a' pr' Hj) as (thj & mj & sj & Ej & TJ).
    exists thj, mj, sj. split; [exact Ej|]. unfold bump. destruct (Nat.eq_dec j i) as [->|]; [|exact TJ].
    destruct TJ. constructor; auto. left. rewrite Eth in Ej. injection Ej as <-. exact Ec.
  - cbn [PosKeeps] in Tk. destruct Tk as (z & Z & A & HW & K). unfold buflen in *. rewrite (i_len _ _ I), Tv, A. cbn [bind addr].
    rewrite (no_conflict cnt st i z true I HW). unfold assign. cbn [writable addr]. rewrite wr_ok by (rewrite (i_len _ _ I); lia). cbn [bind].
    eexists. split; [reflexivity|].
    assert (NZ : forall y, ~ W i (Z.of_nat y) -> y <> Z.to_nat z).
    { intros y Hy ->. apply Hy. rewrite Z2Nat.id by lia. exact HW. }
    constructor; cbn [memory threads past].
    + rewrite upd_length. apply I.
    + rewrite replace_length. apply I.
    + intros y Hy. rewrite nth_error_upd_neq; [apply (i_rest _ _ I y)|].
      * intros j Hj. apply (Hy j), in_or_app. left. exact Hj.
      * intros Q. subst y. apply (Hy i), in_or_app. right. left. rewrite Z2Nat.id by lia. reflexivity.
    + intros j y b Hp. apply in_app_or in Hp as [Hp|[Hp|[]]]; [apply (i_past _ _ I _ _ _ Hp)|]. injection Hp as <- <- <-. split; [exact Li|exact HW].
    + intros j a' pr' Hj. destruct (Nat.eq_dec j i) as [->|N].
      * rewrite Ets in Hj. injection Hj as <- <-. exists {| view := a; code := k; got := got th |}, (upd m (Z.to_nat z) x), (S s).
        split; [apply nth_replace_eq; rewrite (i_thr _ _ I); exact Li|]. constructor; cbn [view code got]; auto.
        -- now rewrite upd_length.
        -- rewrite Ta. cbn [alone]. unfold put, buflen. rewrite Tl, A. cbn [bind]. unfold assign. cbn [writable addr]. rewrite wr_ok by lia. cbn [bind].
           unfold prefix. destruct (alone c a k (upd m (Z.to_nat z) x)) as [((m', rs), q)| | | |]; cbn [bind]; try reflexivity. do 2 f_equal. lia.
        -- intros y Hy. destruct (Nat.eq_dec (Z.to_nat z) y) as [<-|Ny].
           ++ rewrite !nth_error_upd_eq; [reflexivity|lia|rewrite (i_len _ _ I); lia].
           ++ rewrite !nth_error_upd_neq by exact Ny. auto.
        -- intros y Hy. rewrite nth_error_upd_neq; [auto|]. apply not_eq_sym, NZ, Hy.
        -- right. unfold bump. destruct (Nat.eq_dec i i); [|congruence]. destruct Tc as [Tc|Tc]; [discriminate Tc|congruence].
      * apply OTHERS; auto. intros j' N' y Hy. apply nth_error_upd_neq. intros Q. subst y. rewrite Z2Nat.id in Hy by lia.
        destruct (APART i j' z (not_eq_sym N') HW). destruct Hy; auto.
  - cbn [PosKeeps] in Tk. destruct Tk as (z & w & Z & A & HR & K). unfold buflen in *. rewrite (i_len _ _ I), Tv, A. cbn [bind addr].
    rewrite (no_conflict cnt st i z false I HR). unfold load. cbn [addr].
    destruct (rd_ok (memory st) z) as (v & Ev); [rewrite (i_len _ _ I); lia|]. rewrite Ev. cbn [bind].
    eexists. split; [reflexivity|].
    assert (Em : rd m z = Ok v).
    { destruct (rd_ok m z) as (v' & Ev'); [lia|]. rewrite Ev'. apply rd_inv in Ev, Ev'. destruct Ev as (_ & Ev), Ev' as (_ & Ev').
      rewrite Tm in Ev by (left; rewrite Z2Nat.id by lia; exact HR). congruence. }
    constructor; cbn [memory threads past]; try apply I.
    + rewrite replace_length. apply I.
    + intros y Hy. apply (i_rest _ _ I y). intros j Hj. apply (Hy j), in_or_app. left. exact Hj.
    + intros j y b Hp. apply in_app_or in Hp as [Hp|[Hp|[]]]; [apply (i_past _ _ I _ _ _ Hp)|]. injection Hp as <- <- <-. split; [exact Li|exact HR].
    + intros j a' pr' Hj. destruct (Nat.eq_dec j i) as [->|N]; [|apply OTHERS; auto].
      rewrite Ets in Hj. injection Hj as <- <-. exists {| view := a; code := k v; got := got th ++ [v] |}, m, (S s).
      split; [apply nth_replace_eq; rewrite (i_thr _ _ I); exact Li|]. constructor; cbn [view code got]; auto.
      * rewrite Ta. cbn [alone]. unfold fetch, buflen. rewrite Tl, A. cbn [bind]. unfold load. cbn [addr]. rewrite Em. cbn [bind].
        unfold prefix. destruct (alone c a (k v) m) as [((m', rs), q)| | | |]; cbn [bind]; try reflexivity. rewrite <- app_assoc. do 2 f_equal. lia.
      * right. unfold bump. destruct (Nat.eq_dec i i); [|congruence]. destruct Tc as [Tc|Tc]; [discriminate Tc|congruence].
Qed.

Lemma run_inv sched : forall cnt st, Inv cnt st -> exists st', run c sched st = Ok st' /\ Inv (fun j => (cnt j + turns j sched)%nat) st'.
Proof.
  induction sched as [|i sched IH]; intros cnt st I; cbn [run].
  - exists st. split; [reflexivity|]. constructor; try apply I. intros j a pr Hj. destruct (i_each _ _ I j a pr Hj) as (th & m & s & E & TI).
    exists th, m, s. split; [exact E|]. cbn. rewrite Nat.add_0_r. exact TI.
  - destruct (turn_inv cnt st i I) as (st1 & E & I1). rewrite E. cbn [bind]. destruct (IH _ _ I1) as (st2 & E2 & I2). exists st2. split; [exact E2|].
    constructor; try apply I2. intros j a pr Hj. destruct (i_each _ _ I2 j a pr Hj) as (th & m & s & E' & TI). exists th, m, s. split; [exact E'|].
    replace (cnt j + turns j (i :: sched))%nat with (bump cnt i j + turns j sched)%nat; [exact TI|].
    unfold bump, turns. cbn. destruct (Nat.eq_dec j i) as [->|N]; [destruct (Nat.eq_dec i i); [lia|congruence]|destruct (Nat.eq_dec i j); [congruence|lia]].
Qed.

(** The result at the level of positions. *)
Definition PosResult (sched : list nat) (st : machine T) : Prop :=
  length (memory st) = length mem0 /\ length (threads st) = length ts /\
  (forall z, (forall i, (i < length ts)%nat -> ~ W i (Z.of_nat z)) -> nth_error (memory st) z = nth_error mem0 z) /\
  (forall z, (exists i, (i < length ts)%nat /\ W i (Z.of_nat z)) \/ nth_error (memory st) z = nth_error mem0 z) /\
  (forall i a pr, nth_error ts i = Some (a, pr) -> exists m rs k th, alone c a pr mem0 = Ok (m, rs, k) /\ length m = length mem0 /\
     nth_error (threads st) i = Some th /\ view th = a /\ ((k <= turns i sched)%nat -> code th = Stop /\ got th = rs /\
       forall z, R i (Z.of_nat z) \/ W i (Z.of_nat z) -> nth_error (memory st) z = nth_error m z)).

Lemma positions_lemma sched : exists st, run c sched (begin_ mem0 ts) = Ok st /\ PosResult sched st.
Proof.
  destruct (run_inv sched _ _ begin_inv) as (st & E & I). exists st. split; [exact E|]. split; [apply I|]. split; [apply I|]. split; [|split].
  - intros z Hz. apply (i_rest _ _ I). intros i Hp. destruct (i_past _ _ I _ _ _ Hp) as (L & HW). exact (Hz i L HW).
  - intros z. destruct (existsb (fun '(j, y, b) => (y =? Z.of_nat z) && b) (past st)) eqn:X.
    + left. apply existsb_exists in X as (((j, y), b) & P & X). apply andb_prop in X as (X & ->). apply Z.eqb_eq in X. subst y.
      exists j. apply (i_past _ _ I _ _ _ P).
    + right. apply (i_rest _ _ I). intros i Hp. enough (true = false) by discriminate. rewrite <- X. symmetry. apply existsb_exists.
      exists (i, Z.of_nat z, true). split; [exact Hp|]. now rewrite Z.eqb_refl.
  - intros i a pr Hi. destruct (i_each _ _ I i a pr Hi) as (th & m & s & Et & TI). destruct TI as [Tv Tk Tl Ta Tm To Tc].
  destruct (alone_ok a (R i) (W i) (code th) Tk m Tl) as (m' & rs & k & E' & L' & K & U). rewrite E' in Ta. cbn in Ta.
  exists m', (got th ++ rs), (s + k)%nat, th. split; [exact Ta|]. split; [exact L'|]. split; [exact Et|]. split; [exact Tv|]. intros Q.
  assert (S0 : code th = Stop). { destruct Tc as [Tc|Tc]; [exact Tc|]. apply K. lia. }
  rewrite S0 in E'. cbn in E'. injection E' as <- <- <-. rewrite app_nil_r. auto.
Qed.
End Positions.

(** Schedules do not matter. *)
Lemma pos_independent {T} c (mem : list T) ts R W s1 s2 st1 st2 :
  Enough c mem ts s1 -> Enough c mem ts s2 -> PosResult c mem ts R W s1 st1 -> PosResult c mem ts R W s2 st2 ->
  memory st1 = memory st2 /\ map got (threads st1) = map got (threads st2).
Proof.
  intros E1 E2 (L1 & T1 & U1 & X1 & A1) (L2 & T2 & U2 & X2 & A2).
  assert (OWN : forall z, (exists i, (i < length ts)%nat /\ W i (Z.of_nat z)) -> nth_error (memory st1) z = nth_error (memory st2) z).
  { intros z (i & Li & HW). destruct (nth_error ts i) as [(a, pr)|] eqn:Hi; [|apply nth_error_None in Hi; lia].
    destruct (A1 i a pr Hi) as (m & rs & k & th & Ea & _ & _ & _ & G). destruct (A2 i a pr Hi) as (m' & rs' & k' & th' & Ea' & _ & _ & _ & G').
    destruct (G (E1 _ _ _ _ _ _ Hi Ea)) as (_ & _ & Q). destruct (G' (E2 _ _ _ _ _ _ Hi Ea')) as (_ & _ & Q').
    rewrite Q, Q' by auto. congruence. }
  split.
  - apply nth_error_same. intros z. destruct (X1 z) as [H|H]; [auto|]. destruct (X2 z) as [H'|H']; [auto|]. congruence.
  - apply nth_error_same. intros i. rewrite !nth_error_map. destruct (nth_error ts i) as [(a, pr)|] eqn:Hi.
    + destruct (A1 i a pr Hi) as (m & rs & k & th & Ea & _ & H & _ & G). destruct (A2 i a pr Hi) as (m' & rs' & k' & th' & Ea' & _ & H' & _ & G').
      rewrite H, H'. cbn. destruct (G (E1 _ _ _ _ _ _ Hi Ea)) as (_ & -> & _). destruct (G' (E2 _ _ _ _ _ _ Hi Ea')) as (_ & -> & _). congruence.
    + apply nth_error_None in Hi. assert (N1 : nth_error (threads st1) i = None) by (apply nth_error_None; lia).
      assert (N2 : nth_error (threads st2) i = None) by (apply nth_error_None; lia). now rewrite N1, N2.
Qed.

(** One array, sets of tuples. *)
Definition at_pos (a : arr) (X : nat -> list Z -> Prop) (i : nat) (z : Z) : Prop :=
  exists t, InRange (dims a) t /\ X i t /\ z = base a + flat_offset (dims a) t.

Lemma at_pos_apart a R W n : view_ok n a -> Apart R W -> forall i j z, i <> j -> at_pos a W i z -> ~ at_pos a R j z /\ ~ at_pos a W j z.
Proof.
  intros V A i j z N (t & It & Wt & ->). split; intros (u & Iu & Xu & E).
  - assert (t = u) by (apply (rowmajor_inj (dims a)); auto; lia). subst u. destruct (A i j t N Wt). auto.
  - assert (t = u) by (apply (rowmajor_inj (dims a)); auto; lia). subst u. destruct (A i j t N Wt). auto.
Qed.

Lemma keeps_pos {T} c (mem : list T) a R W i pr : view_ok (buflen mem) a -> is_writable a = true \/ (forall t, ~ W i t) ->
  Keeps a (R i) (W i) pr -> PosKeeps c mem a (at_pos a R i) (at_pos a W i) pr.
Proof.
  intros V HW. induction pr as [|p idx x k IH|p idx k IH]; cbn [Keeps PosKeeps]; auto.
  - intros (In & P & Wt & K). exists (base a + flat_offset (dims a) idx). pose proof (rowmajor_bounds _ _ In). pose proof V as (Vd & Vb & Vn). split; [lia|].
    split. { rewrite access_ok by assumption. destruct HW as [->|HW]; [reflexivity|]. destruct (HW _ Wt). }
    split; [exists idx; auto|auto].
  - intros (In & P & Rt & K). exists (base a + flat_offset (dims a) idx), (is_writable a). pose proof (rowmajor_bounds _ _ In). pose proof V as (Vd & Vb & Vn).
    split; [lia|]. split; [now apply access_ok|]. split; [exists idx; auto|]. intros v. apply IH, K.
Qed.

Lemma fetch_same {T} c a p t (m1 m2 : list T) : length m1 = length m2 -> view_ok (buflen m1) a -> InRange (dims a) t -> path_ok p a ->
  nth_error m1 (Z.to_nat (base a + flat_offset (dims a) t)) = nth_error m2 (Z.to_nat (base a + flat_offset (dims a) t)) ->
  fetch c a p t m1 = fetch c a p t m2.
Proof.
  intros L V I P E. destruct (fetch_ok c a p t m1 V I P) as (x & -> & E1). assert (V2 : view_ok (buflen m2) a) by (unfold buflen in *; now rewrite <- L).
  destruct (fetch_ok c a p t m2 V2 I P) as (y & -> & E2). congruence.
Qed.

Section OneArray.
Context {T : Type} (c : ctx) (a : arr) (mem : list T) (ts : list (arr * prog T)) (R W : nat -> list Z -> Prop).
Context (V : view_ok (buflen mem) a) (HW : is_writable a = true \/ forall i t, ~ W i t) (AP : Apart R W).
Context (K : forall i b pr, nth_error ts i = Some (b, pr) -> b = a /\ Keeps a (R i) (W i) pr).

Lemma one_array_pos sched : exists st, run c sched (begin_ mem ts) = Ok st /\ PosResult c mem ts (at_pos a R) (at_pos a W) sched st.
Proof.
  apply positions_lemma; [exact (at_pos_apart a R W _ V AP)|]. intros i b pr Hi. destruct (K i b pr Hi) as (-> & Kp).
  apply keeps_pos; auto. destruct HW as [H|H]; [left; exact H|right; apply H].
Qed.

Lemma separate_lemma sched : exists st, run c sched (begin_ mem ts) = Ok st /\
  (forall i b pr, nth_error ts i = Some (b, pr) -> exists m rs k th, alone c a pr mem = Ok (m, rs, k) /\ nth_error (threads st) i = Some th /\
     ((k <= turns i sched)%nat -> code th = Stop /\ got th = rs /\
       forall p t, InRange (dims a) t -> path_ok p a -> R i t \/ W i t -> fetch c a p t (memory st) = fetch c a p t m)) /\
  (forall p t, InRange (dims a) t -> path_ok p a -> (forall i, (i < length ts)%nat -> ~ W i t) -> fetch c a p t (memory st) = fetch c a p t mem) /\
  SameOutside a mem (memory st).
Proof.
  destruct (one_array_pos sched) as (st & E & L & _ & U & _ & A). exists st. split; [exact E|]. split; [|split; [|split; [exact L|]]].
  - intros i b pr Hi. destruct (K i b pr Hi) as (-> & Kp). destruct (A i a pr Hi) as (m & rs & k & th & Ea & Lm & Et & _ & G).
    exists m, rs, k, th. split; [exact Ea|]. split; [exact Et|]. intros Q. destruct (G Q) as (C & Gt & M). split; [exact C|]. split; [exact Gt|].
    intros p t It P RW. pose proof (rowmajor_bounds _ _ It). pose proof V as (Vd & Vb & Vn). apply fetch_same; auto; [congruence| |].
    + unfold buflen. rewrite L. exact V.
    + apply M. rewrite Z2Nat.id by lia. destruct RW as [H'|H']; [left|right]; exists t; auto.
  - intros p t It P N. pose proof (rowmajor_bounds _ _ It). pose proof V as (Vd & Vb & Vn). apply fetch_same; auto.
    + unfold buflen. rewrite L. exact V.
    + apply U. intros i Li (u & Iu & Wu & Eu). rewrite Z2Nat.id in Eu by lia. assert (t = u) by (apply (rowmajor_inj (dims a)); auto; lia). subst u.
      exact (N i Li Wu).
  - intros z O. apply U. intros i Li (u & Iu & Wu & Eu). pose proof (rowmajor_bounds _ _ Iu). unfold outside in O. lia.
Qed.

Lemma independent_lemma s1 s2 st1 st2 : Enough c mem ts s1 -> Enough c mem ts s2 ->
  run c s1 (begin_ mem ts) = Ok st1 -> run c s2 (begin_ mem ts) = Ok st2 ->
  memory st1 = memory st2 /\ map got (threads st1) = map got (threads st2).
Proof.
  intros E1 E2 R1 R2. destruct (one_array_pos s1) as (x1 & Q1 & P1). destruct (one_array_pos s2) as (x2 & Q2 & P2).
  assert (x1 = st1) by congruence. assert (x2 = st2) by congruence. subst x1 x2. exact (pos_independent _ _ _ _ _ _ _ _ _ E1 E2 P1 P2).
Qed.
End OneArray.

(** Slices. *)
Section Slices.
Context {T : Type} (c : ctx) (a : arr) (mem : list T) (ts : list (arr * prog T)) (row : nat -> Z).
Context (d : Z) (ds : list Z) (ED : dims a = d :: ds) (ND : ds <> []).
Context (V : view_ok (buflen mem) a) (HW : is_writable a = true).
Context (ROW : forall i j, (i < length ts)%nat -> (j < length ts)%nat -> row i = row j -> i = j).
Context (K : forall i b pr, nth_error ts i = Some (b, pr) ->
  bracket c (buflen mem) a (row i) = Ok (inl b) /\ 0 <= row i < d /\ Keeps b (fun _ => True) (fun _ => True) pr).

Definition in_row (i : nat) (z : Z) : Prop :=
  (i < length ts)%nat /\ base a + row i * prodZ (tl (dims a)) <= z < base a + (row i + 1) * prodZ (tl (dims a)).

Lemma row_apart i j z : i <> j -> in_row i z -> ~ in_row j z /\ ~ in_row j z.
Proof.
  intros N H. enough (~ in_row j z) by auto. intros H'. apply N. destruct H as (Li & H), H' as (Lj & H'). apply (ROW i j Li Lj).
  destruct V as ((_ & P & _) & _). rewrite ED in *. cbn [tl] in *.
  assert (0 < prodZ ds). { apply prodZ_pos. inversion P. assumption. }
  destruct (Z.lt_trichotomy (row i) (row j)) as [Q|[Q|Q]]; [nia|exact Q|nia].
Qed.

Lemma row_view i b pr : nth_error ts i = Some (b, pr) -> b = slice a (row i) /\ view_ok (buflen mem) b /\ is_writable b = true /\
  0 <= row i < d /\ (i < length ts)%nat.
Proof.
  intros Hi. destruct (K i b pr Hi) as (B & I & _). destruct ds as [|e ds'] eqn:E0; [congruence|].
  rewrite (bracket_slice c _ a (row i) d e ds' V ED I) in B. injection B as <-. split; [reflexivity|]. split; [eapply slice_ok; eauto|].
  split; [rewrite slice_writable; exact HW|]. split; [exact I|]. apply nth_error_Some. congruence.
Qed.

Lemma slices_keeps i b pr : nth_error ts i = Some (b, pr) -> PosKeeps c mem b (in_row i) (in_row i) pr.
Proof.
  intros Hi. destruct (row_view i b pr Hi) as (Eb & Vb & Wb & Id & Li). destruct (K i b pr Hi) as (_ & _ & Kp).
  assert (PO : forall idx, InRange (dims b) idx -> 0 <= base b + flat_offset (dims b) idx < buflen mem /\ in_row i (base b + flat_offset (dims b) idx)).
  { intros idx Iidx. pose proof (rowmajor_bounds _ _ Iidx) as Bd. pose proof Vb as (_ & Hb & Hn). split; [lia|].
    unfold in_row. split; [exact Li|]. rewrite Eb in *. unfold slice in *. cbn [base dims] in *. lia. }
  clear Hi. induction pr as [|p idx x k IH|p idx k IH]; cbn [Keeps PosKeeps] in *; auto.
  - destruct Kp as (I & P & _ & Kp). destruct (PO idx I). eexists. split; [eassumption|]. split; [|auto]. rewrite access_ok by assumption. now rewrite Wb.
  - destruct Kp as (I & P & _ & Kp). destruct (PO idx I). eexists _, _. split; [eassumption|]. split; [apply access_ok; assumption|]. auto.
Qed.

Lemma slices_pos sched : exists st, run c sched (begin_ mem ts) = Ok st /\ PosResult c mem ts in_row in_row sched st.
Proof. apply positions_lemma; [exact row_apart|exact slices_keeps]. Qed.

Lemma slices_lemma sched : exists st, run c sched (begin_ mem ts) = Ok st /\
  (forall i b pr, nth_error ts i = Some (b, pr) -> exists m rs k th, alone c b pr mem = Ok (m, rs, k) /\ nth_error (threads st) i = Some th /\
     ((k <= turns i sched)%nat -> code th = Stop /\ got th = rs /\
       forall p t, InRange (dims b) t -> path_ok p b -> fetch c b p t (memory st) = fetch c b p t m)) /\
  (forall p j t, InRange (dims a) (j :: t) -> path_ok p a -> (forall i, (i < length ts)%nat -> row i <> j) ->
     fetch c a p (j :: t) (memory st) = fetch c a p (j :: t) mem) /\
  SameOutside a mem (memory st).
Proof.
  destruct (slices_pos sched) as (st & E & L & _ & U & _ & A). exists st. split; [exact E|]. split; [|split; [|split; [exact L|]]].
  - intros i b pr Hi. destruct (row_view i b pr Hi) as (Eb & Vb & Wb & Id & Li). destruct (A i b pr Hi) as (m & rs & k & th & Ea & Lm & Et & _ & G).
    exists m, rs, k, th. split; [exact Ea|]. split; [exact Et|]. intros Q. destruct (G Q) as (C & Gt & M). split; [exact C|]. split; [exact Gt|].
    intros p t It P. pose proof (rowmajor_bounds _ _ It) as Bd. pose proof Vb as (_ & Hb & Hn). apply fetch_same; auto; [congruence| |].
    + unfold buflen. rewrite L. exact Vb.
    + apply M. rewrite Z2Nat.id by lia. left. unfold in_row. split; [exact Li|]. rewrite Eb in *. unfold slice in *. cbn [base dims] in *. lia.
  - intros p j t It P N. pose proof (rowmajor_bounds _ _ It) as Bd. pose proof V as (Vd & Vb & Vn). apply fetch_same; auto.
    + unfold buflen. rewrite L. exact V.
    + apply U. intros i Li HR. apply (N i Li). rewrite Z2Nat.id in HR by lia. destruct HR as (_ & HR). rewrite ED in *.
      apply InRange_cons in It as (x & t' & Ex & Ix & It'). injection Ex as <- <-. pose proof (rowmajor_bounds _ _ It') as Bt. cbn [tl] in HR.
      change (flat_offset (d :: ds) (j :: t)) with (j * prodZ ds + flat_offset ds t) in *.
      destruct (Z.lt_trichotomy (row i) j) as [Q|[Q|Q]]; [nia|exact Q|nia].
  - intros z O. apply U. intros i Li HR. destruct (nth_error ts i) as [(b, pr)|] eqn:Hi; [|apply nth_error_None in Hi; lia].
    destruct (row_view i b pr Hi) as (_ & _ & _ & Id & _). destruct HR as (_ & HR). unfold outside in O. rewrite ED in *. rewrite prodZ_cons in O.
    destruct V as ((_ & P & _) & _). rewrite ED in P. cbn [tl] in *.
    assert (0 < prodZ ds). { apply prodZ_pos. inversion P. assumption. } nia.
Qed.

Lemma slices_independent s1 s2 st1 st2 : Enough c mem ts s1 -> Enough c mem ts s2 ->
  run c s1 (begin_ mem ts) = Ok st1 -> run c s2 (begin_ mem ts) = Ok st2 ->
  memory st1 = memory st2 /\ map got (threads st1) = map got (threads st2).
Proof.
  intros E1 E2 R1 R2. destruct (slices_pos s1) as (x1 & Q1 & P1). destruct (slices_pos s2) as (x2 & Q2 & P2).
  assert (x1 = st1) by congruence. assert (x2 = st2) by congruence. subst x1 x2. exact (pos_independent _ _ _ _ _ _ _ _ _ E1 E2 P1 P2).
Qed.
End Slices.

(** Races. *)
Section Race.
Context {T : Type} (c : ctx) (z : Z).

(** The next access of the thread, if it is at [z]. *)
Definition at_z (n : Z) (th : thread T) (w : bool) : Prop :=
  exists wr, match code th with
  | Stop => False
  | Store p idx _ _ => access c n (view th) p idx = Ok {| addr := z; writable := wr |} /\ w = true
  | Load p idx _ => access c n (view th) p idx = Ok {| addr := z; writable := wr |} /\ w = false
  end.

Lemma turn_keeps (st st' : machine T) i : turn c st i = Ok st' -> length (memory st') = length (memory st) /\
  (forall j, j <> i -> nth_error (threads st') j = nth_error (threads st) j) /\ (forall e, In e (past st) -> In e (past st')).
Proof.
  unfold turn. destruct (nth_error (threads st) i) as [th|] eqn:E; [|intros H; injection H as <-; auto].
  destruct (code th) as [|p idx x k|p idx k] eqn:Ec; [intros H; injection H as <-; auto| |].
  - destruct (access _ _ _ _ _) as [lv| | | |]; cbn [bind]; try discriminate. destruct (conflicts _ _ _ _); [discriminate|].
    unfold assign. destruct (writable lv); [|discriminate]. destruct (wr (memory st) (addr lv) x) as [m| | | |] eqn:Ew; cbn [bind]; try discriminate.
    intros H. injection H as <-. cbn [memory threads past]. split; [|split].
    + unfold wr in Ew. destruct (_ && _); [|discriminate]. injection Ew as <-. apply upd_length.
    + intros j N. apply nth_replace_neq. congruence.
    + intros e He. apply in_or_app. auto.
  - destruct (access _ _ _ _ _) as [lv| | | |]; cbn [bind]; try discriminate. destruct (conflicts _ _ _ _); [discriminate|].
    destruct (load (memory st) lv); cbn [bind]; try discriminate. intros H. injection H as <-. cbn [memory threads past]. split; [reflexivity|split].
    + intros j N. apply nth_replace_neq. congruence.
    + intros e He. apply in_or_app. auto.
Qed.

Lemma turn_records (st st' : machine T) i th w : nth_error (threads st) i = Some th -> at_z (buflen (memory st)) th w -> turn c st i = Ok st' ->
  In (i, z, w) (past st').
Proof.
  intros E (wb & A). unfold turn. rewrite E. destruct (code th) as [|p idx x k|p idx k]; [destruct A| |]; destruct A as (A & ->); rewrite A; cbn [bind addr].
  - destruct (conflicts _ _ _ _); [discriminate|]. destruct (assign _ _ _); cbn [bind]; try discriminate. intros H. injection H as <-. apply in_or_app. cbn. auto.
  - destruct (conflicts _ _ _ _); [discriminate|]. destruct (load _ _); cbn [bind]; try discriminate. intros H. injection H as <-. apply in_or_app. cbn. auto.
Qed.

Lemma turn_races (st : machine T) i j th w w' : nth_error (threads st) j = Some th -> at_z (buflen (memory st)) th w' -> i <> j -> w || w' = true ->
  In (i, z, w) (past st) -> turn c st j = UB DataRace.
Proof.
  intros E (wb & A) N O P. unfold turn. rewrite E.
  assert (Cf : conflicts j z w' (past st) = true).
  { unfold conflicts. apply existsb_exists. exists (i, z, w). split; [exact P|]. rewrite Z.eqb_refl, orb_comm, O.
    destruct (Nat.eqb_spec j i); [congruence|reflexivity]. }
  destruct (code th) as [|p idx x k|p idx k]; [destruct A| |]; destruct A as (A & ->); rewrite A; cbn [bind addr]; rewrite Cf; reflexivity.
Qed.

Lemma run_races1 i j w w' th : i <> j -> w || w' = true -> forall sched (st : machine T), nth_error (threads st) j = Some th -> at_z (buflen (memory st)) th w' ->
  In (i, z, w) (past st) -> In j sched -> forall st', run c sched st <> Ok st'.
Proof.
  intros N O. induction sched as [|l sched IH]; intros st E A P J st' Q; [destruct J|]. cbn [run] in Q.
  destruct (Nat.eq_dec l j) as [->|Nl].
  - rewrite (turn_races st i j th w w' E A N O P) in Q. discriminate Q.
  - destruct (turn c st l) as [st1| | | |] eqn:Et; cbn [bind] in Q; try discriminate. destruct (turn_keeps st st1 l Et) as (L & TH & PA).
    destruct J as [J|J]; [congruence|]. apply (IH st1) with (st' := st'); auto. { rewrite TH; auto. } { unfold buflen. rewrite L. exact A. }
Qed.

Lemma run_races i j w w' th th' : i <> j -> w || w' = true -> forall sched (st : machine T),
  nth_error (threads st) i = Some th -> at_z (buflen (memory st)) th w ->
  nth_error (threads st) j = Some th' -> at_z (buflen (memory st)) th' w' ->
  In i sched -> In j sched -> forall st', run c sched st <> Ok st'.
Proof.
  intros N O. induction sched as [|l sched IH]; intros st E A E' A' I J st' Q; [destruct J|]. cbn [run] in Q.
  destruct (turn c st l) as [st1| | | |] eqn:Et; cbn [bind] in Q; try discriminate. destruct (turn_keeps st st1 l Et) as (L & TH & PA).
  assert (LA : forall th w, at_z (buflen (memory st)) th w -> at_z (buflen (memory st1)) th w) by (unfold buflen; rewrite L; auto).
  destruct (Nat.eq_dec l i) as [->|Ni].
  - destruct J as [J|J]; [congruence|]. apply (run_races1 i j w w' th' N O sched st1) with (st' := st'); auto.
    + rewrite TH; auto.
    + eapply turn_records; eauto.
  - destruct I as [I|I]; [congruence|]. destruct (Nat.eq_dec l j) as [->|Nj].
    + apply (run_races1 j i w' w th) with (sched := sched) (st := st1) (st' := st'); auto.
      * rewrite orb_comm. exact O.
      * rewrite TH; auto.
      * eapply turn_records; eauto.
    + destruct J as [J|J]; [congruence|]. apply (IH st1) with (st' := st'); auto; rewrite TH; auto.
Qed.
End Race.

Lemma next_at_z {T} c (mem : list T) a (pr : prog T) t w : view_ok (buflen mem) a -> Next a pr t w ->
  at_z c (base a + flat_offset (dims a) t) (buflen mem) {| view := a; code := pr; got := [] |} w.
Proof.
  intros V H. exists (is_writable a). destruct pr as [|p idx x k|p idx k]; cbn [Next code view] in *; [destruct H| |];
    destruct H as (-> & I & P & ->); (split; [now apply access_ok|reflexivity]).
Qed.

Lemma race_lemma {T} c (mem : list T) a (ts : list (arr * prog T)) i j pi pj t wi wj : view_ok (buflen mem) a -> is_writable a = true -> i <> j ->
  nth_error ts i = Some (a, pi) -> nth_error ts j = Some (a, pj) -> Next a pi t wi -> Next a pj t wj -> wi || wj = true ->
  run c [i; j] (begin_ mem ts) = UB DataRace /\
  forall sched, In i sched -> In j sched -> forall st, run c sched (begin_ mem ts) <> Ok st.
Proof.
  intros V HW N Hi Hj Ni Nj O. pose proof (next_at_z c mem a pi t wi V Ni) as Ai. pose proof (next_at_z c mem a pj t wj V Nj) as Aj.
  assert (Ti : nth_error (threads (begin_ mem ts)) i = Some {| view := a; code := pi; got := [] |}) by (cbn; rewrite nth_error_map, Hi; reflexivity).
  assert (Tj : nth_error (threads (begin_ mem ts)) j = Some {| view := a; code := pj; got := [] |}) by (cbn; rewrite nth_error_map, Hj; reflexivity).
  split.
  - cbn [run]. assert (X : exists st1, turn c (begin_ mem ts) i = Ok st1).
    { unfold turn. rewrite Ti. cbn [code view memory past begin_]. destruct pi as [|p idx x k|p idx k]; cbn [Next] in Ni; [destruct Ni| |];
        destruct Ni as (-> & I & P & ->); rewrite access_ok by assumption; cbn [bind addr conflicts existsb].
      - pose proof (rowmajor_bounds _ _ I). destruct V as (_ & Vb & Vn). unfold assign. cbn [writable addr]. rewrite HW. unfold buflen in Vn. rewrite wr_ok by lia.
        cbn [bind]. eauto.
      - pose proof (rowmajor_bounds _ _ I). destruct V as (_ & Vb & Vn). unfold load, buflen in *. cbn [addr].
        destruct (rd_ok mem (base a + flat_offset (dims a) t)) as (v & ->); [lia|]. cbn [bind]. eauto. }
    destruct X as (st1 & X). rewrite X. cbn [bind]. destruct (turn_keeps c _ _ _ X) as (L & TH & _).
    rewrite (turn_races c (base a + flat_offset (dims a) t) st1 i j {| view := a; code := pj; got := [] |} wi wj); [reflexivity| | |exact N|exact O|].
    + rewrite TH by congruence. exact Tj.
    + unfold buflen. rewrite L. exact Aj.
    + eapply turn_records; eauto.
  - intros sched Si Sj st. eapply (run_races c _ i j wi wj); eauto.
Qed.

Lemma unchecked_race : exists (ts : list (arr * prog Z)), unchecked c_unchecked /\
  ts = [(owning [2; 3], Store {| brackets := 0; last := Paren |} [0; 4] 7 Stop); (owning [2; 3], Store {| brackets := 0; last := Paren |} [1; 1] 8 Stop)] /\
  run c_unchecked [0%nat; 1%nat] (begin_ [0; 0; 0; 0; 0; 0] ts) = UB DataRace.
Proof. eexists. split; [split; reflexivity|]. split; reflexivity. Qed.
