(** Proofs about concurrent calls of the kernel wrapper. *)
From Coq Require Import List ZArith Bool Lia.
From Verif Require Import Base ModelDevice SpecDevice.
Import ListNotations.
Open Scope Z_scope.

Lemma replace_length {B} (l : list B) i x : length (replace l i x) = length l.
Proof. revert i; induction l as [|y l IH]; intros [|i]; cbn; auto. Qed.
Lemma nth_replace_eq {B} (l : list B) i x y : nth_error l i = Some y -> nth_error (replace l i x) i = Some x.
Proof. revert i; induction l as [|z l IH]; intros [|i] H; cbn in *; try discriminate; [reflexivity|]. now apply IH. Qed.
Lemma nth_replace_neq {B} (l : list B) i j x : i <> j -> nth_error (replace l i x) j = nth_error l j.
Proof. revert i j; induction l as [|y l IH]; intros [|i] [|j] H; cbn; try reflexivity; [congruence|]. apply IH. congruence. Qed.
Lemma replace_same {B} (l : list B) i x : nth_error l i = Some x -> replace l i x = l.
Proof. revert i; induction l as [|z l IH]; intros [|i] H; cbn in *; try discriminate; [congruence|]. f_equal. now apply IH. Qed.

Lemma drop_in {B} (l : list B) k x : In x (drop k l) -> In x l.
Proof. revert k; induction l as [|y l IH]; intros [|k]; cbn; auto. intros [->|H]; eauto. Qed.
Lemma drop_split {B} (l : list B) k y : nth_error l k = Some y -> exists l1 l2, l = l1 ++ y :: l2 /\ drop k l = l1 ++ l2.
Proof.
  revert k; induction l as [|z l IH]; intros [|k] H; cbn in *; try discriminate.
  - injection H as ->. exists [], l. auto.
  - destruct (IH k H) as (l1 & l2 & E & D). exists (z :: l1), l2. rewrite D. cbn. now rewrite <- E.
Qed.

Section Good.
Context {A : Type} (garbage : nat -> list A).
Context (ts : list (list A * list (call A))) (m0 : nat -> option (list A)) (n0 : nat) (ends : nat -> list A).
Context (UNUSED : Unused m0 n0).
Context (SERIAL : forall i d ks, nth_error ts i = Some (d, ks) -> Serial d ks (ends i)).

Definition owner (c : caller A) : option nat :=
  match now c with
  | Idle | Report _ | CopyIn None => None
  | CopyIn (Some p) | Launch p | Sync p | Waiting p _ | CopyOut p _ | Free p _ => Some p
  end.
Definition waits (c : caller A) (p : nat) : Prop := now c = Sync p \/ exists ws, now c = Waiting p ws.
Notation kern := (list A -> outcome (list A)).

(** The present call and what is to come of it. *)
Definition Going (m : option (list A)) (qd : kern -> Prop) (e : list A) (c : caller A) : Prop :=
  exists k ks l, todo c = k :: ks /\ 0 <= size k <= Z.of_nat (length (data c)) /\
    kernel k (firstn (Z.to_nat (size k)) (data c)) = Ok l /\ length l = Z.to_nat (size k) /\
    Serial (l ++ skipn (Z.to_nat (size k)) (data c)) ks e /\
    ((qd (kernel k) /\ m = Some (firstn (Z.to_nat (size k)) (data c))) \/ ((forall f, ~ qd f) /\ m = Some l)).

Definition place_ok (m : nat -> option (list A)) (qu : list (nat * kern)) (e : list A) (c : caller A) : Prop :=
  match now c with
  | Idle => Serial (data c) (todo c) e
  | CopyIn None => False
  | CopyIn (Some p) => todo c <> [] /\ Serial (data c) (todo c) e /\ m p <> None /\ forall f, ~ In (p, f) qu
  | Launch p => exists k ks, todo c = k :: ks /\ Serial (data c) (todo c) e /\ m p = Some (firstn (Z.to_nat (size k)) (data c)) /\
                forall f, ~ In (p, f) qu
  | Sync p => Going (m p) (fun f => In (p, f) qu) e c
  | Waiting p ws => Going (m p) (fun f => In (p, f) qu) e c /\ forall f, In (p, f) qu -> In p ws
  | CopyOut p err => err = false /\ Going (m p) (fun f => In (p, f) qu) e c /\ forall f, ~ In (p, f) qu
  | Free p err => err = false /\ todo c <> [] /\ Serial (data c) (tl (todo c)) e /\ m p <> None /\ forall f, ~ In (p, f) qu
  | Report err => err = false /\ todo c <> [] /\ Serial (data c) (tl (todo c)) e
  end.

Lemma frame m m' qu qu' e c : (forall q, owner c = Some q -> m' q = m q /\ forall f, In (q, f) qu' <-> In (q, f) qu) ->
  place_ok m qu e c -> place_ok m' qu' e c.
Proof.
  intros H. unfold place_ok, owner in *. destruct (now c) as [|[p|]|p|p|p ws|p err|p err|err]; auto; specialize (H p eq_refl); destruct H as (E & Q);
    rewrite ?E; unfold Going; setoid_rewrite Q; auto.
Qed.

Record Inv (s : system A) : Prop := {
  g_broken : broken s = false; g_dead : dead s = false; g_printed : printed s = [];
  g_len : length (callers s) = length ts;
  g_ok : forall i c, nth_error (callers s) i = Some c -> place_ok (mem s) (queue s) (ends i) c;
  g_own : forall i c p, nth_error (callers s) i = Some c -> owner c = Some p -> (n0 <= p < fresh s)%nat;
  g_diff : forall i j c c' p, nth_error (callers s) i = Some c -> nth_error (callers s) j = Some c' -> i <> j -> owner c = Some p -> owner c' <> Some p;
  g_nodup : NoDup (map fst (queue s));
  g_queue : forall p f, In (p, f) (queue s) -> exists i c, nth_error (callers s) i = Some c /\ waits c p;
  g_mem : forall p, (forall i c, nth_error (callers s) i = Some c -> owner c <> Some p) -> mem s p = m0 p;
  g_fresh : (n0 <= fresh s)%nat
}.

Lemma waits_owner c p : waits c p -> owner c = Some p.
Proof. unfold owner. intros [->|(ws & ->)]; reflexivity. Qed.

Lemma inv_move s s' i c c' : Inv s -> nth_error (callers s) i = Some c ->
  callers s' = replace (callers s) i c' -> broken s' = false -> dead s' = false -> printed s' = [] ->
  (forall q, owner c <> Some q -> owner c' <> Some q -> mem s' q = mem s q /\ forall f, In (q, f) (queue s') <-> In (q, f) (queue s)) ->
  (owner c' = owner c /\ fresh s' = fresh s \/
   owner c' = None /\ fresh s' = fresh s /\ (forall q, owner c = Some q -> mem s' q = m0 q) \/
   owner c = None /\ owner c' = Some (fresh s) /\ fresh s' = S (fresh s)) ->
  place_ok (mem s') (queue s') (ends i) c' -> NoDup (map fst (queue s')) ->
  (forall q f, In (q, f) (queue s') -> owner c = Some q \/ owner c' = Some q -> waits c' q) ->
  Inv s'.
Proof.
  intros I Hi Ec Eb Ed Ep H1 H2 H3 H4 H5. pose proof I as [_ _ _ Ilen Iok Iown Idiff Ind Iqu Imem Ifr].
  assert (GET : forall j cj, nth_error (callers s') j = Some cj -> j = i /\ cj = c' \/ j <> i /\ nth_error (callers s) j = Some cj).
  { intros j cj Hj. rewrite Ec in Hj. destruct (Nat.eq_dec i j) as [->|N].
    - rewrite (nth_replace_eq _ _ _ _ Hi) in Hj. injection Hj as <-. auto.
    - rewrite nth_replace_neq in Hj by exact N. auto. }
  assert (OTHER : forall j cj q, j <> i -> nth_error (callers s) j = Some cj -> owner cj = Some q -> owner c <> Some q /\ owner c' <> Some q).
  { intros j cj q N Hj O. pose proof (Idiff j i cj c q Hj Hi N O) as D. split; [exact D|]. destruct H2 as [(E & _)|[(E & _)|(E & E' & _)]]; rewrite ?E, ?E'; try congruence.
    intros X. injection X as <-. pose proof (Iown j cj _ Hj O). lia. }
  constructor; auto.
  - rewrite Ec, replace_length. exact Ilen.
  - intros j cj Hj. destruct (GET j cj Hj) as [(-> & ->)|(N & Hj')]; [exact H3|]. apply (frame (mem s) _ (queue s)); [|exact (Iok j cj Hj')].
    intros q O. destruct (OTHER j cj q N Hj' O). auto.
  - intros j cj p Hj O. destruct (GET j cj Hj) as [(-> & ->)|(N & Hj')].
    + destruct H2 as [(E & F)|[(E & _)|(E & E' & F)]]; [rewrite E in O; rewrite F; apply (Iown i c p Hi O)|congruence|].
      rewrite E' in O. injection O as <-. lia.
    + pose proof (Iown j cj p Hj' O). destruct H2 as [(E & F)|[(E & F & _)|(E & E' & F)]]; rewrite F; lia.
  - intros j j' cj cj' p Hj Hj' N O O'. destruct (GET j cj Hj) as [(-> & ->)|(N1 & Hj1)]; destruct (GET j' cj' Hj') as [(-> & ->)|(N2 & Hj2)].
    + congruence.
    + destruct (OTHER j' cj' p N2 Hj2 O'). contradiction.
    + destruct (OTHER j cj p N1 Hj1 O). contradiction.
    + exact (Idiff j j' cj cj' p Hj1 Hj2 N O O').
  - intros p f Hp.
    assert (Dec : (owner c = Some p \/ owner c' = Some p) \/ (owner c <> Some p /\ owner c' <> Some p)).
    { destruct (owner c) as [q|], (owner c') as [q'|]; try destruct (Nat.eq_dec q p) as [->|]; try destruct (Nat.eq_dec q' p) as [->|]; auto; right; split; congruence. }
    destruct Dec as [D|(D & D')].
    + exists i, c'. split; [rewrite Ec; eapply nth_replace_eq; eauto|]. exact (H5 p f Hp D).
    + destruct (H1 p D D') as (_ & Q). apply Q in Hp. destruct (Iqu p f Hp) as (j & cj & Hj & Wj). exists j, cj. split; [|exact Wj].
      rewrite Ec. rewrite nth_replace_neq; [exact Hj|]. intros ->. rewrite Hi in Hj. injection Hj as <-. apply D. now apply waits_owner.
  - intros p Hp. assert (D' : owner c' <> Some p). { apply (Hp i). rewrite Ec. eapply nth_replace_eq; eauto. }
    assert (OT : forall j cj, j <> i -> nth_error (callers s) j = Some cj -> owner cj <> Some p).
    { intros j cj N Hj. apply (Hp j). rewrite Ec, nth_replace_neq by congruence. exact Hj. }
    destruct (owner c) as [q|] eqn:Oc; [destruct (Nat.eq_dec q p) as [->|N]|].
    + destruct H2 as [(E & _)|[(_ & _ & H)|(E & _)]]; [congruence|auto|discriminate].
    + destruct (H1 p) as (-> & _); [congruence|exact D'|]. apply Imem. intros j cj Hj. destruct (Nat.eq_dec j i) as [->|Nj]; [|eauto]. congruence.
    + destruct (H1 p) as (-> & _); [congruence|exact D'|]. apply Imem. intros j cj Hj. destruct (Nat.eq_dec j i) as [->|Nj]; [|eauto]. congruence.
  - destruct H2 as [(_ & F)|[(_ & F & _)|(_ & _ & F)]]; rewrite F; lia.
Qed.

Lemma begin_inv : Inv (beginning ts m0 n0).
Proof.
  assert (G : forall i (c : caller A), nth_error (callers (beginning ts m0 n0)) i = Some c -> exists d ks, nth_error ts i = Some (d, ks) /\
    c = {| data := d; now := Idle; todo := ks |}).
  { intros i c H. cbn in H. rewrite nth_error_map in H. destruct (nth_error ts i) as [(d, ks)|]; [|discriminate]. injection H as <-. eauto. }
  constructor; cbn [beginning broken dead printed queue mem fresh]; auto.
  - cbn. apply map_length.
  - intros i c H. destruct (G i c H) as (d & ks & E & ->). cbn. eauto.
  - intros i c p H. destruct (G i c H) as (d & ks & E & ->). discriminate.
  - intros i j c c' p H. destruct (G i c H) as (d & ks & E & ->). discriminate.
  - constructor.
  - intros p f [].
Qed.

Lemma set_eq (m : nat -> option (list A)) p x : set m p x p = x. Proof. unfold set. now rewrite Nat.eqb_refl. Qed.
Lemma set_neq (m : nat -> option (list A)) p x q : q <> p -> set m p x q = m q. Proof. intros H. unfold set. destruct (Nat.eqb_spec q p); [congruence|reflexivity]. Qed.

Lemma not_queued s i c p f : Inv s -> nth_error (callers s) i = Some c -> owner c = Some p -> ~ waits c p -> ~ In (p, f) (queue s).
Proof.
  intros I Hi O N Q. destruct (g_queue _ I p f Q) as (j & cj & Hj & W). destruct (Nat.eq_dec i j) as [->|D]; [congruence|].
  exact (g_diff _ I i j c cj p Hi Hj D O (waits_owner _ _ W)).
Qed.
Lemma fresh_not_queued s f : Inv s -> ~ In (fresh s, f) (queue s).
Proof.
  intros I Q. destruct (g_queue _ I _ f Q) as (j & cj & Hj & W). pose proof (g_own _ I j cj _ Hj (waits_owner _ _ W)). lia.
Qed.

Lemma host_inv s i r : Inv s -> step garbage (Host i) s = Some r -> exists s', r = Ok s' /\ Inv s'.
Proof.
  intros I. unfold step. rewrite (g_dead _ I). destruct (nth_error (callers s) i) as [c|] eqn:Hi; [|discriminate].
  pose proof (g_ok _ I i c Hi) as P. destruct (todo c) as [|k ks] eqn:Et; [discriminate|]. unfold place_ok in P.
  assert (NQ := fun p f O W => not_queued s i c p f I Hi O W).
  pose proof (g_nodup _ I) as ND. pose proof (g_broken _ I) as B. pose proof (g_dead _ I) as D. pose proof (g_printed _ I) as PR.
  destruct (now c) as [|p|p|p|p ws|p err|p err|err] eqn:En; intros H.
  - (* malloc *)
    rewrite Et in P. inversion P as [|? ? ? l ? Hs Hk Hl Hr]; subst. injection H as <-. unfold do_malloc. rewrite B. cbn [negb andb].
    destruct (Z.leb_spec 0 (size k)); [|lia]. eexists. split; [reflexivity|].
    eapply (inv_move s _ i c); [exact I|exact Hi|reflexivity|auto|auto|auto| | | |exact ND|]; cbn [with_caller mem queue fresh].
    + intros q O O'. unfold owner in O'. cbn in O'. split; [|tauto]. apply set_neq. congruence.
    + right; right. unfold owner. rewrite En. auto.
    + unfold place_ok. cbn [now todo data]. rewrite Et, set_eq. split; [discriminate|]. split; [exact P|]. split; [discriminate|]. intros f. now apply fresh_not_queued.
    + intros q f Q [O|O]; unfold owner in O; [rewrite En in O; discriminate|]. cbn in O. injection O as <-. now apply fresh_not_queued in Q.
  - (* copy in *)
    destruct p as [p|]; [|destruct P]. destruct P as (_ & S0 & M & Q). rewrite Et in S0. inversion S0 as [|? ? ? l ? Hs Hk Hl Hr]; subst.
    injection H as <-. unfold do_copy_in. destruct (Z.ltb_spec (Z.of_nat (length (data c))) (size k)); [lia|].
    destruct (mem s p) as [l0|] eqn:Em; [|congruence]. rewrite B. eexists. split; [reflexivity|].
    eapply (inv_move s _ i c); [exact I|exact Hi|reflexivity|auto|auto|auto| | | |exact ND|]; cbn [with_caller with_mem mem queue fresh].
    + intros q O _. unfold owner in O. rewrite En in O. split; [|tauto]. apply set_neq. congruence.
    + left. unfold owner. rewrite En. auto.
    + unfold place_ok. cbn [now todo data]. exists k, ks. rewrite Et, set_eq. auto.
    + intros q f X O. exfalso. assert (q = p) by (unfold owner in O; rewrite En in O; cbn in O; destruct O; congruence). subst q. exact (Q f X).
  - (* launch *)
    destruct P as (k' & ks' & E & S0 & M & Q). rewrite Et in E, S0. injection E as <- <-. inversion S0 as [|? ? ? l ? Hs Hk Hl Hr]; subst.
    injection H as <-. unfold do_launch. rewrite B. eexists. split; [reflexivity|].
    eapply (inv_move s _ i c); [exact I|exact Hi|reflexivity|auto|auto|auto| | | | |]; cbn [with_caller with_queue mem queue fresh].
    + intros q O _. unfold owner in O. rewrite En in O. split; [reflexivity|]. intros f. rewrite in_app_iff. cbn. intuition congruence.
    + left. unfold owner. rewrite En. auto.
    + unfold place_ok. cbn [now todo data]. exists k, ks, l. cbn [todo data]. repeat (split; [solve [auto | lia]|]). left. split; [|exact M].
      apply in_or_app. cbn. auto.
    + rewrite map_app. cbn. clear - ND Q. induction (queue s) as [|(q, g) qu IH]; cbn in *.
      * constructor; [easy|constructor].
      * inversion ND as [|? ? N1 N2]; subst. constructor.
        -- rewrite in_app_iff. cbn. intros [X|[X|[]]]; [contradiction|]. subst q. apply (Q g). auto.
        -- apply IH; [|exact N2]. intros f X. apply (Q f). auto.
    + intros q f X O. assert (q = p) by (unfold owner in O; rewrite En in O; cbn in O; destruct O; congruence). subst q. left. reflexivity.
  - (* sync: begin *)
    injection H as <-. eexists. split; [reflexivity|]. unfold do_sync.
    eapply (inv_move s _ i c); [exact I|exact Hi|reflexivity|auto|auto|auto| | | |exact ND|]; cbn [with_caller mem queue fresh].
    + intros q O _. split; [reflexivity|tauto].
    + left. unfold owner. rewrite En. auto.
    + unfold place_ok. cbn [now]. split; [exact P|]. intros f X. exact (in_map fst _ _ X).
    + intros q f X O. assert (q = p) by (unfold owner in O; rewrite En in O; cbn in O; destruct O; congruence). subst q. right. eexists. reflexivity.
  - (* sync: return *)
    unfold do_return in H. destruct (existsb _ (queue s)) eqn:X; [discriminate|]. injection H as <-. rewrite B. eexists. split; [reflexivity|].
    destruct P as (P & W).
    assert (NOT : forall f, ~ In (p, f) (queue s)).
    { intros f Q. enough (true = false) by discriminate. rewrite <- X. symmetry. apply existsb_exists. exists (p, f). split; [exact Q|]. apply existsb_exists.
      exists p. split; [exact (W f Q)|]. apply Nat.eqb_refl. }
    eapply (inv_move s _ i c); [exact I|exact Hi|reflexivity|auto|auto|auto| | | |exact ND|]; cbn [with_caller mem queue fresh].
    + intros q O _. split; [reflexivity|tauto].
    + left. unfold owner. rewrite En. auto.
    + unfold place_ok. cbn [now]. split; [reflexivity|]. split; [exact P|exact NOT].
    + intros q f Q O. exfalso. assert (q = p) by (unfold owner in O; rewrite En in O; cbn in O; destruct O; congruence). subst q. exact (NOT f Q).
  - (* copy out *)
    destruct P as (-> & (k' & ks' & l & E & Hs & Hk & Hl & Hr & [(Q & _)|(_ & M)]) & NOT); [destruct (NOT _ Q)|]. rewrite Et in E. injection E as <- <-.
    injection H as <-. unfold do_copy_out. rewrite M, B. eexists. split; [reflexivity|].
    eapply (inv_move s _ i c); [exact I|exact Hi|reflexivity|auto|auto|auto| | | |exact ND|]; cbn [with_caller mem queue fresh].
    + intros q O _. split; [reflexivity|tauto].
    + left. unfold owner. rewrite En. auto.
    + unfold place_ok. cbn [now todo data]. rewrite Et. cbn [tl]. split; [reflexivity|]. split; [discriminate|]. split; [|split; [congruence|exact NOT]].
      rewrite <- Hl, firstn_all, Hl. exact Hr.
    + intros q f Q O. exfalso. assert (q = p) by (unfold owner in O; rewrite En in O; cbn in O; destruct O; congruence). subst q. exact (NOT f Q).
  - (* free *)
    destruct P as (-> & _ & S0 & M & NOT). injection H as <-. unfold do_free. rewrite B. eexists. split; [reflexivity|].
    eapply (inv_move s _ i c); [exact I|exact Hi|reflexivity|auto|auto|auto| | | |exact ND|]; cbn [with_caller with_mem mem queue fresh].
    + intros q O _. unfold owner in O. rewrite En in O. split; [|tauto]. apply set_neq. congruence.
    + right; left. unfold owner. rewrite En. cbn. split; [reflexivity|]. split; [reflexivity|]. intros q E. injection E as <-. rewrite set_eq. symmetry. apply UNUSED.
      destruct (g_own _ I i c p Hi); [unfold owner; now rewrite En|assumption].
    + unfold place_ok. cbn [now todo data]. rewrite Et in *. split; [reflexivity|]. split; [discriminate|exact S0].
    + intros q f Q O. exfalso. assert (q = p) by (unfold owner in O; rewrite En in O; cbn in O; destruct O; congruence). subst q. exact (NOT f Q).
  - (* report *)
    destruct P as (-> & _ & S0). injection H as <-. unfold do_report. eexists. split; [reflexivity|].
    eapply (inv_move s _ i c); [exact I|exact Hi|reflexivity|auto|auto|auto| | | |exact ND|]; cbn [with_caller mem queue fresh].
    + intros q O _. split; [reflexivity|tauto].
    + left. unfold owner. rewrite En. auto.
    + unfold place_ok. cbn [now todo data]. rewrite Et in S0. exact S0.
    + intros q f Q O. exfalso. unfold owner in O. rewrite En in O. cbn in O. destruct O; discriminate.
Qed.

Lemma device_inv s k r : Inv s -> step garbage (Device k) s = Some r -> exists s', r = Ok s' /\ Inv s'.
Proof.
  intros I. unfold step. rewrite (g_dead _ I). destruct (nth_error (queue s) k) as [(p, f)|] eqn:Hk; [|discriminate]. intros H. injection H as <-.
  assert (Q : In (p, f) (queue s)) by (eapply nth_error_In; eauto). destruct (g_queue _ I p f Q) as (i & c & Hi & W).
  pose proof (g_ok _ I i c Hi) as P. pose proof (g_nodup _ I) as ND. destruct (drop_split _ _ _ Hk) as (q1 & q2 & Eq & Dq).
  assert (ONE : forall g, In (p, g) (queue s) -> g = f).
  { intros g Hg. rewrite Eq in ND, Hg. rewrite map_app in ND. cbn in ND. apply NoDup_remove_2 in ND. rewrite <- map_app in ND.
    apply in_app_or in Hg as [Hg|[Hg|Hg]]; [|congruence|]; exfalso; apply ND; apply (in_map fst) in Hg; rewrite map_app; apply in_or_app; auto. }
  assert (GONE : forall g, ~ In (p, g) (drop k (queue s))).
  { intros g Hg. rewrite Dq in Hg. rewrite Eq, map_app in ND. cbn in ND. apply NoDup_remove_2 in ND. rewrite <- map_app in ND. apply ND. exact (in_map fst _ _ Hg). }
  assert (GO : Going (mem s p) (fun f => In (p, f) (queue s)) (ends i) c).
  { unfold place_ok in P. destruct W as [->|(ws & ->)] in P; [exact P|apply P]. }
  destruct GO as (kk & ks & l & Et & Hs & Hkk & Hl & Hr & [(Qk & M)|(Qk & _)]); [|destruct (Qk _ Q)].
  rewrite M. rewrite <- (ONE _ Qk), Hkk. eexists. split; [reflexivity|].
  assert (O : owner c = Some p) by now apply waits_owner.
  eapply (inv_move s _ i c c); [exact I|exact Hi| |apply I|apply I|apply I| | | | |]; cbn [with_queue with_mem callers mem queue fresh].
  - symmetry. now apply replace_same.
  - intros q Oq _. assert (q <> p) by congruence. split; [now apply set_neq|]. intros g. rewrite Dq, Eq, !in_app_iff. cbn. intuition congruence.
  - left. auto.
  - assert (GO : Going (set (mem s) p (Some l) p) (fun f => In (p, f) (drop k (queue s))) (ends i) c).
    { exists kk, ks, l. repeat (split; [solve [auto | lia]|]). right. split; [exact GONE|apply set_eq]. }
    unfold place_ok in *. destruct W as [W|(ws & W)]; rewrite W in *; [exact GO|]. split; [exact GO|]. intros g Hg. destruct (GONE g Hg).
  - rewrite Dq. rewrite Eq, map_app in ND. cbn in ND. rewrite map_app. now apply NoDup_remove_1 in ND.
  - intros q g _ [X|X]; rewrite O in X; injection X as <-; exact W.
Qed.

Lemma exec_inv tr : forall s r, Inv s -> exec garbage tr s = Some r -> exists s', r = Ok s' /\ Inv s'.
Proof.
  induction tr as [|l tr IH]; intros s r I H; cbn [exec] in H.
  - injection H as <-. eauto.
  - destruct (step garbage l s) as [r1|] eqn:E; [|discriminate].
    assert (X : exists s1, r1 = Ok s1 /\ Inv s1) by (destruct l; [eapply host_inv|eapply device_inv]; eauto).
    destruct X as (s1 & -> & I1). eauto.
Qed.

Lemma concurrent_lemma tr r : exec garbage tr (beginning ts m0 n0) = Some r ->
  exists s, r = Ok s /\ printed s = [] /\ dead s = false /\
    (forall i c, nth_error (callers s) i = Some c -> Finished c -> data c = ends i) /\
    ((forall c, In c (callers s) -> Finished c) -> forall p, mem s p = m0 p).
Proof.
  intros H. destruct (exec_inv tr _ _ begin_inv H) as (s & -> & I). exists s. split; [reflexivity|]. split; [apply I|]. split; [apply I|]. split.
  - intros i c Hi (Et & En). pose proof (g_ok _ I i c Hi) as P. unfold place_ok in P. rewrite En, Et in P. inversion P. reflexivity.
  - intros F p. apply (g_mem _ I). intros i c Hi. destruct (F c) as (_ & En); [eapply nth_error_In; eauto|]. unfold owner. rewrite En. discriminate.
Qed.

Lemma progress_lemma tr s : exec garbage tr (beginning ts m0 n0) = Some (Ok s) ->
  (forall c, In c (callers s) -> Finished c) \/ exists l s', step garbage l s = Some (Ok s').
Proof.
  intros H. destruct (exec_inv tr _ _ begin_inv H) as (s0 & E & I). injection E as <-.
  assert (STEP : forall l r, step garbage l s = Some r -> exists l s', step garbage l s = Some (Ok s')).
  { intros l r Hr. assert (X : exists s1, r = Ok s1 /\ Inv s1) by (destruct l; [eapply host_inv|eapply device_inv]; eauto). destruct X as (s1 & -> & _). eauto. }
  destruct (queue s) as [|(p, f) qu] eqn:Q.
  2:{ right. apply (STEP (Device 0) (match mem s p with None => UB BadMemory | Some l => match f l with
      | Ok l' => Ok (with_queue (with_mem s (set (mem s) p (Some l'))) (drop 0 (queue s)))
      | Aborted => Ok {| callers := callers s; mem := mem s; fresh := fresh s; queue := []; broken := true; printed := printed s; dead := dead s |}
      | UB e => UB e | IllFormed => IllFormed | OutOfFuel => OutOfFuel end end)).
      unfold step. rewrite (g_dead _ I), Q. reflexivity. }
  assert (DEC : (forall c, In c (callers s) -> Finished c) \/ exists i c, nth_error (callers s) i = Some c /\ todo c <> []).
  { assert (FIN : forall i c, nth_error (callers s) i = Some c -> todo c = [] -> Finished c).
    { intros i c Hi Et. split; [exact Et|]. pose proof (g_ok _ I i c Hi) as P. unfold place_ok in P.
      destruct (now c) as [|[p|]|p|p|p ws|p err|p err|err]; [reflexivity| | | | | | | |].
      - destruct P as (N & _). congruence.
      - destruct P.
      - destruct P as (k & ks & E & _). congruence.
      - destruct P as (k & ks & l & E & _). congruence.
      - destruct P as ((k & ks & l & E & _) & _). congruence.
      - destruct P as (_ & (k & ks & l & E & _) & _). congruence.
      - destruct P as (_ & N & _). congruence.
      - destruct P as (_ & N & _). congruence. }
    destruct (existsb (fun c => match todo c with [] => false | _ => true end) (callers s)) eqn:X.
    - right. apply existsb_exists in X as (c & Hc & X). apply In_nth_error in Hc as (i & Hi). exists i, c. split; [exact Hi|]. destruct (todo c); [discriminate X|discriminate].
    - left. intros c Hc. apply In_nth_error in Hc as (i & Hi). apply (FIN i c Hi). destruct (todo c) as [|k ks] eqn:Et; [reflexivity|].
      enough (true = false) by discriminate. rewrite <- X. symmetry. apply existsb_exists. exists c. split; [eapply nth_error_In; eauto|]. now rewrite Et. }
  destruct DEC as [F|(i & c & Hi & Nt)]; [left; exact F|right]. destruct (todo c) as [|k ks] eqn:Et; [congruence|].
  assert (S1 : exists r, step garbage (Host i) s = Some r).
  { unfold step. rewrite (g_dead _ I), Hi, Et. unfold do_return. rewrite Q. destruct (now c); cbn [existsb]; eexists; reflexivity. }
  destruct S1 as (r & S1). exact (STEP _ _ S1).
Qed.
End Good.

(** Every execution ends. *)
Section Measure.
Context {A : Type} (garbage : nat -> list A).

Definition weight (c : caller A) : nat :=
  match todo c with
  | [] => O
  | _ :: ks => (9 * length ks + match now c with Idle => 9 | CopyIn _ => 8 | Launch _ => 7 | Sync _ => 5 | Waiting _ _ => 4
                                | CopyOut _ _ => 3 | Free _ _ => 2 | Report _ => 1 end)%nat
  end.
Fixpoint weights (l : list (caller A)) : nat := match l with [] => O | c :: l' => (weight c + weights l')%nat end.
Definition measure (s : system A) : nat := (weights (callers s) + length (queue s))%nat.

Lemma weights_replace l i c c' : nth_error l i = Some c -> (weights (replace l i c') + weight c = weights l + weight c')%nat.
Proof. revert i; induction l as [|x l IH]; intros [|i] H; cbn in *; try discriminate; [injection H as ->; lia|]. specialize (IH i H). lia. Qed.

Lemma drop_length {B} (l : list B) k x : nth_error l k = Some x -> length l = S (length (drop k l)).
Proof. revert k; induction l as [|y l IH]; intros [|k] H; cbn in *; try discriminate; [reflexivity|]. now rewrite (IH k H). Qed.

Lemma step_measure l s s' : step garbage l s = Some (Ok s') -> (S (measure s') <= measure s)%nat.
Proof.
  unfold step. destruct (dead s); [discriminate|]. destruct l as [i|k].
  - destruct (nth_error (callers s) i) as [c|] eqn:Hi; [|discriminate]. destruct (todo c) as [|k ks] eqn:Et; [discriminate|].
    pose proof (fun c' => weights_replace (callers s) i c c' Hi) as WR. unfold weight in WR at 1. rewrite Et in WR. unfold measure.
    destruct (now c) as [|[p|]|p|p|p ws|p err|p err|err] eqn:En; cbn [option_map].
    + unfold do_malloc. destruct (negb (broken s) && (0 <=? size k)); intros H; injection H as <-; cbn [with_caller callers queue];
        [specialize (WR {| data := data c; now := CopyIn (Some (fresh s)); todo := todo c |})|specialize (WR {| data := data c; now := CopyIn None; todo := todo c |})];
        unfold weight in WR; cbn [todo now] in WR; rewrite Et in WR |- *; lia.
    + unfold do_copy_in. destruct (_ <? _); [discriminate|]. destruct (mem s p); [|discriminate]. intros H. injection H as <-.
      specialize (WR {| data := data c; now := Launch p; todo := todo c |}). unfold weight in WR. cbn [todo now] in WR. rewrite Et in WR |- *.
      destruct (broken s); cbn [with_caller with_mem callers queue]; lia.
    + discriminate.
    + intros H. injection H as <-. unfold do_launch. specialize (WR {| data := data c; now := Sync p; todo := todo c |}). unfold weight in WR. cbn [todo now] in WR. rewrite Et in WR |- *.
      destruct (broken s); cbn [with_caller with_queue callers queue]; rewrite ?app_length; cbn [length]; lia.
    + intros H. injection H as <-. unfold do_sync. specialize (WR {| data := data c; now := Waiting p (map fst (queue s)); todo := todo c |}). unfold weight in WR. cbn [todo now] in WR. rewrite Et in WR |- *.
      cbn [with_caller callers queue]. lia.
    + unfold do_return. destruct (existsb _ _); [discriminate|]. intros H. injection H as <-.
      specialize (WR {| data := data c; now := CopyOut p (broken s); todo := todo c |}). unfold weight in WR. cbn [todo now] in WR. rewrite Et in WR |- *. cbn [with_caller callers queue]. lia.
    + unfold do_copy_out. destruct (mem s p) as [l|]; [|discriminate]. intros H. injection H as <-. cbn [with_caller callers queue].
      specialize (WR {| data := if broken s then data c else firstn (Z.to_nat (size k)) l ++ skipn (Z.to_nat (size k)) (data c); now := Free p err; todo := todo c |}).
      unfold weight in WR. cbn [todo now] in WR. rewrite Et in WR |- *. lia.
    + intros H. injection H as <-. unfold do_free. specialize (WR {| data := data c; now := Report err; todo := todo c |}). unfold weight in WR. cbn [todo now] in WR. rewrite Et in WR |- *.
      destruct (broken s); cbn [with_caller with_mem callers queue]; lia.
    + intros H. injection H as <-. unfold do_report. cbn [with_caller callers queue]. specialize (WR {| data := data c; now := Idle; todo := ks |}).
      unfold weight in WR. cbn [todo now] in WR. destruct ks; cbn [length] in *; lia.
  - destruct (nth_error (queue s) k) as [(p, f)|] eqn:Hk; [|discriminate]. destruct (mem s p) as [l|]; [|discriminate]. pose proof (drop_length _ _ _ Hk).
    destruct (f l); try discriminate; intros H'; injection H' as <-; unfold measure; cbn [with_queue with_mem callers queue length]; lia.
Qed.

Lemma exec_measure tr : forall s s', exec garbage tr s = Some (Ok s') -> (length tr + measure s' <= measure s)%nat.
Proof.
  induction tr as [|l tr IH]; intros s s' H; cbn [exec] in H.
  - injection H as <-. cbn. lia.
  - destruct (step garbage l s) as [[s1| | | |]|] eqn:E; try discriminate. pose proof (step_measure _ _ _ E). specialize (IH _ _ H). cbn [length]. lia.
Qed.

Lemma begin_measure ts m n : measure (beginning (A := A) ts m n) = (9 * calls ts)%nat.
Proof.
  unfold measure, beginning. cbn [callers queue length]. rewrite Nat.add_0_r. induction ts as [|(d, ks) ts IH]; [reflexivity|]. cbn [map weights calls fst snd].
  rewrite IH. unfold weight. cbn [todo now]. destruct ks; cbn [length]; lia.
Qed.

Lemma terminates_lemma ts m n tr s : exec garbage tr (beginning ts m n) = Some (Ok s) -> (length tr <= 9 * calls ts)%nat.
Proof. intros H. apply exec_measure in H. rewrite begin_measure in H. lia. Qed.

Lemma exec_app tr1 : forall tr2 s s1, exec garbage tr1 s = Some (Ok s1) -> exec garbage (tr1 ++ tr2) s = exec garbage tr2 s1.
Proof.
  induction tr1 as [|l tr1 IH]; intros tr2 s s1 H; cbn [exec app] in *.
  - injection H as <-. reflexivity.
  - destruct (step garbage l s) as [[s'| | | |]|]; try discriminate. auto.
Qed.

Lemma completes_lemma ts m0 n0 ends : Unused m0 n0 -> (forall i d ks, nth_error ts i = Some (d, ks) -> Serial d ks (ends i)) ->
  forall tr s, exec garbage tr (beginning ts m0 n0) = Some (Ok s) ->
  exists tr' s', exec garbage (tr ++ tr') (beginning ts m0 n0) = Some (Ok s') /\ forall c, In c (callers s') -> Finished c.
Proof.
  intros U S tr s H. remember (measure s) as n eqn:En. revert tr s H En. induction n as [n IH] using lt_wf_ind. intros tr s H ->.
  destruct (progress_lemma garbage ts m0 n0 ends U S tr s H) as [F|(l & s1 & E)].
  - exists [], s. rewrite app_nil_r. auto.
  - assert (H1 : exec garbage (tr ++ [l]) (beginning ts m0 n0) = Some (Ok s1)). { rewrite (exec_app _ _ _ _ H). cbn [exec]. now rewrite E. }
    pose proof (step_measure _ _ _ E) as M. destruct (IH (measure s1)) with (tr := tr ++ [l]) (s := s1) as (tr' & s' & H' & F); [lia|exact H1|reflexivity|].
    exists (l :: tr'), s'. rewrite <- app_assoc in H'. auto.
Qed.
End Measure.

(** A thread whose own kernel traps is told so, whatever the others do. *)
Section Trap.
Context {A : Type} (garbage : nat -> list A).
Notation kern := (list A -> outcome (list A)).

Record Own (s : system A) : Prop := {
  o_own : forall i c p, nth_error (callers s) i = Some c -> owner c = Some p -> (p < fresh s)%nat;
  o_diff : forall i j c c' p, nth_error (callers s) i = Some c -> nth_error (callers s) j = Some c' -> i <> j -> owner c = Some p -> owner c' <> Some p;
  o_queue : forall p f, In (p, f) (queue s) -> exists i c, nth_error (callers s) i = Some c /\ owner c = Some p /\
    (exists k ks, todo c = k :: ks /\ f = kernel k) /\ (now c = Sync p \/ exists ws, now c = Waiting p ws /\ In p ws);
  o_broken : broken s = true -> queue s = []
}.

Definition calls_wait (c : caller A) (p : nat) (f : kern) : Prop :=
  owner c = Some p /\ (exists k ks, todo c = k :: ks /\ f = kernel k) /\ (now c = Sync p \/ exists ws, now c = Waiting p ws /\ In p ws).

Lemma own_move s s' i c c' : Own s -> nth_error (callers s) i = Some c -> callers s' = replace (callers s) i c' ->
  (owner c' = owner c /\ fresh s' = fresh s \/ owner c' = None /\ fresh s' = fresh s \/
   owner c = None /\ owner c' = Some (fresh s) /\ fresh s' = S (fresh s)) ->
  (forall p f, In (p, f) (queue s') -> (In (p, f) (queue s) /\ owner c <> Some p) \/ calls_wait c' p f) ->
  (broken s' = true -> queue s' = []) -> Own s'.
Proof.
  intros [Iown Idiff Iqu Ibr] Hi Ec H2 HQ HB.
  assert (GET : forall j cj, nth_error (callers s') j = Some cj -> j = i /\ cj = c' \/ j <> i /\ nth_error (callers s) j = Some cj).
  { intros j cj Hj. rewrite Ec in Hj. destruct (Nat.eq_dec i j) as [->|N].
    - rewrite (nth_replace_eq _ _ _ _ Hi) in Hj. injection Hj as <-. auto.
    - rewrite nth_replace_neq in Hj by exact N. auto. }
  assert (OTHER : forall j cj q, j <> i -> nth_error (callers s) j = Some cj -> owner cj = Some q -> owner c' <> Some q).
  { intros j cj q N Hj O. pose proof (Idiff j i cj c q Hj Hi N O) as D. destruct H2 as [(E & _)|[(E & _)|(E & E' & _)]]; rewrite ?E, ?E'; try congruence.
    intros X. injection X as <-. pose proof (Iown j cj _ Hj O). lia. }
  constructor; auto.
  - intros j cj p Hj O. destruct (GET j cj Hj) as [(-> & ->)|(N & Hj')].
    + destruct H2 as [(E & F)|[(E & _)|(E & E' & F)]]; [rewrite E in O; rewrite F; apply (Iown i c p Hi O)|congruence|].
      rewrite E' in O. injection O as <-. lia.
    + pose proof (Iown j cj p Hj' O). destruct H2 as [(E & F)|[(E & F)|(E & E' & F)]]; rewrite F; lia.
  - intros j j' cj cj' p Hj Hj' N O O'. destruct (GET j cj Hj) as [(-> & ->)|(N1 & Hj1)]; destruct (GET j' cj' Hj') as [(-> & ->)|(N2 & Hj2)].
    + congruence.
    + exact (OTHER j' cj' p N2 Hj2 O' O).
    + exact (OTHER j cj p N1 Hj1 O O').
    + exact (Idiff j j' cj cj' p Hj1 Hj2 N O O').
  - intros p f Hp. destruct (HQ p f Hp) as [(Q & O)|W].
    + destruct (Iqu p f Q) as (j & cj & Hj & Oj & R). exists j, cj. split; [|split; [exact Oj|exact R]]. rewrite Ec, nth_replace_neq; [exact Hj|]. intros ->. congruence.
    + exists i, c'. split; [rewrite Ec; eapply nth_replace_eq; eauto|exact W].
Qed.

Lemma own_waiting s i c p f : Own s -> nth_error (callers s) i = Some c -> owner c = Some p -> In (p, f) (queue s) ->
  calls_wait c p f.
Proof.
  intros I Hi O Q. destruct (o_queue _ I p f Q) as (j & cj & Hj & Oj & R). destruct (Nat.eq_dec i j) as [->|N].
  - rewrite Hi in Hj. injection Hj as <-. split; auto.
  - destruct (o_diff _ I i j c cj p Hi Hj N O Oj).
Qed.

(** What a step of another thread leaves alone. *)
Definition Alike (s s' : system A) (c : caller A) : Prop :=
  broken s' = broken s /\ (forall j, In j (printed s) -> In j (printed s')) /\
  (forall q, q <> fresh s -> owner c <> Some q -> mem s' q = mem s q) /\
  (forall q f, owner c <> Some q -> (In (q, f) (queue s') <-> In (q, f) (queue s))).

Lemma host_own s i s' : Own s -> step garbage (Host i) s = Some (Ok s') -> exists c c', nth_error (callers s) i = Some c /\ callers s' = replace (callers s) i c' /\
  Own s' /\ Alike s s' c.
Proof.
  intros I. unfold step. destruct (dead s); [discriminate|]. destruct (nth_error (callers s) i) as [c|] eqn:Hi; [|discriminate].
  destruct (todo c) as [|k ks] eqn:Et; [discriminate|]. pose proof (o_broken _ I) as B.
  assert (OW := fun p f O Q => own_waiting s i c p f I Hi O Q).
  assert (MV : forall s' c', callers s' = replace (callers s) i c' -> 
    (owner c' = owner c /\ fresh s' = fresh s \/ owner c' = None /\ fresh s' = fresh s \/ owner c = None /\ owner c' = Some (fresh s) /\ fresh s' = S (fresh s)) ->
    (forall p f, In (p, f) (queue s') -> (In (p, f) (queue s) /\ owner c <> Some p) \/ calls_wait c' p f) ->
    (broken s' = true -> queue s' = []) -> Alike s s' c -> exists c0 c', Some c = Some c0 /\ callers s' = replace (callers s) i c' /\ Own s' /\ Alike s s' c0).
  { intros s1 c' E1 E2 E3 E4 E5. exists c, c'. split; [reflexivity|]. split; [exact E1|]. split; [|exact E5]. exact (own_move s s1 i c c' I Hi E1 E2 E3 E4). }
  assert (NOQ : forall p, owner c = Some p -> ~ waits c p -> forall q f, In (q, f) (queue s) -> In (q, f) (queue s) /\ owner c <> Some q).
  { intros p O N q f Q. split; [exact Q|]. intros O'. assert (q = p) by congruence. subst q. destruct (OW p f O Q) as (_ & _ & [W|(ws & W & _)]); apply N; unfold waits; eauto. }
  destruct (now c) as [|[p|]|p|p|p ws|p err|p err|err] eqn:En; cbn [option_map].
  - unfold do_malloc. destruct (negb (broken s) && (0 <=? size k)); intros H; injection H as <-; (eapply MV; [reflexivity|..]); cbn [with_caller callers mem queue broken fresh].
    + right; right. unfold owner. rewrite En. auto.
    + intros q f Q. left. split; [exact Q|]. unfold owner. rewrite En. discriminate.
    + exact B.
    + split; [reflexivity|]. split; [auto|]. split; [|tauto]. intros q N _. cbn [with_caller mem]. unfold set. destruct (Nat.eqb_spec q (fresh s)); [congruence|reflexivity].
    + left. unfold owner. rewrite En. auto.
    + intros q f Q. left. split; [exact Q|]. unfold owner. rewrite En. discriminate.
    + exact B.
    + split; [reflexivity|]. split; [auto|]. split; [auto|tauto].
  - unfold do_copy_in. destruct (_ <? _); [discriminate|]. destruct (mem s p); [|discriminate]. intros H. injection H as <-.
    assert (N : ~ waits c p) by (unfold waits; rewrite En; intros [X|(x & X)]; discriminate).
    assert (O : owner c = Some p) by (unfold owner; now rewrite En).
    destruct (broken s) eqn:Eb; (eapply MV; [reflexivity|..]); cbn [with_caller with_mem callers mem queue broken fresh].
    + left. rewrite O. auto.
    + intros q f Q. left. exact (NOQ p O N q f Q).
    + auto.
    + split; [reflexivity|]. split; [auto|]. split; [auto|tauto].
    + left. rewrite O. auto.
    + intros q f Q. left. exact (NOQ p O N q f Q).
    + rewrite Eb. discriminate.
    + split; [exact eq_refl|]. split; [auto|]. split; [|tauto]. intros q _ Nq. cbn [with_caller with_mem mem]. unfold set. destruct (Nat.eqb_spec q p); [congruence|reflexivity].
  - discriminate.
  - intros H. injection H as <-. unfold do_launch.
    assert (N : ~ waits c p) by (unfold waits; rewrite En; intros [X|(x & X)]; discriminate).
    assert (O : owner c = Some p) by (unfold owner; now rewrite En).
    destruct (broken s) eqn:Eb; (eapply MV; [reflexivity|..]); cbn [with_caller with_queue callers mem queue broken fresh].
    + left. rewrite O. auto.
    + intros q f Q. left. exact (NOQ p O N q f Q).
    + auto.
    + split; [reflexivity|]. split; [auto|]. split; [auto|tauto].
    + left. rewrite O. auto.
    + intros q f Q. apply in_app_or in Q as [Q|[Q|[]]]; [left; exact (NOQ p O N q f Q)|]. injection Q as <- <-. right. split; [reflexivity|]. cbn [todo now]. split; [eauto|auto].
    + rewrite Eb. discriminate.
    + split; [exact eq_refl|]. split; [auto|]. split; [auto|]. intros q f Nq. cbn [with_caller with_queue queue]. rewrite in_app_iff. cbn. intuition congruence.
  - intros H. injection H as <-. unfold do_sync. assert (O : owner c = Some p) by (unfold owner; now rewrite En).
    (eapply MV; [reflexivity|..]); cbn [with_caller callers mem queue broken fresh].
    + left. rewrite O. auto.
    + intros q f Q. destruct (Nat.eq_dec q p) as [->|Nq].
      * right. destruct (OW p f O Q) as (_ & T & _). split; [reflexivity|]. split; [exact T|]. right. eexists. split; [reflexivity|]. exact (in_map fst _ _ Q).
      * left. split; [exact Q|congruence].
    + exact B.
    + split; [reflexivity|]. split; [auto|]. split; [auto|tauto].
  - unfold do_return. destruct (existsb _ _) eqn:X; [discriminate|]. intros H. injection H as <-. assert (O : owner c = Some p) by (unfold owner; now rewrite En).
    (eapply MV; [reflexivity|..]); cbn [with_caller callers mem queue broken fresh].
    + left. rewrite O. auto.
    + intros q f Q. left. split; [exact Q|]. intros O'. assert (q = p) by congruence. subst q. destruct (OW p f O Q) as (_ & _ & [W|(ws' & W & Iw)]); [congruence|].
      rewrite En in W. injection W as <-. enough (true = false) by discriminate. rewrite <- X. symmetry. apply existsb_exists. exists (p, f). split; [exact Q|].
      apply existsb_exists. exists p. split; [exact Iw|apply Nat.eqb_refl].
    + exact B.
    + split; [reflexivity|]. split; [auto|]. split; [auto|tauto].
  - unfold do_copy_out. destruct (mem s p) as [l|]; [|discriminate]. intros H. injection H as <-.
    assert (N : ~ waits c p) by (unfold waits; rewrite En; intros [X|(x & X)]; discriminate).
    assert (O : owner c = Some p) by (unfold owner; now rewrite En).
    (eapply MV; [reflexivity|..]); cbn [with_caller callers mem queue broken fresh].
    + left. rewrite O. auto.
    + intros q f Q. left. exact (NOQ p O N q f Q).
    + exact B.
    + split; [reflexivity|]. split; [auto|]. split; [auto|tauto].
  - intros H. injection H as <-. unfold do_free.
    assert (N : ~ waits c p) by (unfold waits; rewrite En; intros [X|(x & X)]; discriminate).
    assert (O : owner c = Some p) by (unfold owner; now rewrite En).
    destruct (broken s) eqn:Eb; (eapply MV; [reflexivity|..]); cbn [with_caller with_mem callers mem queue broken fresh].
    + right; left. auto.
    + intros q f Q. left. exact (NOQ p O N q f Q).
    + auto.
    + split; [reflexivity|]. split; [auto|]. split; [auto|tauto].
    + right; left. auto.
    + intros q f Q. left. exact (NOQ p O N q f Q).
    + rewrite Eb. discriminate.
    + split; [exact eq_refl|]. split; [auto|]. split; [|tauto]. intros q _ Nq. cbn [with_caller with_mem mem]. unfold set. destruct (Nat.eqb_spec q p); [congruence|reflexivity].
  - intros H. injection H as <-. unfold do_report. assert (O : owner c = None) by (unfold owner; now rewrite En).
    (eapply MV; [reflexivity|..]); cbn [with_caller callers mem queue broken fresh].
    + left. rewrite O. auto.
    + intros q f Q. left. split; [exact Q|]. rewrite O. discriminate.
    + exact B.
    + split; [reflexivity|]. split; [|split; [auto|tauto]]. intros j Hj. cbn [printed]. destruct err; [apply in_or_app; auto|exact Hj].
Qed.

Context (me : nat) (d : list A) (k : call A).
Context (SIZE : 0 <= size k <= Z.of_nat (length d)) (TRAPS : kernel k (firstn (Z.to_nat (size k)) d) = Aborted).

Definition Doomed (s : system A) (p : nat) : Prop :=
  broken s = true \/ In (p, kernel k) (queue s) /\ mem s p = Some (firstn (Z.to_nat (size k)) d).
Definition Story (s : system A) (c : caller A) : Prop :=
  match now c with
  | Idle => todo c = [k] /\ data c = d \/ todo c = [] /\ In me (printed s)
  | CopyIn p => todo c = [k] /\ data c = d
  | Launch p => todo c = [k] /\ data c = d /\ (broken s = true \/ mem s p = Some (firstn (Z.to_nat (size k)) d))
  | Sync p | Waiting p _ => todo c = [k] /\ Doomed s p
  | CopyOut _ err | Free _ err | Report err => todo c = [k] /\ err = true
  end.

Lemma story_other s s' c cj : Own s -> nth_error (callers s) me = Some c -> Alike s s' cj ->
  (forall q, owner c = Some q -> owner cj <> Some q) -> Story s c -> Story s' c.
Proof.
  intros I Hm (B & P & M & Q) D H.
  assert (MM : forall q, owner c = Some q -> mem s' q = mem s q) by (intros q O; apply M; [pose proof (o_own _ I me c q Hm O); lia|auto]).
  assert (QQ : forall q f, owner c = Some q -> In (q, f) (queue s') <-> In (q, f) (queue s)) by (intros q f O; apply Q; auto).
  unfold Story, Doomed, owner in *. destruct (now c) as [|p|p|p|p ws|p err|p err|err]; auto.
  - destruct H as [H|(H & H')]; auto.
  - rewrite B, (MM p eq_refl). exact H.
  - rewrite B, (MM p eq_refl), (QQ p _ eq_refl). exact H.
  - rewrite B, (MM p eq_refl), (QQ p _ eq_refl). exact H.
Qed.

Lemma story_own s s' c c' : Own s -> nth_error (callers s) me = Some c -> step garbage (Host me) s = Some (Ok s') ->
  callers s' = replace (callers s) me c' -> Story s c -> Story s' c'.
Proof.
  intros I Hm. unfold step. destruct (dead s); [discriminate|]. rewrite Hm. unfold Story at 1.
  assert (REP : forall l' x, replace (callers s) me x = l' -> l' = replace (callers s) me c' -> x = c').
  { intros l' x E1 E2. subst l'. pose proof (nth_replace_eq _ me x c Hm) as X. rewrite E2, (nth_replace_eq _ me c' c Hm) in X. congruence. }
  destruct (now c) as [|[p|]|p|p|p ws|p err|p err|err] eqn:En.
  - intros H E [(T & D)|(T & P)]; rewrite T in H; [|discriminate H]. injection H as <-. unfold do_malloc in *.
    destruct (negb (broken s) && (0 <=? size k)); cbn [with_caller callers] in E; apply (REP _ _ eq_refl) in E; subst c'; cbn; auto.
  - intros H E (T & D); rewrite T in H. unfold do_copy_in in H. destruct (_ <? _); [discriminate H|]. destruct (mem s p) eqn:Em; [|discriminate H]. injection H as <-.
    destruct (broken s) eqn:Eb; cbn [with_caller with_mem callers] in E; apply (REP _ _ eq_refl) in E; subst c'; unfold Story; cbn [now todo data].
    + split; [exact T|]. split; [exact D|]. left. exact Eb.
    + split; [exact T|]. split; [exact D|]. right. cbn. unfold set. rewrite Nat.eqb_refl, D. reflexivity.
  - intros H E (T & D); rewrite T in H. discriminate H.
  - intros H E (T & D & M); rewrite T in H. injection H as <-. unfold do_launch in *.
    destruct (broken s) eqn:Eb; cbn [with_caller with_queue callers] in E; apply (REP _ _ eq_refl) in E; subst c'; unfold Story, Doomed; cbn [now todo data with_caller with_queue broken queue mem].
    + split; [exact T|]. left. exact Eb.
    + split; [exact T|]. right. destruct M as [M|M]; [discriminate M|]. split; [apply in_or_app; cbn; auto|exact M].
  - intros H E (T & D); rewrite T in H. injection H as <-. unfold do_sync in *. cbn [with_caller callers] in E. apply (REP _ _ eq_refl) in E. subst c'. cbn. auto.
  - intros H E (T & D); rewrite T in H. unfold do_return in H. destruct (existsb _ _) eqn:X; [discriminate H|]. injection H as <-. cbn [with_caller callers] in E.
    apply (REP _ _ eq_refl) in E. subst c'. cbn. split; [exact T|]. destruct D as [D|(Q & _)]; [exact D|].
    destruct (own_waiting s me c p _ I Hm (ltac:(unfold owner; now rewrite En)) Q) as (_ & _ & [W|(ws' & W & Iw)]); [congruence|]. rewrite En in W. injection W as <-.
    enough (true = false) by discriminate. rewrite <- X. symmetry. apply existsb_exists. exists (p, kernel k). split; [exact Q|].
    apply existsb_exists. exists p. split; [exact Iw|apply Nat.eqb_refl].
  - intros H E (T & ->); rewrite T in H. unfold do_copy_out in H. destruct (mem s p); [|discriminate H]. injection H as <-. cbn [with_caller callers] in E.
    apply (REP _ _ eq_refl) in E. subst c'. cbn. auto.
  - intros H E (T & ->); rewrite T in H. injection H as <-. unfold do_free in *. destruct (broken s); cbn [with_caller with_mem callers] in E;
      apply (REP _ _ eq_refl) in E; subst c'; cbn; auto.
  - intros H E (T & ->); rewrite T in H. injection H as <-. unfold do_report in *. cbn [with_caller callers] in E. apply (REP _ _ eq_refl) in E. subst c'. cbn.
    right. split; [reflexivity|]. apply in_or_app. cbn. auto.
Qed.

Definition Told (s : system A) : Prop := Own s /\ exists c, nth_error (callers s) me = Some c /\ Story s c.

Lemma step_told l s s' : Told s -> step garbage l s = Some (Ok s') -> Told s'.
Proof.
  intros (I & c & Hm & St) E. destruct l as [i|n].
  - destruct (host_own s i s' I E) as (ci & ci' & Hi & Ec & I' & Al). split; [exact I'|]. destruct (Nat.eq_dec i me) as [->|N].
    + rewrite Hm in Hi. injection Hi as <-. exists ci'. split; [rewrite Ec; eapply nth_replace_eq; eauto|]. exact (story_own s s' c ci' I Hm E Ec St).
    + exists c. split; [rewrite Ec, nth_replace_neq by exact N; exact Hm|]. apply (story_other s s' c ci I Hm Al); [|exact St]. intros q O. exact (o_diff _ I me i c ci q Hm Hi (not_eq_sym N) O).
  - unfold step in E. destruct (dead s); [discriminate|]. destruct (nth_error (queue s) n) as [(p, f)|] eqn:Hn; [|discriminate]. destruct (mem s p) as [l|] eqn:Em; [|discriminate].
    assert (Q : In (p, f) (queue s)) by (eapply nth_error_In; eauto). destruct (drop_split _ _ _ Hn) as (q1 & q2 & Eq & Dq).
    destruct (f l) as [l'| | | |] eqn:Ef; try discriminate; injection E as <-.
    + split.
      * constructor; cbn [with_queue with_mem callers fresh queue broken]; try apply I.
        -- intros q g Hq. apply (o_queue _ I). eapply drop_in; eauto.
        -- intros B. rewrite (o_broken _ I B) in Hn. destruct n; discriminate Hn.
      * exists c. split; [exact Hm|]. 
        assert (NB : broken s = false). { destruct (broken s) eqn:B; [|reflexivity]. rewrite (o_broken _ I B) in Hn. destruct n; discriminate Hn. }
        assert (KEEP : forall q, owner c = Some q -> ~ In (q, kernel k) (queue s) \/ mem s q <> Some (firstn (Z.to_nat (size k)) d) \/ q <> p \/ f <> kernel k).
        { intros q O. right. destruct (Nat.eq_dec q p) as [->|]; [|auto]. left. intros M. rewrite Em in M. injection M as ->.
          destruct (own_waiting s me c p f I Hm O Q) as (_ & (k' & ks' & T & Fk) & W).
          assert (T' : todo c = [k]). { unfold Story in St. destruct W as [W|(ws & W & _)]; rewrite W in St; apply St. }
          rewrite T' in T. injection T as <- <-. rewrite Fk, TRAPS in Ef. discriminate. }
        unfold Story, Doomed in *. cbn [with_queue with_mem broken mem queue printed].
        assert (DOOM : forall q, owner c = Some q -> todo c = [k] -> (now c = Sync q \/ exists ws, now c = Waiting q ws) ->
          broken s = true \/ In (q, kernel k) (queue s) /\ mem s q = Some (firstn (Z.to_nat (size k)) d) ->
          broken s = true \/ In (q, kernel k) (drop n (queue s)) /\ set (mem s) p (Some l') q = Some (firstn (Z.to_nat (size k)) d)).
        { intros q O T W [B|(Iq & M)]; [congruence|]. right.
          assert (q <> p). { intros ->. rewrite Em in M. injection M as ->. destruct (own_waiting s me c p f I Hm O Q) as (_ & (k' & ks' & T' & Fk) & _).
            rewrite T in T'. injection T' as <- <-. rewrite Fk, TRAPS in Ef. discriminate. }
          split; [|unfold set; destruct (Nat.eqb_spec q p); [congruence|exact M]]. rewrite Dq. rewrite Eq in Iq. apply in_app_or in Iq as [Iq|[Iq|Iq]]; [| congruence|]; apply in_or_app; auto. }
        destruct (now c) as [|q|q|q|q ws|q err|q err|err] eqn:En; auto.
        -- destruct St as (T & D & [B|M]); [congruence|]. split; [exact T|]. split; [exact D|]. right. unfold set. destruct (Nat.eqb_spec q p) as [->|]; [|exact M].
           destruct (own_waiting s me c p f I Hm (ltac:(unfold owner; now rewrite En)) Q) as (_ & _ & [W|(ws' & W & _)]); congruence.
        -- destruct St as (T & Dm). split; [exact T|]. apply DOOM; auto. unfold owner. now rewrite En.
        -- destruct St as (T & Dm). split; [exact T|]. apply DOOM; auto; [|eauto]. unfold owner. now rewrite En.
    + split.
      * constructor; cbn [callers fresh queue broken]; try apply I; [intros q g []|auto].
      * exists c. split; [exact Hm|]. unfold Story, Doomed in *. cbn [broken mem queue printed]. destruct (now c); intuition auto.
Qed.

Lemma told_lemma tr : forall s s', Told s -> exec garbage tr s = Some (Ok s') -> Told s'.
Proof.
  induction tr as [|l tr IH]; intros s s' T H; cbn [exec] in H.
  - injection H as <-. exact T.
  - destruct (step garbage l s) as [[s1| | | |]|] eqn:E; try discriminate. eapply IH; [|exact H]. eapply step_told; eauto.
Qed.
End Trap.

Lemma own_trap_lemma {A} (garbage : nat -> list A) ts m0 n0 i d k :
  nth_error ts i = Some (d, [k]) -> 0 <= size k <= Z.of_nat (length d) -> kernel k (firstn (Z.to_nat (size k)) d) = Aborted ->
  forall tr s c, exec garbage tr (beginning ts m0 n0) = Some (Ok s) -> nth_error (callers s) i = Some c -> Finished c -> In i (printed s).
Proof.
  intros Hi Hs Hk tr s c E Hc (Ft & Fn).
  assert (G : forall i (c : caller A), nth_error (callers (beginning ts m0 n0)) i = Some c -> owner c = None).
  { intros j cj H. cbn in H. rewrite nth_error_map in H. destruct (nth_error ts j) as [(d', ks)|]; [|discriminate]. injection H as <-. reflexivity. }
  assert (T0 : Told i d k (beginning ts m0 n0)).
  { split.
    - constructor; cbn [beginning queue broken].
      + intros j cj p H O. rewrite (G j cj H) in O. discriminate.
      + intros j j' cj cj' p H _ _ O. rewrite (G j cj H) in O. discriminate.
      + intros p f [].
      + discriminate.
    - exists {| data := d; now := Idle; todo := [k] |}. split; [cbn; rewrite nth_error_map, Hi; reflexivity|]. cbn. auto. }
  destruct (told_lemma garbage i d k Hs Hk tr _ _ T0 E) as (_ & c' & Hc' & St). rewrite Hc in Hc'. injection Hc' as <-. unfold Story in St. rewrite Fn in St.
  destruct St as [(T & _)|(_ & P)]; [congruence|exact P].
Qed.

(** The process is aborted on behalf of a thread that was told of a failure and asked for it. *)
Section Abort.
Context {A : Type} (garbage : nat -> list A) (ts : list (list A * list (call A))).
Definition Asked (s : system A) : Prop :=
  (forall i c, nth_error (callers s) i = Some c -> exists d pre, nth_error ts i = Some (d, pre ++ todo c)) /\
  (dead s = true -> exists i d ks k, nth_error ts i = Some (d, ks) /\ In k ks /\ abortOnError k = true /\ In i (printed s)) /\
  (forall i d ks, In i (printed s) -> nth_error ts i = Some (d, ks) -> (forall k, In k ks -> abortOnError k = true) -> dead s = true).

Lemma asked_same s s' i c c' : Asked s -> nth_error (callers s) i = Some c -> todo c' = todo c ->
  callers s' = replace (callers s) i c' -> printed s' = printed s -> dead s' = dead s -> Asked s'.
Proof.
  intros (H1 & H2 & H3) Hc Ht Ec Ep Ed. unfold Asked. rewrite Ec, Ep, Ed. split; [|split; assumption].
  intros j cj Hj. destruct (Nat.eq_dec i j) as [<-|N].
  - rewrite (nth_replace_eq _ _ _ _ Hc) in Hj. injection Hj as <-. rewrite Ht. exact (H1 i c Hc).
  - rewrite nth_replace_neq in Hj by assumption. exact (H1 j cj Hj).
Qed.

Lemma step_asked l s s' : Asked s -> step garbage l s = Some (Ok s') -> Asked s'.
Proof.
  intros HA H. unfold step in H. destruct (dead s) eqn:Ed; [discriminate|]. destruct l as [i|n].
  - destruct (nth_error (callers s) i) as [c|] eqn:Hc; [|discriminate]. destruct (todo c) as [|k ks] eqn:Ht; [discriminate|].
    destruct (now c) as [|p|p|p|p ws|p err|p err|err] eqn:En.
    + injection H as <-. unfold do_malloc. destruct (_ && _); (eapply asked_same; [exact HA|exact Hc| |reflexivity|reflexivity|reflexivity]; reflexivity).
    + unfold do_copy_in in H. destruct p as [p|]; [|discriminate]. destruct (_ <? _); [discriminate|].
      destruct (mem s p); [|discriminate]. injection H as <-. destruct (broken s); (eapply asked_same; [exact HA|exact Hc| |reflexivity|reflexivity|reflexivity]; reflexivity).
    + injection H as <-. unfold do_launch. destruct (broken s); (eapply asked_same; [exact HA|exact Hc| |reflexivity|reflexivity|reflexivity]; reflexivity).
    + injection H as <-. (eapply asked_same; [exact HA|exact Hc| |reflexivity|reflexivity|reflexivity]; reflexivity).
    + unfold do_return in H. destruct (existsb _ _); [discriminate|]. injection H as <-. (eapply asked_same; [exact HA|exact Hc| |reflexivity|reflexivity|reflexivity]; reflexivity).
    + unfold do_copy_out in H. destruct (mem s p); [|discriminate]. injection H as <-. (eapply asked_same; [exact HA|exact Hc| |reflexivity|reflexivity|reflexivity]; reflexivity).
    + injection H as <-. unfold do_free. destruct (broken s); (eapply asked_same; [exact HA|exact Hc| |reflexivity|reflexivity|reflexivity]; reflexivity).
    + injection H as <-. destruct HA as (H1 & H2 & H3). destruct (H1 i c Hc) as (d & pre & Hts). rewrite Ht in Hts.
      unfold Asked, do_report. cbn [callers printed dead with_caller]. split; [|split].
      * intros j cj Hj. destruct (Nat.eq_dec i j) as [<-|N].
        -- rewrite (nth_replace_eq _ _ _ _ Hc) in Hj. injection Hj as <-. exists d, (pre ++ [k]). cbn [todo]. rewrite <- app_assoc. exact Hts.
        -- rewrite nth_replace_neq in Hj by assumption. exact (H1 j cj Hj).
      * intros D. apply andb_true_iff in D. destruct D as (-> & Ha). exists i, d, (pre ++ k :: ks), k.
        split; [exact Hts|]. split; [apply in_or_app; right; left; reflexivity|]. split; [exact Ha|]. apply in_or_app. right. left. reflexivity.
      * intros j dj kj Hj Htj Hall. destruct err; [apply in_app_or in Hj; destruct Hj as [Hj|[<-|[]]]|].
        -- rewrite (H3 j dj kj Hj Htj Hall) in Ed. discriminate.
        -- rewrite Hts in Htj. injection Htj as <- <-. cbn [andb]. apply Hall. apply in_or_app. right. left. reflexivity.
        -- rewrite (H3 j dj kj Hj Htj Hall) in Ed. discriminate.
  - destruct (nth_error (queue s) n) as [(p, f)|]; [|discriminate]. destruct (mem s p) as [l|]; [|discriminate].
    destruct (f l); try discriminate; injection H as <-; [exact HA|]. destruct HA as (H1 & H2 & H3). rewrite Ed in H2, H3. split; [exact H1|split; [exact H2|exact H3]].
Qed.
Lemma exec_asked tr : forall s s', Asked s -> exec garbage tr s = Some (Ok s') -> Asked s'.
Proof.
  induction tr as [|l tr IH]; intros s s' T H; cbn [exec] in H.
  - injection H as <-. exact T.
  - destruct (step garbage l s) as [[s1| | | |]|] eqn:E; try discriminate. eapply IH; [|exact H]. eapply step_asked; eauto.
Qed.
Lemma abort_lemma m n tr s : exec garbage tr (beginning ts m n) = Some (Ok s) ->
  (dead s = true -> exists i d ks k, nth_error ts i = Some (d, ks) /\ In k ks /\ abortOnError k = true /\ In i (printed s)) /\
  (forall i d ks, In i (printed s) -> nth_error ts i = Some (d, ks) -> (forall k, In k ks -> abortOnError k = true) -> dead s = true).
Proof.
  intros E. apply (exec_asked tr (beginning ts m n) s); [|exact E]. split; [|split].
  - intros i c H. cbn in H. rewrite nth_error_map in H. destruct (nth_error ts i) as [(d, ks)|]; [|discriminate]. injection H as <-.
    exists d, []. reflexivity.
  - discriminate.
  - intros i d ks [].
Qed.
End Abort.

(** The same calls, one after the other, through the wrapper of ModelPmpl. *)
From Verif Require ModelPmpl ProofPmpl.
Lemma serial_wrapper {A} (o : @ModelPmpl.oracle A) d ks e : ModelPmpl.no_failure o -> Serial d ks e ->
  forall w, ModelPmpl.host w = d -> exists w', ModelPmpl.run_all ModelPmpl.Cuda (map (fun k => (o, size k, kernel k, abortOnError k)) ks) w = Ok (ModelPmpl.Returned, w') /\
    ModelPmpl.host w' = e /\ ModelPmpl.blocks w' = ModelPmpl.blocks w.
Proof.
  intros NF S. induction S as [d|d k ks l d' Hs Hk Hl _ IH]; intros w Hw; cbn [map ModelPmpl.run_all].
  - exists w. auto.
  - subst d. destruct (ProofPmpl.device_success_lemma o (size k) (kernel k) (abortOnError k) w l NF Hs Hk Hl) as (w1 & E & H1 & B1 & _). rewrite E. cbn [bind].
    destruct (IH w1 H1) as (w' & E' & H' & B'). exists w'. split; [exact E'|]. split; [exact H'|congruence].
Qed.

(** Two threads, one of whose kernels traps. *)
Definition traps : call Z := {| size := 1; kernel := fun _ => Aborted; abortOnError := false |}.
Definition doubles (a : bool) : call Z := {| size := 1; kernel := fun l => match l with x :: l' => Ok (2 * x :: l') | [] => UB OutOfBounds end; abortOnError := a |}.
Definition two (a : bool) : list (list Z * list (call Z)) := [([5], [traps]); ([7], [doubles a])].
Definition nothing (p : nat) : option (list Z) := None.
Definition zeros (p : nat) : list Z := [0].

Lemma innocent_aborted : exists tr s c, exec zeros tr (beginning (two true) nothing 0) = Some (Ok s) /\
  dead s = true /\ printed s = [1%nat] /\ nth_error (callers s) 1 = Some c /\ data c = [7] /\ Serial [7] [doubles true] [14].
Proof.
  exists [Host 0; Host 0; Host 0; Host 1; Host 1; Host 1; Device 1; Device 0; Host 1; Host 1; Host 1; Host 1; Host 1].
  eexists _, _. split; [vm_compute; reflexivity|]. split; [reflexivity|]. split; [reflexivity|]. split; [reflexivity|]. split; [reflexivity|].
  eapply Serial_cons with (l := [14]); [cbn; lia|reflexivity|reflexivity|]. apply Serial_nil.
Qed.

Lemma silent_loss : exists tr s c, exec zeros tr (beginning (two true) nothing 0) = Some (Ok s) /\
  dead s = false /\ printed s = [] /\ nth_error (callers s) 1 = Some c /\ Finished c /\ data c = [7] /\ Serial [7] [doubles true] [14].
Proof.
  exists [Host 1; Host 1; Host 1; Device 0; Host 1; Host 1; Host 0; Host 0; Host 0; Device 0; Host 1; Host 1; Host 1].
  eexists _, _. split; [vm_compute; reflexivity|]. split; [reflexivity|]. split; [reflexivity|]. split; [reflexivity|]. split; [split; reflexivity|]. split; [reflexivity|].
  eapply Serial_cons with (l := [14]); [cbn; lia|reflexivity|reflexivity|]. apply Serial_nil.
Qed.

Lemma undefined_after_trap : exists tr, exec zeros tr (beginning (two false) nothing 0) = Some (UB BadMemory).
Proof. exists [Host 0; Host 0; Host 0; Device 0; Host 1; Host 1]. vm_compute. reflexivity. Qed.
