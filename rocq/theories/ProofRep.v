(** Reading and writing array objects as abstract arrays. *)
From Verif Require Import Base SpecIndex ProofBase ProofBox ModelAssert ModelCArray SpecCArray ProofCArray.
Open Scope Z_scope.

Notation paren_path := {| brackets := 0; last := Paren |}.

Lemma paren_path_ok a : path_ok paren_path a.
Proof. unfold path_ok; simpl; lia. Qed.

Lemma Holds_iff {T} a (mem : list T) m :
  Holds a mem m <-> view_ok (buflen mem) a /\ represents a mem m.
Proof.
  split; intros (Hv & H); split; auto.
  - intros t Ht. destruct (fetch_ok (host_runtime true) a paren_path t mem) as (x & Hx & Hn); auto.
    { apply paren_path_ok. }
    rewrite H in Hx by (auto using paren_path_ok). congruence.
  - intros c p t Ht Hp. destruct (fetch_ok c a p t mem) as (x & Hx & Hn); auto.
    rewrite H in Hn by assumption. congruence.
Qed.

Lemma Holds_put {T} c a p t (x : T) mem m :
  Holds a mem m -> is_writable a = true -> InRange (dims a) t -> path_ok p a ->
  exists mem', put c a p t x mem = Ok mem' /\ Holds a mem' (aset m t x) /\ SameOutside a mem mem'.
Proof.
  intros H Hw Ht Hp. apply Holds_iff in H. destruct H as (Hv & Hr).
  destruct (run_ops_ok c a [OpPut p t x] mem m) as (mem' & Hrun & Hrep & Hlen & Hout); auto.
  { constructor; [|constructor]. split; auto. }
  cbn [run_ops spec_run fst snd] in *.
  apply bind_Ok in Hrun. destruct Hrun as (mm & Hmm & E). injection E as <-.
  exists mm. split; [exact Hmm|]. split; [|split; assumption].
  apply Holds_iff. split; [|exact Hrep]. unfold view_ok, buflen in *. rewrite Hlen. exact Hv.
Qed.

Lemma SameOutside_refl {T} a (mem : list T) : SameOutside a mem mem.
Proof. split; auto. Qed.
Lemma SameOutside_trans {T} a (m1 m2 m3 : list T) :
  SameOutside a m1 m2 -> SameOutside a m2 m3 -> SameOutside a m1 m3.
Proof. intros (L1 & H1) (L2 & H2). split; [congruence|]. intros k Hk. rewrite H2, H1; auto. Qed.

Lemma Holds_fetch {T} c a p t (mem : list T) m :
  Holds a mem m -> InRange (dims a) t -> path_ok p a -> fetch c a p t mem = Ok (m t).
Proof. intros (_ & H). apply H. Qed.

Lemma Holds_ext {T} a (mem : list T) m m' :
  (forall t, InRange (dims a) t -> m t = m' t) -> Holds a mem m -> Holds a mem m'.
Proof. intros He (Hv & H). split; [exact Hv|]. intros. rewrite H by assumption. f_equal. auto. Qed.

Lemma Holds_exists {T} a (mem : list T) : view_ok (buflen mem) a -> exists m, Holds a mem m.
Proof.
  intros Hv. destruct mem as [|d mem'] eqn:E.
  { exfalso. destruct Hv as ((Hne & Hpos & _) & Hb & Hl). unfold buflen in Hl; simpl in Hl.
    pose proof (prodZ_pos (dims a) Hpos). lia. }
  rewrite <- E in *.
  exists (fun t => match fetch (host_runtime true) a paren_path t mem with Ok x => x | _ => d end).
  split; [exact Hv|]. intros c p t Ht Hp.
  destruct (fetch_ok c a p t mem) as (x & Hx & Hn); auto.
  destruct (fetch_ok (host_runtime true) a paren_path t mem) as (y & Hy & Hn'); auto using paren_path_ok.
  rewrite Hx, Hy. congruence.
Qed.

Lemma aset_eq {T} (m : amap T) t x : aset m t x t = x.
Proof. unfold aset. rewrite (proj2 (tuple_eqb_spec t t) eq_refl). reflexivity. Qed.
Lemma aset_neq {T} (m : amap T) t u x : u <> t -> aset m t x u = m u.
Proof.
  intros H. unfold aset. destruct (tuple_eqb u t) eqn:E; [|reflexivity].
  apply tuple_eqb_spec in E. contradiction.
Qed.

(** Zero-initialised or list-initialised owning arrays. *)
Lemma view_ok_owning {T} ds (mem : list T) : pos_dims ds -> buflen mem = prodZ ds ->
  view_ok (buflen mem) (owning ds).
Proof. intros Hp Hl. unfold view_ok, owning; simpl. rewrite Hl. split; [exact Hp|lia]. Qed.

Lemma list_init_Holds {T} (zero : T) ds args : pos_dims ds -> Z.of_nat (length args) <= prodZ ds ->
  exists mem, list_init zero ds args = Ok mem /\ buflen mem = prodZ ds /\
    Holds (owning ds) mem (fun t => nth (Z.to_nat (flat_offset ds t)) args zero).
Proof.
  intros Hp Hl. pose proof (list_init_ok zero ds args Hp Hl) as Hi.
  assert (Hbl : buflen (args ++ repeat zero (Z.to_nat (prodZ ds) - length args)) = prodZ ds).
  { unfold buflen. rewrite app_length, repeat_length. lia. }
  eexists. split; [exact Hi|]. split; [exact Hbl|].
  apply Holds_iff. split; [apply view_ok_owning; assumption|].
  intros t Ht. unfold owning in *; simpl in *. pose proof (rowmajor_bounds _ _ Ht) as Hb.
  rewrite nth_error_init by lia. rewrite <- (nth_default_eq _ args zero). unfold nth_default.
  destruct (nth_error args (Z.to_nat (flat_offset ds t))); reflexivity.
Qed.
