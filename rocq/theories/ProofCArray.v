(** Proofs about ModelCArray.v and ModelAssert.v. *)
From Verif Require Import Base ProofBase SpecIndex ProofBox ProofIndex ModelAssert ModelCArray SpecCArray.

#[global] Arguments prodZ : simpl never.

Lemma pos_dims_tail d ds : ds <> [] -> pos_dims (d :: ds) -> pos_dims ds.
Proof.
  intros Hne (_ & Hp & Hm). inversion Hp as [|? ? Hd Hds]; subst.
  split; [exact Hne|]. split; [exact Hds|]. pose proof (prodZ_pos _ Hds).
  rewrite prodZ_cons in Hm. nia.
Qed.

Lemma strideHelper_ok pack : pack <> [] -> Forall (fun d => 0 < d) pack -> prodZ pack <= INT_MAX ->
  strideHelper pack = Ok (prodZ pack).
Proof.
  induction pack as [|d pack IH]; intros Hne Hp Hm; [congruence|].
  inversion Hp as [|? ? Hd Hps]; subst. pose proof (prodZ_pos _ Hps).
  destruct pack as [|e pack].
  - simpl. unfold prodZ; simpl. f_equal. lia.
  - change (strideHelper (d :: e :: pack)) with (s <- strideHelper (e :: pack) ;; imul d s).
    rewrite (prodZ_cons d) in Hm |- *.
    assert (Hm' : prodZ (e :: pack) <= INT_MAX) by nia.
    rewrite IH by (auto; discriminate).
    cbn [bind]. apply imul_ok. unfold INT_MIN in *. nia.
Qed.

Lemma prodZ_app1 ds : prodZ (ds ++ [1]) = prodZ ds.
Proof. rewrite prodZ_app. unfold prodZ at 2; simpl. lia. Qed.

Lemma strideHelper_app1 ds : Forall (fun d => 0 < d) ds -> prodZ ds <= INT_MAX ->
  strideHelper (ds ++ [1]) = Ok (prodZ ds).
Proof.
  intros Hp Hm. rewrite <- (prodZ_app1 ds). apply strideHelper_ok.
  - destruct ds; discriminate.
  - apply Forall_app. split; [exact Hp | repeat constructor].
  - now rewrite prodZ_app1.
Qed.

Lemma pos_dims_rest d ds : pos_dims (d :: ds) ->
  0 < d /\ Forall (fun d => 0 < d) ds /\ prodZ ds <= INT_MAX /\ d * prodZ ds <= INT_MAX /\ 0 < prodZ ds.
Proof.
  intros (_ & Hp & Hm). inversion Hp as [|? ? Hd Hds]; subst. pose proof (prodZ_pos _ Hds).
  rewrite prodZ_cons in Hm. repeat split; auto. nia.
Qed.

Lemma index_in_true i d : 0 <= i < d -> index_in i d = true.
Proof. unfold index_in. lia. Qed.
Lemma index_in_iff i d : index_in i d = true <-> 0 <= i < d.
Proof. unfold index_in. lia. Qed.

Lemma ASSERT_true c : ASSERT_MSG c true = Ok tt.
Proof. reflexivity. Qed.

Lemma guard_true c b : b = true -> (if bounds_check c then ASSERT_MSG c b else Ok tt) = Ok tt.
Proof. intros ->. destruct (bounds_check c); reflexivity. Qed.

Lemma level_rt_ok c ds : forall idx, pos_dims ds -> InRange ds idx ->
  level_rt c ds idx = Ok (flat_offset ds idx).
Proof.
  induction ds as [|d ds IH]; intros idx Hp Hin; [destruct Hp; congruence|].
  pose proof Hin as Hin0.
  apply InRange_cons in Hin. destruct Hin as (i & t & -> & Hi & Ht).
  pose proof (pos_dims_rest _ _ Hp) as (Hd & Hds & Hm & Hdm & Hpp).
  pose proof (rowmajor_bounds _ _ Hin0) as Hb. rewrite prodZ_cons in Hb. cbn [flat_offset] in Hb.
  pose proof (rowmajor_bounds _ _ Ht) as Hb'.
  cbn [level_rt]. rewrite guard_true by now apply index_in_true. cbn [bind].
  rewrite strideHelper_app1 by assumption. cbn [constexpr_ bind].
  assert (Him : imul i (prodZ ds) = Ok (i * prodZ ds)).
  { apply imul_ok. unfold INT_MIN, INT_MAX in *. nia. }
  destruct ds as [|e ds].
  - apply InRange_nil in Ht. subst t. rewrite Him. cbn [flat_offset]. f_equal. lia.
  - rewrite Him. cbn [bind]. rewrite IH; [|apply pos_dims_tail in Hp; [exact Hp|discriminate]|exact Ht].
    cbn [bind]. apply iadd_ok. unfold INT_MIN, INT_MAX in *. nia.
Qed.

Lemma level_ct_ok ds : forall idx, pos_dims ds -> InRange ds idx ->
  level_ct ds idx = Ok (flat_offset ds idx).
Proof.
  induction ds as [|d ds IH]; intros idx Hp Hin; [destruct Hp; congruence|].
  pose proof Hin as Hin0.
  apply InRange_cons in Hin. destruct Hin as (i & t & -> & Hi & Ht).
  pose proof (pos_dims_rest _ _ Hp) as (Hd & Hds & Hm & Hdm & Hpp).
  pose proof (rowmajor_bounds _ _ Hin0) as Hb. rewrite prodZ_cons in Hb. cbn [flat_offset] in Hb.
  pose proof (rowmajor_bounds _ _ Ht) as Hb'.
  cbn [level_ct]. rewrite index_in_true by exact Hi.
  rewrite strideHelper_app1 by assumption. cbn [constexpr_ bind].
  assert (Him : imul i (prodZ ds) = Ok (i * prodZ ds)).
  { apply imul_ok. unfold INT_MIN, INT_MAX in *. nia. }
  destruct ds as [|e ds].
  - apply InRange_nil in Ht. subst t. rewrite Him. cbn [flat_offset]. f_equal. lia.
  - rewrite Him. cbn [bind]. rewrite IH; [|apply pos_dims_tail in Hp; [exact Hp|discriminate]|exact Ht].
    cbn [bind]. apply iadd_ok. unfold INT_MIN, INT_MAX in *. nia.
Qed.

(** Compile-time indices out of range are rejected. *)
Lemma level_ct_bad ds : forall idx, pos_dims ds -> ~ InRange ds idx -> length idx = length ds ->
  level_ct ds idx = IllFormed.
Proof.
  induction ds as [|d ds IH]; intros idx Hp Hin Hl; [destruct Hp; congruence|].
  destruct idx as [|i t]; [discriminate|].
  pose proof (pos_dims_rest _ _ Hp) as (Hd & Hds & Hm & Hdm & Hpp).
  cbn [level_ct]. destruct (index_in i d) eqn:Ei; [|reflexivity].
  apply index_in_iff in Ei.
  rewrite strideHelper_app1 by assumption. cbn [constexpr_ bind].
  assert (Him : imul i (prodZ ds) = Ok (i * prodZ ds)).
  { apply imul_ok. unfold INT_MIN, INT_MAX in *. nia. }
  assert (Ht : ~ InRange ds t).
  { intros Ht. apply Hin. apply InRange_cons. eauto. }
  destruct ds as [|e ds].
  - destruct t; [|discriminate]. exfalso. apply Ht. apply InRange_nil. reflexivity.
  - rewrite Him. cbn [bind].
    rewrite IH; [reflexivity|apply pos_dims_tail in Hp; [exact Hp|discriminate]|exact Ht|simpl in *; lia].
Qed.

Lemma ASSERT_false_runtime c : const_eval c = false -> ASSERT_MSG c false = Aborted.
Proof.
  intros H. unfold ASSERT_MSG, IS_CONST_EVAL. rewrite H.
  destruct (tgt c), (has_builtin c); reflexivity.
Qed.

Lemma level_rt_abort c ds : forall idx, runtime_checked c -> pos_dims ds -> ~ InRange ds idx ->
  length idx = length ds -> level_rt c ds idx = Aborted.
Proof.
  intros idx (Hbc & Hce). revert idx.
  induction ds as [|d ds IH]; intros idx Hp Hin Hl; [destruct Hp; congruence|].
  destruct idx as [|i t]; [discriminate|].
  pose proof (pos_dims_rest _ _ Hp) as (Hd & Hds & Hm & Hdm & Hpp).
  cbn [level_rt]. rewrite Hbc. destruct (index_in i d) eqn:Ei.
  - rewrite ASSERT_true. cbn [bind]. apply index_in_iff in Ei.
    rewrite strideHelper_app1 by assumption. cbn [constexpr_ bind].
    assert (Him : imul i (prodZ ds) = Ok (i * prodZ ds)).
    { apply imul_ok. unfold INT_MIN, INT_MAX in *. nia. }
    assert (Ht : ~ InRange ds t).
    { intros Ht. apply Hin. apply InRange_cons. eauto. }
    destruct ds as [|e ds].
    + destruct t; [|discriminate]. exfalso. apply Ht. apply InRange_nil. reflexivity.
    + rewrite Him. cbn [bind].
      rewrite IH; [reflexivity|apply pos_dims_tail in Hp; [exact Hp|discriminate]|exact Ht|simpl in *; lia].
  - rewrite ASSERT_false_runtime by exact Hce. reflexivity.
Qed.

(** * Access paths *)

Lemma elem_ok n a k : 0 <= base a + k < n -> elem n a k = Ok (base a + k).
Proof. intros H. unfold elem. destruct (Z.leb_spec 0 (base a + k)), (Z.ltb_spec (base a + k) n); try lia. reflexivity. Qed.

Lemma paren_ok c n a idx : view_ok n a -> InRange (dims a) idx ->
  paren c n a idx = Ok {| addr := base a + flat_offset (dims a) idx; writable := is_writable a |}.
Proof.
  intros (Hp & Hb & Hn) Hin. unfold paren.
  rewrite (InRange_len _ _ Hin), Nat.eqb_refl, level_rt_ok by assumption. cbn [bind].
  rewrite elem_ok; [reflexivity|]. apply rowmajor_bounds in Hin. lia.
Qed.

Lemma paren_ct_ok n a idx : view_ok n a -> InRange (dims a) idx ->
  paren_ct n a idx = Ok {| addr := base a + flat_offset (dims a) idx; writable := is_writable a |}.
Proof.
  intros (Hp & Hb & Hn) Hin. unfold paren_ct.
  rewrite (InRange_len _ _ Hin), Nat.eqb_refl, level_ct_ok by assumption. cbn [bind].
  rewrite elem_ok; [reflexivity|]. apply rowmajor_bounds in Hin. lia.
Qed.

Definition slice (a : arr) (i : Z) : arr :=
  {| base := base a + i * prodZ (tl (dims a)); dims := tl (dims a);
     elt_const := elt_const a || obj_const a; obj_const := false |}.

Lemma slice_writable a i : is_writable (slice a i) = is_writable a.
Proof. unfold is_writable, slice; simpl. destruct (elt_const a), (obj_const a); reflexivity. Qed.

Lemma slice_ok n a i d e ds : view_ok n a -> dims a = d :: e :: ds -> 0 <= i < d ->
  view_ok n (slice a i).
Proof.
  intros (Hp & Hb & Hn) Ed Hi. unfold view_ok, slice; simpl. rewrite Ed in *. simpl.
  pose proof (pos_dims_rest _ _ Hp) as (Hd & Hds & Hm & Hdm & Hpp).
  rewrite prodZ_cons in Hn.
  split; [apply pos_dims_tail in Hp; [exact Hp|discriminate]|]. nia.
Qed.

Lemma bracket_slice c n a i d e ds : view_ok n a -> dims a = d :: e :: ds -> 0 <= i < d ->
  bracket c n a i = Ok (inl (slice a i)).
Proof.
  intros (Hp & Hb & Hn) Ed Hi. unfold bracket, slice. rewrite Ed in *. cbn [tl].
  pose proof (pos_dims_rest _ _ Hp) as (Hd & Hds & Hm & Hdm & Hpp).
  rewrite guard_true by now apply index_in_true. cbn [bind].
  cbn [stride app].
  change ((e :: ds ++ [1]) ++ [1]) with ((e :: (ds ++ [1])) ++ [1]).
  replace (e :: (ds ++ [1]) ++ [1]) with ((e :: ds ++ [1]) ++ [1]) by reflexivity.
  assert (Hs : strideHelper ((e :: ds ++ [1]) ++ [1]) = Ok (prodZ (e :: ds))).
  { rewrite strideHelper_app1.
    - f_equal. change (e :: ds ++ [1]) with ((e :: ds) ++ [1]). apply prodZ_app1.
    - change (e :: ds ++ [1]) with ((e :: ds) ++ [1]). apply Forall_app. split; [exact Hds | repeat constructor].
    - change (e :: ds ++ [1]) with ((e :: ds) ++ [1]). now rewrite prodZ_app1. }
  rewrite Hs. cbn [bind]. rewrite prodZ_cons in Hn.
  rewrite imul_ok by (unfold INT_MIN, INT_MAX in *; nia). cbn [bind].
  rewrite elem_ok by nia. reflexivity.
Qed.

Lemma access_from_ok c n fin nb : forall a idx, view_ok n a -> InRange (dims a) idx ->
  (nb <= length (dims a))%nat ->
  access_from c n a nb fin idx =
  Ok {| addr := base a + flat_offset (dims a) idx; writable := is_writable a |}.
Proof.
  induction nb as [|nb IH]; intros a idx Hv Hin Hnb; cbn [access_from].
  - destruct fin; [now apply paren_ok | now apply paren_ct_ok].
  - destruct (dims a) as [|d ds] eqn:Ed; [simpl in Hnb; lia|].
    pose proof Hin as Hin0.
    apply InRange_cons in Hin. destruct Hin as (i & t & -> & Hi & Ht).
    destruct ds as [|e ds].
    + apply InRange_nil in Ht. subst t. simpl in Hnb. assert (nb = O) by lia. subst nb.
      unfold bracket. rewrite Ed. rewrite guard_true by now apply index_in_true. cbn [bind].
      rewrite paren_ok by (auto; now rewrite Ed). cbn [bind]. now rewrite Ed.
    + rewrite (bracket_slice c n a i d e ds) by assumption. cbn [bind].
      rewrite IH.
      * rewrite slice_writable. unfold slice; simpl. rewrite Ed. simpl. do 2 f_equal. lia.
      * eapply slice_ok; eauto.
      * unfold slice; simpl. rewrite Ed. simpl. exact Ht.
      * unfold slice; simpl. rewrite Ed. simpl in *. lia.
Qed.

Lemma access_ok c n a p idx : view_ok n a -> InRange (dims a) idx -> path_ok p a ->
  access c n a p idx =
  Ok {| addr := base a + flat_offset (dims a) idx; writable := is_writable a |}.
Proof.
  intros Hv Hin Hp. unfold access. rewrite access_from_ok by assumption.
  destruct (const_eval c); reflexivity.
Qed.

Lemma access_from_abort c n nb : runtime_checked c -> forall a idx, view_ok n a ->
  ~ InRange (dims a) idx -> length idx = length (dims a) -> (nb <= length (dims a))%nat ->
  access_from c n a nb Paren idx = Aborted.
Proof.
  intros Hc. induction nb as [|nb IH]; intros a idx Hv Hin Hl Hnb; cbn [access_from].
  - unfold paren. rewrite Hl, Nat.eqb_refl, level_rt_abort; auto. apply Hv.
  - destruct (dims a) as [|d ds] eqn:Ed; [simpl in Hnb; lia|].
    destruct idx as [|i t]; [discriminate|].
    destruct (index_in i d) eqn:Ei.
    + apply index_in_iff in Ei.
      assert (Ht : ~ InRange ds t).
      { intros Ht. apply Hin. apply InRange_cons. eauto. }
      destruct ds as [|e ds].
      * destruct t; [|discriminate]. exfalso. apply Ht. apply InRange_nil. reflexivity.
      * rewrite (bracket_slice c n a i d e ds) by assumption. cbn [bind].
        apply IH.
        -- eapply slice_ok; eauto.
        -- unfold slice; simpl. rewrite Ed. exact Ht.
        -- unfold slice; simpl. rewrite Ed. simpl in *. lia.
        -- unfold slice; simpl. rewrite Ed. simpl in *. lia.
    + unfold bracket. rewrite Ed. destruct Hc as (Hbc & Hce). rewrite Hbc, Ei.
      rewrite ASSERT_false_runtime by exact Hce. reflexivity.
Qed.

Lemma access_abort c n a p idx : runtime_checked c -> view_ok n a -> ~ InRange (dims a) idx ->
  length idx = length (dims a) -> path_ok p a -> last p = Paren ->
  access c n a p idx = Aborted.
Proof.
  intros Hc Hv Hin Hl Hp Hlast. unfold access. rewrite Hlast.
  rewrite access_from_abort by assumption. destruct Hc as (_ & ->). reflexivity.
Qed.

(** * Unchecked access *)

Lemma imul_cases a b : imul a b = Ok (a * b) \/ imul a b = UB IntOverflow.
Proof. unfold imul, mkint. destruct (int_ok (a * b)); auto. Qed.
Lemma iadd_cases a b : iadd a b = Ok (a + b) \/ iadd a b = UB IntOverflow.
Proof. unfold iadd, mkint. destruct (int_ok (a + b)); auto. Qed.

Lemma level_rt_unchecked c ds : bounds_check c = false -> forall idx, pos_dims ds ->
  length idx = length ds ->
  level_rt c ds idx = Ok (flat_offset ds idx) \/ level_rt c ds idx = UB IntOverflow.
Proof.
  intros Hbc. induction ds as [|d ds IH]; intros idx Hp Hl; [destruct Hp; congruence|].
  destruct idx as [|i t]; [discriminate|].
  pose proof (pos_dims_rest _ _ Hp) as (Hd & Hds & Hm & Hdm & Hpp).
  cbn [level_rt]. rewrite Hbc. cbn [bind].
  rewrite strideHelper_app1 by assumption. cbn [constexpr_ bind].
  destruct ds as [|e ds].
  - destruct t; [|discriminate]. cbn [flat_offset].
    destruct (imul_cases i (prodZ [])) as [-> | ->]; [left; f_equal; lia | auto].
  - destruct (imul_cases i (prodZ (e :: ds))) as [-> | ->]; cbn [bind]; [|auto].
    destruct (IH t) as [-> | ->]; [apply pos_dims_tail in Hp; [exact Hp|discriminate]| simpl in *; lia | |];
      cbn [bind]; [|auto].
    cbn [flat_offset]. apply iadd_cases.
Qed.

Lemma level_rt_nooverflow c ds : bounds_check c = false -> forall idx, pos_dims ds ->
  length idx = length ds -> flat_offset_abs ds idx <= INT_MAX ->
  level_rt c ds idx = Ok (flat_offset ds idx).
Proof.
  intros Hbc. induction ds as [|d ds IH]; intros idx Hp Hl Hov; [destruct Hp; congruence|].
  destruct idx as [|i t]; [discriminate|].
  pose proof (pos_dims_rest _ _ Hp) as (Hd & Hds & Hm & Hdm & Hpp).
  assert (Habs : forall ds t, Forall (fun d => 0 < d) ds -> Z.abs (flat_offset ds t) <= flat_offset_abs ds t).
  { clear. induction ds as [|d ds IH]; intros [|i t] Hp; simpl; try lia.
    inversion Hp as [|? ? Hd Hds]; subst. pose proof (prodZ_pos _ Hds). specialize (IH t Hds). nia. }
  pose proof (Habs ds t Hds) as Ha. cbn [flat_offset_abs] in Hov.
  cbn [level_rt]. rewrite Hbc. cbn [bind].
  rewrite strideHelper_app1 by assumption. cbn [constexpr_ bind].
  assert (Him : imul i (prodZ ds) = Ok (i * prodZ ds)).
  { apply imul_ok. unfold INT_MIN, INT_MAX in *. nia. }
  destruct ds as [|e ds].
  - destruct t; [|discriminate]. rewrite Him. cbn [flat_offset]. f_equal. lia.
  - rewrite Him. cbn [bind]. rewrite IH; cbn [bind].
    + cbn [flat_offset]. apply iadd_ok.
      unfold INT_MIN, INT_MAX in *. cbn [flat_offset] in Ha. nia.
    + apply pos_dims_tail in Hp; [exact Hp|discriminate].
    + simpl in *; lia.
    + nia.
Qed.

Lemma paren_unchecked_cases c n a idx : unchecked c -> view_ok n a -> length idx = length (dims a) ->
  (exists p w, paren c n a idx = Ok {| addr := p; writable := w |} /\
             p = base a + flat_offset (dims a) idx /\ 0 <= p < n) \/
  (exists f, paren c n a idx = UB f).
Proof.
  intros (Hbc & Hce) (Hp & Hb & Hn) Hl. unfold paren. rewrite Hl, Nat.eqb_refl.
  destruct (level_rt_unchecked c (dims a) Hbc idx Hp Hl) as [-> | ->]; cbn [bind]; [|eauto].
  unfold elem.
  destruct (Z.leb_spec 0 (base a + flat_offset (dims a) idx)); simpl; [|eauto].
  destruct (Z.ltb_spec (base a + flat_offset (dims a) idx) n); simpl; [|eauto].
  left. eauto 10.
Qed.

Lemma paren_unchecked_iff c n a idx : unchecked c -> view_ok n a -> length idx = length (dims a) ->
  flat_offset_abs (dims a) idx <= INT_MAX ->
  paren c n a idx =
  if (0 <=? base a + flat_offset (dims a) idx) && (base a + flat_offset (dims a) idx <? n)
  then Ok {| addr := base a + flat_offset (dims a) idx; writable := is_writable a |}
  else UB OutOfBounds.
Proof.
  intros (Hbc & Hce) (Hp & Hb & Hn) Hl Hov. unfold paren. rewrite Hl, Nat.eqb_refl.
  rewrite level_rt_nooverflow by assumption. cbn [bind]. unfold elem.
  destruct (_ && _); reflexivity.
Qed.

(** * Sizes *)

Lemma size_ok ds : pos_dims ds -> size ds = Ok (prodZ ds).
Proof.
  unfold size. induction ds as [|d ds IH]; intros Hp; [destruct Hp; congruence|].
  pose proof (pos_dims_rest _ _ Hp) as (Hd & Hds & Hm & Hdm & Hpp).
  destruct ds as [|e ds].
  - simpl. unfold prodZ; simpl. f_equal; lia.
  - change (fold_unary_right imul (map Ok (d :: e :: ds)))
      with (x <- Ok d ;; y <- fold_unary_right imul (map Ok (e :: ds)) ;; imul x y).
    rewrite IH by (apply pos_dims_tail in Hp; [exact Hp|discriminate]). cbn [bind].
    rewrite (prodZ_cons d). apply imul_ok. unfold INT_MIN in *; nia.
Qed.

Lemma CArrayNd_size_ok ds : pos_dims ds -> CArrayNd_size ds = Ok (prodZ ds).
Proof.
  intros Hp. unfold CArrayNd_size. rewrite size_ok by exact Hp. cbn [constexpr_ bind].
  destruct Hp as (_ & Hp & _). apply prodZ_pos in Hp.
  destruct (Z.ltb_spec 0 (prodZ ds)); [reflexivity|lia].
Qed.

(** * List initialisation *)

Lemma list_init_ok {T} (zero : T) ds args : pos_dims ds -> Z.of_nat (length args) <= prodZ ds ->
  list_init zero ds args = Ok (args ++ repeat zero (Z.to_nat (prodZ ds) - length args)).
Proof.
  intros Hp Hl. unfold list_init. rewrite CArrayNd_size_ok by exact Hp. cbn [bind].
  destruct (Z.leb_spec (Z.of_nat (length args)) (prodZ ds)); [reflexivity|lia].
Qed.

Lemma nth_error_init {T} (zero : T) args n k : (k < n)%nat -> (length args <= n)%nat ->
  nth_error (args ++ repeat zero (n - length args)) k =
  Some (match nth_error args k with Some x => x | None => zero end).
Proof.
  intros Hk Hl. destruct (nth_error args k) as [x|] eqn:E.
  - rewrite nth_error_app1; [exact E|]. apply nth_error_Some. congruence.
  - apply nth_error_None in E. rewrite nth_error_app2 by exact E.
    apply nth_error_repeat. lia.
Qed.

Lemma fetch_ok {T} c a p idx (mem : list T) : view_ok (buflen mem) a -> InRange (dims a) idx ->
  path_ok p a -> exists x, fetch c a p idx mem = Ok x /\
    nth_error mem (Z.to_nat (base a + flat_offset (dims a) idx)) = Some x.
Proof.
  intros Hv Hin Hp. unfold fetch. rewrite access_ok by assumption. cbn [bind]. unfold load; cbn [addr].
  pose proof (rowmajor_bounds _ _ Hin) as Hb. destruct Hv as (Hd & Hb0 & Hn). unfold buflen in *.
  destruct (rd_ok mem (base a + flat_offset (dims a) idx)) as (x & Hx); [lia|].
  exists x. split; [exact Hx|]. now apply rd_inv in Hx.
Qed.

Lemma put_ok {T} c a p idx (x : T) (mem : list T) : view_ok (buflen mem) a -> InRange (dims a) idx ->
  path_ok p a -> is_writable a = true ->
  put c a p idx x mem = Ok (upd mem (Z.to_nat (base a + flat_offset (dims a) idx)) x).
Proof.
  intros Hv Hin Hp Hw. unfold put. rewrite access_ok by assumption. cbn [bind].
  unfold assign; cbn [addr writable]. rewrite Hw.
  pose proof (rowmajor_bounds _ _ Hin) as Hb. destruct Hv as (Hd & Hb0 & Hn). unfold buflen in *.
  apply wr_ok. lia.
Qed.

Lemma list_init_fetch {T} c (zero : T) ds args idx r p mem :
  pos_dims ds -> list_init zero ds args = Ok mem -> RowMajorPos ds idx r -> path_ok p (owning ds) ->
  fetch c (owning ds) p idx mem =
  Ok (match nth_error args (Z.to_nat r) with Some x => x | None => zero end) /\ buflen mem = prodZ ds.
Proof.
  intros Hp Hi Hr Hpath. apply RowMajorPos_inv in Hr. destruct Hr as (Hin & ->).
  pose proof (rowmajor_bounds _ _ Hin) as Hb.
  destruct (Z.leb_spec (Z.of_nat (length args)) (prodZ ds)) as [Hl|Hl].
  - rewrite list_init_ok in Hi by assumption. injection Hi as <-.
    assert (Hlen : length (args ++ repeat zero (Z.to_nat (prodZ ds) - length args)) = Z.to_nat (prodZ ds)).
    { rewrite app_length, repeat_length. lia. }
    assert (Hbl : buflen (args ++ repeat zero (Z.to_nat (prodZ ds) - length args)) = prodZ ds).
    { unfold buflen. rewrite Hlen. lia. }
    split; [|exact Hbl].
    destruct (fetch_ok c (owning ds) p idx (args ++ repeat zero (Z.to_nat (prodZ ds) - length args)))
      as (x & Hx & Hn); auto.
    + unfold view_ok, owning; simpl. rewrite Hbl. split; [exact Hp|]. lia.
    + rewrite Hx. unfold owning in Hn; simpl in Hn. rewrite nth_error_init in Hn.
      * congruence.
      * lia.
      * lia.
  - unfold list_init in Hi. rewrite CArrayNd_size_ok in Hi by exact Hp. cbn [bind] in Hi.
    destruct (Z.leb_spec (Z.of_nat (length args)) (prodZ ds)); [lia|discriminate].
Qed.

(** * Histories *)

Definition represents {T} (a : arr) (mem : list T) (m : amap T) : Prop :=
  forall t, InRange (dims a) t ->
    nth_error mem (Z.to_nat (base a + flat_offset (dims a) t)) = Some (m t).

Lemma tuple_eqb_spec a b : tuple_eqb a b = true <-> a = b.
Proof. unfold tuple_eqb. destruct (list_eq_dec Z.eq_dec a b); split; congruence. Qed.

Lemma run_ops_ok {T} c a (ops : list (aop T)) : forall mem m,
  view_ok (buflen mem) a -> is_writable a = true -> Forall (op_ok a) ops -> represents a mem m ->
  exists mem', run_ops c a ops mem = Ok (mem', snd (spec_run m ops)) /\
    represents a mem' (fst (spec_run m ops)) /\ length mem' = length mem /\
    (forall k, outside a k -> nth_error mem' k = nth_error mem k).
Proof.
  induction ops as [|o ops IH]; intros mem m Hv Hw Hops Hrep; cbn [run_ops spec_run].
  - exists mem. cbn [fst snd]. auto.
  - inversion Hops as [|? ? Ho Hops']; subst. destruct o as [p idx x | p idx]; destruct Ho as (Hin & Hp).
    + rewrite put_ok by assumption. cbn [bind].
      pose proof (rowmajor_bounds _ _ Hin) as Hb. destruct Hv as (Hd & Hb0 & Hn).
      destruct (IH (upd mem (Z.to_nat (base a + flat_offset (dims a) idx)) x) (aset m idx x))
        as (mem' & Hrun & Hrep' & Hlen & Hout); auto.
      * unfold view_ok, buflen in *. rewrite upd_length. auto.
      * intros t Ht. unfold aset. destruct (tuple_eqb t idx) eqn:Et.
        -- apply tuple_eqb_spec in Et. subst t. apply nth_error_upd_eq. unfold buflen in *. lia.
        -- rewrite nth_error_upd_neq; [apply Hrep, Ht|].
           pose proof (rowmajor_bounds _ _ Ht) as Hbt.
           intros E. assert (E' : flat_offset (dims a) idx = flat_offset (dims a) t) by lia.
           apply rowmajor_inj in E'; auto. subst t.
           rewrite (proj2 (tuple_eqb_spec idx idx) eq_refl) in Et. discriminate.
      * exists mem'. rewrite upd_length in Hlen. split; [exact Hrun|]. split; [exact Hrep'|].
        split; [exact Hlen|]. intros k Hk. rewrite Hout by exact Hk.
        apply nth_error_upd_neq. unfold outside in Hk. lia.
    + destruct (fetch_ok c a p idx mem) as (x & Hx & Hnx); auto.
      rewrite Hx. cbn [bind]. rewrite (Hrep idx Hin) in Hnx. injection Hnx as <-.
      destruct (IH mem m) as (mem' & Hrun & Hrep' & Hlen & Hout); auto.
      rewrite Hrun. cbn [bind]. destruct (spec_run m ops) as [mm vs]. cbn [fst snd] in *.
      exists mem'. auto.
Qed.

(** * Constness *)

Lemma access_from_writable c n fin nb : forall a idx lv, access_from c n a nb fin idx = Ok lv ->
  writable lv = is_writable a.
Proof.
  induction nb as [|nb IH]; intros a idx lv H; cbn [access_from] in H.
  - destruct fin; unfold paren, paren_ct in H; destruct (Nat.eqb _ _); try discriminate;
      apply bind_Ok in H; destruct H as (k & _ & H); apply bind_Ok in H; destruct H as (q & _ & H);
      injection H as <-; reflexivity.
  - destruct idx as [|i idx]; [discriminate|]. apply bind_Ok in H. destruct H as (r & Hr & H).
    unfold bracket in Hr. destruct (dims a) as [|d [|e ds]] eqn:Ed; [discriminate| |];
      apply bind_Ok in Hr; destruct Hr as (u & _ & Hr).
    + apply bind_Ok in Hr. destruct Hr as (lv' & Hlv & Hr). injection Hr as <-.
      destruct nb, idx; try discriminate. injection H as <-.
      unfold paren in Hlv. destruct (Nat.eqb _ _); try discriminate.
      apply bind_Ok in Hlv; destruct Hlv as (k & _ & Hlv); apply bind_Ok in Hlv;
        destruct Hlv as (q & _ & Hlv). injection Hlv as <-; reflexivity.
    + apply bind_Ok in Hr. destruct Hr as (s & _ & Hr). apply bind_Ok in Hr.
      destruct Hr as (k & _ & Hr). apply bind_Ok in Hr. destruct Hr as (q & _ & Hr).
      injection Hr as <-. apply IH in H. rewrite H. unfold is_writable; simpl.
      destruct (elt_const a), (obj_const a); reflexivity.
Qed.

Lemma access_writable c n a p idx lv : access c n a p idx = Ok lv -> writable lv = is_writable a.
Proof.
  unfold access. intros H. destruct (const_eval c).
  - destruct (access_from c n a (brackets p) (last p) idx) eqn:E; try discriminate.
    simpl in H. injection H as ->. eapply access_from_writable; eauto.
  - eapply access_from_writable; eauto.
Qed.

Lemma put_const {T} c a p idx (x : T) mem mem' : is_writable a = false ->
  put c a p idx x mem <> Ok mem'.
Proof.
  intros Hw H. unfold put in H. apply bind_Ok in H. destruct H as (lv & Hlv & H).
  apply access_writable in Hlv. unfold assign in H. rewrite Hlv, Hw in H. discriminate.
Qed.

(** * get *)
Lemma get_lemma I pack :
  get I pack =
  if (0 <=? I) then match nth_error pack (Z.to_nat I) with Some x => Ok x | None => IllFormed end
  else IllFormed.
Proof.
  revert I; induction pack as [|x pack IH]; intros I; simpl.
  - destruct (0 <=? I); [destruct (Z.to_nat I)|]; reflexivity.
  - destruct (Z.eqb_spec I 0) as [->|HI]; [reflexivity|]. rewrite IH.
    destruct (Z.leb_spec 0 (I - 1)); destruct (Z.leb_spec 0 I); try lia; try reflexivity.
    replace (Z.to_nat I) with (S (Z.to_nat (I - 1))) by lia. reflexivity.
Qed.

(** * Statements used by PropCArray.v *)

Lemma row_major_lemma c n a p idx : view_ok n a -> InRange (dims a) idx -> path_ok p a ->
  exists lv k, access c n a p idx = Ok lv /\ RowMajorPos (dims a) idx k /\
    addr lv = base a + k /\ 0 <= k < prodZ (dims a).
Proof.
  intros Hv Hin Hp. rewrite access_ok by assumption. eexists _, (flat_offset (dims a) idx).
  split; [reflexivity|]. split; [apply RowMajorPos_rowmajor, Hin|]. split; [reflexivity|].
  apply rowmajor_bounds, Hin.
Qed.

Lemma bijection_lemma c n a p : view_ok n a -> path_ok p a ->
  (forall t u lv lv', InRange (dims a) t -> InRange (dims a) u ->
     access c n a p t = Ok lv -> access c n a p u = Ok lv' -> addr lv = addr lv' -> t = u) /\
  (forall k, base a <= k < base a + prodZ (dims a) ->
     exists t lv, InRange (dims a) t /\ access c n a p t = Ok lv /\ addr lv = k).
Proof.
  intros Hv Hp. split.
  - intros t u lv lv' Ht Hu E1 E2 E. rewrite access_ok in E1, E2 by assumption.
    injection E1 as <-. injection E2 as <-. cbn [addr] in E.
    apply (rowmajor_inj (dims a)); auto. lia.
  - intros k Hk. pose proof Hv as (Hd & Hb & Hn). pose proof Hd as (_ & Hpos & _).
    destruct (rowmajor_surj (dims a) (k - base a) Hpos) as (t & Ht & Hk'); [lia|].
    exists t. rewrite access_ok by auto. eexists. repeat split; auto.
    cbn [addr]. lia.
Qed.

Lemma styles_agree_lemma c1 c2 n a p q idx : view_ok n a -> InRange (dims a) idx ->
  path_ok p a -> path_ok q a ->
  access c1 n a p idx = access c2 n a q idx /\ exists lv, access c1 n a p idx = Ok lv.
Proof.
  intros Hv Hin Hp Hq. rewrite !access_ok by assumption. eauto.
Qed.

Lemma bounds_check_lemma c n a p idx : runtime_checked c -> view_ok n a ->
  length idx = length (dims a) -> path_ok p a -> last p = Paren ->
  (access c n a p idx = Aborted <-> ~ InRange (dims a) idx) /\
  (InRange (dims a) idx -> exists lv, access c n a p idx = Ok lv).
Proof.
  intros Hc Hv Hl Hp Hlast. split; [split|].
  - intros H Hin. rewrite access_ok in H by assumption. discriminate.
  - intros H. now apply access_abort.
  - intros Hin. rewrite access_ok by assumption. eauto.
Qed.

Lemma ct_bounds_lemma c n a idx : view_ok n a -> length idx = length (dims a) ->
  ~ InRange (dims a) idx -> access c n a {| brackets := 0; last := ParenCT |} idx = IllFormed.
Proof.
  intros (Hp & _) Hl Hin. unfold access; simpl. unfold paren_ct.
  rewrite Hl, Nat.eqb_refl, level_ct_bad by assumption. destruct (const_eval c); reflexivity.
Qed.

Lemma unchecked_lemma c n a idx : unchecked c -> view_ok n a -> length idx = length (dims a) ->
  flat_offset_abs (dims a) idx <= INT_MAX ->
  let k := base a + flat_offset (dims a) idx in
  let r := access c n a {| brackets := 0; last := Paren |} idx in
  (0 <= k < n -> exists lv, r = Ok lv /\ addr lv = k) /\ (~ (0 <= k < n) -> r = UB OutOfBounds).
Proof.
  intros Hc Hv Hl Hov k r.
  assert (Hr : r = paren c n a idx).
  { subst r. unfold access; simpl. destruct Hc as (_ & ->). reflexivity. }
  rewrite Hr, paren_unchecked_iff by assumption. fold k.
  destruct (Z.leb_spec 0 k), (Z.ltb_spec k n); simpl; split; intros H1; try lia; eauto.
Qed.

Lemma unchecked_any_lemma c n a idx : unchecked c -> view_ok n a -> length idx = length (dims a) ->
  let r := access c n a {| brackets := 0; last := Paren |} idx in
  (exists lv, r = Ok lv /\ addr lv = base a + flat_offset (dims a) idx /\ 0 <= addr lv < n) \/
  (exists f, r = UB f).
Proof.
  intros Hc Hv Hl r.
  assert (Hr : r = paren c n a idx).
  { subst r. unfold access; simpl. destruct Hc as (_ & ->). reflexivity. }
  rewrite Hr. destruct (paren_unchecked_cases c n a idx Hc Hv Hl) as [(p & w & -> & -> & Hb)|(f & ->)]; eauto.
Qed.

Lemma size_total ds : ds <> [] -> Forall (fun d => 0 < d <= INT_MAX) ds ->
  size ds = if prodZ ds <=? INT_MAX then Ok (prodZ ds) else UB IntOverflow.
Proof.
  unfold size. induction ds as [|d ds IH]; intros Hne Hp; [congruence|].
  inversion Hp as [|? ? Hd Hds]; subst. destruct ds as [|e ds].
  - simpl. replace (prodZ [d]) with d by (unfold prodZ; simpl; lia).
    destruct (Z.leb_spec d INT_MAX); [reflexivity|lia].
  - assert (Hpp : 0 < prodZ (e :: ds)).
    { apply prodZ_pos. eapply Forall_impl; [|exact Hds]. simpl; intros; lia. }
    change (fold_unary_right imul (map Ok (d :: e :: ds)))
      with (x <- Ok d ;; y <- fold_unary_right imul (map Ok (e :: ds)) ;; imul x y).
    rewrite IH by (auto; discriminate). cbn [bind]. rewrite (prodZ_cons d).
    destruct (Z.leb_spec (prodZ (e :: ds)) INT_MAX); cbn [bind].
    + unfold imul, mkint, int_ok.
      destruct (Z.leb_spec (d * prodZ (e :: ds)) INT_MAX); destruct (Z.leb_spec INT_MIN (d * prodZ (e :: ds)));
        simpl; try reflexivity; unfold INT_MIN in *; nia.
    + destruct (Z.leb_spec (d * prodZ (e :: ds)) INT_MAX); [nia|reflexivity].
Qed.

Lemma shape_lemma ds : ds <> [] -> Forall (fun d => 0 < d <= INT_MAX) ds ->
  rank ds = Z.of_nat (length ds) /\
  (forall k d, nth_error ds k = Some d -> extent (Z.of_nat k) ds = Ok d) /\
  (forall k, ~ (0 <= k < rank ds) -> extent k ds = IllFormed) /\
  (prodZ ds <= INT_MAX -> exists n, size ds = Ok n /\ CArrayNd_size ds = Ok n /\ CountInRange ds n) /\
  (INT_MAX < prodZ ds -> CArrayNd_size ds = IllFormed).
Proof.
  intros Hne Hp. assert (Hp0 : Forall (fun d => 0 < d) ds) by (eapply Forall_impl; [|exact Hp]; simpl; intros; lia).
  split; [reflexivity|]. split; [|split; [|split]].
  - intros k d Hk. unfold extent. rewrite get_lemma.
    destruct (Z.leb_spec 0 (Z.of_nat k)); [|lia]. rewrite Nat2Z.id, Hk. reflexivity.
  - intros k Hk. unfold extent, rank in *. rewrite get_lemma.
    destruct (Z.leb_spec 0 k); [|reflexivity].
    destruct (nth_error ds (Z.to_nat k)) eqn:E; [|reflexivity].
    assert (Z.to_nat k < length ds)%nat by (apply nth_error_Some; congruence). lia.
  - intros Hm. exists (prodZ ds). assert (Hpd : pos_dims ds) by (split; auto).
    rewrite size_ok, CArrayNd_size_ok by exact Hpd. repeat split.
    apply CountInRange_prod. eapply Forall_impl; [|exact Hp]; simpl; intros; lia.
  - intros Hm. unfold CArrayNd_size. rewrite size_total by assumption.
    destruct (Z.leb_spec (prodZ ds) INT_MAX); [lia|reflexivity].
Qed.

Lemma list_init_lemma {T} c (zero : T) ds args : pos_dims ds ->
  (Z.of_nat (length args) <= prodZ ds ->
   exists mem, list_init zero ds args = Ok mem /\ buflen mem = prodZ ds /\
     forall idx r p, RowMajorPos ds idx r -> path_ok p (owning ds) ->
       fetch c (owning ds) p idx mem =
         Ok (match nth_error args (Z.to_nat r) with Some x => x | None => zero end)) /\
  (prodZ ds < Z.of_nat (length args) -> list_init zero ds args = IllFormed).
Proof.
  intros Hp. split.
  - intros Hl. rewrite list_init_ok by assumption. eexists. split; [reflexivity|]. split.
    + unfold buflen. rewrite app_length, repeat_length.
      destruct Hp as (_ & Hpp & _). apply prodZ_pos in Hpp. lia.
    + intros idx r p Hr Hpath.
      eapply (list_init_fetch c zero ds args idx r p); eauto. now apply list_init_ok.
  - intros Hl. unfold list_init. rewrite CArrayNd_size_ok by exact Hp. cbn [bind].
    destruct (Z.leb_spec (Z.of_nat (length args)) (prodZ ds)); [lia|reflexivity].
Qed.

Lemma slice_lemma {T} c (mem : list T) a i d ds : view_ok (buflen mem) a -> dims a = d :: ds -> ds <> [] ->
  0 <= i < d ->
  exists s, bracket c (buflen mem) a i = Ok (inl s) /\ dims s = ds /\ view_ok (buflen mem) s /\
    (forall t p q, InRange ds t -> path_ok p s -> path_ok q a ->
       access c (buflen mem) s p t = access c (buflen mem) a q (i :: t)) /\
    (forall t p x mem', InRange ds t -> path_ok p s -> put c s p t x mem = Ok mem' ->
       forall q u, InRange (dims a) u -> path_ok q a -> u <> i :: t ->
         fetch c a q u mem' = fetch c a q u mem) /\
    (forall t p x mem', InRange ds t -> path_ok p s -> put c s p t x mem = Ok mem' ->
       forall q, path_ok q a -> fetch c a q (i :: t) mem' = Ok x) /\
    (forall t p x mem' k, InRange ds t -> path_ok p s -> put c s p t x mem = Ok mem' ->
       outside s k -> nth_error mem' k = nth_error mem k).
Proof.
  intros Hv Ed Hne Hi. destruct ds as [|e ds]; [congruence|].
  exists (slice a i). pose proof (slice_ok _ _ _ _ _ _ Hv Ed Hi) as Hs.
  assert (Eds : dims (slice a i) = e :: ds) by (unfold slice; simpl; now rewrite Ed).
  assert (Hput : forall t p x mem', InRange (e :: ds) t -> path_ok p (slice a i) ->
     put c (slice a i) p t x mem = Ok mem' ->
     is_writable a = true /\ mem' = upd mem (Z.to_nat (base a + flat_offset (dims a) (i :: t))) x).
  { intros t p x mem' Ht Hp H. destruct (is_writable a) eqn:Ew.
    - rewrite put_ok in H; auto; [|now rewrite Eds|now rewrite slice_writable].
      injection H as <-. split; [reflexivity|]. f_equal. f_equal. unfold slice; simpl. rewrite Ed. simpl. lia.
    - exfalso. rewrite <- (slice_writable a i) in Ew. eapply put_const; eauto. }
  split; [eapply bracket_slice; eauto|]. split; [exact Eds|]. split; [exact Hs|].
  assert (Hit : forall t, InRange (e :: ds) t -> InRange (dims a) (i :: t)).
  { intros t Ht. rewrite Ed. apply InRange_cons. eauto. }
  split; [|split; [|split]].
  - intros t p q Ht Hp Hq. rewrite !access_ok; auto; [|now rewrite Eds].
    rewrite slice_writable, Eds, Ed. unfold slice; simpl. rewrite Ed. simpl. do 2 f_equal. lia.
  - intros t p x mem' Ht Hp H q u Hu Hq Hne'. destruct (Hput _ _ _ _ Ht Hp H) as (Hw & ->).
    assert (Hv' : view_ok (buflen (upd mem (Z.to_nat (base a + flat_offset (dims a) (i :: t))) x)) a).
    { unfold buflen. now rewrite upd_length. }
    destruct (fetch_ok c a q u _ Hv' Hu Hq) as (y & -> & Hy).
    destruct (fetch_ok c a q u mem Hv Hu Hq) as (z & -> & Hz).
    rewrite nth_error_upd_neq in Hy; [congruence|].
    pose proof (rowmajor_bounds _ _ Hu). pose proof (rowmajor_bounds _ _ (Hit _ Ht)).
    destruct Hv as (_ & Hb & _). intros E.
    apply Hne'. apply (rowmajor_inj (dims a)); auto. lia.
  - intros t p x mem' Ht Hp H q Hq. destruct (Hput _ _ _ _ Ht Hp H) as (Hw & ->).
    assert (Hv' : view_ok (buflen (upd mem (Z.to_nat (base a + flat_offset (dims a) (i :: t))) x)) a).
    { unfold buflen. now rewrite upd_length. }
    destruct (fetch_ok c a q (i :: t) _ Hv' (Hit _ Ht) Hq) as (y & -> & Hy).
    pose proof (rowmajor_bounds _ _ (Hit _ Ht)). destruct Hv as (_ & Hb & Hn). unfold buflen in Hn.
    rewrite nth_error_upd_eq in Hy by lia. congruence.
  - intros t p x mem' k Ht Hp H Hout.
    destruct (is_writable a) eqn:Ew.
    + rewrite put_ok in H; auto; [|now rewrite Eds|now rewrite slice_writable].
      injection H as <-. apply nth_error_upd_neq. unfold outside in Hout.
      assert (Ht' : InRange (dims (slice a i)) t) by now rewrite Eds.
      pose proof (rowmajor_bounds _ _ Ht'). destruct Hs as (_ & Hbs & _). unfold slice in *; cbn [base dims] in *. lia.
    + exfalso. rewrite <- (slice_writable a i) in Ew. eapply put_const; eauto.
Qed.

Lemma no_ub_lemma c ds n a p idx : view_ok n a -> dims a = ds -> InRange ds idx -> path_ok p a ->
  (forall f, access c n a p idx <> UB f) /\
  (exists s, stride ds = Ok s) /\ (exists s, size ds = Ok s).
Proof.
  intros Hv <- Hin Hp. split; [|split].
  - intros f. rewrite access_ok by assumption. discriminate.
  - destruct Hv as (Hd & _). destruct (dims a) as [|d ds]; [destruct Hd; congruence|].
    pose proof (pos_dims_rest _ _ Hd) as (_ & Hds & Hm & _). cbn [stride].
    rewrite strideHelper_app1 by assumption. eauto.
  - destruct Hv as (Hd & _). rewrite size_ok by exact Hd. eauto.
Qed.

Lemma history_lemma {T} c a (ops : list (aop T)) mem (m0 : amap T) :
  view_ok (buflen mem) a -> is_writable a = true -> Forall (op_ok a) ops ->
  (forall t p, InRange (dims a) t -> path_ok p a -> fetch c a p t mem = Ok (m0 t)) ->
  exists mem', run_ops c a ops mem = Ok (mem', snd (spec_run m0 ops)) /\
    (forall t p, InRange (dims a) t -> path_ok p a -> fetch c a p t mem' = Ok (fst (spec_run m0 ops) t)) /\
    length mem' = length mem /\
    (forall k, outside a k -> nth_error mem' k = nth_error mem k).
Proof.
  intros Hv Hw Hops Hm.
  assert (Hp0 : path_ok {| brackets := 0; last := Paren |} a) by (unfold path_ok; simpl; lia).
  destruct (run_ops_ok c a ops mem m0 Hv Hw Hops) as (mem' & Hrun & Hrep & Hlen & Hout).
  - intros t Ht. destruct (fetch_ok c a _ t mem Hv Ht Hp0) as (x & Hx & Hn).
    rewrite (Hm t _ Ht Hp0) in Hx. congruence.
  - exists mem'. split; [exact Hrun|]. split; [|auto].
    intros t p Ht Hp. assert (Hv' : view_ok (buflen mem') a) by (unfold buflen; now rewrite Hlen).
    destruct (fetch_ok c a p t mem' Hv' Ht Hp) as (x & -> & Hn).
    rewrite (Hrep t Ht) in Hn. congruence.
Qed.

Lemma const_lemma {T} c a p idx (x : T) mem :
  (elt_const a = true \/ obj_const a = true) ->
  (forall mem', put c a p idx x mem <> Ok mem') /\
  (view_ok (buflen mem) a -> InRange (dims a) idx -> path_ok p a -> put c a p idx x mem = IllFormed).
Proof.
  intros H. assert (Hw : is_writable a = false).
  { unfold is_writable. destruct H as [-> | ->]; [reflexivity|]. apply andb_false_r. }
  split.
  - intros mem'. now apply put_const.
  - intros Hv Hin Hp. unfold put. rewrite access_ok by assumption. cbn [bind].
    unfold assign; cbn [writable]. now rewrite Hw.
Qed.

(** An index out of range that is silently accepted. *)
Definition c_unchecked : ctx := host_runtime false.
Definition c_consteval : ctx := {| tgt := Host; has_builtin := true; const_eval := true; bounds_check := true |}.

Lemma alias_unchecked :
  exists c n a idx t lv, unchecked c /\ view_ok n a /\ length idx = length (dims a) /\
    ~ InRange (dims a) idx /\ InRange (dims a) t /\ t <> idx /\
    access c n a {| brackets := 0; last := Paren |} idx = Ok lv /\
    access c n a {| brackets := 0; last := Paren |} t = Ok lv.
Proof.
  exists c_unchecked, 6, (owning [2; 3]), [0; 4], [1; 1], {| addr := 4; writable := true |}.
  split; [split; reflexivity|]. split.
  - unfold view_ok, pos_dims; simpl. unfold prodZ, INT_MAX; simpl.
    repeat split; try lia; try discriminate; repeat constructor.
  - split; [reflexivity|]. split.
    + intros H. simpl in H. apply InRange_cons in H. destruct H as (i & t & E & _ & H).
      injection E as <- <-. apply InRange_cons in H. destruct H as (i' & t' & E & H & _).
      injection E as <- <-. lia.
    + split; [|split; [discriminate|split; reflexivity]].
      simpl. apply InRange_cons. eexists _, _. split; [reflexivity|]. split; [lia|].
      apply InRange_cons. eexists _, _. split; [reflexivity|]. split; [lia|]. now apply InRange_nil.
Qed.

Lemma alias_consteval :
  exists c n a idx lv, bounds_check c = true /\ const_eval c = true /\ view_ok n a /\
    length idx = length (dims a) /\ ~ InRange (dims a) idx /\
    access c n a {| brackets := 0; last := Paren |} idx = Ok lv.
Proof.
  exists c_consteval, 6, (owning [2; 3]), [0; 4], {| addr := 4; writable := true |}.
  split; [reflexivity|]. split; [reflexivity|]. split.
  - unfold view_ok, pos_dims; simpl. unfold prodZ, INT_MAX; simpl.
    repeat split; try lia; try discriminate; repeat constructor.
  - split; [reflexivity|]. split; [|reflexivity].
    intros H. simpl in H. apply InRange_cons in H. destruct H as (i & t & E & _ & H).
    injection E as <- <-. apply InRange_cons in H. destruct H as (i' & t' & E & H & _).
    injection E as <- <-. lia.
Qed.

Lemma assert_lemma c cond :
  (cond = true -> ASSERT_MSG c cond = Ok tt) /\
  (cond = false -> const_eval c = false -> ASSERT_MSG c cond = Aborted) /\
  (cond = false -> const_eval c = true -> tgt c <> DeviceCuda -> has_builtin c = true ->
     ASSERT_MSG c cond = Ok tt).
Proof.
  split; [intros ->; reflexivity|]. split.
  - intros -> H. now apply ASSERT_false_runtime.
  - intros -> Hc Ht Hb. unfold ASSERT_MSG, IS_CONST_EVAL. rewrite Hc, Hb.
    destruct (tgt c); try reflexivity. congruence.
Qed.

Lemma assertion_failed_lemma t callAbort :
  shivaAssertionFailed t callAbort = Aborted <-> (t <> Host \/ callAbort = true).
Proof.
  destruct t, callAbort; simpl; split; intros H; try reflexivity; try discriminate; auto;
    try (left; discriminate). destruct H; congruence.
Qed.

Lemma callAbort_ignored : exists t, shivaAssertionFailed t false = Aborted.
Proof. exists DeviceCuda. reflexivity. Qed.

Lemma view_ok_234 : view_ok 24 (owning [2; 3; 4]).
Proof.
  unfold view_ok, pos_dims; simpl. unfold prodZ, INT_MAX; simpl.
  repeat split; try lia; try discriminate; repeat constructor.
Qed.
Lemma inrange_234 : InRange [2; 3; 4] [1; 2; 3].
Proof. inrange. Qed.
Lemma big_view : view_ok 2147483647 (owning [2147483647]) /\ InRange [2147483647] [2147483646].
Proof.
  split; [|inrange]. unfold view_ok, pos_dims; simpl. unfold prodZ, INT_MAX; simpl.
  repeat split; try lia; try discriminate; repeat constructor.
Qed.
