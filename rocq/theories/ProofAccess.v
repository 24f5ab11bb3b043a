(** Proofs about access along any path, in and out of range. *)
From Coq Require Import QArith.
From Verif Require Import Base ProofBase SpecIndex ProofBox ProofIndex Num ModelAssert ModelCArray ModelMath SpecCArray ProofCArray ProofMath.
Open Scope Z_scope.

Lemma in_range_dec ds : forall idx, InRange ds idx \/ ~ InRange ds idx.
Proof.
  induction ds as [|d ds IH]; intros idx.
  - destruct idx; [left; constructor | right; intros H; inversion H].
  - destruct idx as [|i t]; [right; intros H; inversion H|].
    destruct (IH t) as [Ht|Ht]; [|right; intros H; apply Ht; apply InRange_cons in H; destruct H as (? & ? & E & _ & ?); now injection E as _ ->].
    destruct (index_in i d) eqn:E.
    + left. apply InRange_cons. exists i, t. apply index_in_iff in E. auto.
    + right. intros H. apply InRange_cons in H. destruct H as (i' & t' & Q & Hi & _). injection Q as <- <-.
      apply index_in_iff in Hi. congruence.
Qed.

Lemma level_ct_cases ds idx : pos_dims ds -> length idx = length ds ->
  level_ct ds idx = Ok (flat_offset ds idx) \/ (~ InRange ds idx /\ level_ct ds idx = IllFormed).
Proof.
  intros Hp Hl. destruct (in_range_dec ds idx) as [H|H]; [left|right; split; auto].
  - now apply level_ct_ok.
  - now apply level_ct_bad.
Qed.

Lemma stride_dims d e ds : pos_dims (d :: e :: ds) -> stride ((d :: e :: ds) ++ [1]) = Ok (prodZ (e :: ds)).
Proof.
  intros Hp. pose proof (pos_dims_rest _ _ Hp) as (Hd & Hds & Hm & Hdm & Hpp).
  change (stride ((d :: e :: ds) ++ [1])) with (strideHelper (((e :: ds) ++ [1]) ++ [1])).
  rewrite strideHelper_app1; [now rewrite prodZ_app1| |now rewrite prodZ_app1].
  apply Forall_app. split; [exact Hds | repeat constructor].
Qed.

Lemma access_from_unchecked c n fin nb : bounds_check c = false -> forall a idx, pos_dims (dims a) ->
  length idx = length (dims a) -> (nb <= length (dims a))%nat ->
  (exists w, access_from c n a nb fin idx = Ok {| addr := base a + flat_offset (dims a) idx; writable := w |} /\
     0 <= base a + flat_offset (dims a) idx < n) \/
  (exists f, access_from c n a nb fin idx = UB f) \/
  (access_from c n a nb fin idx = IllFormed /\ fin = ParenCT /\ ~ InRange (skipn nb (dims a)) (skipn nb idx)).
Proof.
  intros Hbc. induction nb as [|nb IH]; intros a idx Hp Hl Hnb; cbn [access_from].
  - assert (HE : forall k, (exists w, (p <- elem n a k ;; Ok {| addr := p; writable := is_writable a |}) =
                     Ok {| addr := base a + k; writable := w |} /\ 0 <= base a + k < n) \/
                   (exists f, (p <- elem n a k ;; Ok {| addr := p; writable := is_writable a |}) = UB f)).
    { intros k. unfold elem. destruct (Z.leb_spec 0 (base a + k)); simpl; [|eauto].
      destruct (Z.ltb_spec (base a + k) n); simpl; [|eauto]. left. eauto. }
    destruct fin; [unfold paren | unfold paren_ct]; rewrite Hl, Nat.eqb_refl.
    + destruct (level_rt_unchecked c (dims a) Hbc idx Hp Hl) as [-> | ->]; cbn [bind]; [|eauto].
      destruct (HE (flat_offset (dims a) idx)); auto.
    + destruct (level_ct_cases (dims a) idx Hp Hl) as [-> | (Hn & ->)]; cbn [bind].
      * destruct (HE (flat_offset (dims a) idx)); auto.
      * right. right. auto.
  - destruct idx as [|i t]; [destruct (dims a); [simpl in Hnb; lia|discriminate]|].
    unfold bracket. rewrite Hbc. destruct (dims a) as [|d ds] eqn:Ed; [simpl in Hnb; lia|]. cbn [bind].
    destruct ds as [|e ds].
    + destruct t; [|discriminate]. simpl in Hnb. assert (nb = O) by lia. subst nb.
      assert (Hl' : length [i] = length (dims a)) by now rewrite Ed.
      assert (Hp' : pos_dims (dims a)) by now rewrite Ed.
      unfold paren. rewrite Hl', Nat.eqb_refl.
      destruct (level_rt_unchecked c (dims a) Hbc [i] Hp' Hl') as [-> | ->]; cbn [bind]; [|eauto].
      unfold elem. rewrite Ed.
      destruct (Z.leb_spec 0 (base a + flat_offset [d] [i])); cbn [andb bind]; [|eauto].
      destruct (Z.ltb_spec (base a + flat_offset [d] [i]) n); cbn [andb bind]; [|eauto].
      left. eexists. split; [reflexivity|]. lia.
    + rewrite stride_dims by exact Hp. cbn [bind].
      destruct (imul_cases i (prodZ (e :: ds))) as [-> | ->]; cbn [bind]; [|eauto].
      unfold elem.
      destruct ((0 <=? base a + i * prodZ (e :: ds)) && (base a + i * prodZ (e :: ds) <? n)); cbn [bind]; [|eauto].
      set (s := {| base := _; dims := _; elt_const := _; obj_const := _ |}).
      assert (Hps : pos_dims (dims s)) by (apply pos_dims_tail in Hp; [exact Hp|discriminate]).
      destruct (IH s t Hps) as [(w & H & B)|[(f & H)|(H & Hf & Hr)]]; [simpl in *; lia|simpl in *; lia| | |].
      * left. exists w. rewrite H. unfold s in *. cbn [base dims] in *. cbn [flat_offset].
        split; [do 2 f_equal; lia | cbn [flat_offset] in B; lia].
      * right. left. exists f. exact H.
      * right. right. split; [exact H|]. split; [exact Hf|]. exact Hr.
Qed.

Lemma any_path_unchecked c n a p idx : unchecked c -> view_ok n a -> length idx = length (dims a) -> path_ok p a ->
  let r := access c n a p idx in
  (exists lv, r = Ok lv /\ addr lv = base a + flat_offset (dims a) idx /\ 0 <= addr lv < n) \/
  (exists f, r = UB f) \/
  (r = IllFormed /\ last p = ParenCT /\ ~ InRange (skipn (brackets p) (dims a)) (skipn (brackets p) idx)).
Proof.
  intros (Hbc & Hce) (Hp & _) Hl Hpath r. unfold r, access. rewrite Hce.
  destruct (access_from_unchecked c n (last p) (brackets p) Hbc a idx Hp Hl Hpath) as [(w & -> & B)|[H|H]]; eauto.
Qed.

Lemma access_from_ct_checked c n nb : runtime_checked c -> forall a idx, view_ok n a ->
  ~ InRange (dims a) idx -> length idx = length (dims a) -> (nb <= length (dims a))%nat ->
  (~ InRange (firstn nb (dims a)) (firstn nb idx) -> access_from c n a nb ParenCT idx = Aborted) /\
  (InRange (firstn nb (dims a)) (firstn nb idx) -> access_from c n a nb ParenCT idx = IllFormed).
Proof.
  intros Hc. induction nb as [|nb IH]; intros a idx Hv Hin Hl Hnb; cbn [access_from].
  - split; [intros H; exfalso; apply H; constructor|]. intros _. unfold paren_ct.
    rewrite Hl, Nat.eqb_refl, level_ct_bad; auto. apply Hv.
  - destruct (dims a) as [|d ds] eqn:Ed; [simpl in Hnb; lia|].
    destruct idx as [|i t]; [discriminate|]. cbn [firstn].
    destruct (index_in i d) eqn:Ei.
    + apply index_in_iff in Ei.
      assert (Ht : ~ InRange ds t).
      { intros Ht. apply Hin. apply InRange_cons. eauto. }
      destruct ds as [|e ds].
      * destruct t; [|discriminate]. exfalso. apply Ht. apply InRange_nil. reflexivity.
      * rewrite (bracket_slice c n a i d e ds) by assumption. cbn [bind].
        destruct (IH (slice a i) t) as (IA & IB).
        -- eapply slice_ok; eauto.
        -- unfold slice; simpl. rewrite Ed. exact Ht.
        -- unfold slice; simpl. rewrite Ed. simpl in *. lia.
        -- unfold slice; simpl. rewrite Ed. simpl in *. lia.
        -- unfold slice in IA, IB; simpl in IA, IB; rewrite Ed in IA, IB; cbn [tl] in IA, IB.
           unfold slice. rewrite Ed. cbn [tl].
           split; intros H; [apply IA|apply IB].
           ++ intros Q. apply H. apply InRange_cons. eauto.
           ++ apply InRange_cons in H. destruct H as (? & ? & Q & _ & K). injection Q as _ <-. exact K.
    + unfold bracket. rewrite Ed. destruct Hc as (Hbc & Hce). rewrite Hbc, Ei.
      rewrite ASSERT_false_runtime by exact Hce. split; [reflexivity|].
      intros H. apply InRange_cons in H. destruct H as (? & ? & Q & K & _). injection Q as <- _.
      apply index_in_iff in K. congruence.
Qed.

Lemma in_range_split k : forall ds idx, length idx = length ds ->
  (InRange ds idx <-> InRange (firstn k ds) (firstn k idx) /\ InRange (skipn k ds) (skipn k idx)).
Proof.
  induction k as [|k IH]; intros ds idx Hl; cbn [firstn skipn].
  - split; [intros H; split; [constructor|exact H] | intros (_ & H); exact H].
  - destruct ds as [|d ds], idx as [|i t]; try discriminate; [split; [intros _; split; constructor | intros _; constructor]|].
    specialize (IH ds t ltac:(simpl in Hl; lia)). split.
    + intros H. apply InRange_cons in H. destruct H as (? & ? & Q & Hi & Ht). injection Q as <- <-.
      apply IH in Ht. destruct Ht as (H1 & H2). split; [|exact H2]. apply InRange_cons. eauto.
    + intros (H & H2). apply InRange_cons in H. destruct H as (? & ? & Q & Hi & Ht). injection Q as <- <-.
      apply InRange_cons. exists i, t. repeat split; try lia. apply IH. auto.
Qed.

Lemma any_path_checked c n a p idx : runtime_checked c -> view_ok n a -> length idx = length (dims a) -> path_ok p a ->
  let r := access c n a p idx in
  let k := if last p then length idx else brackets p in
  ((exists lv, r = Ok lv) <-> InRange (dims a) idx) /\
  (r = Aborted <-> ~ InRange (firstn k (dims a)) (firstn k idx)) /\
  (r = IllFormed <-> InRange (firstn k (dims a)) (firstn k idx) /\ ~ InRange (skipn k (dims a)) (skipn k idx)).
Proof.
  intros Hc Hv Hl Hpath r k.
  pose proof (in_range_split k (dims a) idx Hl) as Hs.
  destruct (in_range_dec (dims a) idx) as [Hin|Hin].
  - assert (Hr : exists lv, r = Ok lv) by (eexists; apply access_ok; assumption).
    destruct Hr as (lv & Hr). apply Hs in Hin as H. destruct H as (H1 & H2).
    rewrite Hr. split; [split; eauto|]. split; (split; [discriminate|]); tauto.
  - assert (Hr : (~ InRange (firstn k (dims a)) (firstn k idx) -> r = Aborted) /\
                 (InRange (firstn k (dims a)) (firstn k idx) -> r = IllFormed)).
    { unfold r, k. destruct (last p) eqn:El.
      - rewrite access_abort by assumption. split; [reflexivity|].
        rewrite firstn_all. rewrite Hl, firstn_all. tauto.
      - unfold access. destruct Hc as (Hbc & Hce). rewrite Hce, El.
        apply access_from_ct_checked; auto. split; auto. }
    destruct Hr as (HA & HI).
    destruct (in_range_dec (firstn k (dims a)) (firstn k idx)) as [Hf|Hf].
    + rewrite (HI Hf). split; [split; [intros (? & Q); discriminate|tauto]|].
      split; [split; [discriminate|tauto]|]. split; [tauto|reflexivity].
    + rewrite (HA Hf). split; [split; [intros (? & Q); discriminate|tauto]|].
      split; [split; [tauto|reflexivity]|]. split; [discriminate|tauto].
Qed.

(** The inverse of a 2x2 array at the start of a buffer of seven elements writes the last one. *)
Lemma small_inverse_overwrites : exists c a mem mem' d,
  unchecked c /\ dims a = [2; 2] /\ is_writable a = true /\ view_ok (buflen mem) a /\
  inverse_a QNum c a mem = Ok (mem', d) /\ ~ SameOutside a mem mem'.
Proof.
  set (mem := [2; 0; 0; 2; 0; 0; 2]%Q).
  exists (host_runtime false), (owning [2; 2]), mem.
  destruct (inverse_a QNum (host_runtime false) (owning [2; 2]) mem) as [[mem' d]| | | |] eqn:E;
    vm_compute in E; try discriminate E.
  injection E as <- <-. do 2 eexists. split; [split; reflexivity|]. split; [reflexivity|]. split; [reflexivity|].
  split; [|split; [reflexivity|]].
  - split; [apply pos_dims_intro; [discriminate|repeat constructor; lia|unfold prodZ, INT_MAX; simpl; lia]|].
    split; [discriminate|vm_compute; discriminate].
  - intros [_ H]. specialize (H 6%nat). assert (O : outside (owning [2; 2]) 6) by (right; vm_compute; discriminate).
    apply H in O. vm_compute in O. discriminate O.
Qed.

Lemma view_lemma {T} c ds cst p idx (x : T) mem :
  pos_dims ds -> buflen mem = prodZ ds -> InRange ds idx -> (brackets p <= length ds)%nat ->
  (cst = true -> put c (view_of ds cst) p idx x mem = IllFormed) /\
  (cst = false -> put c (view_of ds cst) p idx x mem = Ok (upd mem (Z.to_nat (flat_offset ds idx)) x)) /\
  (exists y, fetch c (view_of ds cst) p idx mem = Ok y /\ nth_error mem (Z.to_nat (flat_offset ds idx)) = Some y).
Proof.
  intros Hp Hn Hin Hb. assert (Hv : view_ok (buflen mem) (view_of ds cst)) by (split; [exact Hp|]; cbn; lia).
  split; [|split].
  - intros ->. apply const_lemma; [left; reflexivity|assumption..].
  - intros ->. rewrite put_ok; [reflexivity|assumption..|reflexivity].
  - apply (fetch_ok c (view_of ds cst) p idx mem Hv Hin Hb).
Qed.
