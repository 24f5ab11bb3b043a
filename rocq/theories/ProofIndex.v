(** Proofs about ModelIndex.v and ModelSequence.v. *)
From Coq Require Import Sorting.Sorted.
From Verif Require Import Base ProofBase SpecIndex ProofBox ModelIndex ModelSequence.

(** * forRange *)

(** Value of the index when the loops are done, from its value on entry. *)
Fixpoint final_index (st rg ix : list Z) : list Z :=
  match st, rg, ix with
  | s :: st', r :: rg', _ :: ix' =>
      Z.max s r :: (if s <? r then final_index st' rg' ix' else ix')
  | _, _, _ => ix
  end.

Lemma final_index_length st rg ix : length (final_index st rg ix) = length ix.
Proof.
  revert rg ix; induction st as [|s st IH]; intros [|r rg] [|x ix]; simpl; auto.
  destruct (s <? r); simpl; auto.
Qed.

Lemma final_index_idem st rg ix :
  final_index st rg (final_index st rg ix) = final_index st rg ix.
Proof.
  revert rg ix; induction st as [|s st IH]; intros [|r rg] [|x ix]; simpl; auto.
  destruct (s <? r); simpl; auto. now rewrite IH.
Qed.

Section Loop.
  Context {S : Type} (f : list Z -> S -> outcome S) (ranges : list Z).

  Lemma for_loop_spec body (L : list (list Z)) (g : list Z -> list Z) pre r :
    (forall suf, length (g suf) = length suf) ->
    (forall suf, g (g suf) = g suf) ->
    rd ranges (Z.of_nat (length pre)) = Ok r ->
    r <= INT_MAX ->
    forall n (suf0 : list Z) (Hsuf0 : True) a suf s fuel,
    length suf = length suf0 ->
    (forall a suf s, length suf = length suf0 -> body (pre ++ a :: suf) s =
        (s' <- foldM (fun t => f (pre ++ a :: t)) L s ;; Ok (pre ++ a :: g suf, s'))) ->
    n = Z.to_nat (r - a) -> (n < fuel)%nat -> INT_MIN <= a ->
    for_loop ranges fuel (Z.of_nat (length pre)) body (pre ++ a :: suf) s =
    (s' <- foldM (fun t => f (pre ++ t)) (flat_map (fun i => map (cons i) L) (zrange a r)) s ;;
     Ok (pre ++ Z.max a r :: (if a <? r then g suf else suf), s')).
  Proof.
    intros glen gidem Hr Hrmax.
    induction n as [|n IH]; intros suf0 _ a suf s fuel Hsuf Hbody En Hfuel Hmin;
      (destruct fuel as [|fuel]; [lia|]); cbn [for_loop]; rewrite rd_app_mid; cbn [bind];
      unfold range; rewrite Hr; cbn [bind].
    - destruct (Z.ltb_spec a r) as [H|H]; [lia|].
      rewrite zrange_nil by lia. cbn [flat_map foldM bind].
      replace (Z.max a r) with a by lia. reflexivity.
    - destruct (Z.ltb_spec a r) as [H|H]; [|lia].
      rewrite Hbody by exact Hsuf. rewrite zrange_cons by lia.
      cbn [flat_map]. rewrite foldM_app, foldM_map.
      rewrite !bind_assoc. apply bind_ext. intros s1. cbn [bind].
      rewrite rd_app_mid. cbn [bind].
      rewrite iadd_ok by (unfold INT_MIN, INT_MAX in *; lia). cbn [bind].
      rewrite wr_app_mid. cbn [bind].
      rewrite (IH suf0 I (a + 1) (g suf) s1 fuel); try lia.
      + apply bind_ext. intros s2. do 3 f_equal.
        * replace (Z.max (a + 1) r) with (Z.max a r) by lia. f_equal.
          destruct (a + 1 <? r); [apply gidem | reflexivity].
      + rewrite glen. exact Hsuf.
      + exact Hbody.
  Qed.

  Definition fuel_ok (fuel : nat) (st rg : list Z) : Prop :=
    Forall2 (fun s r => (Z.to_nat (r - s) < fuel)%nat) st rg.

  Lemma forRangeHelper_spec rest : forall fuel start prg rg pst st pre ix s,
    ranges = prg ++ rg -> start = pst ++ st ->
    length prg = length pre -> length pst = length pre ->
    length rg = Datatypes.S rest -> length st = Datatypes.S rest ->
    length ix = Datatypes.S rest ->
    Forall (fun r => r <= INT_MAX) rg -> Forall (fun a => INT_MIN <= a) st ->
    fuel_ok fuel st rg ->
    forRangeHelper (reading f) ranges fuel rest (Z.of_nat (length pre)) start (pre ++ ix) s =
    (s' <- foldM (fun t => f (pre ++ t)) (box st rg) s ;;
     Ok (pre ++ final_index st rg ix, s')).
  Proof.
    induction rest as [|rest IH];
      intros fuel start prg rg pst st pre ix s Eranges Estart Lprg Lpst Lrg Lst Lix Hrg Hst Hfuel;
      destruct rg as [|r rg]; try discriminate; destruct st as [|a st]; try discriminate;
      destruct ix as [|x ix]; try discriminate;
      inversion_clear Hrg as [|? ? Hr Hrg']; inversion_clear Hst as [|? ? Ha Hst'];
      inversion_clear Hfuel as [|? ? ? ? Hfa Hfuel']; subst start; cbn [forRangeHelper];
      replace (Z.of_nat (length pre)) with (Z.of_nat (length pst)) at 1 by lia;
      rewrite rd_app_mid; cbn [bind]; rewrite wr_app_mid; cbn [bind].
    - destruct rg; [|discriminate]. destruct st; [|discriminate]. destruct ix; [|discriminate].
      rewrite (for_loop_spec (reading f) [[]] (fun l => l) pre r) with (n := Z.to_nat (r - a)) (suf0 := []);
        auto.
      + rewrite Eranges, <- Lprg. apply rd_app_mid.
      + intros b suf s0 Hsuf. destruct suf; [|discriminate]. unfold reading. cbn [foldM].
        destruct (f (pre ++ [b]) s0); reflexivity.
    - rewrite (for_loop_spec _ (box st rg) (final_index st rg) pre r) with (n := Z.to_nat (r - a)) (suf0 := ix);
        auto.
      + intros; apply final_index_length.
      + intros; apply final_index_idem.
      + rewrite Eranges, <- Lprg. apply rd_app_mid.
      + intros b suf s0 Hsuf.
        replace (pre ++ b :: suf) with ((pre ++ [b]) ++ suf) by (rewrite <- app_assoc; reflexivity).
        replace (Z.of_nat (length pre) + 1) with (Z.of_nat (length (pre ++ [b])))
          by (rewrite app_length; simpl; lia).
        rewrite (IH fuel _ (prg ++ [r]) rg (pst ++ [a]) st (pre ++ [b]) suf s0); auto.
        * replace (pre ++ b :: final_index st rg suf)
            with ((pre ++ [b]) ++ final_index st rg suf) by (rewrite <- app_assoc; reflexivity).
          f_equal. apply foldM_ext. intros t s1 _. now rewrite <- app_assoc.
        * now rewrite <- app_assoc.
        * now rewrite <- app_assoc.
        * rewrite !app_length; simpl; lia.
        * rewrite !app_length; simpl; lia.
        * simpl in Lix. lia.
  Qed.
End Loop.

Lemma fuel_ok_exists st rg : length st = length rg ->
  exists n0, forall fuel, (n0 <= fuel)%nat -> fuel_ok fuel st rg.
Proof.
  revert rg; induction st as [|s st IH]; intros [|r rg] H; try discriminate.
  - exists O. intros; constructor.
  - destruct (IH rg) as [n0 Hn0]; [simpl in H; lia|].
    exists (Nat.max n0 (Datatypes.S (Z.to_nat (r - s)))). intros fuel Hf. constructor; [lia|].
    apply Hn0. lia.
Qed.

Lemma forRange_lemma {S} (f : list Z -> S -> outcome S) ranges start E :
  ranges <> [] -> length start = length ranges ->
  Forall (fun r => r <= INT_MAX) ranges -> Forall (fun a => INT_MIN <= a) start ->
  LexEnum start ranges E ->
  exists n0, forall fuel s, (n0 <= fuel)%nat ->
    forRange (reading f) ranges fuel start s =
    (s' <- foldM f E s ;; Ok (final_index start ranges start, s')).
Proof.
  intros Hne Hlen Hr Hs HE. apply LexEnum_unique in HE. subst E.
  destruct (fuel_ok_exists start ranges Hlen) as [n0 Hn0]. exists n0.
  intros fuel s Hf. unfold forRange. destruct (length ranges) as [|rest] eqn:EL.
  - destruct ranges; [congruence | discriminate].
  - pose proof (forRangeHelper_spec f ranges rest fuel start [] ranges [] start [] start s) as H.
    simpl in H. apply H; auto.
Qed.

Lemma final_index_nth st : forall rg ix k, length st = length rg -> length ix = length rg ->
  nth_error (final_index st rg ix) k =
  if forallb (fun p => fst p <? snd p) (firstn k (combine st rg))
  then match nth_error st k, nth_error rg k with Some s, Some r => Some (Z.max s r) | _, _ => None end
  else nth_error ix k.
Proof.
  induction st as [|s st IH]; intros [|r rg] [|x ix] k H1 H2; try discriminate.
  - destruct k; reflexivity.
  - destruct k as [|k]; [reflexivity|]. simpl.
    destruct (s <? r); simpl; [|reflexivity].
    apply IH; simpl in *; lia.
Qed.

(** * forSequence and forNestedSequence *)

Lemma forSequence_lemma {S} n (f : Z -> S -> outcome S) s : 0 <= n ->
  forSequence n f s = foldM f (zseq (Z.to_nat n)) s.
Proof.
  intros H. unfold forSequence, make_integer_sequence.
  destruct (Z.ltb_spec n 0); [lia|]. cbn [bind]. apply fold_comma_map.
Qed.

Lemma staticForNested_lemma {S} ends : forall (f : list Z -> S -> outcome S) pre s,
  ends <> [] -> Forall (fun e => 0 <= e) ends ->
  staticForNested ends f pre s = foldM (fun t => f (pre ++ t)) (zbox ends) s.
Proof.
  induction ends as [|e ends IH]; intros f pre s Hne Hpos; [congruence|].
  inversion Hpos as [|? ? He Hpos']; subst.
  unfold zbox. cbn [length repeat box]. rewrite zrange_0, foldM_flat_map.
  destruct ends as [|e' ends].
  - cbn [staticForNested]. rewrite forSequence_lemma by exact He.
    apply foldM_ext. intros a s0 _. simpl. destruct (f (pre ++ [a]) s0); reflexivity.
  - change (staticForNested (e :: e' :: ends) f pre s)
      with (forSequence e (fun idx => staticForNested (e' :: ends) f (pre ++ [idx])) s).
    rewrite forSequence_lemma by exact He.
    apply foldM_ext. intros a s0 _. rewrite IH by (auto; discriminate).
    rewrite foldM_map. apply foldM_ext. intros t s1 _. now rewrite <- app_assoc.
Qed.

Lemma forNestedSequence_lemma {S} ends (f : list Z -> S -> outcome S) s E :
  ends <> [] -> Forall (fun e => 0 <= e) ends ->
  LexEnum (repeat 0 (length ends)) ends E ->
  forNestedSequence ends f s = foldM f E s.
Proof.
  intros Hne Hpos HE. apply LexEnum_unique in HE. subst E.
  unfold forNestedSequence. rewrite staticForNested_lemma by assumption. reflexivity.
Qed.

(** * Pack peeling *)

Lemma IntPackPeeler_lemma I pack :
  IntPackPeeler I pack =
  if (0 <=? I) then match nth_error pack (Z.to_nat I) with Some x => Ok x | None => IllFormed end
  else IllFormed.
Proof.
  revert I; induction pack as [|x pack IH]; intros I; simpl.
  - destruct (0 <=? I); [destruct (Z.to_nat I)|]; reflexivity.
  - destruct (Z.eqb_spec I 0) as [->|HI]; [reflexivity|]. rewrite IH.
    destruct (Z.leb_spec 0 (I - 1)); destruct (Z.leb_spec 0 I); try lia; try reflexivity.
    replace (Z.to_nat I) with (Datatypes.S (Z.to_nat (I - 1))) by lia. reflexivity.
Qed.

(** * linearIndex of a MultiIndexRange *)

Definition pos_ranges (ranges : list Z) : Prop :=
  ranges <> [] /\ Forall (fun r => 0 < r) ranges /\ prodZ ranges <= INT_MAX.

Lemma prodZ_firstn_le l k : Forall (fun r => 0 < r) l -> 0 < prodZ (firstn k l) <= prodZ l.
Proof.
  intros H. rewrite <- (firstn_skipn k l) at 3. rewrite prodZ_app.
  assert (Hf : Forall (fun r => 0 < r) (firstn k l)).
  { rewrite Forall_forall in *. intros x Hx. apply H.
    rewrite <- (firstn_skipn k l). apply in_or_app; now left. }
  assert (Hs : Forall (fun r => 0 < r) (skipn k l)).
  { rewrite Forall_forall in *. intros x Hx. apply H.
    rewrite <- (firstn_skipn k l). apply in_or_app; now right. }
  apply prodZ_pos in Hf. apply prodZ_pos in Hs. nia.
Qed.

Lemma prodZ_skipn_le l k : Forall (fun r => 0 < r) l -> 0 < prodZ (skipn k l) <= prodZ l.
Proof.
  intros H. rewrite <- (firstn_skipn k l) at 3. rewrite prodZ_app.
  assert (Hf : Forall (fun r => 0 < r) (firstn k l)).
  { rewrite Forall_forall in *. intros x Hx. apply H.
    rewrite <- (firstn_skipn k l). apply in_or_app; now left. }
  assert (Hs : Forall (fun r => 0 < r) (skipn k l)).
  { rewrite Forall_forall in *. intros x Hx. apply H.
    rewrite <- (firstn_skipn k l). apply in_or_app; now right. }
  apply prodZ_pos in Hf. apply prodZ_pos in Hs. nia.
Qed.

(** A right fold of checked products of positive entries. *)
Lemma fold_imul_ok l : Forall (fun r => 0 < r) l -> prodZ l <= INT_MAX ->
  fold_binary_right imul (map Ok l) (Ok 1) = Ok (prodZ l).
Proof.
  induction l as [|a l IH]; intros H Hp; [reflexivity|].
  inversion H as [|? ? Ha Hl]; subst. pose proof (prodZ_pos _ Hl). rewrite prodZ_cons in *.
  cbn [map fold_binary_right bind]. rewrite IH; auto; [|nia]. cbn [bind].
  apply imul_ok. unfold INT_MIN in *; nia.
Qed.

Lemma map_rd_zseq {A} (l : list A) k : (k <= length l)%nat -> map (rd l) (zseq k) = map Ok (firstn k l).
Proof.
  induction k as [|k IH]; intros H; [reflexivity|].
  rewrite zseq_S, map_app, IH by lia.
  destruct (nth_error l k) as [x|] eqn:E; [|apply nth_error_None in E; lia].
  assert (Hf : firstn (Datatypes.S k) l = firstn k l ++ [x]).
  { clear -E. revert k E; induction l as [|a l IHl]; intros [|k] E; try discriminate.
    - injection E as ->; reflexivity.
    - simpl in E. cbn [firstn app]. f_equal. now apply IHl. }
  rewrite Hf, map_app. simpl. f_equal. f_equal.
  apply rd_inv. split; [lia|]. now rewrite Nat2Z.id.
Qed.

Lemma stride_lemma ranges k : pos_ranges ranges -> (k < length ranges)%nat ->
  stride (Z.of_nat k) ranges = Ok (prodZ (firstn (length ranges - 1 - k) ranges)).
Proof.
  intros (Hne & Hpos & Hmax) Hk. unfold stride, NUM_INDICES, make_integer_sequence.
  destruct (Z.ltb_spec (Z.of_nat (length ranges) - 1 - Z.of_nat k) 0); [lia|]. cbn [bind].
  unfold strideHelper.
  replace (Z.to_nat (Z.of_nat (length ranges) - 1 - Z.of_nat k))
    with (length ranges - 1 - k)%nat by lia.
  rewrite map_rd_zseq by lia. apply fold_imul_ok.
  - rewrite Forall_forall in *. intros x Hx. apply Hpos.
    rewrite <- (firstn_skipn (length ranges - 1 - k) ranges). apply in_or_app; now left.
  - pose proof (prodZ_firstn_le ranges (length ranges - 1 - k) Hpos). lia.
Qed.

(** Mathematical value of what the code adds up. *)
Definition code_weight (ranges : list Z) (k : nat) : Z :=
  prodZ (firstn (length ranges - 1 - k) ranges).
Definition rm_weight (ranges : list Z) (k : nat) : Z := prodZ (skipn (Datatypes.S k) ranges).

Fixpoint wsum (w : nat -> Z) (k : nat) (data : list Z) : Z :=
  match data with [] => 0 | x :: d => x * w k + wsum w (Datatypes.S k) d end.

Lemma rowmajor_wsum_aux ds : forall pre t, length t = length ds ->
  rowmajor ds t = wsum (rm_weight (pre ++ ds)) (length pre) t.
Proof.
  induction ds as [|d ds IH]; intros pre [|i t] H; try discriminate; [reflexivity|].
  cbn [rowmajor wsum]. f_equal.
  - f_equal. unfold rm_weight. f_equal.
    replace (Datatypes.S (length pre)) with (length (pre ++ [d])) by (rewrite app_length; simpl; lia).
    replace (pre ++ d :: ds) with ((pre ++ [d]) ++ ds) by (rewrite <- app_assoc; reflexivity).
    rewrite skipn_app, skipn_all, Nat.sub_diag. reflexivity.
  - rewrite (IH (pre ++ [d])) by (simpl in H; lia).
    rewrite <- app_assoc. rewrite app_length. simpl. f_equal. lia.
Qed.

Lemma rowmajor_wsum ds t : length t = length ds -> rowmajor ds t = wsum (rm_weight ds) 0 t.
Proof. intros H. now rewrite (rowmajor_wsum_aux ds [] t). Qed.

Lemma wsum_ext w w' k data :
  (forall j x, nth_error data j = Some x -> x * w (k + j)%nat = x * w' (k + j)%nat) ->
  wsum w k data = wsum w' k data.
Proof.
  revert k; induction data as [|x d IH]; intros k H; [reflexivity|]. simpl. f_equal.
  - specialize (H O x eq_refl). now rewrite Nat.add_0_r in H.
  - apply IH. intros j y Hy. specialize (H (Datatypes.S j) y Hy).
    now replace (Datatypes.S k + j)%nat with (k + Datatypes.S j)%nat by lia.
Qed.

Lemma wsum_nonneg w k data : (forall j, 0 <= w j) -> Forall (fun x => 0 <= x) data -> 0 <= wsum w k data.
Proof.
  intros Hw H. revert k; induction H as [|x d Hx _ IH]; intros k; simpl; [lia|].
  specialize (Hw k). specialize (IH (Datatypes.S k)). nia.
Qed.

(** Unary right fold of checked sums of non-negative terms. *)
Lemma fold_iadd_ok w : forall suf pre data : list Z, data = pre ++ suf -> suf <> [] ->
  (forall j, 0 <= w j) -> Forall (fun x => 0 <= x) data ->
  wsum w (length pre) suf <= INT_MAX ->
  forall st : Z -> outcome Z, (forall j, (j < length data)%nat -> st (Z.of_nat j) = Ok (w j)) ->
  fold_unary_right iadd (map (fun I => x <- rd data I ;; s <- st I ;; imul x s)
    (map Z.of_nat (seq (length pre) (length suf)))) = Ok (wsum w (length pre) suf).
Proof.
  induction suf as [|x suf IH]; intros pre data Ed Hne Hw Hd Hmax st Hst; [congruence|].
  assert (Hsufpos : Forall (fun x => 0 <= x) (x :: suf)).
  { rewrite Forall_forall in *. intros y Hy. apply Hd. subst. apply in_or_app; now right. }
  inversion Hsufpos as [|? ? Hx Hsufp]; subst.
  pose proof (wsum_nonneg w (Datatypes.S (length pre)) suf Hw Hsufp) as Hn.
  pose proof (Hw (length pre)) as Hwp.
  cbn [wsum] in Hmax.
  assert (Hterm : (x0 <- rd (pre ++ x :: suf) (Z.of_nat (length pre)) ;;
                   s <- st (Z.of_nat (length pre)) ;; imul x0 s) = Ok (x * w (length pre))).
  { rewrite rd_app_mid. cbn [bind]. rewrite Hst by (rewrite app_length; simpl; lia).
    cbn [bind]. apply imul_ok. unfold INT_MIN in *. nia. }
  destruct suf as [|y suf].
  - simpl length. cbn [seq map fold_unary_right]. rewrite Hterm. simpl. f_equal. lia.
  - remember (y :: suf) as suf' eqn:Esuf.
    cbn [length seq map]. 
    assert (Hgoal : fold_unary_right iadd
      (map (fun I => x0 <- rd (pre ++ x :: suf') I ;; s <- st I ;; imul x0 s)
       (map Z.of_nat (seq (Datatypes.S (length pre)) (length suf')))) =
       Ok (wsum w (Datatypes.S (length pre)) suf')).
    { replace (Datatypes.S (length pre)) with (length (pre ++ [x])) by (rewrite app_length; simpl; lia).
      apply IH; auto.
      - now rewrite <- app_assoc.
      - subst; discriminate.
      - replace (length (pre ++ [x])) with (Datatypes.S (length pre)) by (rewrite app_length; simpl; lia).
        nia. }
    remember (map (fun I => x0 <- rd (pre ++ x :: suf') I ;; s <- st I ;; imul x0 s)
       (map Z.of_nat (seq (Datatypes.S (length pre)) (length suf')))) as rest eqn:Erest.
    destruct rest as [|r rest]; [subst; discriminate|].
    change (fold_unary_right iadd
      ((x0 <- rd (pre ++ x :: suf') (Z.of_nat (length pre)) ;;
        s <- st (Z.of_nat (length pre)) ;; imul x0 s) :: r :: rest) =
      Ok (wsum w (length pre) (x :: suf'))).
    cbn [fold_unary_right]. rewrite Hterm. cbn [bind].
    change (match rest with [] => r | _ :: _ => x0 <- r ;; y0 <- fold_unary_right iadd rest ;; iadd x0 y0 end)
      with (fold_unary_right iadd (r :: rest)).
    rewrite Hgoal. cbn [bind wsum]. apply iadd_ok. unfold INT_MIN in *. nia.
Qed.

Lemma linearIndex_lemma ranges data : pos_ranges ranges -> length data = length ranges ->
  Forall (fun x => 0 <= x) data -> wsum (code_weight ranges) 0 data <= INT_MAX ->
  linearIndex ranges data = Ok (wsum (code_weight ranges) 0 data).
Proof.
  intros Hr Hl Hd Hmax. unfold linearIndex, NUM_INDICES, make_integer_sequence.
  destruct (Z.ltb_spec (Z.of_nat (length ranges)) 0); [lia|]. cbn [bind].
  unfold linearIndexHelper, zseq. rewrite Nat2Z.id, <- Hl.
  apply (fold_iadd_ok (code_weight ranges) data [] data); auto.
  - destruct Hr as (Hne & _). destruct ranges; [congruence|]. destruct data; discriminate.
  - intros j. unfold code_weight. destruct Hr as (_ & Hpos & _).
    pose proof (prodZ_firstn_le ranges (length ranges - 1 - j) Hpos). lia.
  - intros j Hj. apply stride_lemma; auto. lia.
Qed.

(** The exact condition under which the code's strides are the row-major ones, for
    every dimension that has more than one value. *)
Definition strides_match (ranges : list Z) : Prop :=
  forall k r, nth_error ranges k = Some r -> 2 <= r -> code_weight ranges k = rm_weight ranges k.

Lemma InRange_nth ds : forall t k x d, InRange ds t ->
  nth_error t k = Some x -> nth_error ds k = Some d -> 0 <= x < d.
Proof.
  induction ds as [|d0 ds IH]; intros t k x d H Ht Hd; [destruct k; discriminate|].
  apply InRange_cons in H. destruct H as (i & t' & -> & Hi & Ht').
  destruct k as [|k]; simpl in *; [congruence | eauto].
Qed.

Lemma InRange_len ds t : InRange ds t -> length t = length ds.
Proof. intros H. apply InBox_length in H. lia. Qed.

Lemma InRange_nonneg ds t : InRange ds t -> Forall (fun x => 0 <= x) t.
Proof.
  revert t; induction ds as [|d ds IH]; intros t H.
  - apply InRange_nil in H; subst; constructor.
  - apply InRange_cons in H. destruct H as (i & t' & -> & Hi & Ht'). constructor; [lia | auto].
Qed.

Lemma linearIndex_good ranges data : pos_ranges ranges -> strides_match ranges ->
  InRange ranges data -> linearIndex ranges data = Ok (rowmajor ranges data).
Proof.
  intros Hr Hm Hin. pose proof (InRange_len _ _ Hin) as Hl.
  assert (E : wsum (code_weight ranges) 0 data = rowmajor ranges data).
  { rewrite rowmajor_wsum by exact Hl. apply wsum_ext. intros j x Hx. simpl.
    destruct (nth_error ranges j) as [r|] eqn:Er.
    - pose proof (InRange_nth _ _ _ _ _ Hin Hx Er).
      destruct (Z.eq_dec x 0) as [->|Hx0]; [lia|]. rewrite (Hm j r Er) by lia. reflexivity.
    - apply nth_error_None in Er. assert (j < length data)%nat by (apply nth_error_Some; congruence).
      lia. }
  rewrite <- E. apply linearIndex_lemma; auto.
  - now apply InRange_nonneg in Hin.
  - rewrite E. apply rowmajor_bounds in Hin. destruct Hr as (_ & _ & Hmax). lia.
Qed.

(** Unit multi-index: 1 in component [k]. *)
Definition unit_at (n k : nat) : list Z := map (fun j => if Nat.eqb j k then 1 else 0) (seq 0 n).

Lemma wsum_unit_aux w k n : forall a, wsum w a (map (fun j => if Nat.eqb j k then 1 else 0) (seq a n)) =
  if (a <=? k)%nat && (k <? a + n)%nat then w k else 0.
Proof.
  induction n as [|n IH]; intros a; cbn [seq map wsum].
  - destruct (Nat.leb_spec a k); destruct (Nat.ltb_spec k (a + 0)); try lia; reflexivity.
  - rewrite IH. destruct (Nat.eqb_spec a k) as [->|Hne].
    + destruct (Nat.leb_spec (Datatypes.S k) k); [lia|].
      destruct (Nat.leb_spec k k); [|lia]. destruct (Nat.ltb_spec k (k + Datatypes.S n)); [|lia].
      cbn [andb]. ring.
    + destruct (Nat.leb_spec (Datatypes.S a) k); destruct (Nat.leb_spec a k);
        destruct (Nat.ltb_spec k (Datatypes.S a + n)); destruct (Nat.ltb_spec k (a + Datatypes.S n));
        simpl; lia.
Qed.

Lemma wsum_unit w n k : (k < n)%nat -> wsum w 0 (unit_at n k) = w k.
Proof.
  intros H. unfold unit_at. rewrite wsum_unit_aux.
  destruct (Nat.leb_spec 0 k); [|lia]. destruct (Nat.ltb_spec k (0 + n)); [|lia]. reflexivity.
Qed.

Lemma unit_InRange ranges k r : Forall (fun r => 0 < r) ranges ->
  nth_error ranges k = Some r -> 2 <= r -> InRange ranges (unit_at (length ranges) k).
Proof.
  unfold unit_at. intros Hpos Hk Hr.
  assert (G : forall a, (forall j d, nth_error ranges j = Some d -> (a + j)%nat = k -> 2 <= d) ->
     InRange ranges (map (fun j => if Nat.eqb j k then 1 else 0) (seq a (length ranges)))).
  { clear Hk Hr. induction Hpos as [|d ds Hd Hds IH]; intros a H.
    - apply InRange_nil. reflexivity.
    - apply InRange_cons. cbn [length seq map]. eexists _, _. split; [reflexivity|]. split.
      + destruct (Nat.eqb_spec a k) as [E|E]; [|lia].
        specialize (H O d eq_refl). lia.
      + apply IH. intros j e Hj Ek. apply (H (Datatypes.S j) e Hj). lia. }
  apply G. intros j d Hj E. simpl in E. subst. congruence.
Qed.

Lemma linearIndex_bad ranges : pos_ranges ranges ->
  (forall data, InRange ranges data -> linearIndex ranges data = Ok (rowmajor ranges data)) ->
  strides_match ranges.
Proof.
  intros Hr H k r Hk H2. destruct (Hr) as (_ & Hpos & Hmax).
  pose proof (unit_InRange _ _ _ Hpos Hk H2) as Hin.
  assert (Hkn : (k < length ranges)%nat) by (apply nth_error_Some; congruence).
  pose proof (H _ Hin) as E.
  rewrite linearIndex_lemma in E; auto.
  - rewrite rowmajor_wsum in E by (apply InRange_len; exact Hin).
    rewrite !wsum_unit in E by exact Hkn. congruence.
  - apply InRange_len; exact Hin.
  - apply InRange_nonneg in Hin; exact Hin.
  - rewrite wsum_unit by exact Hkn. unfold code_weight.
    pose proof (prodZ_firstn_le ranges (length ranges - 1 - k) Hpos). lia.
Qed.

Lemma skipn_rev {A} (l : list A) k : (k <= length l)%nat ->
  rev (skipn k l) = firstn (length l - k) (rev l).
Proof.
  intros H. rewrite <- (firstn_skipn k l) at 3. rewrite rev_app_distr.
  rewrite firstn_app. rewrite rev_length, skipn_length.
  rewrite Nat.sub_diag. simpl. rewrite app_nil_r. rewrite firstn_all2; [reflexivity|].
  rewrite rev_length, skipn_length. lia.
Qed.

Lemma prodZ_rev l : prodZ (rev l) = prodZ l.
Proof.
  induction l as [|a l IH]; [reflexivity|]. simpl rev. rewrite prodZ_app, IH, prodZ_cons.
  unfold prodZ at 2; simpl. lia.
Qed.

Lemma palindrome_match ranges : rev ranges = ranges -> strides_match ranges.
Proof.
  intros Hp k r Hk _. unfold code_weight, rm_weight.
  assert (Hkn : (k < length ranges)%nat) by (apply nth_error_Some; congruence).
  rewrite <- (prodZ_rev (skipn _ _)), skipn_rev by lia. rewrite Hp.
  replace (length ranges - Datatypes.S k)%nat with (length ranges - 1 - k)%nat by lia. reflexivity.
Qed.

Lemma list_eq_by_prefix_products a b : length a = length b ->
  Forall (fun r => 0 < r) a -> Forall (fun r => 0 < r) b ->
  (forall k, (k < length a)%nat -> prodZ (firstn k a) = prodZ (firstn k b)) ->
  forall k, (Datatypes.S k < length a)%nat -> nth_error a k = nth_error b k.
Proof.
  revert b; induction a as [|x a IH]; intros [|y b] Hl Ha Hb H k Hk; try discriminate; [simpl in Hk; lia|].
  inversion Ha as [|? ? Hx Ha']; inversion Hb as [|? ? Hy Hb']; subst.
  assert (Exy : x = y).
  { specialize (H 1%nat). cbn [firstn length] in H. rewrite !prodZ_cons in H.
    unfold prodZ in H; simpl in H. simpl in Hk. lia. }
  subst y. destruct k as [|k]; [reflexivity|]. simpl.
  apply IH; auto; try (simpl in *; lia).
  intros j Hj. specialize (H (Datatypes.S j)). cbn [firstn length] in H.
  rewrite !prodZ_cons in H. apply (Z.mul_reg_l _ _ x); [lia|]. apply H. lia.
Qed.

Lemma match_palindrome ranges : Forall (fun r => 2 <= r) ranges -> strides_match ranges ->
  rev ranges = ranges.
Proof.
  intros H2 Hm.
  assert (Hpos : Forall (fun r => 0 < r) ranges) by (eapply Forall_impl; [|exact H2]; simpl; intros; lia).
  assert (Hposr : Forall (fun r => 0 < r) (rev ranges)) by (apply Forall_rev; exact Hpos).
  assert (Hpre : forall k, (k < length ranges)%nat -> prodZ (firstn k ranges) = prodZ (firstn k (rev ranges))).
  { intros k Hk. destruct (nth_error ranges (length ranges - 1 - k)) as [r|] eqn:Er.
    - rewrite Forall_forall in H2. pose proof (Hm _ r Er (H2 r (nth_error_In _ _ Er))) as E.
      unfold code_weight, rm_weight in E.
      replace (length ranges - 1 - (length ranges - 1 - k))%nat with k in E by lia.
      rewrite E, <- (prodZ_rev (skipn _ _)), skipn_rev by lia.
      f_equal. f_equal. lia.
    - apply nth_error_None in Er. lia. }
  assert (Hnth : forall k, (Datatypes.S k < length ranges)%nat -> nth_error ranges k = nth_error (rev ranges) k).
  { apply list_eq_by_prefix_products; auto. now rewrite rev_length. }
  (* all but the last entry agree; the last one is the first of the reverse *)
  assert (Hlast : forall k, (k < length ranges)%nat -> nth_error ranges k = nth_error (rev ranges) k).
  { intros k Hk. destruct (Nat.eq_dec (Datatypes.S k) (length ranges)) as [E|E].
    - destruct (Nat.eq_dec (length ranges) 1) as [E1|E1].
      + destruct ranges as [|a [|b l]]; try discriminate. reflexivity.
      + assert (H0 : nth_error ranges 0 = nth_error (rev ranges) 0) by (apply Hnth; lia).
        assert (Ek : forall l : list Z, l <> [] -> nth_error l (length l - 1) = nth_error (rev l) 0).
        { intros l Hl. destruct (exists_last Hl) as (l' & x & ->).
          rewrite rev_app_distr, app_length. simpl.
          rewrite nth_error_app2 by lia. replace (length l' + 1 - 1 - length l')%nat with O by lia.
          reflexivity. }
        assert (Hne : ranges <> []) by (destruct ranges; [simpl in *; lia | discriminate]).
        replace k with (length ranges - 1)%nat by lia.
        rewrite Ek by exact Hne. rewrite <- H0.
        rewrite <- (rev_length ranges).
        rewrite Ek by (intros E'; apply (f_equal (@length Z)) in E'; rewrite rev_length in E';
                       destruct ranges; [congruence | discriminate]).
        now rewrite rev_involutive.
    - apply Hnth. lia. }
  symmetry. clear -Hlast.
  assert (G : forall a b : list Z, length a = length b ->
    (forall k, (k < length a)%nat -> nth_error a k = nth_error b k) -> a = b).
  { induction a as [|x a IH]; intros [|y b] Hl H; try discriminate; [reflexivity|].
    pose proof (H O ltac:(simpl; lia)) as H0. injection H0 as ->. f_equal.
    apply IH; [simpl in Hl; lia|]. intros k Hk. apply (H (Datatypes.S k)). simpl; lia. }
  apply G; [now rewrite rev_length | exact Hlast].
Qed.

(** * executeSequence *)
Lemma executeSequence_lemma {A R} (f : callee A R) n tys args : 0 <= n ->
  let ity := repeat TIndex (Z.to_nat n) in
  executeSequence n f tys args =
  if accepts f (ity ++ tys)
  then if accepts f (tys ++ ity) then call f args (zseq (Z.to_nat n)) else IllFormed
  else if has_tmpl f tys then call_tmpl f (zseq (Z.to_nat n)) args else IllFormed.
Proof.
  intros H. unfold executeSequence, make_integer_sequence, execute.
  destruct (Z.ltb_spec n 0); [lia|]. cbn [bind]. now rewrite zseq_length.
Qed.

(** * Statements used by PropIndex.v *)

Lemma LexEnum_exists_unique lo hi :
  exists E, LexEnum lo hi E /\ forall E', LexEnum lo hi E' -> E' = E.
Proof. exists (box lo hi). split; [apply box_LexEnum|]. intros E'. apply LexEnum_unique. Qed.

Lemma forRange_stmt {S} (f : list Z -> S -> outcome S) ranges start E :
  ranges <> [] -> length start = length ranges ->
  Forall is_int ranges -> Forall is_int start -> LexEnum start ranges E ->
  exists n0 final, (forall fuel s, (n0 <= fuel)%nat ->
    forRange (reading f) ranges fuel start s = (s' <- foldM f E s ;; Ok (final, s'))) /\
    length final = length start /\
    forall k, (k < length start)%nat -> nth k final 0 =
      if forallb (fun p => fst p <? snd p) (firstn k (combine start ranges))
      then Z.max (nth k start 0) (nth k ranges 0) else nth k start 0.
Proof.
  intros Hne Hl Hr Hs HE.
  destruct (forRange_lemma f ranges start E Hne Hl) as (n0 & H).
  - eapply Forall_impl; [|exact Hr]. unfold is_int; intros; lia.
  - eapply Forall_impl; [|exact Hs]. unfold is_int; intros; lia.
  - exact HE.
  - exists n0, (final_index start ranges start). split; [exact H|].
    split; [apply final_index_length|]. intros k Hk.
    pose proof (final_index_nth start ranges start k Hl Hl) as E0.
    destruct (nth_error start k) as [x|] eqn:Ex; [|apply nth_error_None in Ex; lia].
    destruct (nth_error ranges k) as [r|] eqn:Er; [|apply nth_error_None in Er; lia].
    rewrite (nth_error_nth _ _ 0 Ex), (nth_error_nth _ _ 0 Er).
    destruct (forallb _ _); apply nth_error_nth with (d := 0) in E0; exact E0.
Qed.

Lemma nested_eq_forRange {S} ends (f : list Z -> S -> outcome S) :
  ends <> [] -> Forall (fun e => 0 <= e <= INT_MAX) ends ->
  exists n0 final, forall fuel s, (n0 <= fuel)%nat ->
    forRange (reading f) ends fuel (default_index ends) s =
    (s' <- forNestedSequence ends f s ;; Ok (final, s')).
Proof.
  intros Hne He.
  destruct (forRange_lemma f ends (default_index ends) (zbox ends) Hne) as (n0 & H).
  - apply repeat_length.
  - eapply Forall_impl; [|exact He]. simpl; intros; lia.
  - apply Forall_forall. intros x Hx. apply repeat_spec in Hx. subst. unfold INT_MIN; lia.
  - apply box_LexEnum.
  - exists n0. eexists. intros fuel s Hf. rewrite H by exact Hf.
    rewrite (forNestedSequence_lemma ends f s (zbox ends)).
    + reflexivity.
    + exact Hne.
    + eapply Forall_impl; [|exact He]. simpl; intros; lia.
    + apply box_LexEnum.
Qed.

Lemma linearIndex_iff ranges :
  ranges <> [] -> Forall (fun r => 0 < r) ranges -> prodZ ranges <= INT_MAX ->
  ((forall data, InRange ranges data ->
      exists k, linearIndex ranges data = Ok k /\ RowMajorPos ranges data k)
   <-> (forall k r, nth_error ranges k = Some r -> 2 <= r ->
          prodZ (firstn (length ranges - 1 - k) ranges) = prodZ (skipn (Datatypes.S k) ranges))).
Proof.
  intros Hne Hp Hm. assert (Hr : pos_ranges ranges) by (split; auto).
  change (forall k r, nth_error ranges k = Some r -> 2 <= r ->
          prodZ (firstn (length ranges - 1 - k) ranges) = prodZ (skipn (Datatypes.S k) ranges))
    with (strides_match ranges).
  split.
  - intros H. apply linearIndex_bad; [exact Hr|]. intros data Hd.
    destruct (H data Hd) as (k & -> & Hk). apply RowMajorPos_inv in Hk. destruct Hk as (_ & ->). reflexivity.
  - intros Hs data Hd. exists (flat_offset ranges data). split; [now apply linearIndex_good|].
    now apply RowMajorPos_rowmajor.
Qed.

Lemma linearIndex_palindrome_iff ranges :
  ranges <> [] -> Forall (fun r => 2 <= r) ranges -> prodZ ranges <= INT_MAX ->
  ((forall data, InRange ranges data ->
      exists k, linearIndex ranges data = Ok k /\ RowMajorPos ranges data k)
   <-> rev ranges = ranges).
Proof.
  intros Hne Hp Hm.
  assert (Hp' : Forall (fun r => 0 < r) ranges) by (eapply Forall_impl; [|exact Hp]; simpl; intros; lia).
  rewrite (linearIndex_iff ranges Hne Hp' Hm). split.
  - now apply match_palindrome.
  - apply palindrome_match.
Qed.

Ltac inrange := repeat (first [ apply InRange_nil; reflexivity
  | apply InRange_cons; eexists _, _; split; [reflexivity|]; split; [lia|] ]).

Lemma linearIndex_collision :
  exists ranges d1 d2, InRange ranges d1 /\ InRange ranges d2 /\ d1 <> d2 /\
    exists k, linearIndex ranges d1 = Ok k /\ linearIndex ranges d2 = Ok k.
Proof.
  exists [2; 3], [0; 2], [1; 0]. split; [inrange|]. split; [inrange|]. split; [discriminate|].
  exists 2. split; reflexivity.
Qed.

Lemma linearIndex_too_big :
  exists ranges data k, InRange ranges data /\ linearIndex ranges data = Ok k /\ prodZ ranges <= k.
Proof.
  exists [3; 2], [2; 1], 7. split; [inrange|]. split; [reflexivity|]. unfold prodZ; simpl; lia.
Qed.

Lemma linearIndex_overflow :
  exists ranges data, InRange ranges data /\ prodZ ranges <= INT_MAX /\
    linearIndex ranges data = UB IntOverflow.
Proof.
  exists [100000; 20000], [99999; 0]. split; [inrange|]. split.
  - unfold prodZ, INT_MAX; simpl; lia.
  - reflexivity.
Qed.

Lemma forSequence_stmt {S} n (f : Z -> S -> outcome S) s :
  (0 <= n -> forSequence n f s = foldM f (map Z.of_nat (seq 0 (Z.to_nat n))) s) /\
  (n < 0 -> forSequence n f s = IllFormed).
Proof.
  split; intros H.
  - now apply forSequence_lemma.
  - unfold forSequence, make_integer_sequence. destruct (Z.ltb_spec n 0); [reflexivity|lia].
Qed.

Lemma peeler_stmt pack k :
  (forall x, 0 <= k -> nth_error pack (Z.to_nat k) = Some x -> IntPackPeeler k pack = Ok x) /\
  (~ (0 <= k < Z.of_nat (length pack)) -> IntPackPeeler k pack = IllFormed).
Proof.
  rewrite IntPackPeeler_lemma. split.
  - intros x Hk Hx. destruct (Z.leb_spec 0 k); [|lia]. now rewrite Hx.
  - intros H. destruct (Z.leb_spec 0 k); [|reflexivity].
    destruct (nth_error pack (Z.to_nat k)) eqn:E; [|reflexivity].
    assert (Z.to_nat k < length pack)%nat by (apply nth_error_Some; congruence). lia.
Qed.

Lemma execute_no_args {A R} (f : callee A R) n : 0 <= n ->
  accepts f (repeat TIndex (Z.to_nat n)) = true ->
  executeSequence n f [] [] = call f [] (map Z.of_nat (seq 0 (Z.to_nat n))).
Proof.
  intros Hn Ha. rewrite executeSequence_lemma by exact Hn. cbv zeta.
  rewrite app_nil_r. rewrite Ha. simpl app. rewrite Ha. reflexivity.
Qed.

Lemma execute_args {A R} (f : callee A R) n tys args : 0 <= n ->
  let ity := repeat TIndex (Z.to_nat n) in
  let idx := map Z.of_nat (seq 0 (Z.to_nat n)) in
  (accepts f (ity ++ tys) = true -> accepts f (tys ++ ity) = true ->
     executeSequence n f tys args = call f args idx) /\
  (accepts f (ity ++ tys) = false -> has_tmpl f tys = true ->
     executeSequence n f tys args = call_tmpl f idx args) /\
  (accepts f (ity ++ tys) = true -> accepts f (tys ++ ity) = false ->
     executeSequence n f tys args = IllFormed) /\
  (accepts f (ity ++ tys) = false -> has_tmpl f tys = false ->
     executeSequence n f tys args = IllFormed).
Proof.
  intros Hn ity idx. rewrite executeSequence_lemma by exact Hn. cbv zeta. fold ity.
  repeat split; intros -> H; rewrite ?H; reflexivity.
Qed.

(** A function that takes a user object first and one index second. *)
Definition object_then_index : callee Z (list Z) :=
  {| accepts := fun l => match l with [TUser _; TIndex] => true | _ => false end;
     call := fun args idx => Ok (args ++ idx);
     has_tmpl := fun _ => false;
     call_tmpl := fun _ _ => IllFormed |}.

Lemma execute_documented_order_refuted :
  exists (f : callee Z (list Z)) n tys args, 0 <= n /\
    accepts f (tys ++ repeat TIndex (Z.to_nat n)) = true /\
    executeSequence n f tys args = IllFormed.
Proof.
  exists object_then_index, 1, [TUser 0], [7]. split; [lia|]. split; reflexivity.
Qed.
