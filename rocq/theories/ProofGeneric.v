(** Tensor-product bases, parent elements and Jacobians for any number type: what they
    compute from the values of the one-dimensional bases at the given point. *)
From Verif Require Import Base ProofBase Num SpecIndex ProofBox ModelSequence ModelIndex ProofIndex ModelAssert
  ModelCArray SpecCArray ProofCArray ProofRep ModelSpacing ModelLagrange ModelBasisProduct ModelMath ModelTransforms
  SpecNumeric SpecBasis ProofPoly ProofLagrange ProofTensor ProofTransform.
Open Scope Z_scope.

(** Values and derivatives of a one-dimensional basis at one point. *)
Record local (A : Type) := { ln : Z; lv : Z -> A; lg : Z -> A }.
Arguments ln {A}. Arguments lv {A}. Arguments lg {A}.
Definition lcounts {A} (ls : list (local A)) : list Z := map ln ls.
(** The factors of a tensor product, the derivative in direction [G]. *)
Fixpoint factors {A} (G off : Z) (ls : list (local A)) (idx : list Z) : list A :=
  match ls, idx with
  | l :: ls', i :: idx' => (if G =? off then lg l i else lv l i) :: factors G (off + 1) ls' idx'
  | _, _ => []
  end.

Section Generic.
Context (N : Num).
Notation A := (T N).

Fixpoint mulR (vs : list A) : A :=
  match vs with
  | [] => nofZ N 1
  | a :: vs' => match vs' with [] => a | _ => nmul N a (mulR vs') end
  end.
Definition addL {B} (f : B -> A) (l : list B) (a : A) : A := fold_left (fun s x => nadd N s (f x)) l a.

Definition LocalAt (b : basis N) (x : A) (l : local A) : Prop :=
  numSupportPoints b = Ok (ln l) /\ 0 < ln l /\
  forall i, 0 <= i < ln l -> bvalue b i x = Ok (lv l i) /\ bgradient b i x = Ok (lg l i).
Inductive LocalsAt : list (basis N) -> list A -> list (local A) -> Prop :=
  | LA_nil xi : LocalsAt [] xi []
  | LA_cons b bs x xi l ls : LocalAt b x l -> LocalsAt bs xi ls -> LocalsAt (b :: bs) (x :: xi) (l :: ls).

Definition tval (ls : list (local A)) (idx : list Z) : A := mulR (factors (-1) 0 ls idx).
Definition tder (j : nat) (ls : list (local A)) (idx : list Z) : A := mulR (factors (Z.of_nat j) 0 ls idx).

Lemma locals_length bases xi ls : LocalsAt bases xi ls -> length bases = length ls.
Proof. induction 1; simpl; congruence. Qed.
Lemma locals_xi bases xi ls : LocalsAt bases xi ls -> (length ls <= length xi)%nat.
Proof. induction 1; simpl; lia. Qed.
Lemma lcounts_pos bases xi ls : LocalsAt bases xi ls -> Forall (fun n => 0 < n) (lcounts ls).
Proof. induction 1 as [|b bs x xi l ls Hb _ IH]; constructor; [apply Hb|exact IH]. Qed.
Lemma lsupportCounts bases xi ls : LocalsAt bases xi ls -> supportCounts N bases = Ok (lcounts ls).
Proof.
  unfold supportCounts, lcounts. induction 1 as [|b bs x xi l ls Hb _ IH]; [reflexivity|].
  cbn [map sequenceM]. destruct Hb as (-> & _ & _). cbn [bind]. rewrite IH. reflexivity.
Qed.
Lemma InRange_lcounts (ls : list (local A)) idx : InRange (lcounts ls) idx -> length idx = length ls.
Proof. intros H. apply InRange_len in H. rewrite H. apply map_length. Qed.

Lemma factors_length (ls : list (local A)) : forall G off idx, InRange (lcounts ls) idx -> length (factors G off ls idx) = length ls.
Proof.
  induction ls as [|l ls IH]; intros G off idx Hin; [reflexivity|].
  change (lcounts (l :: ls)) with (ln l :: lcounts ls) in Hin. apply InRange_cons in Hin.
  destruct Hin as (i & t & -> & Hi & Ht). cbn. now rewrite IH.
Qed.
Lemma fold_mulR vs : vs <> [] -> fold_unary_right (nmulM N) (map (@Ok A) vs) = Ok (mulR vs).
Proof.
  induction vs as [|a vs IH]; intros Hne; [congruence|]. destruct vs as [|b vs].
  - reflexivity.
  - cbn [map]. rewrite fold_unary_right_cons. change (Ok b :: map Ok vs) with (map (@Ok A) (b :: vs)).
    rewrite IH by discriminate. reflexivity.
Qed.
Lemma expandL (f : basis N -> Z -> Z -> outcome A) G xi : forall bases ls idx off xs,
  LocalsAt bases xs ls -> InRange (lcounts ls) idx ->
  (forall k, 0 <= k < Z.of_nat (length ls) -> rd xi (off + k) = rd xs k) ->
  (forall b i k, f b i k = (x <- rd xi k ;; if G =? k then bgradient b i x else bvalue b i x)) ->
  map (fun p => f (fst (fst p)) (snd (fst p)) (snd p))
    (combine (combine bases idx) (zrange off (off + Z.of_nat (length bases)))) =
  map (@Ok A) (factors G off ls idx).
Proof.
  intros bases ls idx off xs HE. revert idx off.
  induction HE as [|b bs x xs l ls Hb HE IH]; intros idx off Hin Hrd Hf; [reflexivity|].
  change (lcounts (l :: ls)) with (ln l :: lcounts ls) in Hin. apply InRange_cons in Hin.
  destruct Hin as (i & t & -> & Hi & Ht).
  cbn [length]. rewrite zrange_cons by lia. cbn [combine map factors fst snd].
  f_equal.
  - rewrite Hf. assert (E0 : rd xi off = Ok x).
    { assert (Hz : 0 <= 0 < Z.of_nat (length (l :: ls))). { cbn [length]. lia. } pose proof (Hrd 0 Hz) as E. rewrite Z.add_0_r in E. rewrite E. reflexivity. }
    rewrite E0. cbn [bind]. destruct Hb as (_ & _ & Hb). destruct (Hb i Hi) as (-> & ->).
    destruct (G =? off); reflexivity.
  - replace (off + Z.of_nat (S (length bs))) with (off + 1 + Z.of_nat (length bs)) by lia.
    apply (IH t (off + 1)); [exact Ht| |exact Hf].
    intros k Hk. replace (off + 1 + k) with (off + (k + 1)) by lia.
    rewrite Hrd by (cbn [length]; lia). unfold rd. destruct (Z.ltb_spec (k + 1) 0); [lia|].
    destruct (Z.ltb_spec k 0); [lia|]. replace (Z.to_nat (k + 1)) with (S (Z.to_nat k)) by lia. reflexivity.
Qed.

Lemma factors_ne (ls : list (local A)) G off idx : ls <> [] -> InRange (lcounts ls) idx -> factors G off ls idx <> [].
Proof.
  intros Hne Hin E. apply (f_equal (@length A)) in E. rewrite factors_length in E by assumption.
  destruct ls; [congruence|discriminate].
Qed.
Lemma product_valueL bases ls idx xi : LocalsAt bases xi ls -> ls <> [] -> InRange (lcounts ls) idx ->
  product_value N bases idx xi = Ok (tval ls idx).
Proof.
  intros HE Hne Hin. pose proof (locals_length _ _ _ HE) as Hbl.
  unfold product_value. rewrite (InRange_lcounts _ _ Hin), Hbl, Nat.eqb_refl.
  unfold numDims. rewrite exec_pack by lia. rewrite Nat2Z.id. unfold expand3. cbv beta.
  replace (zseq (length bases)) with (zrange 0 (0 + Z.of_nat (length bases))).
  2: { rewrite Z.add_0_l, zrange_0, Nat2Z.id. reflexivity. }
  etransitivity; [apply f_equal; apply (expandL (fun b i k => x <- rd xi k ;; bvalue b i x) (-1) xi bases ls idx 0 xi HE Hin);
    [reflexivity|]|].
  2: { apply fold_mulR. now apply factors_ne. }
  intros b i k. unfold rd. destruct (Z.ltb_spec k 0); [reflexivity|]. destruct (Z.eqb_spec (-1) k); [lia|reflexivity].
Qed.

Lemma ldim_ok (ls : list (local A)) : ls <> [] -> Z.of_nat (length ls) <= INT_MAX -> pos_dims [Z.of_nat (length ls)].
Proof.
  intros Hne Hm. split; [discriminate|]. split.
  - constructor; [|constructor]. destruct ls; [congruence|simpl; lia].
  - rewrite prodZ_cons. unfold prodZ; simpl. lia.
Qed.
Lemma product_gradientL bases ls idx xi : LocalsAt bases xi ls -> ls <> [] ->
  Z.of_nat (length ls) <= INT_MAX -> InRange (lcounts ls) idx ->
  product_gradient N bases idx xi = Ok (map (fun j => tder j ls idx) (seq 0 (length ls))).
Proof.
  intros HE Hne Hm Hin. pose proof (locals_length _ _ _ HE) as Hbl.
  unfold product_gradient. rewrite (InRange_lcounts _ _ Hin), Hbl, Nat.eqb_refl.
  unfold numDims. rewrite Hbl. rewrite exec_pack by lia. rewrite Nat2Z.id. cbv zeta.
  rewrite (sequenceM_Ok (zseq (length ls)) _ (fun k => tder (Z.to_nat k) ls idx)).
  - cbn [bind]. unfold zseq. rewrite map_map.
    rewrite (map_ext (fun a => tder (Z.to_nat (Z.of_nat a)) ls idx) (fun a => tder a ls idx))
      by (intros a; now rewrite Nat2Z.id).
    rewrite list_init_ok; [|now apply ldim_ok|].
    + rewrite map_length, seq_length. rewrite prodZ_cons. change (prodZ []) with 1. rewrite Z.mul_1_r, Nat2Z.id, Nat.sub_diag.
      cbn [repeat]. now rewrite app_nil_r.
    + rewrite map_length, seq_length, prodZ_cons. change (prodZ []) with 1. lia.
  - intros k Hk. apply in_zseq in Hk. rewrite exec_cons by lia. rewrite Nat2Z.id. unfold expand3. cbv beta.
    replace (zseq (length ls)) with (zrange 0 (0 + Z.of_nat (length bases))).
    2: { rewrite Z.add_0_l, zrange_0, Hbl, Nat2Z.id. reflexivity. }
    etransitivity; [apply f_equal; apply (expandL (fun b i a => gradientComponentHelper N b k i a xi) k xi bases ls idx 0 xi HE Hin);
      [reflexivity|]|].
    2: { rewrite fold_mulR by now apply factors_ne. unfold tder. rewrite Z2Nat.id by lia. reflexivity. }
    intros b i a. unfold gradientComponentHelper. destruct (k =? a); reflexivity.
Qed.

Lemma supportLoopL {S} bases ls xi (f : list Z -> S -> outcome S) s : LocalsAt bases xi ls -> ls <> [] ->
  supportLoop N bases f s = foldM f (zbox (lcounts ls)) s.
Proof.
  intros HE Hne. unfold supportLoop. rewrite (lsupportCounts _ _ _ HE). cbn [bind].
  apply forNestedSequence_lemma.
  - destruct ls; [congruence|discriminate].
  - eapply Forall_impl; [|exact (lcounts_pos _ _ _ HE)]. intros a; simpl; lia.
  - apply box_LexEnum.
Qed.
Lemma foldM_addL {B} (body : B -> A -> outcome A) (f : B -> A) l : forall acc,
  (forall a acc, In a l -> body a acc = Ok (nadd N acc (f a))) ->
  foldM body l acc = Ok (addL f l acc).
Proof.
  induction l as [|a l IH]; intros acc H; cbn [foldM]; [reflexivity|].
  rewrite H by (left; reflexivity). cbn [bind]. rewrite IH by (intros; apply H; right; assumption). reflexivity.
Qed.
Lemma addL_cons {B} (f : B -> A) a l acc : addL f (a :: l) acc = addL f l (nadd N acc (f a)).
Proof. reflexivity. Qed.

Lemma parent_valueL bases ls var (uu : list Z -> A) xi : LocalsAt bases xi ls -> ls <> [] ->
  (forall t, InRange (lcounts ls) t -> var t = Ok (uu t)) ->
  parent_value N (Z.of_nat (length ls)) bases var xi =
    Ok (addL (fun t => nmul N (tval ls t) (uu t)) (zbox (lcounts ls)) (nofZ N 0)).
Proof.
  intros HE Hne Hu. unfold parent_value.
  assert (Hok : parent_ok N (Z.of_nat (length ls)) bases = Ok tt).
  { unfold parent_ok, numDims. rewrite (locals_length _ _ _ HE), Z.eqb_refl. reflexivity. }
  rewrite Hok. cbn [bind].
  change (supportLoop N bases (fun indices rval =>
    v <- parent_value_at N (Z.of_nat (length ls)) bases indices xi ;;
    u0 <- var indices ;; Ok (nadd N rval (nmul N v u0))) (nofZ N 0) =
    Ok (addL (fun t => nmul N (tval ls t) (uu t)) (zbox (lcounts ls)) (nofZ N 0))).
  rewrite (supportLoopL _ ls xi) by assumption. apply foldM_addL.
  intros t acc Ht. apply in_zbox in Ht. unfold parent_value_at. rewrite Hok. cbn [bind].
  rewrite (product_valueL _ ls) by assumption. cbn [bind]. rewrite Hu by assumption. reflexivity.
Qed.

(** A loop that adds [h x] to the element [tup x], for pairwise different elements. *)
Lemma acc_loopL {B} c a p (tup : B -> list Z) (h : B -> A) (body : B -> list A -> outcome (list A)) :
  is_writable a = true -> path_ok p a -> forall l mem m, Holds a mem m ->
  (forall x, In x l -> InRange (dims a) (tup x)) -> NoDup (map tup l) ->
  (forall x mem m, In x l -> Holds a mem m -> body x mem = put c a p (tup x) (nadd N (m (tup x)) (h x)) mem) ->
  exists mem' m', foldM body l mem = Ok mem' /\ Holds a mem' m' /\ SameOutside a mem mem' /\
    (forall x, In x l -> m' (tup x) = nadd N (m (tup x)) (h x)) /\
    (forall t, ~ In t (map tup l) -> m' t = m t).
Proof.
  intros Hw Hp. induction l as [|x l IH]; intros mem m Hm Hr Hn Hb.
  - exists mem, m. split; [reflexivity|]. split; [exact Hm|]. split; [apply SameOutside_refl|]. split; [intros y []|auto].
  - cbn [foldM]. rewrite (Hb x mem m (or_introl eq_refl) Hm).
    destruct (Holds_put c a p (tup x) (nadd N (m (tup x)) (h x)) mem m Hm Hw (Hr x (or_introl eq_refl)) Hp)
      as (mem1 & -> & H1 & Ho1). cbn [bind].
    destruct (IH mem1 _ H1) as (mem2 & m2 & -> & H2 & Ho2 & Hin & Hout).
    + intros y Hy. apply Hr. right; exact Hy.
    + inversion Hn; assumption.
    + intros y mm mmm Hy. apply Hb. right; exact Hy.
    + exists mem2, m2. split; [reflexivity|]. split; [exact H2|].
      split; [eapply SameOutside_trans; eassumption|]. split.
      * intros y [<-|Hy].
        -- rewrite Hout. { apply aset_eq. } inversion Hn; assumption.
        -- rewrite Hin by exact Hy. rewrite aset_neq; [reflexivity|]. exact (NoDup_map_notin tup x l Hn y Hy).
      * intros t Ht. rewrite Hout by (intros K; apply Ht; right; exact K).
        apply aset_neq. intros ->. apply Ht. left; reflexivity.
Qed.
Lemma sum_loopL {B} a (body : B -> list A -> outcome (list A)) (H : B -> list Z -> A) : forall l mem m,
  Holds a mem m ->
  (forall x mem m, In x l -> Holds a mem m ->
     exists mem', body x mem = Ok mem' /\ Holds a mem' (fun t => nadd N (m t) (H x t)) /\ SameOutside a mem mem') ->
  exists mem', foldM body l mem = Ok mem' /\ Holds a mem' (fun t => addL (fun x => H x t) l (m t)) /\
    SameOutside a mem mem'.
Proof.
  induction l as [|x l IH]; intros mem m Hm Hb.
  - exists mem. split; [reflexivity|]. split; [exact Hm|apply SameOutside_refl].
  - cbn [foldM]. destruct (Hb x mem m (or_introl eq_refl) Hm) as (mem1 & -> & H1 & Ho1). cbn [bind].
    destruct (IH mem1 _ H1) as (mem2 & -> & H2 & Ho2).
    { intros y mm mmm Hy. apply Hb. right; exact Hy. }
    exists mem2. split; [reflexivity|]. split; [exact H2|eapply SameOutside_trans; eassumption].
Qed.

Lemma gradient_HoldsL (ls : list (local A)) idx : ls <> [] -> Z.of_nat (length ls) <= INT_MAX ->
  Holds (owning [Z.of_nat (length ls)]) (map (fun j => tder j ls idx) (seq 0 (length ls)))
    (fun t => tder (Z.to_nat (hd 0 t)) ls idx).
Proof.
  intros Hne Hm. set (args := map (fun j => tder j ls idx) (seq 0 (length ls))).
  assert (Hl : length args = length ls) by (unfold args; now rewrite map_length, seq_length).
  destruct (list_init_Holds (nofZ N 0) [Z.of_nat (length ls)] args) as (mem & Hi & Hb & Hh).
  { now apply ldim_ok. }
  { rewrite Hl, prodZ_cons. change (prodZ []) with 1. lia. }
  rewrite list_init_ok in Hi; [|now apply ldim_ok|rewrite Hl, prodZ_cons; change (prodZ []) with 1; lia].
  rewrite Hl, prodZ_cons in Hi. change (prodZ []) with 1 in Hi. rewrite Z.mul_1_r, Nat2Z.id, Nat.sub_diag in Hi.
  cbn [repeat] in Hi. rewrite app_nil_r in Hi. injection Hi as <-.
  eapply Holds_ext; [|exact Hh]. intros t Ht. cbn [dims owning] in Ht.
  apply InRange_cons in Ht. destruct Ht as (i & t' & -> & Hi & Ht). apply InRange_nil in Ht. subst t'.
  cbn beta. rewrite flat1. cbn [hd]. unfold args.
  rewrite (nth_indep _ (nofZ N 0) (tder 0 ls idx)) by (rewrite map_length, seq_length; lia).
  rewrite (map_nth (fun j => tder j ls idx)). rewrite seq_nth by lia. reflexivity.
Qed.

Lemma parent_gradientL c bases ls var (uu : list Z -> A) xi : LocalsAt bases xi ls -> ls <> [] ->
  Z.of_nat (length ls) <= INT_MAX -> (forall t, InRange (lcounts ls) t -> var t = Ok (uu t)) ->
  exists g, parent_gradient N c (Z.of_nat (length ls)) bases var xi = Ok g /\
    length g = length ls /\
    (forall j, (j < length ls)%nat ->
      nth j g (nofZ N 0) = addL (fun t => nmul N (tder j ls t) (uu t)) (zbox (lcounts ls)) (nofZ N 0)).
Proof.
  intros HE Hne Hm Hu. unfold parent_gradient.
  pose proof (locals_length _ _ _ HE) as Hbl.
  set (D := Z.of_nat (length ls)) in *.
  assert (Hok : parent_ok N D bases = Ok tt).
  { unfold parent_ok, numDims. rewrite Hbl, Z.eqb_refl. reflexivity. }
  assert (HD : numDims N bases = D) by (unfold numDims; rewrite Hbl; reflexivity).
  rewrite Hok. cbn [bind]. rewrite HD.
  destruct (list_init_Holds (nofZ N 0) [D] [nofZ N 0]) as (mem0 & Hi & Hb0 & Hh0).
  { now apply ldim_ok. }
  { rewrite prodZ_cons. change (prodZ []) with 1. unfold D. destruct ls; [congruence|simpl; lia]. }
  rewrite (lsupportCounts _ _ _ HE). cbn [bind]. rewrite Hi. cbn [bind].
  rewrite (forNestedSequence_lemma _ _ _ (zbox (lcounts ls))).
  2: { destruct ls; [congruence|discriminate]. }
  2: { eapply Forall_impl; [|exact (lcounts_pos _ _ _ HE)]. intros a; simpl; lia. }
  2: { apply box_LexEnum. }
  match goal with |- context [foldM ?b _ _] => set (body := b) end.
  destruct (sum_loopL (owning [D]) body (fun t a => nmul N (tder (Z.to_nat (hd 0%Z a)) ls t) (uu t))
              (zbox (lcounts ls)) mem0 _ Hh0) as (mem' & He & Hh' & Ho).
  - intros t mem m Ht Hmem. apply in_zbox in Ht. unfold body, parent_gradient_at. rewrite Hok. cbn [bind].
    rewrite (product_gradientL _ ls) by assumption. cbn [bind].
    pose proof (gradient_HoldsL ls t Hne Hm) as Hg. apply Holds_const in Hg. fold D in Hg.
    rewrite forSequence_lemma by (unfold D; lia).
    match goal with |- context [foldM ?b _ _] => set (body2 := b) end.
    destruct (acc_loopL c (owning [D]) one_index (fun k => [k]) (fun k => nmul N (tder (Z.to_nat k) ls t) (uu t))
                body2 eq_refl ltac:(unfold path_ok; simpl; lia) (zseq (Z.to_nat D)) mem m Hmem)
      as (mem2 & m2 & He2 & Hm2 & Ho2 & Hin & Hout).
    + intros k Hk. apply in_zseq in Hk. cbn [dims owning]. apply InRange_cons. exists k, []. 
      split; [reflexivity|]. split; [lia|]. now apply InRange_nil.
    + apply map_cons1_inj, NoDup_zseq.
    + intros k mm mmm Hk Hmm. apply in_zseq in Hk. unfold body2. cbv beta.
      assert (Hr : InRange [D] [k]).
      { apply InRange_cons. exists k, []. split; [reflexivity|]. split; [lia|]. now apply InRange_nil. }
      assert (Hp1 : forall a : arr, path_ok one_index a) by (intros a; unfold path_ok; simpl; lia).
      rewrite (Holds_fetch (T := A) c _ one_index [k] mm mmm Hmm Hr (Hp1 _)). cbn [bind].
      rewrite (Holds_fetch (T := A) c _ one_index [k] _ _ Hg Hr (Hp1 _)). cbn [bind].
      rewrite Hu by exact Ht. reflexivity.
    + exists mem2. split; [exact He2|]. split; [|exact Ho2].
      eapply Holds_ext; [|exact Hm2]. intros a Ha. cbn [dims owning] in Ha.
      apply InRange_cons in Ha. destruct Ha as (i & t' & -> & Hir & Ht'). apply InRange_nil in Ht'. subst t'.
      cbn [hd]. apply (Hin i). apply in_zseq. lia.
  - exists mem'. split; [exact He|]. split.
    + destruct Ho as (Hlen & _). etransitivity; [exact Hlen|]. unfold buflen in Hb0. rewrite prodZ_cons in Hb0.
      change (prodZ []) with 1 in Hb0. unfold D in Hb0. rewrite Z.mul_1_r in Hb0. exact (Nat2Z.inj _ _ Hb0).
    + intros j Hj. apply Holds_iff in Hh'. destruct Hh' as (_ & Hr). specialize (Hr [Z.of_nat j]).
      assert (Hin : InRange [D] [Z.of_nat j]).
      { apply InRange_cons. exists (Z.of_nat j), []. split; [reflexivity|]. split; [unfold D; lia|]. now apply InRange_nil. }
      specialize (Hr Hin). cbn [base dims owning hd] in Hr.
      rewrite Z.add_0_l, flat1, !Nat2Z.id in Hr.
      rewrite (nth_error_nth _ _ _ Hr). f_equal.
      destruct j as [|[|j]]; reflexivity.
Qed.

(** * Jacobians *)
Section Jac.
Context (c : ctx) (bases : list (basis N)) (ls : list (local A)) (xi mem : list A) (X : list Z -> A).
Let D := Z.of_nat (length ls).
Context (HE : LocalsAt bases xi ls).
Context (Hne : ls <> []) (Hdd : pos_dims [D; D]) (Hm : Z.of_nat (length ls) <= INT_MAX).
Context (HX : Holds (owning (lcounts ls ++ [D])) mem X).

Definition contribL (sp t : list Z) : A :=
  nmul N (tder (Z.to_nat (nth 1 t 0%Z)) ls sp) (X (sp ++ [nth 0 t 0%Z])).

Lemma inner_loopL (sw : bool) (sp : list Z) (body : list Z -> list A -> outcome (list A)) J Jm :
  InRange (lcounts ls) sp -> Holds (owning [D; D]) J Jm ->
  (forall i j J, body [i; j] J =
     (old <- fetch c (owning [D; D]) pp (tup2 sw [i; j]) J ;;
      d <- fetch c (const_array [D]) pp [if sw then i else j]
             (map (fun k => tder k ls sp) (seq 0 (length ls))) ;;
      x <- fetch c (const_array (lcounts ls ++ [D])) pp (sp ++ [if sw then j else i]) mem ;;
      put c (owning [D; D]) pp (tup2 sw [i; j]) (nadd N old (nmul N d x)) J)) ->
  exists J', forNestedSequence [D; D] body J = Ok J' /\
    Holds (owning [D; D]) J' (fun t => nadd N (Jm t) (contribL sp t)) /\ SameOutside (owning [D; D]) J J'.
Proof.
  intros Hsp HJ Hb.
  assert (HD : 0 < D) by (destruct Hdd as (_ & Hp & _); now inversion Hp).
  rewrite (forNestedSequence_lemma _ _ _ (zbox [D; D])); [|discriminate|repeat constructor; lia|apply box_LexEnum].
  pose proof (gradient_HoldsL ls sp Hne Hm) as Hg. apply Holds_const in Hg. fold D in Hg.
  pose proof (Holds_const _ _ _ HX) as HXc.
  destruct (acc_loopL c (owning [D; D]) pp (tup2 sw) (fun ij => contribL sp (tup2 sw ij)) body eq_refl (pp_ok _)
              (zbox [D; D]) J Jm HJ) as (J' & m' & He & Hh & Ho & Hin & _).
  - intros ij Hij. apply in_zbox, InRange2 in Hij. destruct Hij as (i & j & -> & Hi & Hj).
    cbn [dims owning]. unfold tup2. cbn [nth]. apply InRange2. destruct sw; [exists j, i|exists i, j]; auto.
  - assert (Hinj : forall l, NoDup l -> (forall ij, In ij l -> InRange [D; D] ij) -> NoDup (map (tup2 sw) l)).
    { induction l as [|x l IH]; intros Hn Hr; [constructor|]. inversion Hn as [|? ? Hx Hn']; subst. cbn [map].
      constructor; [|apply IH; [exact Hn'|intros; apply Hr; right; assumption]].
      intros H. apply in_map_iff in H. destruct H as (y & E & Hy).
      pose proof (Hr x (or_introl eq_refl)) as Rx. pose proof (Hr y (or_intror Hy)) as Ry.
      apply InRange2 in Rx. apply InRange2 in Ry. destruct Rx as (i & j & -> & _). destruct Ry as (i' & j' & -> & _).
      unfold tup2 in E. cbn [nth] in E. assert (i = i' /\ j = j') as (-> & ->) by (destruct sw; injection E; auto).
      contradiction. }
    apply Hinj; [apply NoDup_zbox|]. intros ij. apply in_zbox.
  - intros ij J1 m1 Hij HJ1. apply in_zbox, InRange2 in Hij. destruct Hij as (i & j & -> & Hi & Hj).
    rewrite Hb. rewrite (Holds_fetch c _ pp (tup2 sw [i; j]) J1 m1 HJ1 ltac:(cbn [dims owning]; unfold tup2; cbn [nth];
      apply InRange2; destruct sw; [exists j, i|exists i, j]; auto) (pp_ok _)). cbn [bind].
    rewrite (Holds_fetch c _ pp [if sw then i else j] _ _ Hg ltac:(cbn [dims const_array]; apply InRange1;
      destruct sw; [exists i|exists j]; auto) (pp_ok _)). cbn [bind hd].
    rewrite (Holds_fetch c _ pp (sp ++ [if sw then j else i]) _ _ HXc ltac:(cbn [dims const_array]; apply InRange_app;
      [exact Hsp|destruct sw; assumption]) (pp_ok _)). cbn [bind].
    unfold contribL, tup2. destruct sw; reflexivity.
  - exists J'. split; [exact He|]. split; [|exact Ho].
    eapply Holds_ext; [|exact Hh]. intros t Ht. cbn [dims owning] in Ht. apply InRange2 in Ht.
    destruct Ht as (i & j & -> & Hi & Hj). cbv beta.
    pose proof (Hin (tup2 sw [i; j])) as E.
    replace (tup2 sw (tup2 sw [i; j])) with [i; j] in E by (unfold tup2; destruct sw; reflexivity).
    apply E. apply in_zbox, InRange2. unfold tup2. cbn [nth]. destruct sw; [exists j, i|exists i, j]; auto.
Qed.

Lemma shape_loopL {S} (f : list Z -> S -> outcome S) s :
  shape_supportLoop N D bases f s = foldM f (zbox (lcounts ls)) s.
Proof.
  unfold shape_supportLoop, shape_ok, numDims. rewrite (locals_length _ _ _ HE). fold D. rewrite Z.eqb_refl. cbn [bind].
  now apply (supportLoopL bases ls xi).
Qed.
Lemma shape_gradientL sp : InRange (lcounts ls) sp ->
  shape_gradient N D bases sp xi = Ok (map (fun k => tder k ls sp) (seq 0 (length ls))).
Proof.
  intros H. unfold shape_gradient, shape_ok, numDims. rewrite (locals_length _ _ _ HE). fold D. rewrite Z.eqb_refl.
  cbn [bind]. now apply product_gradientL.
Qed.

Lemma jacobian_pointL J Jm : Holds (owning [D; D]) J Jm ->
  exists J', jacobian_point N c D bases mem xi J = Ok J' /\
    Holds (owning [D; D]) J' (fun t => addL (fun sp => contribL sp t) (zbox (lcounts ls)) (Jm t)) /\
    SameOutside (owning [D; D]) J J'.
Proof.
  intros HJ. unfold jacobian_point. rewrite (lsupportCounts _ _ _ HE). cbn [bind]. rewrite shape_loopL.
  apply (sum_loopL (owning [D; D])); [exact HJ|]. intros sp J1 Jm1 Hsp HJ1. apply in_zbox in Hsp.
  rewrite shape_gradientL by exact Hsp. cbn [bind].
  unfold jacobian_array, getData, numDims. rewrite (locals_length _ _ _ HE). fold D.
  apply (inner_loopL false sp); [exact Hsp|exact HJ1|]. intros i j J2. reflexivity.
Qed.

Lemma jacobian_quadratureL qcoord QA qs J Jm : Holds (owning [D; D]) J Jm ->
  Forall2 (fun q v => qcoord q = Ok v) QA qs -> (length qs <= 3)%nat -> xi = qs ++ repeat (nofZ N 0) (3 - length qs) ->
  exists J', jacobian_quadrature N c D bases qcoord QA mem J = Ok J' /\
    Holds (owning [D; D]) J' (fun t => addL (fun sp => contribL sp t) (zbox (lcounts ls)) (Jm t)) /\
    SameOutside (owning [D; D]) J J'.
Proof.
  intros HJ Hq Hql Hxi. unfold jacobian_quadrature. rewrite (lsupportCounts _ _ _ HE). cbn [bind].
  assert (Eq : sequenceM (map qcoord QA) = Ok qs).
  { clear - Hq. induction Hq as [|q v QA qs Hv _ IH]; [reflexivity|]. cbn [map sequenceM]. rewrite Hv. cbn [bind].
    rewrite IH. reflexivity. }
  rewrite Eq. cbn [constexpr_ bind]. assert (El : Nat.leb (length qs) 3 = true) by (apply Nat.leb_le; exact Hql).
  rewrite El. cbn [bind]. rewrite <- Hxi. rewrite shape_loopL.
  apply (sum_loopL (owning [D; D])); [exact HJ|]. intros sp J1 Jm1 Hsp HJ1. apply in_zbox in Hsp.
  rewrite shape_gradientL by exact Hsp. cbn [constexpr_ bind].
  unfold jacobian_array, getData, numDims. rewrite (locals_length _ _ _ HE). fold D.
  apply (inner_loopL true sp); [exact Hsp|exact HJ1|]. intros i j J2. reflexivity.
Qed.
End Jac.

Lemma ldd_ok (ls : list (local A)) : ls <> [] -> (length ls <= 3)%nat ->
  pos_dims [Z.of_nat (length ls); Z.of_nat (length ls)] /\ Z.of_nat (length ls) <= INT_MAX.
Proof.
  intros Hne Hl. assert (0 < Z.of_nat (length ls) <= 3) by (destruct ls; [congruence|simpl in *; lia]).
  set (D := Z.of_nat (length ls)) in *. split; [|unfold INT_MAX; lia].
  split; [discriminate|]. split; [repeat constructor; lia|]. unfold prodZ. cbn [fold_right]. unfold INT_MAX. nia.
Qed.
Lemma zero_HoldsL (D : Z) : pos_dims [D; D] -> exists J0, list_init (nofZ N 0) [D; D] [nofZ N 0] = Ok J0 /\
  buflen J0 = D * D /\ Holds (owning [D; D]) J0 (fun _ => nofZ N 0).
Proof.
  intros Hp. destruct (list_init_Holds (nofZ N 0) [D; D] [nofZ N 0] Hp) as (J0 & Hi & Hb & Hh).
  { destruct Hp as (_ & Hp & _). inversion Hp. unfold prodZ; cbn [fold_right length]. nia. }
  exists J0. split; [exact Hi|]. split.
  { rewrite Hb. unfold prodZ. cbn [fold_right]. lia. }
  eapply Holds_ext; [|exact Hh]. intros t _. cbv beta. destruct (Z.to_nat _) as [|[|k]]; reflexivity.
Qed.

Lemma jacobian_wrapperL c bases ls mem X xi : LocalsAt bases xi ls -> ls <> [] -> length xi = 3%nat ->
  Holds (owning (lcounts ls ++ [Z.of_nat (length ls)])) mem X ->
  exists J, jacobian_wrapper N c (Z.of_nat (length ls)) bases mem xi = Ok J /\
    buflen J = Z.of_nat (length ls) * Z.of_nat (length ls) /\
    Holds (owning [Z.of_nat (length ls); Z.of_nat (length ls)]) J
      (fun t => addL (fun sp => contribL ls X sp t) (zbox (lcounts ls)) (nofZ N 0)).
Proof.
  intros HE Hne Hx HX. pose proof (locals_xi _ _ _ HE) as Hl3. rewrite Hx in Hl3.
  destruct (ldd_ok ls Hne Hl3) as (Hdd & Hm).
  destruct (zero_HoldsL _ Hdd) as (J0 & Hi & Hb & H0).
  destruct (jacobian_pointL c bases ls xi mem X HE Hne Hdd Hm HX J0 _ H0) as (J & He & Hh & Ho).
  exists J. split; [|split; [|exact Hh]].
  - unfold jacobian_wrapper. rewrite Hx. cbn [Nat.eqb]. unfold numDims. rewrite (locals_length _ _ _ HE), Hi. exact He.
  - destruct Ho as (Hlen & _). unfold buflen in *. rewrite <- Hb. rewrite Hlen. reflexivity.
Qed.

Lemma locals_exist (bases : list (basis N)) : forall xi ns, supportCounts N bases = Ok ns -> (length bases <= length xi)%nat ->
  (forall k b x, nth_error bases k = Some b -> nth_error xi k = Some x -> DefinedAt N b x) ->
  exists ls, LocalsAt bases xi ls /\ lcounts ls = ns.
Proof.
  induction bases as [|b bs IH]; intros xi ns Hs Hl H.
  - exists []. split; [constructor|]. cbn in Hs. injection Hs as <-. reflexivity.
  - destruct xi as [|x xi]; [simpl in Hl; lia|].
    destruct (H 0%nat b x eq_refl eq_refl) as (n & Hn & Hp & Hv).
    unfold supportCounts in Hs. cbn [map sequenceM] in Hs. rewrite Hn in Hs. cbn [bind] in Hs.
    apply bind_Ok in Hs. destruct Hs as (ns' & Hs & E). injection E as <-.
    destruct (IH xi ns' Hs) as (ls & HL & HC).
    { exact (le_S_n _ _ Hl). }
    { intros k b' x' Hb Hx. exact (H (S k) b' x' Hb Hx). }
    set (get := fun o : outcome A => match o with Ok v => v | _ => nofZ N 0 end).
    exists ({| ln := n; lv := fun i => get (bvalue b i x); lg := fun i => get (bgradient b i x) |} :: ls).
    split; [|cbn; now f_equal]. constructor; [|exact HL]. split; [exact Hn|]. split; [exact Hp|].
    intros i Hi. cbn [lv lg]. destruct (Hv i Hi) as (v & g & -> & ->). split; reflexivity.
Qed.
Lemma jacobian_quadrature_any c bases ns mem X qcoord QA qs J :
  bases <> [] -> (length bases <= 3)%nat -> supportCounts N bases = Ok ns ->
  Holds (owning (ns ++ [Z.of_nat (length bases)])) mem X ->
  Forall2 (fun q v => qcoord q = Ok v) QA qs -> (length qs <= 3)%nat ->
  (forall k b x, nth_error bases k = Some b ->
     nth_error (qs ++ repeat (nofZ N 0) (3 - length qs)) k = Some x -> DefinedAt N b x) ->
  Z.of_nat (length J) = Z.of_nat (length bases) * Z.of_nat (length bases) ->
  exists J', jacobian_quadrature N c (Z.of_nat (length bases)) bases qcoord QA mem J = Ok J' /\
    jacobian_point N c (Z.of_nat (length bases)) bases mem (qs ++ repeat (nofZ N 0) (3 - length qs)) J = Ok J'.
Proof.
  intros Hne Hd Hs HX Hq Hql Hdef HlJ. set (xi := qs ++ repeat (nofZ N 0) (3 - length qs)) in *.
  assert (Hx : (length bases <= length xi)%nat) by (unfold xi; rewrite app_length, repeat_length; lia).
  destruct (locals_exist bases xi ns Hs Hx Hdef) as (ls & HE & <-).
  rewrite (locals_length _ _ _ HE) in *.
  assert (Hne' : ls <> []).
  { intros ->. inversion HE; subst. congruence. }
  destruct (ldd_ok ls Hne' Hd) as (Hpd & Hm). set (D := Z.of_nat (length ls)) in *.
  assert (HpJ : buflen J = prodZ [D; D]) by (unfold buflen, prodZ; cbn [fold_right]; lia).
  destruct (Holds_exists (owning [D; D]) J (view_ok_owning [D; D] J Hpd HpJ)) as (Jm & HJ).
  destruct (jacobian_pointL c bases ls xi mem X HE Hne' Hpd Hm HX J Jm HJ) as (J1 & E1 & H1 & (L1 & _)).
  destruct (jacobian_quadratureL c bases ls xi mem X HE Hne' Hpd Hm HX qcoord QA qs J Jm HJ Hq Hql eq_refl)
    as (J2 & E2 & H2 & (L2 & _)).
  exists J1. split; [|exact E1]. fold D in E2. rewrite E2. f_equal.
  eapply (Holds_eq [D; D]); [exact H2|exact H1| |]; unfold buflen in *; congruence.
Qed.
End Generic.
Arguments mulR {N}. Arguments addL {N B}. Arguments tval {N}. Arguments tder {N}. Arguments contribL {N}.
