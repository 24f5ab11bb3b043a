(** Tensor products of one-dimensional bases. *)
From Verif Require Import Base ProofBase Num SpecIndex ProofBox ModelSequence ModelIndex ProofIndex ModelAssert
  ModelCArray SpecCArray ProofCArray ProofRep ModelSpacing ModelLagrange ModelBasisProduct SpecNumeric SpecBasis
  ProofPoly ProofLagrange.
From Coq Require Import Reals Lra.
Open Scope Z_scope.

(** * Sums over boxes *)
Lemma BoxSum_sumR ns : forall f, BoxSum ns f = sumR f (zbox ns).
Proof.
  induction ns as [|n ns IH]; intros f.
  - unfold zbox. cbn. ring.
  - cbn [BoxSum]. rewrite Zsum_sumR. unfold zbox. cbn [length repeat box]. rewrite sumR_flat_map, zrange_0.
    apply sumR_ext. intros i _. rewrite sumR_map. apply IH.
Qed.
Lemma in_zbox ns t : In t (zbox ns) <-> InRange ns t.
Proof. apply in_box. Qed.
Lemma NoDup_zbox ns : NoDup (zbox ns).
Proof. apply (box_LexEnum (repeat 0 (length ns)) ns). Qed.
Lemma BoxSum_ext ns f g : (forall t, InRange ns t -> f t = g t) -> BoxSum ns f = BoxSum ns g.
Proof. intros H. rewrite !BoxSum_sumR. apply sumR_ext. intros t Ht. apply H. now apply in_zbox. Qed.
Lemma BoxSum_plus ns f g : BoxSum ns (fun t => f t + g t)%R = (BoxSum ns f + BoxSum ns g)%R.
Proof. rewrite !BoxSum_sumR. apply sumR_plus. Qed.
Lemma BoxSum_scal ns c f : BoxSum ns (fun t => c * f t)%R = (c * BoxSum ns f)%R.
Proof. rewrite !BoxSum_sumR. apply sumR_scal. Qed.
Lemma BoxSum_scal_r ns c f : BoxSum ns (fun t => f t * c)%R = (BoxSum ns f * c)%R.
Proof. rewrite !BoxSum_sumR. apply sumR_scal_r. Qed.
Lemma BoxSum_zero ns f : (forall t, InRange ns t -> f t = 0%R) -> BoxSum ns f = 0%R.
Proof. intros H. rewrite BoxSum_sumR. apply sumR_zero. intros t Ht. apply H. now apply in_zbox. Qed.
Lemma BoxSum_one ns f a : InRange ns a -> (forall t, InRange ns t -> t <> a -> f t = 0%R) -> BoxSum ns f = f a.
Proof.
  intros Ha H. rewrite BoxSum_sumR. apply sumR_one; [apply NoDup_zbox|now apply in_zbox|].
  intros t Ht. apply H. now apply in_zbox.
Qed.
Lemma BoxSum_cons n ns f : BoxSum (n :: ns) f = sumR (fun i => BoxSum ns (fun t => f (i :: t))) (zseq (Z.to_nat n)).
Proof. cbn [BoxSum]. apply Zsum_sumR. Qed.
Lemma BoxSum_swap {A} ns (f : list Z -> A -> R) l :
  BoxSum ns (fun t => sumR (f t) l) = sumR (fun a => BoxSum ns (fun t => f t a)) l.
Proof.
  rewrite BoxSum_sumR. rewrite sumR_swap. apply sumR_ext. intros a _. symmetry. apply BoxSum_sumR.
Qed.

(** * Tensor functions *)
Fixpoint dtensor (j : nat) (ds : list direction) (idx : list Z) (xi : list R) {struct ds} : R :=
  match ds, idx, xi with
  | d :: ds', i :: idx', x :: xi' =>
      match j with
      | O => (fder d i x * tensor ds' idx' xi')%R
      | S j' => (fval d i x * dtensor j' ds' idx' xi')%R
      end
  | _, _, _ => 0%R
  end.
Lemma tensor_firstn ds : forall idx xi, tensor ds idx (firstn (length ds) xi) = tensor ds idx xi.
Proof.
  induction ds as [|d ds IH]; intros [|i idx] [|x xi]; try reflexivity. cbn. now rewrite IH.
Qed.
Lemma dtensor_firstn ds : forall j idx xi, dtensor j ds idx (firstn (length ds) xi) = dtensor j ds idx xi.
Proof.
  induction ds as [|d ds IH]; intros j [|i idx] [|x xi]; try reflexivity.
  destruct j; cbn; [now rewrite tensor_firstn|now rewrite IH].
Qed.

Lemma tensor_partial ds : forall j idx xi, Forall Differentiates ds -> InRange (counts ds) idx ->
  (length ds <= length xi)%nat -> (j < length ds)%nat ->
  Partial (tensor ds idx) j xi (dtensor j ds idx xi).
Proof.
  induction ds as [|d ds IH]; intros j idx xi HD Hin Hl Hj; [simpl in Hj; lia|].
  inversion HD as [|? ? Hd HD']; subst. destruct xi as [|x xi]; [simpl in Hl; lia|].
  change (counts (d :: ds)) with (npts d :: counts ds) in Hin. apply InRange_cons in Hin.
  destruct Hin as (i & t & -> & Hi & Ht). unfold Partial. destruct j as [|j]; cbn [upd nth dtensor tensor].
  - replace (fder d i x * tensor ds t xi)%R with (fder d i x * tensor ds t xi + fval d i x * 0)%R by ring.
    apply (derivable_pt_lim_mult (fval d i) (fun _ => tensor ds t xi)); [now apply Hd|apply derivable_pt_lim_const].
  - apply (derivable_pt_lim_scal (fun y => tensor ds t (upd xi j y)) (fval d i x)).
    apply IH; [exact HD'|exact Ht|simpl in Hl; lia|simpl in Hj; lia].
Qed.

Lemma tensor_nodal ds : Forall Nodal ds -> forall idx jdx, InRange (counts ds) idx -> InRange (counts ds) jdx ->
  tensor ds idx (gridpoint ds jdx) = if tuple_eqb idx jdx then 1%R else 0%R.
Proof.
  induction 1 as [|d ds Hd HN IH]; intros idx jdx Hi Hj.
  - apply InRange_nil in Hi. apply InRange_nil in Hj. subst. reflexivity.
  - change (counts (d :: ds)) with (npts d :: counts ds) in *.
    apply InRange_cons in Hi. destruct Hi as (i & t & -> & Hi & Ht).
    apply InRange_cons in Hj. destruct Hj as (j & u & -> & Hj & Hu).
    cbn [tensor gridpoint]. rewrite (nb_nodal _ _ _ _ Hd) by assumption. rewrite IH by assumption.
    destruct (Z.eqb_spec i j) as [->|Ne].
    + destruct (tuple_eqb t u) eqn:E.
      * apply tuple_eqb_spec in E. subst. rewrite (proj2 (tuple_eqb_spec _ _) eq_refl). ring.
      * destruct (tuple_eqb (j :: t) (j :: u)) eqn:E2; [|ring].
        apply tuple_eqb_spec in E2. injection E2 as ->. rewrite (proj2 (tuple_eqb_spec _ _) eq_refl) in E. discriminate.
    + destruct (tuple_eqb (i :: t) (j :: u)) eqn:E2; [|ring].
      apply tuple_eqb_spec in E2. congruence.
Qed.

Lemma tensor_unity ds : Forall Nodal ds -> forall xi, (length ds <= length xi)%nat ->
  BoxSum (counts ds) (fun t => tensor ds t xi) = 1%R.
Proof.
  induction 1 as [|d ds Hd HN IH]; intros xi Hl; [reflexivity|].
  destruct xi as [|x xi]; [simpl in Hl; lia|].
  change (counts (d :: ds)) with (npts d :: counts ds). rewrite BoxSum_cons. cbn [tensor].
  rewrite <- (nb_unity _ _ _ _ Hd x), Zsum_sumR. apply sumR_ext. intros i _.
  rewrite BoxSum_scal, IH by (simpl in Hl; lia). ring.
Qed.
Lemma dtensor_zero ds : Forall Nodal ds -> forall j xi, (length ds <= length xi)%nat -> (j < length ds)%nat ->
  BoxSum (counts ds) (fun t => dtensor j ds t xi) = 0%R.
Proof.
  induction 1 as [|d ds Hd HN IH]; intros j xi Hl Hj; [simpl in Hj; lia|].
  destruct xi as [|x xi]; [simpl in Hl; lia|].
  change (counts (d :: ds)) with (npts d :: counts ds). rewrite BoxSum_cons. destruct j as [|j]; cbn [dtensor].
  - rewrite <- (nb_zero _ _ _ _ Hd x), Zsum_sumR. apply sumR_ext. intros i _.
    rewrite BoxSum_scal, tensor_unity by (auto; simpl in Hl; lia). ring.
  - apply sumR_zero. intros i _. rewrite BoxSum_scal, IH by (simpl in *; lia). ring.
Qed.

(** * Interpolation *)
Definition interp (ds : list direction) (u : list Z -> R) (xi : list R) : R :=
  BoxSum (counts ds) (fun t => tensor ds t xi * u t)%R.
Definition dinterp (j : nat) (ds : list direction) (u : list Z -> R) (xi : list R) : R :=
  BoxSum (counts ds) (fun t => dtensor j ds t xi * u t)%R.

Lemma gridpoint_length ds : forall t, InRange (counts ds) t -> length (gridpoint ds t) = length ds.
Proof.
  induction ds as [|d ds IH]; intros t Ht; [reflexivity|].
  change (counts (d :: ds)) with (npts d :: counts ds) in Ht. apply InRange_cons in Ht.
  destruct Ht as (i & t' & -> & Hi & Ht). cbn. now rewrite IH.
Qed.
Lemma interp_nodal ds u j : Forall Nodal ds -> InRange (counts ds) j -> interp ds u (gridpoint ds j) = u j.
Proof.
  intros HN Hj. unfold interp. rewrite (BoxSum_one _ _ j Hj).
  - rewrite tensor_nodal, (proj2 (tuple_eqb_spec _ _) eq_refl) by assumption. ring.
  - intros t Ht Hne. rewrite tensor_nodal by assumption. destruct (tuple_eqb t j) eqn:E; [|ring].
    apply tuple_eqb_spec in E. contradiction.
Qed.
Lemma interp_const ds k xi : Forall Nodal ds -> (length ds <= length xi)%nat -> interp ds (fun _ => k) xi = k.
Proof. intros HN Hl. unfold interp. rewrite BoxSum_scal_r, tensor_unity by assumption. ring. Qed.
Lemma interp_ext ds u w xi : (forall t, InRange (counts ds) t -> u t = w t) -> interp ds u xi = interp ds w xi.
Proof. intros H. apply BoxSum_ext. intros t Ht. now rewrite H. Qed.
Lemma interp_linear ds a b u w xi :
  interp ds (fun t => a * u t + b * w t)%R xi = (a * interp ds u xi + b * interp ds w xi)%R.
Proof.
  unfold interp. rewrite <- !BoxSum_scal, <- BoxSum_plus. apply BoxSum_ext. intros t _. ring.
Qed.
Lemma interp_sum {A} ds (u : A -> list Z -> R) xi l :
  interp ds (fun t => sumR (fun a => u a t) l) xi = sumR (fun a => interp ds (u a) xi) l.
Proof.
  unfold interp. rewrite <- BoxSum_swap. apply BoxSum_ext. intros t _. now rewrite sumR_scal.
Qed.
Lemma interp_scal ds a u xi : interp ds (fun t => a * u t)%R xi = (a * interp ds u xi)%R.
Proof. unfold interp. rewrite <- BoxSum_scal. apply BoxSum_ext. intros t _. ring. Qed.
Lemma interp_cons d ds u x xi :
  interp (d :: ds) u (x :: xi) =
  sumR (fun i => fval d i x * interp ds (fun t => u (i :: t)) xi)%R (zseq (Z.to_nat (npts d))).
Proof.
  unfold interp. change (counts (d :: ds)) with (npts d :: counts ds). rewrite BoxSum_cons.
  apply sumR_ext. intros i _. cbn [tensor]. rewrite <- BoxSum_scal. apply BoxSum_ext. intros t _. ring.
Qed.

Lemma tpoly_cons n ns c x xi :
  tpoly (n :: ns) c (x :: xi) =
  sumR (fun e => x ^ Z.to_nat e * tpoly ns (fun t => c (e :: t)) xi)%R (zseq (Z.to_nat n)).
Proof.
  unfold tpoly. rewrite BoxSum_cons. apply sumR_ext. intros e _. cbn [monomial].
  rewrite <- BoxSum_scal. apply BoxSum_ext. intros t _. ring.
Qed.
Lemma peval_mono e x : peval (repeat 0%R e ++ [1%R]) x = (x ^ e)%R.
Proof. induction e as [|e IH]; simpl; [ring|]. rewrite IH. ring. Qed.

Lemma interp_tpoly ds : Forall Nodal ds -> forall c xi, (length ds <= length xi)%nat ->
  interp ds (fun t => tpoly (counts ds) c (gridpoint ds t)) xi = tpoly (counts ds) c xi.
Proof.
  induction 1 as [|d ds Hd HN IH]; intros c xi Hl.
  - unfold interp, tpoly. cbn. destruct xi; ring.
  - destruct xi as [|x xi]; [simpl in Hl; lia|].
    change (counts (d :: ds)) with (npts d :: counts ds). rewrite interp_cons, tpoly_cons.
    transitivity (sumR (fun i => sumR (fun e => fval d i x * (pt d i ^ Z.to_nat e *
        tpoly (counts ds) (fun t => c (e :: t)) xi))%R (zseq (Z.to_nat (npts d)))) (zseq (Z.to_nat (npts d)))).
    + apply sumR_ext. intros i _.
      rewrite (interp_ext ds _ (fun t => sumR (fun e => pt d i ^ Z.to_nat e *
          tpoly (counts ds) (fun t0 => c (e :: t0)) (gridpoint ds t))%R (zseq (Z.to_nat (npts d))))).
      2: { intros t _. cbn [gridpoint]. apply tpoly_cons. }
      rewrite interp_sum, <- sumR_scal. apply sumR_ext. intros e _. rewrite interp_scal.
      rewrite IH by (simpl in Hl; lia). reflexivity.
    + rewrite sumR_swap. apply sumR_ext. intros e He. apply in_zseq in He.
      rewrite <- (peval_mono (Z.to_nat e) x).
      rewrite <- (nb_reproduce _ _ _ _ Hd (repeat 0%R (Z.to_nat e) ++ [1%R]) x).
      2: { rewrite app_length, repeat_length. simpl. lia. }
      rewrite Zsum_sumR, <- sumR_scal_r. apply sumR_ext. intros i _. rewrite peval_mono. ring.
Qed.

Lemma deriv_scal_r f x l c : derivable_pt_lim f x l -> derivable_pt_lim (fun y => f y * c)%R x (l * c)%R.
Proof.
  intros H. replace (l * c)%R with (l * c + f x * 0)%R by ring.
  apply (derivable_pt_lim_mult f (fun _ => c)); [exact H|apply derivable_pt_lim_const].
Qed.
Lemma deriv_ext f g x l : (forall y, f y = g y) -> derivable_pt_lim f x l -> derivable_pt_lim g x l.
Proof.
  intros E H eps Heps. destruct (H eps Heps) as (d & Hd). exists d. intros h Hh Hb. rewrite <- !E. now apply Hd.
Qed.
Lemma interp_partial ds u j xi : Forall Differentiates ds -> (length ds <= length xi)%nat -> (j < length ds)%nat ->
  Partial (interp ds u) j xi (dinterp j ds u xi).
Proof.
  intros HD Hl Hj. unfold Partial, dinterp. rewrite BoxSum_sumR.
  apply (deriv_ext (fun t => sumR (fun a => tensor ds a (upd xi j t) * u a)%R (zbox (counts ds)))).
  { intros y. unfold interp. symmetry. apply BoxSum_sumR. }
  apply deriv_sumR. intros t Ht. apply in_zbox in Ht. apply (deriv_scal_r (fun y => tensor ds t (upd xi j y))).
  now apply tensor_partial.
Qed.

(** * The classes compute these functions *)
Lemma bases_length bases ds : Forall2 Evaluates bases ds -> length bases = length ds.
Proof. induction 1; simpl; congruence. Qed.
Lemma counts_pos bases ds : Forall2 Evaluates bases ds -> Forall (fun n => 0 < n) (counts ds).
Proof. induction 1 as [|b d bs ds' Hb _ IH]; constructor; [apply Hb|exact IH]. Qed.
Lemma supportCounts_ok bases ds : Forall2 Evaluates bases ds -> supportCounts RNum bases = Ok (counts ds).
Proof.
  unfold supportCounts, counts. induction 1 as [|b d bs ds' Hb _ IH]; [reflexivity|].
  cbn [map sequenceM]. destruct Hb as (-> & _ & _). cbn [bind]. rewrite IH. reflexivity.
Qed.

Fixpoint gvals (G off : Z) (ds : list direction) (idx : list Z) (xi : list R) : list R :=
  match ds, idx, xi with
  | d :: ds', i :: idx', x :: xi' =>
      (if G =? off then fder d i x else fval d i x) :: gvals G (off + 1) ds' idx' xi'
  | _, _, _ => []
  end.
Lemma gvals_length ds : forall G off idx xi, InRange (counts ds) idx -> (length ds <= length xi)%nat ->
  length (gvals G off ds idx xi) = length ds.
Proof.
  induction ds as [|d ds IH]; intros G off idx xi Hin Hl; [reflexivity|].
  change (counts (d :: ds)) with (npts d :: counts ds) in Hin. apply InRange_cons in Hin.
  destruct Hin as (i & t & -> & Hi & Ht). destruct xi as [|x xi]; [simpl in Hl; lia|].
  cbn. rewrite IH; [reflexivity|exact Ht|simpl in Hl; lia].
Qed.
Lemma fold_mul_list vs : vs <> [] ->
  fold_unary_right (nmulM RNum) (map (@Ok R) vs) = Ok (fold_right Rmult 1%R vs).
Proof.
  induction vs as [|a vs IH]; intros Hne; [congruence|]. destruct vs as [|b vs].
  - cbn. f_equal. ring.
  - cbn [map]. rewrite fold_unary_right_cons. change (Ok b :: map Ok vs) with (map (@Ok R) (b :: vs)).
    rewrite IH by discriminate. reflexivity.
Qed.
Lemma gvals_tensor ds : forall G off idx xi, G < off -> fold_right Rmult 1%R (gvals G off ds idx xi) = tensor ds idx xi.
Proof.
  induction ds as [|d ds IH]; intros G off [|i idx] [|x xi] H; try reflexivity. cbn.
  destruct (Z.eqb_spec G off); [lia|]. now rewrite IH by lia.
Qed.
Lemma gvals_dtensor ds : forall j off idx xi, InRange (counts ds) idx -> (length ds <= length xi)%nat ->
  (j < length ds)%nat -> fold_right Rmult 1%R (gvals (off + Z.of_nat j) off ds idx xi) = dtensor j ds idx xi.
Proof.
  induction ds as [|d ds IH]; intros j off idx xi Hin Hl Hj; [simpl in Hj; lia|].
  change (counts (d :: ds)) with (npts d :: counts ds) in Hin. apply InRange_cons in Hin.
  destruct Hin as (i & t & -> & Hi & Ht). destruct xi as [|x xi]; [simpl in Hl; lia|].
  destruct j as [|j]; cbn [gvals dtensor fold_right].
  - rewrite Z.add_0_r, Z.eqb_refl, gvals_tensor by lia. reflexivity.
  - destruct (Z.eqb_spec (off + Z.of_nat (S j)) off); [lia|].
    replace (off + Z.of_nat (S j)) with (off + 1 + Z.of_nat j) by lia.
    rewrite IH; [reflexivity|exact Ht|simpl in Hl; lia|simpl in Hj; lia].
Qed.

Lemma expand_ok (f : basis RNum -> Z -> Z -> outcome R) G xi : forall bases ds idx off xs,
  Forall2 Evaluates bases ds -> InRange (counts ds) idx ->
  (forall k, 0 <= k < Z.of_nat (length ds) -> rd xi (off + k) = rd xs k) ->
  (length ds <= length xs)%nat ->
  (forall b i k, f b i k = (x <- rd xi k ;; if G =? k then bgradient b i x else bvalue b i x)) ->
  map (fun p => f (fst (fst p)) (snd (fst p)) (snd p))
    (combine (combine bases idx) (zrange off (off + Z.of_nat (length bases)))) =
  map (@Ok R) (gvals G off ds idx xs).
Proof.
  intros bases ds idx off xs HE. revert idx off xs.
  induction HE as [|b d bs ds Hb HE IH]; intros idx off xs Hin Hrd Hl Hf; [reflexivity|].
  change (counts (d :: ds)) with (npts d :: counts ds) in Hin. apply InRange_cons in Hin.
  destruct Hin as (i & t & -> & Hi & Ht). destruct xs as [|x xs]; [simpl in Hl; lia|].
  cbn [length]. rewrite zrange_cons by lia. cbn [combine map gvals fst snd].
  f_equal.
  - rewrite Hf. assert (E0 : rd xi off = Ok x).
    { assert (Hz : 0 <= 0 < Z.of_nat (length (d :: ds))). { cbn [length]. lia. } pose proof (Hrd 0 Hz) as E. rewrite Z.add_0_r in E. rewrite E. reflexivity. }
    rewrite E0. cbn [bind]. destruct Hb as (_ & _ & Hb). destruct (Hb i x Hi) as (-> & ->).
    destruct (G =? off); reflexivity.
  - replace (off + Z.of_nat (S (length bs))) with (off + 1 + Z.of_nat (length bs)) by lia.
    apply (IH t (off + 1) xs); [exact Ht| |exact (le_S_n _ _ Hl)|exact Hf].
    intros k Hk. replace (off + 1 + k) with (off + (k + 1)) by lia.
    rewrite Hrd by (cbn [length]; lia). unfold rd. destruct (Z.ltb_spec (k + 1) 0); [lia|].
    destruct (Z.ltb_spec k 0); [lia|]. replace (Z.to_nat (k + 1)) with (S (Z.to_nat k)) by lia. reflexivity.
Qed.

Lemma rd_nth {A} (l : list A) k d : 0 <= k < Z.of_nat (length l) -> rd l k = Ok (nth (Z.to_nat k) l d).
Proof.
  intros H. unfold rd. destruct (Z.ltb_spec k 0); [lia|].
  rewrite (nth_error_nth' l d) by lia. reflexivity.
Qed.
Lemma InRange_counts_length ds idx : InRange (counts ds) idx -> length idx = length ds.
Proof. intros H. apply InRange_len in H. rewrite H. apply map_length. Qed.

Lemma product_value_ok bases ds idx xi : Forall2 Evaluates bases ds -> ds <> [] ->
  InRange (counts ds) idx -> (length ds <= length xi)%nat ->
  product_value RNum bases idx xi = Ok (tensor ds idx xi).
Proof.
  intros HE Hne Hin Hl. pose proof (bases_length _ _ HE) as Hbl.
  unfold product_value. rewrite (InRange_counts_length _ _ Hin), Hbl, Nat.eqb_refl.
  unfold numDims. rewrite exec_pack by lia. rewrite Nat2Z.id. unfold expand3. cbv beta.
  replace (zseq (length bases)) with (zrange 0 (0 + Z.of_nat (length bases))).
  2: { rewrite Z.add_0_l, zrange_0, Nat2Z.id. reflexivity. }
  etransitivity; [apply f_equal; apply (expand_ok (fun b i k => x <- rd xi k ;; bvalue b i x) (-1) xi bases ds idx 0 xi HE Hin);
    [reflexivity|exact Hl|]|].
  2: { rewrite fold_mul_list; [rewrite gvals_tensor by lia; reflexivity|].
    intros E. apply (f_equal (@length R)) in E. rewrite gvals_length in E by assumption.
    destruct ds; [congruence|discriminate]. }
  - intros b i k. unfold rd. destruct (Z.ltb_spec k 0); [reflexivity|]. destruct (Z.eqb_spec (-1) k); [lia|reflexivity].
Qed.

Lemma dim_ok (ds : list direction) : ds <> [] -> Z.of_nat (length ds) <= INT_MAX -> pos_dims [Z.of_nat (length ds)].
Proof.
  intros Hne Hm. split; [discriminate|]. split.
  - constructor; [|constructor]. destruct ds; [congruence|simpl; lia].
  - rewrite prodZ_cons. unfold prodZ; simpl. lia.
Qed.
Lemma flat1 d i : flat_offset [d] [i] = i.
Proof. cbn. unfold prodZ. simpl. lia. Qed.

Lemma product_gradient_ok bases ds idx xi : Forall2 Evaluates bases ds -> ds <> [] ->
  Z.of_nat (length ds) <= INT_MAX ->
  InRange (counts ds) idx -> (length ds <= length xi)%nat ->
  product_gradient RNum bases idx xi = Ok (map (fun j => dtensor j ds idx xi) (seq 0 (length ds))).
Proof.
  intros HE Hne Hm Hin Hl. pose proof (bases_length _ _ HE) as Hbl.
  unfold product_gradient. rewrite (InRange_counts_length _ _ Hin), Hbl, Nat.eqb_refl.
  unfold numDims. rewrite Hbl. rewrite exec_pack by lia. rewrite Nat2Z.id. cbv zeta.
  rewrite (sequenceM_Ok (zseq (length ds)) _ (fun k => dtensor (Z.to_nat k) ds idx xi)).
  - cbn [bind]. unfold zseq. rewrite map_map.
    rewrite (map_ext (fun a => dtensor (Z.to_nat (Z.of_nat a)) ds idx xi) (fun a => dtensor a ds idx xi))
      by (intros a; now rewrite Nat2Z.id).
    rewrite list_init_ok; [|now apply dim_ok|].
    + rewrite map_length, seq_length. rewrite prodZ_cons. change (prodZ []) with 1. rewrite Z.mul_1_r, Nat2Z.id, Nat.sub_diag.
      cbn [repeat]. now rewrite app_nil_r.
    + rewrite map_length, seq_length, prodZ_cons. change (prodZ []) with 1. lia.
  - intros k Hk. apply in_zseq in Hk. rewrite exec_cons by lia. rewrite Nat2Z.id. unfold expand3. cbv beta.
    replace (zseq (length ds)) with (zrange 0 (0 + Z.of_nat (length bases))).
    2: { rewrite Z.add_0_l, zrange_0, Hbl, Nat2Z.id. reflexivity. }
    etransitivity; [apply f_equal; apply (expand_ok (fun b i a => gradientComponentHelper RNum b k i a xi) k xi bases ds idx 0 xi HE Hin);
      [reflexivity|exact Hl|]|].
    2: { rewrite fold_mul_list.
      * f_equal. replace k with (0 + Z.of_nat (Z.to_nat k)) at 1 by lia. apply gvals_dtensor; [exact Hin|exact Hl|lia].
      * intros E. apply (f_equal (@length R)) in E. rewrite gvals_length in E by assumption.
        destruct ds; [congruence|discriminate]. }
    + intros b i a. unfold gradientComponentHelper. destruct (k =? a); reflexivity.
Qed.

(** * Loops that accumulate *)
Lemma supportLoop_ok {S} bases ds (f : list Z -> S -> outcome S) s : Forall2 Evaluates bases ds -> ds <> [] ->
  supportLoop RNum bases f s = foldM f (zbox (counts ds)) s.
Proof.
  intros HE Hne. unfold supportLoop. rewrite (supportCounts_ok _ _ HE). cbn [bind].
  apply forNestedSequence_lemma.
  - destruct ds; [congruence|discriminate].
  - eapply Forall_impl; [|exact (counts_pos _ _ HE)]. intros a; simpl; lia.
  - apply box_LexEnum.
Qed.
Lemma foldM_sum {A} (body : A -> R -> outcome R) (f : A -> R) l : forall acc,
  (forall a acc, In a l -> body a acc = Ok (acc + f a)%R) ->
  foldM body l acc = Ok (acc + sumR f l)%R.
Proof.
  induction l as [|a l IH]; intros acc H; cbn [foldM].
  - cbn. f_equal. ring.
  - rewrite H by (left; reflexivity). cbn [bind]. rewrite IH by (intros; apply H; right; assumption).
    rewrite sumR_cons. f_equal. ring.
Qed.
Lemma supportLoop_sum bases ds (body : list Z -> R -> outcome R) f : Forall2 Evaluates bases ds -> ds <> [] ->
  (forall t acc, InRange (counts ds) t -> body t acc = Ok (acc + f t)%R) ->
  supportLoop RNum bases body 0%R = Ok (BoxSum (counts ds) f).
Proof.
  intros HE Hne H. rewrite (supportLoop_ok _ ds) by assumption.
  rewrite (foldM_sum _ f) by (intros a acc Ha; apply H; now apply in_zbox).
  rewrite BoxSum_sumR. f_equal. ring.
Qed.

Lemma parent_value_ok shapeDims bases ds var u xi : Forall2 Evaluates bases ds -> ds <> [] ->
  shapeDims = Z.of_nat (length ds) -> (forall t, InRange (counts ds) t -> var t = Ok (u t)) ->
  (length ds <= length xi)%nat ->
  parent_value RNum shapeDims bases var xi = Ok (interp ds u xi).
Proof.
  intros HE Hne -> Hu Hl. unfold parent_value.
  assert (Hok : parent_ok RNum (Z.of_nat (length ds)) bases = Ok tt).
  { unfold parent_ok, numDims. rewrite (bases_length _ _ HE), Z.eqb_refl. reflexivity. }
  rewrite Hok. cbn [bind].
  apply (supportLoop_sum bases ds (fun indices rval =>
    v <- parent_value_at RNum (Z.of_nat (length ds)) bases indices xi ;;
    u0 <- var indices ;; Ok (rval + v * u0)%R)); [exact HE|exact Hne|].
  intros t acc Ht. unfold parent_value_at. rewrite Hok. cbn [bind].
  rewrite (product_value_ok _ ds) by assumption. cbn [bind]. rewrite Hu by assumption. reflexivity.
Qed.

Lemma NoDup_map_notin {A B} (f : A -> B) a l : NoDup (map f (a :: l)) -> forall b, In b l -> f b <> f a.
Proof. intros H b Hb E. inversion H as [|? ? Hn _]; subst. apply Hn. rewrite <- E. now apply in_map. Qed.

(** A loop that adds [h x] to the element [tup x], for pairwise different elements. *)
Lemma acc_loop {A} c a p (tup : A -> list Z) (h : A -> R) (body : A -> list R -> outcome (list R)) :
  is_writable a = true -> path_ok p a -> forall l mem m, Holds a mem m ->
  (forall x, In x l -> InRange (dims a) (tup x)) -> NoDup (map tup l) ->
  (forall x mem m, In x l -> Holds a mem m -> body x mem = put c a p (tup x) (m (tup x) + h x)%R mem) ->
  exists mem' m', foldM body l mem = Ok mem' /\ Holds a mem' m' /\ SameOutside a mem mem' /\
    (forall x, In x l -> m' (tup x) = (m (tup x) + h x)%R) /\
    (forall t, ~ In t (map tup l) -> m' t = m t).
Proof.
  intros Hw Hp. induction l as [|x l IH]; intros mem m Hm Hr Hn Hb.
  - exists mem, m. split; [reflexivity|]. split; [exact Hm|]. split; [apply SameOutside_refl|]. split; [intros y []|auto].
  - cbn [foldM]. rewrite (Hb x mem m (or_introl eq_refl) Hm).
    destruct (Holds_put c a p (tup x) (m (tup x) + h x)%R mem m Hm Hw (Hr x (or_introl eq_refl)) Hp)
      as (mem1 & -> & H1 & Ho1). cbn [bind].
    destruct (IH mem1 _ H1) as (mem2 & m2 & -> & H2 & Ho2 & Hin & Hout).
    + intros y Hy. apply Hr. right; exact Hy.
    + inversion Hn; assumption.
    + intros y mm mmm Hy. apply Hb. right; exact Hy.
    + exists mem2, m2. split; [reflexivity|]. split; [exact H2|].
      split; [eapply SameOutside_trans; eassumption|]. split.
      * intros y [<-|Hy].
        -- rewrite Hout. { apply aset_eq. } inversion Hn; assumption.
        -- rewrite Hin by exact Hy. rewrite aset_neq; [reflexivity|]. exact (NoDup_map_notin tup x l Hn y Hy).
      * intros t Ht. rewrite Hout by (intros K; apply Ht; right; exact K).
        apply aset_neq. intros ->. apply Ht. left; reflexivity.
Qed.
Lemma sum_loop {A} a (body : A -> list R -> outcome (list R)) (H : A -> list Z -> R) : forall l mem m,
  Holds a mem m ->
  (forall x mem m, In x l -> Holds a mem m ->
     exists mem', body x mem = Ok mem' /\ Holds a mem' (fun t => m t + H x t)%R /\ SameOutside a mem mem') ->
  exists mem', foldM body l mem = Ok mem' /\ Holds a mem' (fun t => m t + sumR (fun x => H x t) l)%R /\
    SameOutside a mem mem'.
Proof.
  induction l as [|x l IH]; intros mem m Hm Hb.
  - exists mem. split; [reflexivity|]. split; [|apply SameOutside_refl].
    eapply Holds_ext; [|exact Hm]. intros t _. cbn. ring.
  - cbn [foldM]. destruct (Hb x mem m (or_introl eq_refl) Hm) as (mem1 & -> & H1 & Ho1). cbn [bind].
    destruct (IH mem1 _ H1) as (mem2 & -> & H2 & Ho2).
    { intros y mm mmm Hy. apply Hb. right; exact Hy. }
    exists mem2. split; [reflexivity|]. split; [|eapply SameOutside_trans; eassumption].
    eapply Holds_ext; [|exact H2]. intros t _. cbn beta. rewrite sumR_cons. ring.
Qed.

Lemma Holds_const {T} ds (mem : list T) m : Holds (owning ds) mem m -> Holds (const_array ds) mem m.
Proof.
  rewrite !Holds_iff. intros (Hv & H). split; [exact Hv|exact H].
Qed.
Lemma map_cons1_inj (l : list Z) : NoDup l -> NoDup (map (fun k => [k]) l).
Proof. apply FinFun.Injective_map_NoDup. intros a b E. now injection E. Qed.

Lemma gradient_Holds ds idx xi : ds <> [] -> Z.of_nat (length ds) <= INT_MAX ->
  Holds (owning [Z.of_nat (length ds)]) (map (fun j => dtensor j ds idx xi) (seq 0 (length ds)))
    (fun t => dtensor (Z.to_nat (hd 0 t)) ds idx xi).
Proof.
  intros Hne Hm. set (args := map (fun j => dtensor j ds idx xi) (seq 0 (length ds))).
  assert (Hl : length args = length ds) by (unfold args; now rewrite map_length, seq_length).
  destruct (list_init_Holds 0%R [Z.of_nat (length ds)] args) as (mem & Hi & Hb & Hh).
  { now apply dim_ok. }
  { rewrite Hl, prodZ_cons. change (prodZ []) with 1. lia. }
  rewrite list_init_ok in Hi; [|now apply dim_ok|rewrite Hl, prodZ_cons; change (prodZ []) with 1; lia].
  rewrite Hl, prodZ_cons in Hi. change (prodZ []) with 1 in Hi. rewrite Z.mul_1_r, Nat2Z.id, Nat.sub_diag in Hi.
  cbn [repeat] in Hi. rewrite app_nil_r in Hi. injection Hi as <-.
  eapply Holds_ext; [|exact Hh]. intros t Ht. cbn [dims owning] in Ht.
  apply InRange_cons in Ht. destruct Ht as (i & t' & -> & Hi & Ht). apply InRange_nil in Ht. subst t'.
  cbn beta. rewrite flat1. cbn [hd]. unfold args.
  rewrite (nth_indep _ 0%R (dtensor 0 ds idx xi)) by (rewrite map_length, seq_length; lia).
  rewrite (map_nth (fun j => dtensor j ds idx xi)). rewrite seq_nth by lia. reflexivity.
Qed.

Lemma parent_gradient_ok c shapeDims bases ds var u xi : Forall2 Evaluates bases ds -> ds <> [] ->
  Z.of_nat (length ds) <= INT_MAX ->
  shapeDims = Z.of_nat (length ds) -> (forall t, InRange (counts ds) t -> var t = Ok (u t)) ->
  (length ds <= length xi)%nat ->
  exists g, parent_gradient RNum c shapeDims bases var xi = Ok g /\
    length g = length ds /\
    Holds (owning [Z.of_nat (length ds)]) g (fun t => dinterp (Z.to_nat (hd 0 t)) ds u xi).
Proof.
  intros HE Hne Hm -> Hu Hl. unfold parent_gradient.
  pose proof (bases_length _ _ HE) as Hbl.
  set (D := Z.of_nat (length ds)) in *.
  assert (Hok : parent_ok RNum D bases = Ok tt).
  { unfold parent_ok, numDims. rewrite Hbl, Z.eqb_refl. reflexivity. }
  assert (HD : numDims RNum bases = D) by (unfold numDims; rewrite Hbl; reflexivity).
  rewrite Hok. cbn [bind]. rewrite HD.
  destruct (list_init_Holds (nofZ RNum 0) [D] [nofZ RNum 0]) as (mem0 & Hi & Hb0 & Hh0).
  { now apply dim_ok. }
  { rewrite prodZ_cons. change (prodZ []) with 1. unfold D. destruct ds; [congruence|simpl; lia]. }
  rewrite (supportCounts_ok _ _ HE). cbn [bind]. rewrite Hi. cbn [bind].
  rewrite (forNestedSequence_lemma _ _ _ (zbox (counts ds))).
  2: { destruct ds; [congruence|discriminate]. }
  2: { eapply Forall_impl; [|exact (counts_pos _ _ HE)]. intros a; simpl; lia. }
  2: { apply box_LexEnum. }
  match goal with |- context [foldM ?b _ _] => set (body := b) end.
  destruct (sum_loop (owning [D]) body (fun t a => dtensor (Z.to_nat (hd 0%Z a)) ds t xi * u t)%R
              (zbox (counts ds)) mem0 _ Hh0) as (mem' & He & Hh' & Ho).
  - intros t mem m Ht Hmem. apply in_zbox in Ht. unfold body, parent_gradient_at. rewrite Hok. cbn [bind].
    rewrite (product_gradient_ok _ ds) by assumption. cbn [bind].
    pose proof (gradient_Holds ds t xi Hne Hm) as Hg. apply Holds_const in Hg. fold D in Hg.
    rewrite forSequence_lemma by (unfold D; lia).
    match goal with |- context [foldM ?b _ _] => set (body2 := b) end.
    destruct (acc_loop c (owning [D]) one_index (fun k => [k]) (fun k => dtensor (Z.to_nat k) ds t xi * u t)%R
                body2 eq_refl ltac:(unfold path_ok; simpl; lia) (zseq (Z.to_nat D)) mem m Hmem)
      as (mem2 & m2 & He2 & Hm2 & Ho2 & Hin & Hout).
    + intros k Hk. apply in_zseq in Hk. cbn [dims owning]. apply InRange_cons. exists k, []. 
      split; [reflexivity|]. split; [lia|]. now apply InRange_nil.
    + apply map_cons1_inj, NoDup_zseq.
    + intros k mm mmm Hk Hmm. apply in_zseq in Hk. unfold body2. cbv beta.
      assert (Hr : InRange [D] [k]).
      { apply InRange_cons. exists k, []. split; [reflexivity|]. split; [lia|]. now apply InRange_nil. }
      assert (Hp1 : forall a : arr, path_ok one_index a) by (intros a; unfold path_ok; simpl; lia).
      rewrite (Holds_fetch (T := T RNum) c _ one_index [k] mm mmm Hmm Hr (Hp1 _)). cbn [bind].
      rewrite (Holds_fetch (T := T RNum) c _ one_index [k] _ _ Hg Hr (Hp1 _)). cbn [bind].
      rewrite Hu by exact Ht. reflexivity.
    + exists mem2. split; [exact He2|]. split; [|exact Ho2].
      eapply Holds_ext; [|exact Hm2]. intros a Ha. cbn [dims owning] in Ha.
      apply InRange_cons in Ha. destruct Ha as (i & t' & -> & Hir & Ht'). apply InRange_nil in Ht'. subst t'.
      cbn [hd]. apply (Hin i). apply in_zseq. lia.
  - exists mem'. split; [exact He|]. split.
    + destruct Ho as (Hlen & _). etransitivity; [exact Hlen|]. unfold buflen in Hb0. rewrite prodZ_cons in Hb0.
      change (prodZ []) with 1 in Hb0. unfold D in Hb0. rewrite Z.mul_1_r in Hb0. exact (Nat2Z.inj _ _ Hb0).
    + eapply Holds_ext; [|exact Hh']. intros a Ha. unfold dinterp. rewrite BoxSum_sumR.
      cbn [dims owning] in Ha. apply InRange_cons in Ha. destruct Ha as (i & t' & -> & Hir & Ht').
      apply InRange_nil in Ht'. subst t'. cbn beta. rewrite flat1. cbn [hd].
      replace (nth (Z.to_nat i) [nofZ RNum 0] (nofZ RNum 0)) with 0%R.
      * apply Rplus_0_l.
      * destruct (Z.to_nat i) as [|[|k]]; reflexivity.
Qed.

(** * Property lemmas *)
Lemma Nodal_Differentiates ds : Forall Nodal ds -> Forall Differentiates ds.
Proof. apply Forall_impl. intros d H i y Hi. now apply (nb_deriv _ _ _ _ H). Qed.

Lemma upd_length {A} (l : list A) : forall j x, length (upd l j x) = length l.
Proof. induction l as [|a l IH]; intros [|j] x; simpl; auto. Qed.

Lemma product_gradient_lemma bases ds idx xi : Forall2 Evaluates bases ds -> Forall Differentiates ds -> ds <> [] ->
  Z.of_nat (length ds) <= INT_MAX -> InRange (counts ds) idx -> (length ds <= length xi)%nat ->
  exists f g,
    (forall p, (length ds <= length p)%nat -> product_value RNum bases idx p = Ok (f p)) /\
    product_gradient RNum bases idx xi = Ok g /\ length g = length ds /\
    (forall j, (j < length ds)%nat -> Partial f j xi (nth j g 0%R)).
Proof.
  intros HE HD Hne Hm Hin Hl. exists (tensor ds idx), (map (fun j => dtensor j ds idx xi) (seq 0 (length ds))).
  split; [intros p Hp; now apply product_value_ok|]. split; [now apply product_gradient_ok|].
  split; [now rewrite map_length, seq_length|]. intros j Hj.
  rewrite (nth_indep _ 0%R (dtensor 0 ds idx xi)) by (rewrite map_length, seq_length; lia).
  rewrite (map_nth (fun j => dtensor j ds idx xi)). rewrite seq_nth by lia. now apply tensor_partial.
Qed.

Lemma shape_lemma geomDims bases idx xi :
  (shape_value RNum geomDims bases idx xi =
     if Z.of_nat (length bases) =? geomDims then product_value RNum bases idx xi else IllFormed) /\
  (shape_gradient RNum geomDims bases idx xi =
     if Z.of_nat (length bases) =? geomDims then product_gradient RNum bases idx xi else IllFormed).
Proof.
  unfold shape_value, shape_gradient, shape_ok, numDims. destruct (_ =? geomDims); split; reflexivity.
Qed.

Lemma product_nodal_lemma bases ds i j : Forall2 Evaluates bases ds -> Forall Nodal ds -> ds <> [] ->
  InRange (counts ds) i -> InRange (counts ds) j ->
  product_value RNum bases i (gridpoint ds j) = Ok (if tuple_eqb i j then 1%R else 0%R).
Proof.
  intros HE HN Hne Hi Hj. rewrite (product_value_ok _ ds); [|assumption..|].
  - now rewrite tensor_nodal.
  - rewrite gridpoint_length by assumption. lia.
Qed.
Lemma product_unity_lemma bases ds xi : Forall2 Evaluates bases ds -> Forall Nodal ds -> ds <> [] ->
  (length ds <= length xi)%nat ->
  supportLoop RNum bases (fun t acc => v <- product_value RNum bases t xi ;; Ok (acc + v)%R) 0%R = Ok 1%R.
Proof.
  intros HE HN Hne Hl. rewrite (supportLoop_sum _ ds _ (fun t => tensor ds t xi)); [|assumption..|].
  - now rewrite tensor_unity.
  - intros t acc Ht. now rewrite (product_value_ok _ ds).
Qed.
Lemma product_gradient_zero_lemma bases ds xi k : Forall2 Evaluates bases ds -> Forall Nodal ds -> ds <> [] ->
  Z.of_nat (length ds) <= INT_MAX -> (length ds <= length xi)%nat -> 0 <= k < Z.of_nat (length ds) ->
  supportLoop RNum bases
    (fun t acc => g <- product_gradient RNum bases t xi ;; gk <- rd g k ;; Ok (acc + gk)%R) 0%R = Ok 0%R.
Proof.
  intros HE HN Hne Hm Hl Hk. rewrite (supportLoop_sum _ ds _ (fun t => dtensor (Z.to_nat k) ds t xi)); [|assumption..|].
  - rewrite dtensor_zero; [reflexivity|assumption|assumption|lia].
  - intros t acc Ht. rewrite (product_gradient_ok _ ds) by assumption. cbn [bind].
    rewrite (rd_nth _ _ (dtensor 0 ds t xi)) by (rewrite map_length, seq_length; lia). cbn [bind].
    rewrite (map_nth (fun j => dtensor j ds t xi)). rewrite seq_nth by lia. reflexivity.
Qed.

(** Directions made of Lagrange bases. *)
Definition spec_ok (so : spacing * Z) : Prop :=
  match fst so with
  | EqualSpacing => 1 <= snd so < INT_MAX
  | GaussLegendreSpacing => 1 <= snd so <= 3
  | GaussLobattoSpacing => 1 <= snd so <= 8
  end.
Lemma lagrange_direction s ORDER : spec_ok (s, ORDER) ->
  exists d, Evaluates (LagrangeBasis RNum ORDER s) d /\ Nodal d /\ npts d = ORDER + 1 /\
    Points (coord_ct RNum s (ORDER + 1)) (ORDER + 1) (pt d).
Proof.
  intros H. destruct (bundled_lemma s ORDER H) as (x & v & g & Hp & Hn & Hv & Hg & HB).
  exists {| npts := ORDER + 1; pt := x; fval := v; fder := g |}. split; [|split; [exact HB|split; [reflexivity|exact Hp]]].
  split; [exact Hn|]. split.
  - unfold spec_ok in H; simpl in *. destruct s; lia.
  - intros i y Hi. split; [now apply Hv|now apply Hg].
Qed.
Lemma lagrange_directions_lemma (specs : list (spacing * Z)) :
  Forall (fun so => match fst so with
    | EqualSpacing => 1 <= snd so < INT_MAX
    | GaussLegendreSpacing => 1 <= snd so <= 3
    | GaussLobattoSpacing => 1 <= snd so <= 8
    end) specs ->
  exists ds, Forall2 Evaluates (map (fun so => LagrangeBasis RNum (snd so) (fst so)) specs) ds /\
    Forall Nodal ds /\ counts ds = map (fun so => snd so + 1) specs /\
    Forall2 (fun so d => Points (coord_ct RNum (fst so) (snd so + 1)) (snd so + 1) (pt d)) specs ds.
Proof.
  induction 1 as [|[s o] l H _ (ds & H1 & H2 & H3 & H4)].
  - exists []. repeat constructor.
  - destruct (lagrange_direction s o H) as (d & D1 & D2 & D3 & D4). exists (d :: ds).
    split; [now constructor|]. split; [now constructor|]. split; [cbn; now rewrite D3, <- H3|now constructor].
Qed.

(** Parent elements. *)
Lemma parent_support_lemma bases ds u var j : Forall2 Evaluates bases ds -> Forall Nodal ds -> ds <> [] ->
  (forall t, InRange (counts ds) t -> var t = Ok (u t)) -> InRange (counts ds) j ->
  parent_value RNum (Z.of_nat (length ds)) bases var (gridpoint ds j) = Ok (u j).
Proof.
  intros HE HN Hne Hu Hj. rewrite (parent_value_ok _ _ ds _ u); [|assumption|assumption|reflexivity|assumption|].
  - now rewrite interp_nodal.
  - rewrite gridpoint_length by assumption. lia.
Qed.
Lemma parent_constant_lemma bases ds k var xi : Forall2 Evaluates bases ds -> Forall Nodal ds -> ds <> [] ->
  (forall t, InRange (counts ds) t -> var t = Ok k) -> (length ds <= length xi)%nat ->
  parent_value RNum (Z.of_nat (length ds)) bases var xi = Ok k.
Proof.
  intros HE HN Hne Hu Hl. rewrite (parent_value_ok _ _ ds _ (fun _ => k)); [|assumption|assumption|reflexivity|assumption|assumption].
  now rewrite interp_const.
Qed.
Lemma parent_linear_lemma bases ds u w a b var1 var2 var3 xi : Forall2 Evaluates bases ds -> ds <> [] ->
  (forall t, InRange (counts ds) t -> var1 t = Ok (u t) /\ var2 t = Ok (w t) /\ var3 t = Ok (a * u t + b * w t)%R) ->
  (length ds <= length xi)%nat ->
  exists p q, parent_value RNum (Z.of_nat (length ds)) bases var1 xi = Ok p /\
    parent_value RNum (Z.of_nat (length ds)) bases var2 xi = Ok q /\
    parent_value RNum (Z.of_nat (length ds)) bases var3 xi = Ok (a * p + b * q)%R.
Proof.
  intros HE Hne H Hl. exists (interp ds u xi), (interp ds w xi).
  split; [|split].
  - apply parent_value_ok; try assumption; [reflexivity|]. intros t Ht. apply H, Ht.
  - apply parent_value_ok; try assumption; [reflexivity|]. intros t Ht. apply H, Ht.
  - rewrite <- interp_linear. apply parent_value_ok; try assumption; [reflexivity|]. intros t Ht. apply (H t Ht).
Qed.
Lemma parent_sum_lemma bases ds u var xi : Forall2 Evaluates bases ds -> ds <> [] ->
  (forall t, InRange (counts ds) t -> var t = Ok (u t)) -> (length ds <= length xi)%nat ->
  parent_value RNum (Z.of_nat (length ds)) bases var xi =
    Ok (BoxSum (counts ds) (fun t => tensor ds t xi * u t)%R).
Proof. intros HE Hne Hu Hl. now apply parent_value_ok. Qed.
Lemma parent_dim_lemma c shapeDims bases var xi : Z.of_nat (length bases) <> shapeDims ->
  parent_value RNum shapeDims bases var xi = IllFormed /\ parent_gradient RNum c shapeDims bases var xi = IllFormed.
Proof.
  intros H. unfold parent_value, parent_gradient, parent_ok, numDims.
  destruct (Z.eqb_spec (Z.of_nat (length bases)) shapeDims); [contradiction|]. split; reflexivity.
Qed.
Lemma parent_polynomial_lemma bases ds c var xi : Forall2 Evaluates bases ds -> Forall Nodal ds -> ds <> [] ->
  (forall t, InRange (counts ds) t -> var t = Ok (tpoly (counts ds) c (gridpoint ds t))) ->
  (length ds <= length xi)%nat ->
  parent_value RNum (Z.of_nat (length ds)) bases var xi = Ok (tpoly (counts ds) c xi).
Proof.
  intros HE HN Hne Hu Hl. rewrite (parent_value_ok _ _ ds _ _ xi HE Hne eq_refl Hu Hl). now rewrite interp_tpoly.
Qed.

Lemma parent_gradient_nth c bases ds u var xi : Forall2 Evaluates bases ds -> ds <> [] ->
  Z.of_nat (length ds) <= INT_MAX ->
  (forall t, InRange (counts ds) t -> var t = Ok (u t)) -> (length ds <= length xi)%nat ->
  exists g, parent_gradient RNum c (Z.of_nat (length ds)) bases var xi = Ok g /\ length g = length ds /\
    (forall j, (j < length ds)%nat -> nth j g 0%R = dinterp j ds u xi).
Proof.
  intros HE Hne Hm Hu Hl.
  destruct (parent_gradient_ok c _ bases ds var u xi HE Hne Hm eq_refl Hu Hl) as (g & Hg & Hlen & Hh).
  exists g. split; [exact Hg|]. split; [exact Hlen|]. intros j Hj.
  apply Holds_iff in Hh. destruct Hh as (_ & Hr). specialize (Hr [Z.of_nat j]).
  assert (Hin : InRange [Z.of_nat (length ds)] [Z.of_nat j]).
  { apply InRange_cons. exists (Z.of_nat j), []. split; [reflexivity|]. split; [lia|]. now apply InRange_nil. }
  specialize (Hr Hin). cbn [base dims owning hd] in Hr.
  rewrite Z.add_0_l, flat1, !Nat2Z.id in Hr.
  now apply nth_error_nth.
Qed.
Lemma parent_gradient_lemma c bases ds u var xi : Forall2 Evaluates bases ds -> Forall Differentiates ds -> ds <> [] ->
  Z.of_nat (length ds) <= INT_MAX ->
  (forall t, InRange (counts ds) t -> var t = Ok (u t)) -> (length ds <= length xi)%nat ->
  exists f g,
    (forall p, (length ds <= length p)%nat -> parent_value RNum (Z.of_nat (length ds)) bases var p = Ok (f p)) /\
    parent_gradient RNum c (Z.of_nat (length ds)) bases var xi = Ok g /\ length g = length ds /\
    (forall j, (j < length ds)%nat -> Partial f j xi (nth j g 0%R)).
Proof.
  intros HE HD Hne Hm Hu Hl. destruct (parent_gradient_nth c _ _ _ _ xi HE Hne Hm Hu Hl) as (g & Hg & Hlen & Hj).
  exists (interp ds u), g. split; [intros p Hp; now apply parent_value_ok|]. split; [exact Hg|].
  split; [exact Hlen|]. intros j Hjl. rewrite Hj by exact Hjl. now apply interp_partial.
Qed.
Lemma parent_gradient_polynomial_lemma c bases ds coef var xi : Forall2 Evaluates bases ds -> Forall Nodal ds ->
  ds <> [] -> Z.of_nat (length ds) <= INT_MAX ->
  (forall t, InRange (counts ds) t -> var t = Ok (tpoly (counts ds) coef (gridpoint ds t))) ->
  (length ds <= length xi)%nat ->
  exists g, parent_gradient RNum c (Z.of_nat (length ds)) bases var xi = Ok g /\ length g = length ds /\
    (forall j, (j < length ds)%nat -> Partial (tpoly (counts ds) coef) j xi (nth j g 0%R)).
Proof.
  intros HE HN Hne Hm Hu Hl. destruct (parent_gradient_nth c _ _ _ _ xi HE Hne Hm Hu Hl) as (g & Hg & Hlen & Hj).
  exists g. split; [exact Hg|]. split; [exact Hlen|]. intros j Hjl. rewrite Hj by exact Hjl.
  eapply deriv_ext; [|apply interp_partial; [now apply Nodal_Differentiates|exact Hl|exact Hjl]].
  intros y. cbv beta. apply interp_tpoly; [exact HN|]. now rewrite upd_length.
Qed.
