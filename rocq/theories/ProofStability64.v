(** Amplification by the points stored in doubles and in floats. *)
From Coq Require Import ZArith QArith Qreals Reals Bool List Lia Lra.
From Flocq Require Import Core IEEE754.BinarySingleNaN.
From Verif Require Import Base ProofBase Num SpecIndex SpecNumeric SpecBasis ModelB64 ModelF32 ModelAssert ModelSpacing ModelLagrange ModelBasisProduct
  SpecB64 SpecF32 SpecAccuracy SpecElement64 SpecElement32 SpecApprox SpecStability ProofPoly ProofSpacing ProofLagrange ProofApprox ProofBox ProofTensor ProofTables ProofStability.
From Verif Require ProofNodes64 ProofNodes32 ProofElement64 ProofElement32.
Local Open Scope Z_scope.

Definition near_ref (r : Z) (o : option Z) : bool := match o with Some z => Z.abs (z - r * 2 ^ 40) <=? 4 * 2 ^ 40 | None => false end.
Definition near64 (so : spacing * Z) : bool :=
  forallb (fun k => near_ref (refp (fst so) (snd so + 1) k) (ProofNodes64.fix60 (coord_ct B64Num (fst so) (snd so + 1) k))) (zseq (Z.to_nat (snd so + 1))).
Definition near32 (so : spacing * Z) : bool :=
  forallb (fun k => near_ref (refp (fst so) (snd so + 1) k) (ProofNodes32.fix60 (coord_ct32 (fst so) (snd so + 1) k))) (zseq (Z.to_nat (snd so + 1))).
Lemma near64_checked : forallb near64 valid_orders = true.
Proof. vm_compute. reflexivity. Qed.
Lemma near32_checked : forallb near32 (filter (fun so => snd so <=? 3) valid_orders) = true.
Proof. vm_compute. reflexivity. Qed.

Lemma near_ref_R r z (v : R) : near_ref r (Some z) = true -> (v = IZR z * bpow radix2 (-60))%R -> (Rabs (v * 1048576 - IZR r) <= 4)%R.
Proof.
  intros H ->. cbn [near_ref] in H. apply Z.leb_le in H. apply IZR_le in H. rewrite abs_IZR, minus_IZR, mult_IZR in H.
  change (IZR (4 * 2 ^ 40)) with (4 * 1099511627776)%R in H || (replace (IZR (4 * 2 ^ 40)) with (4 * 1099511627776)%R in H by (cbn; lra)).
  change (2 ^ 40) with 1099511627776 in H.
  assert (B : bpow radix2 (-60) = (/ 1152921504606846976)%R) by reflexivity. rewrite B.
  replace (IZR z * / 1152921504606846976 * 1048576 - IZR r)%R with ((IZR z - IZR r * 1099511627776) * / 1099511627776)%R by field.
  rewrite Rabs_mult, (Rabs_pos_eq (/ 1099511627776)) by lra. lra.
Qed.
Definition CloseGrid (so : spacing * Z) (d : direction) : Prop :=
  npts d = snd so + 1 /\ Nodal d /\ Close (Z.to_nat (snd so + 1)) (refp (fst so) (snd so + 1)) (pt d).
Lemma grid64_close so d : Supported64 so -> Grid64 so d -> CloseGrid so d.
Proof.
  destruct so as [s o]. intros HS (Hn & (x & Hp & Hx) & HN). cbn [fst snd] in *. split; [exact Hn|]. split; [exact HN|]. cbn [fst snd].
  assert (Hin : In (s, o) valid_orders) by (unfold Supported64 in HS; cbn in HS; apply valid_orders_spec; unfold ValidOrder, INT_MAX; cbn; destruct s; lia).
  pose proof near64_checked as H. rewrite forallb_forall in H. specialize (H _ Hin). unfold near64 in H. rewrite forallb_forall in H. cbn [fst snd] in H.
  intros k Hk. specialize (H k Hk). apply in_zseq in Hk. rewrite Hx by lia.
  destruct (ProofNodes64.fix60 (coord_ct B64Num s (o + 1) k)) as [z|] eqn:E; [|discriminate].
  destruct (ProofNodes64.fix60_ok _ _ E) as (x' & E1 & _ & E2). apply (near_ref_R _ z); [exact H|].
  pose proof (Hp k ltac:(lia)) as P. rewrite E1 in P. injection P as P. rewrite <- P. exact E2.
Qed.
Lemma grid32_close so d : Supported32 so -> Grid32 so d -> CloseGrid so d.
Proof.
  destruct so as [s o]. intros HS (Hn & (x & Hp & Hx) & HN). cbn [fst snd] in *. split; [exact Hn|]. split; [exact HN|]. cbn [fst snd].
  unfold Supported32 in HS. cbn in HS.
  assert (Hin : In (s, o) (filter (fun so => snd so <=? 3) valid_orders)).
  { apply filter_In. split; [apply valid_orders_spec; unfold ValidOrder, INT_MAX; cbn; destruct s; lia|apply Z.leb_le; cbn; lia]. }
  pose proof near32_checked as H. rewrite forallb_forall in H. specialize (H _ Hin). unfold near32 in H. rewrite forallb_forall in H. cbn [fst snd] in H.
  intros k Hk. specialize (H k Hk). apply in_zseq in Hk. rewrite Hx by lia.
  destruct (ProofNodes32.fix60 (coord_ct32 s (o + 1) k)) as [z|] eqn:E; [|discriminate].
  destruct (ProofNodes32.fix60_ok _ _ E) as (x' & E1 & _ & E2). apply (near_ref_R _ z); [exact H|].
  pose proof (Hp k ltac:(lia)) as P. rewrite E1 in P. injection P as P. rewrite <- P. exact E2.
Qed.
Lemma supported_valid so : Supported64 so -> ValidOrder so /\ snd so <= 15.
Proof. destruct so as [s o]. unfold Supported64, ValidOrder, INT_MAX. cbn. destruct s; intros; lia. Qed.
Lemma supported32_valid so : Supported32 so -> ValidOrder so /\ snd so <= 15.
Proof. destruct so as [s o]. unfold Supported32, ValidOrder, INT_MAX. cbn. destruct s; intros; lia. Qed.
Lemma close_amplifies specs ds : Forall (fun so => ValidOrder so /\ snd so <= 15) specs -> Forall2 CloseGrid specs ds ->
  forall xi, (length specs <= length xi)%nat -> InCube (-1) 1 xi -> Amplifies ds (map Stability specs) xi.
Proof.
  intros HV HG. induction HG as [|[s o] d specs ds (Hn & HN & HC) _ IH]; intros xi Hl Hxi; [constructor|].
  inversion HV as [|? ? (V1 & V2) V3]; subst. destruct xi as [|x xi]; [cbn in Hl; lia|]. inversion Hxi as [|? ? Hx Hxi']; subst.
  cbn [map Amplifies fst snd] in *. split; [|apply IH; [exact V3|apply le_S_n; exact Hl|exact Hxi']].
  assert (HO : 1 <= o) by (unfold ValidOrder in V1; cbn in V1; destruct s; lia).
  rewrite Zsum_sumR. rewrite (sumR_ext _ (fun i => Rabs (prodR (fun k => term (pt d) i k x) (zseq (Z.to_nat (npts d)))))).
  2: { intros i Hi. apply in_zseq in Hi. rewrite direction_values; [reflexivity|exact HN|now apply nodal_distinct|lia|unfold INT_MAX; lia]. }
  rewrite Hn, <- bounds_stability by assumption. apply order_stable; assumption.
Qed.
Lemma weighted_bound ds L xi (w : list Z -> R) M : Amplifies ds L xi -> (length ds <= length xi)%nat -> (0 <= M)%R ->
  (forall t, InRange (counts ds) t -> (Rabs (w t) <= M)%R) ->
  (BoxSum (counts ds) (fun t => Rabs (tensor ds t xi) * Rabs (w t)) <= fold_right Rmult 1 L * M)%R.
Proof.
  intros HA Hl HM Hw. rewrite BoxSum_sumR. apply Rle_trans with (sumR (fun t => Rabs (tensor ds t xi) * M) (zbox (counts ds)))%R.
  - apply sumR_le. intros t Ht. apply in_zbox in Ht. apply Rmult_le_compat_l; [apply Rabs_pos|now apply Hw].
  - rewrite sumR_scal_r, <- BoxSum_sumR. apply Rmult_le_compat_r; [exact HM|]. apply tensor_abs; assumption.
Qed.
Lemma abs_cube {A} (f : A -> R) xi : Forall (fun x => (Rabs (f x) <= 1)%R) xi -> InCube (-1) 1 (map f xi).
Proof. induction 1 as [|x xi H _ IH]; [constructor|]. cbn [map]. constructor; [|exact IH]. apply abs_le_inv in H. exact H. Qed.

Lemma roundings_nonneg specs : Forall (fun so => ValidOrder so /\ snd so <= 15) specs -> 0 <= roundings64 specs.
Proof.
  intros H. unfold roundings64, sizes64.
  assert (A : 0 <= fold_right Z.add 0 (map (fun so : spacing * Z => 6 * snd so + 2) specs) /\
              0 <= fold_right Z.mul 1 (map (fun so : spacing * Z => snd so + 1) specs)); [|lia].
  induction H as [|so l (V & _) _ IH]; [cbn; lia|]. cbn [map fold_right].
  assert (1 <= snd so) by (unfold ValidOrder in V; destruct so as [[] o]; cbn in *; lia). destruct IH as (I1 & I2). split; [lia|].
  apply Z.mul_nonneg_nonneg; lia.
Qed.
Lemma double_error_lemma specs : specs <> [] -> (length specs <= 3)%nat -> Forall Supported64 specs ->
  exists ds, Forall2 Grid64 specs ds /\
  forall xi var w M, Forall InReference xi -> (length specs <= length xi)%nat -> (0 <= M)%R ->
  (forall t, InRange (sizes64 specs) t -> var t = Ok (w t) /\ Data64 (w t) /\ (Rabs (B2R (w t)) <= M)%R) ->
  exists v, parent_value B64Num (Z.of_nat (length specs)) (map basis64 specs) var xi = Ok v /\ is_finite v = true /\
    (Rabs (B2R v - BoxSum (counts ds) (fun t => tensor ds t (map B2R xi) * B2R (w t)))
      <= IZR (roundings64 specs) * bpow radix2 (-53) * (ElementStability specs * M) + bpow radix2 (-400))%R.
Proof.
  intros Hne Hl HS. destruct (ProofElement64.element_value64 specs Hne Hl HS) as (ds & HG & H). exists ds. split; [exact HG|].
  assert (HV : Forall (fun so => ValidOrder so /\ snd so <= 15) specs) by (eapply Forall_impl; [intros so; apply supported_valid|exact HS]).
  intros xi var w M Hxi Hlx HM Hw. destruct (H xi var w Hxi Hlx) as (v & E & F & B).
  { intros t Ht. destruct (Hw t Ht) as (H1 & H2 & _). split; assumption. }
  exists v. split; [exact E|]. split; [exact F|]. eapply Rle_trans; [exact B|]. apply Rplus_le_compat_r. apply Rmult_le_compat_l.
  - apply Rmult_le_pos; [apply IZR_le; now apply roundings_nonneg|apply bpow_ge_0].
  - assert (Lm : (length specs <= length (map B2R xi))%nat) by (rewrite map_length; exact Hlx).
    apply weighted_bound; [|rewrite (ProofElement64.grid_length _ _ HG); exact Lm|exact HM|].
    + apply close_amplifies; [exact HV| |exact Lm|].
      * clear -HS HG. induction HG as [|so d specs ds G _ IH]; [constructor|]. inversion HS; subst. constructor; [now apply grid64_close|now apply IH].
      * apply abs_cube. eapply Forall_impl; [|exact Hxi]. intros x Hx. exact (proj2 Hx).
    + intros t Ht. rewrite (ProofElement64.grid_counts _ _ HG) in Ht. apply Hw, Ht.
Qed.
Lemma float_error_lemma specs : specs <> [] -> (length specs <= 3)%nat -> Forall Supported32 specs ->
  exists ds, Forall2 Grid32 specs ds /\
  forall xi var w M, Forall InReference32 xi -> (length specs <= length xi)%nat -> (0 <= M)%R ->
  (forall t, InRange (sizes64 specs) t -> var t = Ok (w t) /\ Data32 (w t) /\ (Rabs (B2R (w t)) <= M)%R) ->
  exists v, parent_value F32Num (Z.of_nat (length specs)) (map basis32 specs) var xi = Ok v /\ is_finite v = true /\
    (Rabs (B2R v - BoxSum (counts ds) (fun t => tensor ds t (map B2R xi) * B2R (w t)))
      <= IZR (roundings64 specs) * bpow radix2 (-24) * (ElementStability specs * M) + bpow radix2 (-64))%R.
Proof.
  intros Hne Hl HS. destruct (ProofElement32.element_value32 specs Hne Hl HS) as (ds & HG & H). exists ds. split; [exact HG|].
  assert (HV : Forall (fun so => ValidOrder so /\ snd so <= 15) specs) by (eapply Forall_impl; [intros so; apply supported32_valid|exact HS]).
  intros xi var w M Hxi Hlx HM Hw. destruct (H xi var w Hxi Hlx) as (v & E & F & B).
  { intros t Ht. destruct (Hw t Ht) as (H1 & H2 & _). split; assumption. }
  exists v. split; [exact E|]. split; [exact F|]. eapply Rle_trans; [exact B|]. apply Rplus_le_compat_r. apply Rmult_le_compat_l.
  - apply Rmult_le_pos; [apply IZR_le; now apply roundings_nonneg|apply bpow_ge_0].
  - assert (Lm : (length specs <= length (map B2R xi))%nat) by (rewrite map_length; exact Hlx).
    apply weighted_bound; [|rewrite (ProofElement32.grid_length _ _ HG); exact Lm|exact HM|].
    + apply close_amplifies; [exact HV| |exact Lm|].
      * clear -HS HG. induction HG as [|so d specs ds G _ IH]; [constructor|]. inversion HS; subst. constructor; [now apply grid32_close|now apply IH].
      * apply abs_cube. eapply Forall_impl; [|exact Hxi]. intros x Hx. exact (proj2 Hx).
    + intros t Ht. rewrite (ProofElement32.grid_counts _ _ HG) in Ht. apply Hw, Ht.
Qed.
