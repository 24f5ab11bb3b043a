(** Accuracy of tensor-product elements and Jacobians in binary64. *)
From Coq Require Import ZArith Reals Bool List Lia Lra Psatz.
From Flocq Require Import Core IEEE754.BinarySingleNaN.
From Verif Require Import Base ProofBase Num ModelB64 SpecB64 SpecIndex ProofBox ModelSequence ModelAssert ModelCArray SpecCArray ModelSpacing
  ModelLagrange ModelBasisProduct ModelMath ModelTransforms SpecNumeric SpecBasis SpecAccuracy SpecElement64
  ProofPoly ProofLagrange ProofTensor ProofB64 ProofErr64 ProofLagrange64 ProofNodes64 ProofGeneric ProofSum64 ProofGrad64.
Local Open Scope R_scope.
Lemma pow2_split a b c : c = (a + b)%Z -> pow2 c = pow2 a * pow2 b.
Proof. intros ->. apply bpow_plus. Qed.
Notation prodl := (fold_right Rmult 1).

Inductive Loc3 (a e : R) : list (local b64) -> list (local R) -> list (local R) -> nat -> Prop :=
  | L3_nil : Loc3 a e [] [] [] 0
  | L3_cons l r m p ls rs ms P :
      (forall i, (0 <= i < ln l)%Z ->
        Apw (lv l i) (lv r i) (lv m i) p e /\ lv m i <= a /\ Apw (lg l i) (lg r i) (lg m i) p e /\ lg m i <= a) ->
      Loc3 a e ls rs ms P -> Loc3 a e (l :: ls) (r :: rs) (m :: ms) (S (p + P)).

Lemma factors_facs a e ls rs ms P : Loc3 a e ls rs ms P -> forall G off idx, InRange (lcounts ls) idx ->
  Facs a e (factors G off ls idx) (factors G off rs idx) (factors G off ms idx) P.
Proof.
  induction 1 as [|l r m p ls rs ms P H _ IH]; intros G off idx Hin; [constructor|].
  change (lcounts (l :: ls)) with (ln l :: lcounts ls) in Hin. apply InRange_cons in Hin.
  destruct Hin as (i & t & -> & Hi & Ht). destruct (H i Hi) as (V & Va & D & Da). cbn [factors].
  constructor; [destruct (G =? off)%Z; assumption|destruct (G =? off)%Z; assumption|now apply IH].
Qed.

Section Sum.
Context (ls : list (local b64)) (rs ms : list (local R)) (P : nat) (w : list Z -> b64) (G : Z).
Context (H3 : Loc3 (pow2 100) (pow2 (-930)) ls rs ms P) (Hne : ls <> []) (Hl : (length ls <= 3)%nat) (HP : (P <= 1000)%nat).
Context (Hw : forall t, InRange (lcounts ls) t -> Data64 (w t)) (Hn : (length (zbox (lcounts ls)) <= 4096)%nat).
Let f := fun t => Bmult mode_NE (mulR (N := B64Num) (factors G 0 ls t)) (w t).
Let r := fun t => prodl (factors G 0 rs t) * B2R (w t).
Let A := fun t => prodl (factors G 0 ms t) * Rabs (B2R (w t)).

Lemma summand t : InRange (lcounts ls) t -> Apw (f t) (r t) (A t) (S P) (pow2 (-422)) /\ A t <= pow2 600.
Proof.
  intros Ht. destruct (Hw t Ht) as [Fw Bw]. pose proof (factors_facs _ _ _ _ _ _ H3 G 0 t Ht) as HF.
  assert (Len : length (factors G 0 ls t) = length ls) by (apply (factors_length B64Num); exact Ht).
  assert (E8 : 8 * pow2 100 = pow2 103) by (rewrite (pow2_split 3 100 103 eq_refl); reflexivity).
  assert (a1 : 1 <= pow2 100) by (change 1 with (pow2 0); apply bpow_le; lia).
  pose proof (apw_mulR (pow2 100) (pow2 (-930)) 309 _ _ _ P a1 ltac:(apply bpow_le; lia)
    ltac:(change 1 with (pow2 0); apply bpow_le; lia) ltac:(lia) ltac:(lia) HF) as M.
  pose proof (facs_prod _ _ _ _ _ _ a1 HF) as [Q0 Q1]. rewrite Len, E8, !pow2_pow in *.
  specialize (M ltac:(intros E; rewrite E in Len; destruct ls; [congruence|discriminate]) ltac:(apply bpow_le; lia)).
  set (v := mulR (N := B64Num) (factors G 0 ls t)) in *. set (Q := prodl (factors G 0 ms t)) in *.
  assert (L1 : (1 <= length ls)%nat) by (destruct ls; [congruence|simpl; lia]).
  assert (Q3 : Q <= pow2 300) by (eapply Rle_trans; [exact Q1|]; apply bpow_le; lia).
  assert (E1 : pow2 (103 * Z.of_nat (length ls - 1)) * pow2 (-930) <= pow2 (-724)).
  { rewrite <- bpow_plus. apply bpow_le. lia. }
  assert (M' : Apw v (prodl (factors G 0 rs t)) Q P (pow2 (-724))) by (eapply apw_weaken; [exact M|lra|lia|exact E1]).
  assert (P300 : 1 <= pow2 300) by (change 1 with (pow2 0); apply bpow_le; lia).
  assert (T0 : pow2 (-724) <= 1) by (change 1 with (pow2 0); apply bpow_le; lia).
  pose proof (bpow_gt_0 radix2 (-724)) as T1. pose proof (Rabs_pos (B2R (w t))) as W0.
  split.
  - eapply apw_weaken; [apply (apw_mult _ _ _ _ _ _ _ _ _ _ 602 M' (apw_exact _ 0 Fw))|apply Rle_refl|lia|].
    + lia. + lia. + lia.
    + rewrite Rplus_0_r. rewrite (pow2_split 2 600 602 eq_refl), (pow2_split 300 300 600 eq_refl). change (pow2 2) with 4.
      set (B := pow2 300) in *.
      apply Rle_trans with ((5 / 4 * B + 1) * (5 / 4 * B)); [apply Rmult_le_compat; lra|]. nra.
    + rewrite !Rmult_0_r, Rplus_0_l, Rplus_0_r.
      apply Rle_trans with (2 * (pow2 300 * pow2 (-724)) + eta).
      * apply Rplus_le_compat_r. apply Rmult_le_compat_l; [lra|]. apply Rmult_le_compat_r; lra.
      * rewrite <- bpow_plus. assert (eta <= pow2 (300 + -724)) by (apply bpow_le; lia).
        rewrite (pow2_split 2 (300 + -724) (-422) eq_refl). change (pow2 2) with 4. pose proof (bpow_gt_0 radix2 (300 + -724)). lra.
  - unfold A. fold Q. rewrite (pow2_split 300 300 600 eq_refl). apply Rmult_le_compat; lra.
Qed.

Lemma element_sum :
  Apw (addL (N := B64Num) f (zbox (lcounts ls)) (b64_ofZ 0)) (BoxSum (lcounts ls) r) (BoxSum (lcounts ls) A)
    (S P + length (zbox (lcounts ls))) (pow2 (-400)).
Proof.
  rewrite !BoxSum_sumR. set (l := zbox (lcounts ls)) in *.
  assert (HS : forall t, In t l -> Apw (f t) (r t) (A t) (S P) (pow2 (-422)) /\ A t <= pow2 600).
  { intros t Ht. apply summand. now apply in_zbox. }
  assert (H0 : Apw (b64_ofZ 0) 0 0 (S P + 0) 0).
  { destruct (b64_ofZ_exact 0 ltac:(lia)) as [F0 E0]. pose proof (apw_exact _ (S P + 0) F0) as H. rewrite E0, Rabs_R0 in H. exact H. }
  assert (N1 : 0 <= INR (length l) <= pow2 12).
  { split; [apply pos_INR|]. rewrite INR_IZR_INZ. change (pow2 12) with (IZR 4096). apply IZR_le. lia. }
  assert (PW : 0 < (1 + u) ^ length l <= 2).
  { split; [apply pow_lt; pose proof u_pos; lra|]. pose proof (Rel_small (length l) ltac:(lia)) as R. unfold Rel in R. lra. }
  assert (EB : (1 + u) ^ length l * (0 + INR (length l) * pow2 (-422)) <= pow2 (-400)).
  { rewrite Rplus_0_l. apply Rle_trans with (2 * (pow2 12 * pow2 (-422))).
    - pose proof (bpow_gt_0 radix2 (-422)). apply Rmult_le_compat; [lra|apply Rmult_le_pos; lra|lra|]. apply Rmult_le_compat_r; lra.
    - change 2 with (pow2 1). rewrite <- !bpow_plus. apply bpow_le. lia. }
  pose proof (apw_addL f r A (S P) (pow2 (-422)) 1000 ltac:(lia) l 0 (b64_ofZ 0) 0 0 0 H0 (fun t Ht => proj1 (HS t Ht))) as M.
  rewrite !Rplus_0_l, Nat.add_0_r in M. rewrite Rplus_0_l in EB.
  eapply apw_weaken; [apply M|lra|lia|exact EB].
  assert (SA0 : 0 <= sumR A l).
  { apply sumR_nonneg. intros t Ht. exact (proj1 (app_nonneg _ _ _ _ _ (proj1 (HS t Ht)))). }
  assert (SA : sumR A l <= pow2 612).
  { eapply Rle_trans; [apply (sumR_bound A (pow2 600)); intros t Ht; now apply HS|].
    rewrite (pow2_split 12 600 612 eq_refl). apply Rmult_le_compat_r; [apply bpow_ge_0|lra]. }
  pose proof (Rel_small (S P + length l) ltac:(lia)) as R. pose proof (Rel_nonneg (S P + length l)) as R0.
  assert (X1 : (1 + Rel (S P + length l)) * sumR A l <= 5 / 4 * pow2 612) by (apply Rmult_le_compat; lra).
  assert (X2 : pow2 (-400) <= pow2 612) by (apply bpow_le; lia).
  assert (X3 : 4 * pow2 612 <= pow2 1000) by (change 4 with (pow2 2); rewrite <- bpow_plus; apply bpow_le; lia).
  pose proof (bpow_gt_0 radix2 612). lra.
Qed.
End Sum.

(** * Bundled bases *)
Lemma supported64_of so : Supported64 so -> supported64 (fst so) (snd so) /\ (snd so <= 15)%Z.
Proof. destruct so as [[] n]; cbn; lia. Qed.

Lemma grid_exists so : Supported64 so ->
  exists d, Grid64 so d /\
  forall y, InReference y -> exists l, LocalAt B64Num (basis64 so) y l /\ ln l = npts d /\
    forall i, (0 <= i < ln l)%Z ->
      Apw (lv l i) (fval d i (B2R y)) (Rabs (fval d i (B2R y))) (Z.to_nat (6 * snd so + 1)) (pow2 (-930)) /\
      Rabs (fval d i (B2R y)) <= pow2 100 /\
      Apw (lg l i) (fder d i (B2R y)) (gradient_size (npts d) (pt d) i (B2R y)) (Z.to_nat (6 * snd so + 1)) (pow2 (-930)) /\
      gradient_size (npts d) (pt d) i (B2R y) <= pow2 100.
Proof.
  intros H. destruct (supported64_of so H) as [Hs H15]. destruct so as [s ORDER]. cbn [fst snd] in *.
  destruct (bundled_nodes64 s ORDER Hs) as (q & x & HO & Hq & Hb & Q4 & HP & [Hf Hsep]).
  specialize (Q4 H15). subst q. set (X := fun k => B2R (x k)).
  assert (O1 : (1 <= ORDER)%Z) by (destruct s; cbn in Hs; lia).
  set (coordinate := fun i => n <- nSupport ORDER ;; coord_ct B64Num s n i).
  assert (Hp : forall k, (0 <= k < ORDER + 1)%Z -> coordinate k = Ok (x k)).
  { intros k Hk. unfold coordinate. rewrite LagrangeBasis_coordinate by exact HO. now apply HP. }
  assert (Hd : Distinct (ORDER + 1) X).
  { intros a b Ha Hb' E. destruct (Z.eq_dec a b) as [|Hne]; [assumption|].
    pose proof (Hsep a b Ha Hb' Hne) as S. unfold X in E. rewrite E in S.
    rewrite Rminus_diag_eq, Rabs_R0 in S by reflexivity. pose proof (bpow_gt_0 radix2 (- (4))). lra. }
  destruct (lagrange_basis_lemma ORDER (fun k => Ok (X k)) X HO (fun k _ => eq_refl) Hd) as (Vr & Gr & HB).
  exists {| npts := ORDER + 1; pt := X; fval := lval1 ORDER X; fder := lgrad1 ORDER X |}.
  split.
  - split; [reflexivity|]. split; [exists x; split; [exact HP|reflexivity]|]. exact HB.
  - intros y Hy. destruct Hy as [Fy By].
    exists {| ln := ORDER + 1; lv := fun i => prod64 (fun k => t64 x i k y) (zseq (Z.to_nat (ORDER + 1))); lg := fun i => grad64 ORDER x i y |}.
    split; [|split; [reflexivity|]].
    + split; [apply nSupport_ok; exact HO|]. split; [cbn [ln]; lia|]. cbn [ln lv lg]. intros i Hi. split.
      * now apply (lagrange_value64 ORDER 4 coordinate x).
      * apply (lagrange_gradient64 ORDER 4 coordinate x); assumption || lia.
    + cbn [ln lv lg npts pt fval fder]. intros i Hi. split; [|split; [|split]].
      * destruct (accuracy64_lemma ORDER 4 coordinate x i y HO ltac:(lia) Hb Hp (conj Hf Hsep) Hi (conj Fy By))
          as (v & phi & Ev & Ep & F & B).
        rewrite (lagrange_value64 ORDER 4 coordinate x HO ltac:(lia) Hp Hf Hsep i y Hi) in Ev.
        cbn [bvalue lagrange_of] in Ep. fold X in Ep. rewrite Vr in Ep by exact Hi.
        assert (J : forall (U : Type) (a b : U), Ok a = Ok b -> a = b) by (intros U a b J; now injection J).
        apply J in Ev. apply J in Ep. subst v phi.
        split; [exact F|]. split; [|split; [apply Rle_refl|split; [apply Rel_nonneg|apply bpow_ge_0]]].
        eapply Rle_trans; [exact B|]. apply Rplus_le_compat; [|apply bpow_le; lia].
        apply Rmult_le_compat_r; [apply Rabs_pos|]. eapply Rle_trans; [|apply Rel_lower].
        apply Rmult_le_compat_r; [pose proof u_pos; lra|]. rewrite INR_IZR_INZ, Z2Nat.id by lia.
        rewrite <- mult_IZR. apply IZR_le. lia.
      * unfold lval1. rewrite prodR_abs. eapply Rle_trans; [apply prodR_bound|].
        -- intros k Hk. apply in_zseq in Hk. split; [apply Rabs_pos|].
           apply (term_bound ORDER 4 coordinate x); try assumption; lia.
        -- rewrite pow2_pow, zseq_length. apply bpow_le. lia.
      * assert (GA := gradient_apw ORDER 4 coordinate x HO ltac:(lia) Hp Hf Hsep ltac:(lia) i y Hi (conj Fy By)).
        rewrite (gmag_size ORDER 4 coordinate x) in GA by (assumption || lia).
        eapply apw_weaken; [exact GA|apply Rle_refl|lia|apply bpow_le; lia].
      * rewrite <- (gmag_size ORDER 4 coordinate x) by (assumption || lia).
        eapply Rle_trans; [apply (gmag_bound ORDER 4 coordinate x); assumption || lia|apply bpow_le; lia].
Qed.

Fixpoint rlocals (ds : list direction) (xi : list R) : list (local R) :=
  match ds, xi with
  | d :: ds', x :: xi' => {| ln := npts d; lv := fun i => fval d i x; lg := fun i => fder d i x |} :: rlocals ds' xi'
  | _, _ => []
  end.
Fixpoint mlocals (ds : list direction) (xi : list R) : list (local R) :=
  match ds, xi with
  | d :: ds', x :: xi' =>
      {| ln := npts d; lv := fun i => Rabs (fval d i x); lg := fun i => gradient_size (npts d) (pt d) i x |} :: mlocals ds' xi'
  | _, _ => []
  end.
Fixpoint Psum (specs : list (spacing * Z)) : nat :=
  match specs with [] => 0 | so :: l => S (Z.to_nat (6 * snd so + 1) + Psum l) end%nat.

Lemma factors_gvals ds : forall G off idx xi, (length ds <= length xi)%nat ->
  factors G off (rlocals ds xi) idx = gvals G off ds idx xi.
Proof.
  induction ds as [|d ds IH]; intros G off idx xi Hl; [reflexivity|].
  destruct xi as [|x xi]; [simpl in Hl; lia|]. destruct idx as [|i idx]; [reflexivity|].
  cbn [rlocals factors gvals lv lg]. rewrite IH by (simpl in Hl; lia). reflexivity.
Qed.
Lemma mfactors_value ds : forall G off idx xi, (G < off)%Z -> (length ds <= length xi)%nat ->
  prodl (factors G off (mlocals ds xi) idx) = Rabs (tensor ds idx xi).
Proof.
  induction ds as [|d ds IH]; intros G off idx xi Hg Hl; [symmetry; apply Rabs_R1|].
  destruct xi as [|x xi]; [simpl in Hl; lia|]. destruct idx as [|i idx]; [symmetry; apply Rabs_R1|].
  cbn [mlocals factors lv lg tensor fold_right]. destruct (Z.eqb_spec G off); [lia|].
  rewrite Rabs_mult, IH by (simpl in *; lia). reflexivity.
Qed.
Lemma mfactors_der ds : forall j off idx xi, (0 <= off)%Z -> (length ds <= length xi)%nat -> (j < length ds)%nat -> InRange (counts ds) idx ->
  prodl (factors (off + Z.of_nat j) off (mlocals ds xi) idx) = dtensor_size j ds idx xi.
Proof.
  induction ds as [|d ds IH]; intros j off idx xi Ho Hl Hj Hin; [simpl in Hj; lia|].
  destruct xi as [|x xi]; [simpl in Hl; lia|].
  change (counts (d :: ds)) with (npts d :: counts ds) in Hin. apply InRange_cons in Hin. destruct Hin as (i & t & -> & Hi & Ht).
  cbn [mlocals factors lv lg fold_right dtensor_size]. destruct j as [|j].
  - destruct (Z.eqb_spec (off + Z.of_nat 0) off); [|lia]. rewrite mfactors_value by (simpl in *; lia). reflexivity.
  - destruct (Z.eqb_spec (off + Z.of_nat (S j)) off); [lia|].
    replace (off + Z.of_nat (S j))%Z with (off + 1 + Z.of_nat j)%Z by lia. rewrite IH; [reflexivity|lia|simpl in *; lia|simpl in *; lia|exact Ht].
Qed.

Lemma grids_exist specs : Forall Supported64 specs ->
  exists ds, Forall2 Grid64 specs ds /\
  forall xi, Forall InReference xi -> (length specs <= length xi)%nat ->
  exists ls, LocalsAt B64Num (map basis64 specs) xi ls /\ lcounts ls = counts ds /\
    Loc3 (pow2 100) (pow2 (-930)) ls (rlocals ds (map B2R xi)) (mlocals ds (map B2R xi)) (Psum specs).
Proof.
  induction 1 as [|so specs Hso _ IH].
  - exists []. split; [constructor|]. intros xi _ _. exists []. split; [constructor|]. split; [reflexivity|constructor].
  - destruct IH as (ds & HG & HL). destruct (grid_exists so Hso) as (d & Hd & Hloc).
    exists (d :: ds). split; [now constructor|]. intros xi Hxi Hlen.
    destruct xi as [|y xi]; [simpl in Hlen; lia|]. inversion Hxi as [|? ? Hy Hxi']; subst.
    destruct (HL xi Hxi' ltac:(simpl in Hlen; lia)) as (ls & HLs & HC & H3).
    destruct (Hloc y Hy) as (l & Hl & Hn & HA). exists (l :: ls). split; [|split].
    + cbn [map]. now constructor.
    + change (lcounts (l :: ls)) with (ln l :: lcounts ls). rewrite HC, Hn. reflexivity.
    + cbn [map rlocals mlocals Psum]. constructor; [|exact H3]. cbn [lv lg]. intros i Hi.
      destruct (HA i Hi) as (A1 & A2 & A3 & A4). auto.
Qed.

Lemma grid_counts specs ds : Forall2 Grid64 specs ds -> counts ds = sizes64 specs.
Proof. induction 1 as [|so d specs ds (H & _) _ IH]; [reflexivity|]. cbn. rewrite H. unfold counts, sizes64 in IH. rewrite IH. reflexivity. Qed.
Lemma grid_nodal specs ds : Forall2 Grid64 specs ds -> Forall Nodal ds.
Proof. induction 1 as [|so d specs ds (_ & _ & H) _ IH]; constructor; assumption. Qed.
Lemma grid_length specs ds : Forall2 Grid64 specs ds -> length ds = length specs.
Proof. induction 1; simpl; congruence. Qed.
Lemma supported_range so : Supported64 so -> (1 <= snd so <= 15)%Z.
Proof. destruct so as [[] n]; cbn; lia. Qed.
Lemma Psum_bound specs : Forall Supported64 specs -> (Psum specs <= 92 * length specs)%nat.
Proof. induction 1 as [|so specs H _ IH]; [simpl; lia|]. apply supported_range in H. cbn [Psum length]. lia. Qed.
Lemma sizes_bound specs : Forall Supported64 specs -> (0 < prodZ (sizes64 specs) <= 16 ^ Z.of_nat (length specs))%Z.
Proof.
  induction 1 as [|so specs H _ IH]; [change (0 < 1 <= 1)%Z; lia|]. apply supported_range in H.
  change (sizes64 (so :: specs)) with ((snd so + 1)%Z :: sizes64 specs). rewrite prodZ_cons.
  cbn [length]. rewrite Nat2Z.inj_succ, Z.pow_succ_r by lia. nia.
Qed.
Lemma sizes_nonneg specs : Forall Supported64 specs -> Forall (fun d => 0 <= d)%Z (sizes64 specs).
Proof. induction 1 as [|so specs H _ IH]; constructor; [apply supported_range in H; lia|exact IH]. Qed.
Lemma points_bound specs : Forall Supported64 specs -> (length specs <= 3)%nat -> (length (zbox (sizes64 specs)) <= 4096)%nat.
Proof.
  intros H Hl. pose proof (sizes_bound specs H) as [S0 S1]. pose proof (zbox_length _ (sizes_nonneg _ H)) as Z.
  assert (16 ^ Z.of_nat (length specs) <= 16 ^ 3)%Z by (apply Z.pow_le_mono_r; lia). lia.
Qed.
Lemma roundings_ok specs : Forall Supported64 specs -> (length specs <= 3)%nat ->
  Rel (S (Psum specs) + length (zbox (sizes64 specs))) <= IZR (roundings64 specs) * pow2 (-53).
Proof.
  intros H Hl. pose proof (Psum_bound specs H). pose proof (points_bound specs H Hl).
  eapply Rle_trans; [apply Rel_upper; lia|]. apply Rmult_le_compat_r; [apply bpow_ge_0|].
  rewrite INR_IZR_INZ, <- plus_IZR. apply IZR_le. unfold roundings64.
  pose proof (zbox_length _ (sizes_nonneg _ H)) as Z. change (fold_right Z.mul 1%Z) with prodZ.
  assert (P : Z.of_nat (Psum specs) = fold_right Z.add 0%Z (map (fun so => 6 * snd so + 2)%Z specs)).
  { clear - H. induction H as [|so specs H _ IH]; [reflexivity|]. apply supported_range in H. cbn [Psum map fold_right]. rewrite <- IH. lia. }
  lia.
Qed.

(** * Elements *)
Lemma element_value64 specs : specs <> [] -> (length specs <= 3)%nat -> Forall Supported64 specs ->
  exists ds, Forall2 Grid64 specs ds /\
  forall xi var w, Forall InReference xi -> (length specs <= length xi)%nat ->
  (forall t, InRange (sizes64 specs) t -> var t = Ok (w t) /\ Data64 (w t)) ->
  exists v, parent_value B64Num (Z.of_nat (length specs)) (map basis64 specs) var xi = Ok v /\ is_finite v = true /\
    Rabs (B2R v - BoxSum (counts ds) (fun t => tensor ds t (map B2R xi) * B2R (w t)))
      <= IZR (roundings64 specs) * pow2 (-53) * BoxSum (counts ds) (fun t => Rabs (tensor ds t (map B2R xi)) * Rabs (B2R (w t)))
         + pow2 (-400).
Proof.
  intros Hne Hl HS. destruct (grids_exist specs HS) as (ds & HG & HL). exists ds. split; [exact HG|].
  intros xi var w Hxi Hlen Hw. destruct (HL xi Hxi Hlen) as (ls & HLs & HC & H3).
  pose proof (grid_counts _ _ HG) as HCs. pose proof (grid_length _ _ HG) as HLd.
  assert (Lls : length ls = length specs) by (transitivity (length (map basis64 specs)); [exact (eq_sym (locals_length _ _ _ _ HLs))|apply map_length]).
  assert (Lne : ls <> []) by (intros ->; destruct specs; [congruence|discriminate]).
  pose proof (Psum_bound specs HS) as PB. pose proof (points_bound specs HS Hl) as NB.
  assert (L3 : (length ls <= 3)%nat) by lia. assert (P3 : (Psum specs <= 1000)%nat) by lia.
  pose proof (element_sum ls _ _ (Psum specs) w (-1) H3 Lne L3 P3) as ES.
  pose proof (HC : @lcounts b64 ls = counts ds) as HC64. rewrite HC64, HCs in ES. specialize (ES (fun t Ht => proj2 (Hw t Ht)) NB). destruct ES as (F & E & _).
  eexists. split; [|split; [exact F|]].
  - rewrite <- Lls. rewrite (parent_valueL B64Num (map basis64 specs) ls var w xi HLs Lne).
    + rewrite HC, HCs. reflexivity.
    + intros t Ht. rewrite HC, HCs in Ht. now apply Hw.
  - rewrite HCs.
    assert (Lm : (length ds <= length (map B2R xi))%nat) by (rewrite map_length, HLd; exact Hlen).
    rewrite (BoxSum_ext _ (fun t => tensor ds t (map B2R xi) * B2R (w t)) (fun t => prodl (factors (-1) 0 (rlocals ds (map B2R xi)) t) * B2R (w t))).
    2: { intros t Ht. rewrite factors_gvals by exact Lm. rewrite gvals_tensor by lia. reflexivity. }
    rewrite (BoxSum_ext _ (fun t => Rabs (tensor ds t (map B2R xi)) * Rabs (B2R (w t))) (fun t => prodl (factors (-1) 0 (mlocals ds (map B2R xi)) t) * Rabs (B2R (w t)))).
    2: { intros t Ht. rewrite mfactors_value by (assumption || lia). reflexivity. }
    eapply Rle_trans; [exact E|]. apply Rplus_le_compat_r. apply Rmult_le_compat_r; [|now apply roundings_ok].
    rewrite BoxSum_sumR. apply sumR_nonneg. intros t Ht.
    rewrite mfactors_value by (assumption || lia). apply Rmult_le_pos; apply Rabs_pos.
Qed.

Lemma dsize_nonneg ds : forall j idx xi, 0 <= dtensor_size j ds idx xi.
Proof.
  assert (GS : forall n x i y, 0 <= gradient_size n x i y).
  { intros n x i y. unfold gradient_size. rewrite Zsum_sumR. apply sumR_nonneg. intros a _.
    destruct (a =? i)%Z; [lra|].
    assert (0 <= / Rabs (x i - x a)).
    { destruct (Req_dec (x i - x a) 0) as [E|E]; [rewrite E, Rabs_R0, Rinv_0; lra|]. apply Rlt_le, Rinv_0_lt_compat. now apply Rabs_pos_lt. }
    apply Rmult_le_pos; [assumption|]. unfold Zprod. rewrite prodR_list.
    induction (zseq (Z.to_nat n)) as [|k l IH]; [unfold prodR; cbn; lra|]. rewrite prodR_cons. apply Rmult_le_pos; [|exact IH].
    destruct (_ || _); [lra|apply Rabs_pos]. }
  induction ds as [|d ds IH]; intros j idx xi; [cbn; lra|].
  destruct idx as [|i idx]; [cbn; destruct j; lra|]. destruct xi as [|x xi]; [cbn; destruct j; lra|].
  destruct j as [|j]; cbn [dtensor_size]; apply Rmult_le_pos; auto using Rabs_pos.
Qed.

Section Der.
Context (specs : list (spacing * Z)) (ds : list direction) (ls : list (local b64)) (xi : list b64) (w : list Z -> b64) (j : nat).
Context (Hne : specs <> []) (Hl : (length specs <= 3)%nat) (HS : Forall Supported64 specs) (HG : Forall2 Grid64 specs ds).
Context (Hlen : (length specs <= length xi)%nat) (Hj : (j < length specs)%nat).
Context (HLs : LocalsAt B64Num (map basis64 specs) xi ls) (HC : lcounts ls = counts ds).
Context (H3 : Loc3 (pow2 100) (pow2 (-930)) ls (rlocals ds (map B2R xi)) (mlocals ds (map B2R xi)) (Psum specs)).
Context (Hw : forall t, InRange (sizes64 specs) t -> Data64 (w t)).

Lemma der_sum : exists D,
  Partial (fun p => BoxSum (counts ds) (fun t => tensor ds t p * B2R (w t))) j (map B2R xi) D /\
  is_finite (addL (N := B64Num) (fun t => Bmult mode_NE (tder (N := B64Num) j ls t) (w t)) (zbox (lcounts ls)) (b64_ofZ 0)) = true /\
  Rabs (B2R (addL (N := B64Num) (fun t => Bmult mode_NE (tder (N := B64Num) j ls t) (w t)) (zbox (lcounts ls)) (b64_ofZ 0)) - D)
    <= IZR (roundings64 specs) * pow2 (-53) * BoxSum (counts ds) (fun t => dtensor_size j ds t (map B2R xi) * Rabs (B2R (w t)))
       + pow2 (-400) /\
  Rabs D <= BoxSum (counts ds) (fun t => dtensor_size j ds t (map B2R xi) * Rabs (B2R (w t))).
Proof.
  pose proof (grid_counts _ _ HG) as HCs. pose proof (grid_length _ _ HG) as HLd.
  assert (Lls : length ls = length specs) by (transitivity (length (map basis64 specs)); [exact (eq_sym (locals_length _ _ _ _ HLs))|apply map_length]).
  assert (Lne : ls <> []) by (intros E; rewrite E in Lls; destruct specs; [congruence|discriminate]).
  pose proof (Psum_bound specs HS) as PB. pose proof (points_bound specs HS Hl) as NB.
  assert (L3 : (length ls <= 3)%nat) by lia. assert (P3 : (Psum specs <= 1000)%nat) by lia.
  pose proof (element_sum ls _ _ (Psum specs) w (Z.of_nat j) H3 Lne L3 P3) as ES.
  pose proof (HC : @lcounts b64 ls = counts ds) as HC64. rewrite HC64, HCs in ES. specialize (ES Hw NB). destruct ES as (F & E & EB & _).
  assert (Lm : (length ds <= length (map B2R xi))%nat) by (rewrite map_length, HLd; exact Hlen).
  exists (dinterp j ds (fun t => B2R (w t)) (map B2R xi)). split; [|split].
  - apply (interp_partial ds (fun t => B2R (w t)) j (map B2R xi)); [|exact Lm|lia].
    apply Nodal_Differentiates. now apply (grid_nodal specs).
  - rewrite HC, HCs. exact F.
  - rewrite HC, HCs. unfold dinterp. rewrite HCs.
    rewrite (BoxSum_ext _ (fun t => dtensor j ds t (map B2R xi) * B2R (w t)) (fun t => prodl (factors (Z.of_nat j) 0 (rlocals ds (map B2R xi)) t) * B2R (w t))).
    2: { intros t Ht. rewrite factors_gvals by exact Lm. rewrite <- (gvals_dtensor ds j 0 t (map B2R xi)); [rewrite Z.add_0_l; reflexivity|now rewrite HCs|exact Lm|lia]. }
    rewrite (BoxSum_ext _ (fun t => dtensor_size j ds t (map B2R xi) * Rabs (B2R (w t))) (fun t => prodl (factors (Z.of_nat j) 0 (mlocals ds (map B2R xi)) t) * Rabs (B2R (w t)))).
    2: { intros t Ht. rewrite <- (mfactors_der ds j 0 t (map B2R xi)); [rewrite Z.add_0_l; reflexivity|lia|exact Lm|lia|now rewrite HCs]. }
    split; [|exact EB].
    eapply Rle_trans; [exact E|]. apply Rplus_le_compat_r. apply Rmult_le_compat_r; [|now apply roundings_ok].
    rewrite BoxSum_sumR. apply sumR_nonneg. intros t Ht. apply in_zbox in Ht.
    pose proof (mfactors_der ds j 0 t (map B2R xi)) as M. rewrite Z.add_0_l in M.
    rewrite M; [|lia|exact Lm|lia|now rewrite HCs]. apply Rmult_le_pos; [apply dsize_nonneg|apply Rabs_pos].
Qed.
End Der.

Lemma element_gradient64 c specs : specs <> [] -> (length specs <= 3)%nat -> Forall Supported64 specs ->
  exists ds, Forall2 Grid64 specs ds /\
  forall xi var w, Forall InReference xi -> (length specs <= length xi)%nat ->
  (forall t, InRange (sizes64 specs) t -> var t = Ok (w t) /\ Data64 (w t)) ->
  exists g, parent_gradient B64Num c (Z.of_nat (length specs)) (map basis64 specs) var xi = Ok g /\ length g = length specs /\
    forall j, (j < length specs)%nat -> exists D,
      Partial (fun p => BoxSum (counts ds) (fun t => tensor ds t p * B2R (w t))) j (map B2R xi) D /\
      is_finite (nth j g (b64_ofZ 0)) = true /\
      Rabs (B2R (nth j g (b64_ofZ 0)) - D)
      <= IZR (roundings64 specs) * pow2 (-53) * BoxSum (counts ds) (fun t => dtensor_size j ds t (map B2R xi) * Rabs (B2R (w t)))
         + pow2 (-400).
Proof.
  intros Hne Hl HS. destruct (grids_exist specs HS) as (ds & HG & HL). exists ds. split; [exact HG|].
  intros xi var w Hxi Hlen Hw. destruct (HL xi Hxi Hlen) as (ls & HLs & HC & H3).
  pose proof (grid_counts _ _ HG) as HCs.
  assert (Lls : length ls = length specs) by (transitivity (length (map basis64 specs)); [exact (eq_sym (locals_length _ _ _ _ HLs))|apply map_length]).
  assert (Lne : ls <> []) by (intros ->; destruct specs; [congruence|discriminate]).
  destruct (parent_gradientL B64Num c (map basis64 specs) ls var w xi HLs Lne) as (g & Eg & Lg & Hg).
  - unfold INT_MAX. lia.
  - intros t Ht. rewrite HC, HCs in Ht. now apply Hw.
  - exists g. rewrite Lls in *. split; [exact Eg|]. split; [exact Lg|]. intros j Hj.
    destruct (der_sum specs ds ls xi w j Hne Hl HS HG Hlen Hj HLs HC H3 (fun t Ht => proj2 (Hw t Ht))) as (D & HD & F & E & _).
    exists D. split; [exact HD|]. pose proof (Hg j Hj) as N. cbn [nofZ B64Num] in N. rewrite N. split; [exact F|exact E].
Qed.

Lemma jacobian64_sizes c specs : specs <> [] -> (length specs <= 3)%nat -> Forall Supported64 specs ->
  exists ds, Forall2 Grid64 specs ds /\
  forall xi mem X, Forall InReference xi -> length xi = 3%nat ->
  Holds (owning (sizes64 specs ++ [Z.of_nat (length specs)])) mem X ->
  (forall t i, InRange (sizes64 specs) t -> (0 <= i < Z.of_nat (length specs))%Z -> Data64 (X (t ++ [i]))) ->
  exists J Jm, jacobian_wrapper B64Num c (Z.of_nat (length specs)) (map basis64 specs) mem xi = Ok J /\
    Holds (owning [Z.of_nat (length specs); Z.of_nat (length specs)]) J Jm /\
    forall i j, (0 <= i < Z.of_nat (length specs))%Z -> (j < length specs)%nat -> exists D,
      Partial (fun p => BoxSum (counts ds) (fun t => tensor ds t p * B2R (X (t ++ [i])))) j (map B2R xi) D /\
      is_finite (Jm [i; Z.of_nat j]) = true /\
      Rabs (B2R (Jm [i; Z.of_nat j]) - D)
      <= IZR (roundings64 specs) * pow2 (-53) * BoxSum (counts ds) (fun t => dtensor_size j ds t (map B2R xi) * Rabs (B2R (X (t ++ [i]))))
         + pow2 (-400) /\
      Rabs D <= BoxSum (counts ds) (fun t => dtensor_size j ds t (map B2R xi) * Rabs (B2R (X (t ++ [i])))).
Proof.
  intros Hne Hl HS. destruct (grids_exist specs HS) as (ds & HG & HL). exists ds. split; [exact HG|].
  intros xi mem X Hxi Hx3 HX HD. destruct (HL xi Hxi ltac:(lia)) as (ls & HLs & HC & H3).
  pose proof (grid_counts _ _ HG) as HCs.
  assert (Lls : length ls = length specs) by (transitivity (length (map basis64 specs)); [exact (eq_sym (locals_length _ _ _ _ HLs))|apply map_length]).
  assert (Lne : ls <> []) by (intros ->; destruct specs; [congruence|discriminate]).
  destruct (jacobian_wrapperL B64Num c (map basis64 specs) ls mem X xi HLs Lne Hx3) as (J & EJ & _ & HJ).
  - rewrite HC, HCs, Lls. exact HX.
  - exists J, (fun t => addL (N := B64Num) (fun sp => contribL ls X sp t) (zbox (lcounts ls)) (nofZ B64Num 0)).
    rewrite Lls in *. split; [exact EJ|]. split; [exact HJ|]. intros i j Hi Hj.
    destruct (der_sum specs ds ls xi (fun t => X (t ++ [i])) j Hne Hl HS HG ltac:(lia) Hj HLs HC H3 (fun t Ht => HD t i Ht Hi)) as (D & HDD & F & E & EB).
    exists D. split; [exact HDD|].
    assert (EQ : addL (N := B64Num) (fun sp => contribL ls X sp [i; Z.of_nat j]) (zbox (lcounts ls)) (nofZ B64Num 0) =
      addL (N := B64Num) (fun t => Bmult mode_NE (tder (N := B64Num) j ls t) (X (t ++ [i]))) (zbox (lcounts ls)) (b64_ofZ 0)).
    { unfold contribL. cbn [nth]. rewrite Nat2Z.id. reflexivity. }
    rewrite EQ. split; [exact F|split; [exact E|exact EB]].
Qed.

Lemma jacobian64 c specs : specs <> [] -> (length specs <= 3)%nat -> Forall Supported64 specs ->
  exists ds, Forall2 Grid64 specs ds /\
  forall xi mem X, Forall InReference xi -> length xi = 3%nat ->
  Holds (owning (sizes64 specs ++ [Z.of_nat (length specs)])) mem X ->
  (forall t i, InRange (sizes64 specs) t -> (0 <= i < Z.of_nat (length specs))%Z -> Data64 (X (t ++ [i]))) ->
  exists J Jm, jacobian_wrapper B64Num c (Z.of_nat (length specs)) (map basis64 specs) mem xi = Ok J /\
    Holds (owning [Z.of_nat (length specs); Z.of_nat (length specs)]) J Jm /\
    forall i j, (0 <= i < Z.of_nat (length specs))%Z -> (j < length specs)%nat -> exists D,
      Partial (fun p => BoxSum (counts ds) (fun t => tensor ds t p * B2R (X (t ++ [i])))) j (map B2R xi) D /\
      is_finite (Jm [i; Z.of_nat j]) = true /\
      Rabs (B2R (Jm [i; Z.of_nat j]) - D)
      <= IZR (roundings64 specs) * pow2 (-53) * BoxSum (counts ds) (fun t => dtensor_size j ds t (map B2R xi) * Rabs (B2R (X (t ++ [i]))))
         + pow2 (-400).
Proof.
  intros Hne Hl HS. destruct (jacobian64_sizes c specs Hne Hl HS) as (ds & HG & H). exists ds. split; [exact HG|].
  intros xi mem X Hxi Hx HX HD. destruct (H xi mem X Hxi Hx HX HD) as (J & Jm & E & HJ & HE). exists J, Jm.
  split; [exact E|]. split; [exact HJ|]. intros i j Hi Hj. destruct (HE i j Hi Hj) as (D & HP & F & HB & _). exists D. auto.
Qed.

(** Constant fields. *)
Lemma element_constant64 specs : specs <> [] -> (length specs <= 3)%nat -> Forall Supported64 specs ->
  exists ds, Forall2 Grid64 specs ds /\
  forall xi var k, Forall InReference xi -> (length specs <= length xi)%nat -> Data64 k ->
  (forall t, InRange (sizes64 specs) t -> var t = Ok k) ->
  exists v, parent_value B64Num (Z.of_nat (length specs)) (map basis64 specs) var xi = Ok v /\ is_finite v = true /\
    Rabs (B2R v - B2R k)
      <= IZR (roundings64 specs) * pow2 (-53) * BoxSum (counts ds) (fun t => Rabs (tensor ds t (map B2R xi))) * Rabs (B2R k) + pow2 (-400).
Proof.
  intros Hne Hl HS. destruct (element_value64 specs Hne Hl HS) as (ds & HG & H). exists ds. split; [exact HG|].
  intros xi var k Hxi Hlen Hk Hv. destruct (H xi var (fun _ => k) Hxi Hlen (fun t Ht => conj (Hv t Ht) Hk)) as (v & Ev & F & E).
  exists v. split; [exact Ev|]. split; [exact F|]. rewrite !BoxSum_scal_r in E.
  rewrite tensor_unity in E; [|now apply (grid_nodal specs)|rewrite map_length, (grid_length _ _ HG); exact Hlen].
  rewrite Rmult_1_l in E. rewrite Rmult_assoc. exact E.
Qed.

Definition demo : list (spacing * Z) := [(EqualSpacing, 1%Z); (GaussLobattoSpacing, 3%Z)].
Lemma demo_ok : demo <> [] /\ (length demo <= 3)%nat /\ Forall Supported64 demo /\
  Forall InReference [b64_lit 5 1; b64_ofZ 0] /\ Data64 (b64_ofZ 7).
Proof.
  split; [discriminate|]. split; [cbn; lia|]. split; [|split].
  - repeat constructor; cbn; lia.
  - constructor; [apply half_reference|]. constructor; [|constructor].
    destruct (b64_ofZ_exact 0 ltac:(lia)) as [F E]. split; [exact F|]. rewrite E, Rabs_R0. lra.
  - destruct (b64_ofZ_exact 7 ltac:(lia)) as [F E]. split; [exact F|]. rewrite E, Rabs_pos_eq by lra.
    apply Rle_trans with (pow2 3); [change (pow2 3) with 8; lra|apply bpow_le; lia].
Qed.
Lemma demo_value : exists v, parent_value B64Num 2 (map basis64 demo) (fun t => Ok (b64_ofZ (nth 0 t 0%Z))) [b64_lit 5 1; b64_ofZ 0] = Ok v /\
  IsNum v (3 / 4).
Proof.
  destruct (fix60_ok (parent_value B64Num 2 (map basis64 demo) (fun t => Ok (b64_ofZ (nth 0 t 0%Z))) [b64_lit 5 1; b64_ofZ 0])
    864691128455135232) as (v & E & F & R); [vm_compute; reflexivity|].
  exists v. split; [exact E|]. split; [exact F|]. rewrite R. change (pow2 (-60)) with (/ 1152921504606846976). lra.
Qed.
