(** Accuracy of tensor-product elements and Jacobians in floats with contraction. *)
From Coq Require Import ZArith Reals Bool List Lia Lra Psatz.
From Flocq Require Import Core IEEE754.BinarySingleNaN.
From Verif Require Import Base ProofBase Num ModelB64 ModelF32 ModelFma ModelFma32 SpecF32 SpecIndex ProofBox ModelSequence ModelAssert ModelCArray SpecCArray ModelSpacing
  ModelLagrange ModelBasisProduct ModelMath ModelTransforms SpecNumeric SpecBasis SpecMath SpecAccuracy SpecAccuracy32 SpecElement64 SpecElement32 SpecFma32
  ProofPoly ProofLagrange ProofTensor ProofF32 ProofErr32 ProofErrFma32 ProofLagrange32 ProofNodes32 ProofGeneric ProofSum32 ProofSumFma32
  ProofGrad32 ProofGradFma32 ProofElement32.
Local Open Scope R_scope.

Definition clocal (l : local cfloat) : local b32 := {| ln := ln l; lv := fun i => cfval (lv l i); lg := fun i => cfval (lg l i) |}.
Lemma lcounts_clocal ls : lcounts (map clocal ls) = lcounts ls.
Proof. unfold lcounts. rewrite map_map. reflexivity. Qed.
Lemma factors_clocal ls : forall G off t, factors G off (map clocal ls) t = map cfval (factors G off ls t).
Proof.
  induction ls as [|l ls IH]; intros G off t; [reflexivity|]. destruct t as [|i t]; [reflexivity|].
  cbn [map factors]. rewrite IH. destruct (G =? off)%Z; reflexivity.
Qed.
Lemma map_creal xi : map freal xi = map B2R (map cfval xi).
Proof. rewrite map_map. reflexivity. Qed.

Section C.
Context (c : contraction32).
Lemma addL_plain {B} (f : B -> cfloat) l : forall acc, Plain32 acc -> Plain32 (addL (N := FmaNum32 c) f l acc).
Proof. induction l as [|t l IH]; intros acc H; [exact H|]. apply (IH (cfadd c acc (f t))). reflexivity. Qed.

Section Sum.
Context (ls : list (local cfloat)) (rs ms : list (local R)) (P : nat) (w : list Z -> cfloat) (G : Z).
Context (H3 : Loc3 (pow2 13) (pow2 (-124)) (map clocal ls) rs ms P) (Hne : ls <> []) (Hl : (length ls <= 3)%nat) (HP : (P <= 100)%nat).
Context (Hw : forall t, InRange (lcounts ls) t -> FData (w t)) (Hn : (length (zbox (lcounts ls)) <= 64)%nat).
Let f := fun t => cfmul (mulR (N := FmaNum32 c) (factors G 0 ls t)) (w t).
Let r := fun t => prodl (factors G 0 rs t) * CR (w t).
Let A := fun t => prodl (factors G 0 ms t) * Rabs (CR (w t)).

Lemma summandE t : InRange (lcounts ls) t -> Fpw (f t) (r t) (A t) (S P) (3 * pow2 (-72)) /\ A t <= pow2 59.
Proof.
  intros Ht. destruct (Hw t Ht) as [Pw [Fw Bw]].
  pose proof (factors_facs _ _ _ _ _ _ H3 G 0 t ltac:(rewrite lcounts_clocal; exact Ht)) as HF.
  assert (Len : length (factors G 0 (map clocal ls) t) = length ls).
  { rewrite factors_clocal, map_length. apply (factors_length (FmaNum32 c)). exact Ht. }
  assert (E8 : 8 * pow2 13 = pow2 16) by (rewrite (pow2_split 3 13 16 eq_refl); reflexivity).
  assert (a1 : 1 <= pow2 13) by (change 1 with (pow2 0); apply bpow_le; lia).
  pose proof (apw_mulR (pow2 13) (pow2 (-124)) 48 _ _ _ P a1 ltac:(apply bpow_le; lia)
    ltac:(change 1 with (pow2 0); apply bpow_le; lia) ltac:(lia) ltac:(lia) HF) as M.
  pose proof (facs_prod _ _ _ _ _ _ a1 HF) as [Q0 Q1]. rewrite Len, E8, !pow2_pow in *.
  specialize (M ltac:(intros E; rewrite E in Len; destruct ls; [congruence|discriminate]) ltac:(apply bpow_le; lia)).
  rewrite factors_clocal, <- (cval_mulR c) in M. set (v := mulR (N := FmaNum32 c) (factors G 0 ls t)) in *. set (Q := prodl (factors G 0 ms t)) in *.
  assert (L1 : (1 <= length ls)%nat) by (destruct ls; [congruence|simpl; lia]).
  assert (Q3 : Q <= pow2 39) by (eapply Rle_trans; [exact Q1|]; apply bpow_le; lia).
  assert (E1 : pow2 (16 * Z.of_nat (length ls - 1)) * pow2 (-124) <= pow2 (-92)).
  { rewrite <- bpow_plus. apply bpow_le. lia. }
  assert (M' : Apw (cfval v) (prodl (factors G 0 rs t)) Q P (pow2 (-92))) by (eapply apw_weaken; [exact M|lra|lia|exact E1]).
  assert (P39 : 1 <= pow2 39) by (change 1 with (pow2 0); apply bpow_le; lia).
  assert (P20 : 1 <= pow2 20) by (change 1 with (pow2 0); apply bpow_le; lia).
  assert (T0 : pow2 (-92) <= 1) by (change 1 with (pow2 0); apply bpow_le; lia).
  pose proof (bpow_gt_0 radix2 (-92)) as T1. pose proof (Rabs_pos (CR (w t))) as W0.
  split.
  - eapply fpw_weaken; [apply (fpw_mult v (w t) _ _ _ _ _ _ _ _ 61 M' (apw_exact _ 0 Fw))|apply Rle_refl|lia|].
    + lia. + lia. + lia.
    + rewrite Rplus_0_r. rewrite (pow2_split 2 59 61 eq_refl), (pow2_split 39 20 59 eq_refl). change (pow2 2) with 4.
      set (B := pow2 39) in *. set (W := pow2 20) in *.
      apply Rle_trans with ((5 / 4 * B + 1) * (5 / 4 * W)); [apply Rmult_le_compat; lra|]. assert (1 * W <= B * W) by (apply Rmult_le_compat_r; lra). lra.
    + rewrite !Rmult_0_r, Rplus_0_l, Rplus_0_r.
      apply Rle_trans with (2 * (pow2 20 * pow2 (-92)) + eta).
      * apply Rplus_le_compat_r. apply Rmult_le_compat_l; [lra|]. apply Rmult_le_compat_r; lra.
      * rewrite <- bpow_plus. assert (eta <= pow2 (20 + -92)) by (apply bpow_le; lia).
        change (20 + -92)%Z with (-72)%Z in *. lra.
  - unfold A. fold Q. rewrite (pow2_split 39 20 59 eq_refl). apply Rmult_le_compat; lra.
Qed.

Lemma element_sumC :
  Fpw (addL (N := FmaNum32 c) f (zbox (lcounts ls)) (plain32 (b32_ofZ 0))) (BoxSum (lcounts ls) r) (BoxSum (lcounts ls) A)
    (S P + length (zbox (lcounts ls))) (pow2 (-64)).
Proof.
  rewrite !BoxSum_sumR. set (l := zbox (lcounts ls)) in *.
  assert (HS : forall t, In t l -> Fpw (f t) (r t) (A t) (S P) (3 * pow2 (-72)) /\ A t <= pow2 59).
  { intros t Ht. apply summandE. now apply in_zbox. }
  assert (H0 : Fpw (plain32 (b32_ofZ 0)) 0 0 (S P + 0) 0).
  { destruct (b32_ofZ_exact 0 ltac:(lia)) as [F0 E0]. pose proof (fpw_exact (plain32 (b32_ofZ 0)) (S P + 0) eq_refl F0) as H. cbn [plain32 given32 cfval] in H. rewrite E0, Rabs_R0 in H. exact H. }
  assert (N1 : 0 <= INR (length l) <= pow2 6).
  { split; [apply pos_INR|]. rewrite INR_IZR_INZ. change (pow2 6) with (IZR 64). apply IZR_le. lia. }
  assert (PW : 0 < (1 + u) ^ length l <= 5 / 4).
  { split; [apply pow_lt; pose proof u_pos; lra|]. pose proof (Rel_small (length l) ltac:(lia)) as R. unfold Rel in R. lra. }
  assert (EB : (1 + u) ^ length l * (0 + INR (length l) * (25 / 8 * pow2 (-72))) <= pow2 (-64)).
  { rewrite Rplus_0_l. apply Rle_trans with (5 / 4 * (pow2 6 * (25 / 8 * pow2 (-72)))).
    - pose proof (bpow_gt_0 radix2 (-72)). apply Rmult_le_compat; [lra|apply Rmult_le_pos; lra|lra|]. apply Rmult_le_compat_r; lra.
    - rewrite (pow2_split 2 (-66) (-64) eq_refl), (pow2_split 6 (-72) (-66) eq_refl). change (pow2 2) with 4.
      pose proof (Rmult_lt_0_compat _ _ (bpow_gt_0 radix2 6) (bpow_gt_0 radix2 (-72))). lra. }
  assert (Hd : 3 * pow2 (-72) + eta <= (25 / 8 * pow2 (-72))).
  { assert (eta <= pow2 (-75)) by (apply bpow_le; lia). rewrite (pow2_split 3 (-75) (-72) eq_refl). change (pow2 3) with 8. pose proof (bpow_gt_0 radix2 (-75)). lra. }
  pose proof (fpw_addL c f r A (S P) (3 * pow2 (-72)) (25 / 8 * pow2 (-72)) Hd 100 ltac:(lia) l 0 (plain32 (b32_ofZ 0)) 0 0 0 H0 (fun t Ht => proj1 (HS t Ht))) as M.
  rewrite !Rplus_0_l, Nat.add_0_r in M. rewrite Rplus_0_l in EB.
  eapply fpw_weaken; [apply M|lra|lia|exact EB].
  assert (SA0 : 0 <= sumR A l).
  { apply sumR_nonneg. intros t Ht. exact (proj1 (fap_nonneg _ _ _ _ _ (proj1 (HS t Ht)))). }
  assert (SA : sumR A l <= pow2 65).
  { eapply Rle_trans; [apply (sumR_bound A (pow2 59)); intros t Ht; now apply HS|].
    rewrite (pow2_split 6 59 65 eq_refl). apply Rmult_le_compat_r; [apply bpow_ge_0|lra]. }
  pose proof (Rel_small (S P + length l) ltac:(lia)) as R. pose proof (Rel_nonneg (S P + length l)) as R0.
  assert (X1 : (1 + Rel (S P + length l)) * sumR A l <= 5 / 4 * pow2 65) by (apply Rmult_le_compat; lra).
  assert (X2 : pow2 (-64) <= pow2 65) by (apply bpow_le; lia).
  assert (X3 : 4 * pow2 65 <= pow2 100) by (change 4 with (pow2 2); rewrite <- bpow_plus; apply bpow_le; lia).
  pose proof (bpow_gt_0 radix2 65). lra.
Qed.
End Sum.

(** * Bundled bases *)
Lemma grid_existsC so : Supported32 so ->
  exists d, Grid32 so d /\
  forall y, FReference y -> exists l, LocalAt (FmaNum32 c) (basisC32 c so) y l /\ ln l = npts d /\
    forall i, (0 <= i < ln l)%Z ->
      Apw (cfval (lv l i)) (fval d i (freal y)) (Rabs (fval d i (freal y))) (Z.to_nat (6 * snd so + 1)) (pow2 (-124)) /\
      Rabs (fval d i (freal y)) <= pow2 13 /\
      Apw (cfval (lg l i)) (fder d i (freal y)) (gradient_size (npts d) (pt d) i (freal y)) (Z.to_nat (6 * snd so + 1)) (pow2 (-124)) /\
      gradient_size (npts d) (pt d) i (freal y) <= pow2 13.
Proof.
  intros O1. destruct so as [s ORDER]. unfold Supported32 in O1. cbn [fst snd] in *.
  assert (HO : (0 <= ORDER < INT_MAX)%Z) by (unfold INT_MAX; lia).
  destruct (few_nodes32 s ORDER O1) as (x & HP & [Hf Hsep]). set (X := fun k => B2R (x k)).
  set (coordinate := fun i => n <- nSupport ORDER ;; coord_ct32 s n i).
  assert (Hp : forall k, (0 <= k < ORDER + 1)%Z -> coordinate k = Ok (x k)).
  { intros k Hk. unfold coordinate. rewrite LagrangeBasis_coordinate by exact HO. now apply HP. }
  set (coordC := fun i => n <- nSupport ORDER ;; x <- coord_ct32 s n i ;; Ok (plain32 x)).
  assert (HpC : forall k, (0 <= k < ORDER + 1)%Z -> coordC k = Ok (plain32 (x k))).
  { intros k Hk. pose proof (Hp k Hk) as E. unfold coordC, coordinate in *. destruct (nSupport ORDER) as [n| | | |]; try discriminate.
    cbn [bind] in *. rewrite E. reflexivity. }
  assert (EBC : basisC32 c (s, ORDER) = lagrange_of (FmaNum32 c) ORDER coordC).
  { reflexivity. }
  assert (Hd : Distinct (ORDER + 1) X).
  { intros a b Ha Hb' E. destruct (Z.eq_dec a b) as [|Hne]; [assumption|].
    pose proof (Hsep a b Ha Hb' Hne) as S. unfold X in E. rewrite E in S.
    rewrite Rminus_diag_eq, Rabs_R0 in S by reflexivity. pose proof (bpow_gt_0 radix2 (- (1))). lra. }
  destruct (lagrange_basis_lemma ORDER (fun k => Ok (X k)) X HO (fun k _ => eq_refl) Hd) as (Vr & Gr & HB).
  exists {| npts := ORDER + 1; pt := X; fval := lval1 ORDER X; fder := lgrad1 ORDER X |}.
  split.
  - split; [reflexivity|]. split; [exists x; split; [exact HP|reflexivity]|]. exact HB.
  - intros y (Py & Fy & By). unfold freal. rewrite EBC.
    exists {| ln := ORDER + 1; lv := fun i => valC c ORDER x i y; lg := fun i => gradC c ORDER x i y |}.
    split; [|split; [reflexivity|]].
    + split; [apply nSupport_ok; exact HO|]. split; [cbn [ln]; lia|]. cbn [ln lv lg]. intros i Hi. split.
      * now apply (valueC c ORDER 1 coordC x).
      * apply (gradientC c ORDER 1 coordC x); assumption || lia.
    + cbn [ln lv lg npts pt fval fder]. intros i Hi. split; [|split; [|split]].
      * rewrite cval_valC by exact Py.
        destruct (accuracy32_lemma ORDER 1 coordinate x i (cfval y) HO ltac:(lia) ltac:(lia) Hp (conj Hf Hsep) Hi (conj Fy By))
          as (v & phi & Ev & Ep & F & B).
        rewrite (lagrange_value32 ORDER 1 coordinate x HO ltac:(lia) Hp Hf Hsep i (cfval y) Hi) in Ev.
        cbn [bvalue lagrange_of] in Ep. fold X in Ep. rewrite Vr in Ep by exact Hi.
        assert (J : forall (U : Type) (a b : U), Ok a = Ok b -> a = b) by (intros U a b J; now injection J).
        apply J in Ev. apply J in Ep. subst v phi.
        split; [exact F|]. split; [|split; [apply Rle_refl|split; [apply Rel_nonneg|apply bpow_ge_0]]].
        eapply Rle_trans; [exact B|]. apply Rplus_le_compat; [|apply bpow_le; lia].
        apply Rmult_le_compat_r; [apply Rabs_pos|]. eapply Rle_trans; [|apply Rel_lower].
        apply Rmult_le_compat_r; [pose proof u_pos; lra|]. rewrite INR_IZR_INZ, Z2Nat.id by lia.
        rewrite <- mult_IZR. apply IZR_le. lia.
      * unfold lval1. rewrite prodR_abs. eapply Rle_trans; [apply prodR_bound|].
        -- intros k Hk. apply in_zseq in Hk. split; [apply Rabs_pos|].
           apply (term_bound ORDER 1 coordinate x); try assumption; lia.
        -- rewrite pow2_pow, zseq_length. apply bpow_le. lia.
      * pose proof (fap_app _ _ _ _ _ (gradient_fpw c ORDER 1 coordC x HO ltac:(lia) HpC Hf Hsep ltac:(lia) i y Hi Py (conj Fy By))) as GA.
        rewrite (gmag_size ORDER 1 coordinate x) in GA by (assumption || lia).
        eapply apw_weaken; [exact GA|apply Rle_refl|lia|apply bpow_le; lia].
      * rewrite <- (gmag_size ORDER 1 coordinate x) by (assumption || lia).
        eapply Rle_trans; [apply (gmag_bound ORDER 1 coordinate x); assumption || lia|apply bpow_le; lia].
Qed.

Lemma grids_existC specs : Forall Supported32 specs ->
  exists ds, Forall2 Grid32 specs ds /\
  forall xi, Forall FReference xi -> (length specs <= length xi)%nat ->
  exists ls, LocalsAt (FmaNum32 c) (map (basisC32 c) specs) xi ls /\ lcounts ls = counts ds /\
    Loc3 (pow2 13) (pow2 (-124)) (map clocal ls) (rlocals ds (map freal xi)) (mlocals ds (map freal xi)) (Psum specs).
Proof.
  induction 1 as [|so specs Hso _ IH].
  - exists []. split; [constructor|]. intros xi _ _. exists []. split; [constructor|]. split; [reflexivity|constructor].
  - destruct IH as (ds & HG & HL). destruct (grid_existsC so Hso) as (d & Hd & Hloc).
    exists (d :: ds). split; [now constructor|]. intros xi Hxi Hlen.
    destruct xi as [|y xi]; [simpl in Hlen; lia|]. inversion Hxi as [|? ? Hy Hxi']; subst.
    destruct (HL xi Hxi' ltac:(simpl in Hlen; lia)) as (ls & HLs & HC & H3).
    destruct (Hloc y Hy) as (l & Hl & Hn & HA). exists (l :: ls). split; [|split].
    + cbn [map]. now constructor.
    + change (lcounts (l :: ls)) with (ln l :: lcounts ls). rewrite HC, Hn. reflexivity.
    + cbn [map rlocals mlocals Psum]. constructor; [|exact H3]. cbn [lv lg ln clocal]. intros i Hi.
      destruct (HA i Hi) as (A1 & A2 & A3 & A4). auto.
Qed.

(** * Elements *)
Lemma element_valueC specs : specs <> [] -> (length specs <= 3)%nat -> Forall Supported32 specs ->
  exists ds, Forall2 Grid32 specs ds /\
  forall xi var w, Forall FReference xi -> (length specs <= length xi)%nat ->
  (forall t, InRange (sizes64 specs) t -> var t = Ok (w t) /\ FData (w t)) ->
  exists v, parent_value (FmaNum32 c) (Z.of_nat (length specs)) (map (basisC32 c) specs) var xi = Ok v /\ FFinite v /\
    Rabs (freal v - BoxSum (counts ds) (fun t => tensor ds t (map freal xi) * freal (w t)))
      <= IZR (roundings64 specs) * pow2 (-24) * BoxSum (counts ds) (fun t => Rabs (tensor ds t (map freal xi)) * Rabs (freal (w t)))
         + pow2 (-64).
Proof.
  intros Hne Hl HS. destruct (grids_existC specs HS) as (ds & HG & HL). exists ds. split; [exact HG|].
  intros xi var w Hxi Hlen Hw. destruct (HL xi Hxi Hlen) as (ls & HLs & HC & H3).
  pose proof (grid_counts _ _ HG) as HCs. pose proof (grid_length _ _ HG) as HLd.
  assert (Lls : length ls = length specs) by (transitivity (length (map (basisC32 c) specs)); [exact (eq_sym (locals_length _ _ _ _ HLs))|apply map_length]).
  assert (Lne : ls <> []) by (intros ->; destruct specs; [congruence|discriminate]).
  pose proof (Psum_bound specs HS) as PB. pose proof (points_bound specs HS Hl) as NB.
  assert (L3 : (length ls <= 3)%nat) by lia. assert (P3 : (Psum specs <= 100)%nat) by lia.
  pose proof (element_sumC ls _ _ (Psum specs) w (-1) H3 Lne L3 P3) as ES.
  pose proof (HC : @lcounts cfloat ls = counts ds) as HC32. rewrite HC32, HCs in ES. specialize (ES (fun t Ht => proj2 (Hw t Ht)) NB). destruct (fap_app _ _ _ _ _ ES) as (F & E & _).
  eexists. split; [|split; [exact F|]].
  - rewrite <- Lls. rewrite (parent_valueL (FmaNum32 c) (map (basisC32 c) specs) ls var w xi HLs Lne).
    + rewrite HC, HCs. reflexivity.
    + intros t Ht. rewrite HC, HCs in Ht. now apply Hw.
  - rewrite HCs.
    assert (Lm : (length ds <= length (map freal xi))%nat) by (rewrite map_length, HLd; exact Hlen).
    rewrite (BoxSum_ext _ (fun t => tensor ds t (map freal xi) * freal (w t)) (fun t => prodl (factors (-1) 0 (rlocals ds (map freal xi)) t) * freal (w t))).
    2: { intros t Ht. rewrite factors_gvals by exact Lm. rewrite gvals_tensor by lia. reflexivity. }
    rewrite (BoxSum_ext _ (fun t => Rabs (tensor ds t (map freal xi)) * Rabs (freal (w t))) (fun t => prodl (factors (-1) 0 (mlocals ds (map freal xi)) t) * Rabs (freal (w t)))).
    2: { intros t Ht. rewrite mfactors_value by (assumption || lia). reflexivity. }
    eapply Rle_trans; [exact E|]. apply Rplus_le_compat_r. apply Rmult_le_compat_r; [|now apply roundings_ok].
    rewrite BoxSum_sumR. apply sumR_nonneg. intros t Ht.
    rewrite mfactors_value by (assumption || lia). apply Rmult_le_pos; apply Rabs_pos.
Qed.

Section Der.
Context (specs : list (spacing * Z)) (ds : list direction) (ls : list (local cfloat)) (xi : list cfloat) (w : list Z -> cfloat) (j : nat).
Context (Hne : specs <> []) (Hl : (length specs <= 3)%nat) (HS : Forall Supported32 specs) (HG : Forall2 Grid32 specs ds).
Context (Hlen : (length specs <= length xi)%nat) (Hj : (j < length specs)%nat).
Context (HLs : LocalsAt (FmaNum32 c) (map (basisC32 c) specs) xi ls) (HC : lcounts ls = counts ds).
Context (H3 : Loc3 (pow2 13) (pow2 (-124)) (map clocal ls) (rlocals ds (map freal xi)) (mlocals ds (map freal xi)) (Psum specs)).
Context (Hw : forall t, InRange (sizes64 specs) t -> FData (w t)).

Lemma der_sumC : exists D,
  Partial (fun p => BoxSum (counts ds) (fun t => tensor ds t p * freal (w t))) j (map freal xi) D /\
  FFinite (addL (N := FmaNum32 c) (fun t => cfmul (tder (N := FmaNum32 c) j ls t) (w t)) (zbox (lcounts ls)) (plain32 (b32_ofZ 0))) /\
  Rabs (freal (addL (N := FmaNum32 c) (fun t => cfmul (tder (N := FmaNum32 c) j ls t) (w t)) (zbox (lcounts ls)) (plain32 (b32_ofZ 0))) - D)
    <= IZR (roundings64 specs) * pow2 (-24) * BoxSum (counts ds) (fun t => dtensor_size j ds t (map freal xi) * Rabs (freal (w t)))
       + pow2 (-64) /\
  Rabs D <= BoxSum (counts ds) (fun t => dtensor_size j ds t (map freal xi) * Rabs (freal (w t))).
Proof.
  pose proof (grid_counts _ _ HG) as HCs. pose proof (grid_length _ _ HG) as HLd.
  assert (Lls : length ls = length specs) by (transitivity (length (map (basisC32 c) specs)); [exact (eq_sym (locals_length _ _ _ _ HLs))|apply map_length]).
  assert (Lne : ls <> []) by (intros E; rewrite E in Lls; destruct specs; [congruence|discriminate]).
  pose proof (Psum_bound specs HS) as PB. pose proof (points_bound specs HS Hl) as NB.
  assert (L3 : (length ls <= 3)%nat) by lia. assert (P3 : (Psum specs <= 100)%nat) by lia.
  pose proof (element_sumC ls _ _ (Psum specs) w (Z.of_nat j) H3 Lne L3 P3) as ES.
  pose proof (HC : @lcounts cfloat ls = counts ds) as HC32. rewrite HC32, HCs in ES. specialize (ES Hw NB). destruct (fap_app _ _ _ _ _ ES) as (F & E & EB & _).
  assert (Lm : (length ds <= length (map freal xi))%nat) by (rewrite map_length, HLd; exact Hlen).
  exists (dinterp j ds (fun t => freal (w t)) (map freal xi)). split; [|split].
  - apply (interp_partial ds (fun t => freal (w t)) j (map freal xi)); [|exact Lm|lia].
    apply Nodal_Differentiates. now apply (grid_nodal specs).
  - rewrite HC, HCs. exact F.
  - rewrite HC, HCs. unfold dinterp. rewrite HCs.
    rewrite (BoxSum_ext _ (fun t => dtensor j ds t (map freal xi) * freal (w t)) (fun t => prodl (factors (Z.of_nat j) 0 (rlocals ds (map freal xi)) t) * freal (w t))).
    2: { intros t Ht. rewrite factors_gvals by exact Lm. rewrite <- (gvals_dtensor ds j 0 t (map freal xi)); [rewrite Z.add_0_l; reflexivity|now rewrite HCs|exact Lm|lia]. }
    rewrite (BoxSum_ext _ (fun t => dtensor_size j ds t (map freal xi) * Rabs (freal (w t))) (fun t => prodl (factors (Z.of_nat j) 0 (mlocals ds (map freal xi)) t) * Rabs (freal (w t)))).
    2: { intros t Ht. rewrite <- (mfactors_der ds j 0 t (map freal xi)); [rewrite Z.add_0_l; reflexivity|lia|exact Lm|lia|now rewrite HCs]. }
    split; [|exact EB].
    eapply Rle_trans; [exact E|]. apply Rplus_le_compat_r. apply Rmult_le_compat_r; [|now apply roundings_ok].
    rewrite BoxSum_sumR. apply sumR_nonneg. intros t Ht. apply in_zbox in Ht.
    pose proof (mfactors_der ds j 0 t (map freal xi)) as M. rewrite Z.add_0_l in M.
    rewrite M; [|lia|exact Lm|lia|now rewrite HCs]. apply Rmult_le_pos; [apply dsize_nonneg|apply Rabs_pos].
Qed.
End Der.

Lemma element_gradientC ctx specs : specs <> [] -> (length specs <= 3)%nat -> Forall Supported32 specs ->
  exists ds, Forall2 Grid32 specs ds /\
  forall xi var w, Forall FReference xi -> (length specs <= length xi)%nat ->
  (forall t, InRange (sizes64 specs) t -> var t = Ok (w t) /\ FData (w t)) ->
  exists g, parent_gradient (FmaNum32 c) ctx (Z.of_nat (length specs)) (map (basisC32 c) specs) var xi = Ok g /\ length g = length specs /\
    forall j, (j < length specs)%nat -> exists D,
      Partial (fun p => BoxSum (counts ds) (fun t => tensor ds t p * freal (w t))) j (map freal xi) D /\
      FFinite (nth j g (plain32 (b32_ofZ 0))) /\
      Rabs (freal (nth j g (plain32 (b32_ofZ 0))) - D)
      <= IZR (roundings64 specs) * pow2 (-24) * BoxSum (counts ds) (fun t => dtensor_size j ds t (map freal xi) * Rabs (freal (w t)))
         + pow2 (-64).
Proof.
  intros Hne Hl HS. destruct (grids_existC specs HS) as (ds & HG & HL). exists ds. split; [exact HG|].
  intros xi var w Hxi Hlen Hw. destruct (HL xi Hxi Hlen) as (ls & HLs & HC & H3).
  pose proof (grid_counts _ _ HG) as HCs.
  assert (Lls : length ls = length specs) by (transitivity (length (map (basisC32 c) specs)); [exact (eq_sym (locals_length _ _ _ _ HLs))|apply map_length]).
  assert (Lne : ls <> []) by (intros ->; destruct specs; [congruence|discriminate]).
  destruct (parent_gradientL (FmaNum32 c) ctx (map (basisC32 c) specs) ls var w xi HLs Lne) as (g & Eg & Lg & Hg).
  - unfold INT_MAX. lia.
  - intros t Ht. rewrite HC, HCs in Ht. now apply Hw.
  - exists g. rewrite Lls in *. split; [exact Eg|]. split; [exact Lg|]. intros j Hj.
    destruct (der_sumC specs ds ls xi w j Hne Hl HS HG Hlen Hj HLs HC H3 (fun t Ht => proj2 (Hw t Ht))) as (D & HD & F & E & _).
    exists D. split; [exact HD|]. pose proof (Hg j Hj) as N. cbn [nofZ FmaNum32] in N. rewrite N. split; [exact F|exact E].
Qed.

Lemma jacobianC_sizes ctx specs : specs <> [] -> (length specs <= 3)%nat -> Forall Supported32 specs ->
  exists ds, Forall2 Grid32 specs ds /\
  forall xi mem X, Forall FReference xi -> length xi = 3%nat ->
  Holds (owning (sizes64 specs ++ [Z.of_nat (length specs)])) mem X ->
  (forall t i, InRange (sizes64 specs) t -> (0 <= i < Z.of_nat (length specs))%Z -> FData (X (t ++ [i]))) ->
  exists J Jm, jacobian_wrapper (FmaNum32 c) ctx (Z.of_nat (length specs)) (map (basisC32 c) specs) mem xi = Ok J /\
    Holds (owning [Z.of_nat (length specs); Z.of_nat (length specs)]) J Jm /\
    forall i j, (0 <= i < Z.of_nat (length specs))%Z -> (j < length specs)%nat -> exists D,
      Partial (fun p => BoxSum (counts ds) (fun t => tensor ds t p * freal (X (t ++ [i])))) j (map freal xi) D /\
      Plain32 (Jm [i; Z.of_nat j]) /\ FFinite (Jm [i; Z.of_nat j]) /\
      Rabs (freal (Jm [i; Z.of_nat j]) - D)
      <= IZR (roundings64 specs) * pow2 (-24) * BoxSum (counts ds) (fun t => dtensor_size j ds t (map freal xi) * Rabs (freal (X (t ++ [i]))))
         + pow2 (-64) /\
      Rabs D <= BoxSum (counts ds) (fun t => dtensor_size j ds t (map freal xi) * Rabs (freal (X (t ++ [i])))).
Proof.
  intros Hne Hl HS. destruct (grids_existC specs HS) as (ds & HG & HL). exists ds. split; [exact HG|].
  intros xi mem X Hxi Hx3 HX HD. destruct (HL xi Hxi ltac:(lia)) as (ls & HLs & HC & H3).
  pose proof (grid_counts _ _ HG) as HCs.
  assert (Lls : length ls = length specs) by (transitivity (length (map (basisC32 c) specs)); [exact (eq_sym (locals_length _ _ _ _ HLs))|apply map_length]).
  assert (Lne : ls <> []) by (intros ->; destruct specs; [congruence|discriminate]).
  destruct (jacobian_wrapperL (FmaNum32 c) ctx (map (basisC32 c) specs) ls mem X xi HLs Lne Hx3) as (J & EJ & _ & HJ).
  - rewrite HC, HCs, Lls. exact HX.
  - exists J, (fun t => addL (N := FmaNum32 c) (fun sp => contribL ls X sp t) (zbox (lcounts ls)) (nofZ (FmaNum32 c) 0)).
    rewrite Lls in *. split; [exact EJ|]. split; [exact HJ|]. intros i j Hi Hj.
    destruct (der_sumC specs ds ls xi (fun t => X (t ++ [i])) j Hne Hl HS HG ltac:(lia) Hj HLs HC H3 (fun t Ht => HD t i Ht Hi)) as (D & HDD & F & E & EB).
    exists D. split; [exact HDD|].
    assert (EQ : addL (N := FmaNum32 c) (fun sp => contribL ls X sp [i; Z.of_nat j]) (zbox (lcounts ls)) (nofZ (FmaNum32 c) 0) =
      addL (N := FmaNum32 c) (fun t => cfmul (tder (N := FmaNum32 c) j ls t) (X (t ++ [i]))) (zbox (lcounts ls)) (plain32 (b32_ofZ 0))).
    { unfold contribL. cbn [nth]. rewrite Nat2Z.id. reflexivity. }
    rewrite EQ. split; [apply addL_plain; reflexivity|]. split; [exact F|split; [exact E|exact EB]].
Qed.

Lemma jacobianC ctx specs : specs <> [] -> (length specs <= 3)%nat -> Forall Supported32 specs ->
  exists ds, Forall2 Grid32 specs ds /\
  forall xi mem X, Forall FReference xi -> length xi = 3%nat ->
  Holds (owning (sizes64 specs ++ [Z.of_nat (length specs)])) mem X ->
  (forall t i, InRange (sizes64 specs) t -> (0 <= i < Z.of_nat (length specs))%Z -> FData (X (t ++ [i]))) ->
  exists J Jm, jacobian_wrapper (FmaNum32 c) ctx (Z.of_nat (length specs)) (map (basisC32 c) specs) mem xi = Ok J /\
    Holds (owning [Z.of_nat (length specs); Z.of_nat (length specs)]) J Jm /\
    forall i j, (0 <= i < Z.of_nat (length specs))%Z -> (j < length specs)%nat -> exists D,
      Partial (fun p => BoxSum (counts ds) (fun t => tensor ds t p * freal (X (t ++ [i])))) j (map freal xi) D /\
      FFinite (Jm [i; Z.of_nat j]) /\
      Rabs (freal (Jm [i; Z.of_nat j]) - D)
      <= IZR (roundings64 specs) * pow2 (-24) * BoxSum (counts ds) (fun t => dtensor_size j ds t (map freal xi) * Rabs (freal (X (t ++ [i]))))
         + pow2 (-64).
Proof.
  intros Hne Hl HS. destruct (jacobianC_sizes ctx specs Hne Hl HS) as (ds & HG & H). exists ds. split; [exact HG|].
  intros xi mem X Hxi Hx HX HD. destruct (H xi mem X Hxi Hx HX HD) as (J & Jm & E & HJ & HE). exists J, Jm.
  split; [exact E|]. split; [exact HJ|]. intros i j Hi Hj. destruct (HE i j Hi Hj) as (D & HP & _ & F & HB & _). exists D. auto.
Qed.

(** Constant fields. *)
Lemma element_constantC specs : specs <> [] -> (length specs <= 3)%nat -> Forall Supported32 specs ->
  exists ds, Forall2 Grid32 specs ds /\
  forall xi var k, Forall FReference xi -> (length specs <= length xi)%nat -> FData k ->
  (forall t, InRange (sizes64 specs) t -> var t = Ok k) ->
  exists v, parent_value (FmaNum32 c) (Z.of_nat (length specs)) (map (basisC32 c) specs) var xi = Ok v /\ FFinite v /\
    Rabs (freal v - freal k)
      <= IZR (roundings64 specs) * pow2 (-24) * BoxSum (counts ds) (fun t => Rabs (tensor ds t (map freal xi))) * Rabs (freal k) + pow2 (-64).
Proof.
  intros Hne Hl HS. destruct (element_valueC specs Hne Hl HS) as (ds & HG & H). exists ds. split; [exact HG|].
  intros xi var k Hxi Hlen Hk Hv. destruct (H xi var (fun _ => k) Hxi Hlen (fun t Ht => conj (Hv t Ht) Hk)) as (v & Ev & F & E).
  exists v. split; [exact Ev|]. split; [exact F|]. rewrite !BoxSum_scal_r in E.
  rewrite tensor_unity in E; [|now apply (grid_nodal specs)|rewrite map_length, (grid_length _ _ HG); exact Hlen].
  rewrite Rmult_1_l in E. rewrite Rmult_assoc. exact E.
Qed.

End C.
