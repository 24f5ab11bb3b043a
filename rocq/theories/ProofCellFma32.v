(** Determinant and inverse of the Jacobian of a cell computed in floats with contraction. *)
From Coq Require Import ZArith Reals Bool List Lia Lra Psatz.
From Flocq Require Import Core IEEE754.BinarySingleNaN.
From Verif Require Import Base ProofBase Num ModelB64 ModelF32 ModelFma ModelFma32 SpecF32 SpecIndex ProofBox ModelSequence ModelAssert ModelCArray SpecCArray ModelSpacing
  ModelLagrange ModelBasisProduct ModelMath ModelTransforms SpecMath SpecNumeric SpecBasis SpecAccuracy SpecAccuracy32 SpecElement64 SpecElement32 SpecFma32
  ProofRep ProofMath ProofTensor ProofTransform SpecIntegral ProofIntegral ProofVolume ProofF32 ProofErr32 ProofInverse32 ProofSum32 ProofNodes32 ProofElement32
  ProofCell64 ProofCell32 ProofInverseFma32 ProofElementFma32.
Local Open Scope R_scope.

Section Cell.
Context (c : contraction32) (ctx : ctx) (specs : list (spacing * Z)) (Hl : length specs = 3%nat) (HS : Forall Supported32 specs).
Let r := roundings64 specs.

Lemma cellC : exists ds, Forall2 Grid32 specs ds /\
  forall xi mem X, Forall FReference xi -> length xi = 3%nat ->
  Holds (owning (sizes64 specs ++ [3%Z])) mem X ->
  (forall s i, InRange (sizes64 specs) s -> (0 <= i < 3)%Z -> FData (X (s ++ [i]))) ->
  let S := cell_size32 ds (map freal xi) (fun s => freal (X s)) in
  (forall i j, (0 <= i < 3)%Z -> (0 <= j < 3)%Z -> S i j <= pow2 29) ->
  exists K : matrix,
    (forall i j, (0 <= i < 3)%Z -> (j < 3)%nat ->
      Partial (fun p => BoxSum (counts ds) (fun s => tensor ds s p * freal (X (s ++ [i])))) j (map freal xi) (K i (Z.of_nat j))) /\
    exists d invJ Y, inverseJacobian_wrapper (FmaNum32 c) ctx 3 (map (basisC32 c) specs) mem xi = Ok (d, invJ) /\
      Holds (owning [3%Z; 3%Z]) invJ Y /\ FFinite d /\ Rabs (det 3 K) <= perm 3 S /\
      Rabs (freal d - det 3 K) <= IZR (5 * r + 12) * pow2 (-24) * perm 3 S + pow2 (-112) /\
      (pow2 (-39) <= Rabs (det 3 K) -> IZR (10 * r + 50) * pow2 (-24) * perm 3 S <= Rabs (det 3 K) ->
       exists B, Inverse 3 K B /\
       forall i j, (0 <= i < 3)%Z -> (0 <= j < 3)%Z -> FFinite (Y [i; j]) /\
         Rabs (freal (Y [i; j]) - B i j) <=
           IZR (16 * r + 120) * pow2 (-24) * (perm 3 S / Rabs (det 3 K)) * (perm 2 (minor S j i) / Rabs (det 3 K)) + pow2 (-105)).
Proof.
  assert (Hne : specs <> []) by (intros E; rewrite E in Hl; discriminate).
  destruct (jacobianC_sizes c ctx specs Hne ltac:(lia) HS) as (ds & HG & H). exists ds. split; [exact HG|].
  rewrite Hl in H. change (Z.of_nat 3) with 3%Z in H.
  intros xi mem X Hxi Hx HX HD S HB. destruct (H xi mem X Hxi Hx HX HD) as (Jb & Jm & EJ & HJ & HE). clear H.
  pose proof (roundings_range specs HS Hl) as HR. fold r in HE, HR.
  destruct (choose3 (fun i (k : Z -> R) => forall j, (0 <= j < 3)%Z ->
      Partial (fun p => BoxSum (counts ds) (fun s => tensor ds s p * freal (X (s ++ [i])))) (Z.to_nat j) (map freal xi) (k j) /\
      Plain32 (Jm [i; j]) /\ FFinite (Jm [i; j]) /\
      Rabs (freal (Jm [i; j]) - k j) <= IZR r * pow2 (-24) * (S i j - pow2 (-40)) + pow2 (-64) /\ Rabs (k j) <= S i j - pow2 (-40))) as (K & HK).
  { intros i Hi. apply (choose3 (fun j x =>
      Partial (fun p => BoxSum (counts ds) (fun s => tensor ds s p * freal (X (s ++ [i])))) (Z.to_nat j) (map freal xi) x /\
      Plain32 (Jm [i; j]) /\ FFinite (Jm [i; j]) /\
      Rabs (freal (Jm [i; j]) - x) <= IZR r * pow2 (-24) * (S i j - pow2 (-40)) + pow2 (-64) /\ Rabs x <= S i j - pow2 (-40))).
    intros j Hj. destruct (HE i (Z.to_nat j) Hi ltac:(lia)) as (D & P1 & P0 & P2 & P3 & P4). rewrite Z2Nat.id in * by lia.
    exists D. unfold S, cell_size32. rewrite Rplus_assoc, Rplus_opp_r, Rplus_0_r || idtac.
    match goal with |- context [?a + ?b - ?b] => replace (a + b - b) with a by ring end. auto. }
  exists K. split.
  { intros i j Hi Hj. destruct (HK i Hi (Z.of_nat j) ltac:(lia)) as (P1 & _). rewrite Nat2Z.id in P1. exact P1. }
  set (t := IZR (r + 1) * pow2 (-24)). set (J := fun i j => Jm [i; j]).
  assert (u0 : 0 < pow2 (-24)) by apply bpow_gt_0.
  assert (us : pow2 (-24) <= / 10000000).
  { apply Rle_trans with (pow2 (-24)); [apply bpow_le; lia|]. cbn -[Rinv]. apply Rinv_le; lra. }
  assert (R5 : 0 <= IZR r <= 126) by (split; [apply (IZR_le 0)|apply (IZR_le _ 126)]; lia).
  assert (Er : IZR (r + 1) = IZR r + 1) by (rewrite plus_IZR; reflexivity).
  assert (T : 0 <= t <= / 1000).
  { unfold t. rewrite Er. split; [apply Rmult_le_pos; lra|].
    apply Rle_trans with (127 * / 10000000); [apply Rmult_le_compat; lra|lra]. }
  assert (TK : forall i j, (0 <= i < 3)%Z -> (0 <= j < 3)%Z -> Rabs (K i j) <= S i j).
  { intros i j Hi Hj. destruct (HK i Hi j Hj) as (_ & _ & _ & _ & P4). pose proof (bpow_gt_0 radix2 (-40)). lra. }
  assert (TJ : forall i j, (0 <= i < 3)%Z -> (0 <= j < 3)%Z -> Rabs (freal_matrix J i j - K i j) <= t * S i j).
  { intros i j Hi Hj. destruct (HK i Hi j Hj) as (_ & _ & _ & P3 & P4). unfold freal_matrix, J. eapply Rle_trans; [exact P3|].
    assert (S0 : 0 <= S i j - pow2 (-40)) by (eapply Rle_trans; [apply Rabs_pos|exact P4]).
    assert (Q : pow2 (-64) <= pow2 (-24) * pow2 (-40)) by (rewrite <- bpow_plus; apply bpow_le; lia).
    unfold t. rewrite Er. pose proof (bpow_gt_0 radix2 (-40)). set (s := S i j - pow2 (-40)) in *.
    replace (S i j) with (s + pow2 (-40)) by (unfold s; ring). set (z := pow2 (-40)) in *. set (u := pow2 (-24)) in *.
    replace ((IZR r + 1) * u * (s + z)) with (IZR r * u * s + u * z + (u * s + IZR r * u * z)) by ring.
    assert (0 <= u * s) by (apply Rmult_le_pos; lra).
    assert (0 <= IZR r * u * z) by (repeat apply Rmult_le_pos; lra). lra. }
  assert (HEnt : FEntries J).
  { intros i j Hi Hj. destruct (HK i Hi j Hj) as (_ & P0 & P2 & _). split; [exact P0|]. split; [exact P2|].
    pose proof (J_abs K (freal_matrix J) S t TK TJ i j Hi Hj) as A. unfold freal_matrix in A.
    eapply Rle_trans; [exact A|]. pose proof (HB i j Hi Hj) as B.
    assert (0 <= S i j) by (eapply Rle_trans; [apply Rabs_pos|exact (TK i j Hi Hj)]).
    replace (pow2 30) with (2 * pow2 29) by (change 2 with (pow2 1); rewrite <- bpow_plus; reflexivity).
    apply Rmult_le_compat; lra. }
  destruct (det_pert K (freal_matrix J) S t T TK TJ) as (D1 & D2 & D3).
  set (P := perm 3 S) in *. assert (P0 : 0 <= P) by (eapply Rle_trans; [apply Rabs_pos|exact D2]).
  assert (uP : 0 <= pow2 (-24) * P) by (apply Rmult_le_pos; lra).
  assert (Et : t * P = IZR r * (pow2 (-24) * P) + pow2 (-24) * P) by (unfold t; rewrite Er; ring).
  assert (WR : forall m' d, inverse_c (FmaNum32 c) (rows_of J) = Ok (m', d) -> exists invJ Y,
     inverseJacobian_wrapper (FmaNum32 c) ctx 3 (map (basisC32 c) specs) mem xi = Ok (d, invJ) /\
     Holds (owning [3%Z; 3%Z]) invJ Y /\ m' = rows_of (fun i j => Y [i; j])).
  { intros m' d E. destruct (overloads_agree_lemma (FmaNum32 c) ctx (owning [3%Z; 3%Z]) Jb Jm m' d eq_refl eq_refl HJ E) as (inv & Y & EI & HY & EY).
    exists inv, Y. split; [|split; [exact HY|exact EY]].
    unfold inverseJacobian_wrapper. unfold jacobian_wrapper in EJ.
    assert (Hx' : @length (Num.T (FmaNum32 c)) xi = 3%nat) by exact Hx. rewrite Hx'. rewrite Hx' in EJ. cbn [Nat.eqb] in *.
    apply bind_Ok in EJ. destruct EJ as (J0 & E0 & EJ). rewrite E0. cbn [bind]. unfold inverseJacobian_point. rewrite EJ. cbn [bind].
    assert (EA : jacobian_array (FmaNum32 c) (map (basisC32 c) specs) = owning [3%Z; 3%Z]) by (unfold jacobian_array, numDims; rewrite map_length, Hl; reflexivity).
    rewrite EA, EI. reflexivity. }
  destruct (det_fma_lemma c J HEnt) as (X0 & d & E & Fd & Ed).
  destruct (WR _ _ E) as (invJ & Y & EW & HY & EY).
  exists d, invJ, Y. split; [exact EW|]. split; [exact HY|]. split; [exact Fd|]. split; [exact D2|].
  assert (R12 : IZR (5 * r + 12) = 5 * IZR r + 12) by (rewrite plus_IZR, mult_IZR; reflexivity).
  split.
  - replace (freal d - det 3 K) with ((freal d - det 3 (freal_matrix J)) + (det 3 (freal_matrix J) - det 3 K)) by ring.
    eapply Rle_trans; [apply Rabs_triang|]. rewrite R12.
    replace ((5 * IZR r + 12) * pow2 (-24) * P) with (5 * (t * P) + 7 * (pow2 (-24) * P)) by (rewrite Et; ring).
    assert (6 * pow2 (-24) * perm 3 (absm (freal_matrix J)) <= 6 * (102 / 100) * (pow2 (-24) * P)).
    { replace (6 * (102 / 100) * (pow2 (-24) * P)) with (6 * pow2 (-24) * (102 / 100 * P)) by ring. apply Rmult_le_compat_l; lra. }
    lra.
  - intros HDm HDc.
    assert (R50 : IZR (10 * r + 50) = 10 * IZR r + 50) by (rewrite plus_IZR, mult_IZR; reflexivity).
    assert (R16 : IZR (16 * r + 120) = 16 * IZR r + 120) by (rewrite plus_IZR, mult_IZR; reflexivity).
    rewrite R50 in HDc.
    assert (HDc' : 10 * (t * P) + 40 * (pow2 (-24) * P) <= Rabs (det 3 K)).
    { rewrite Et. replace (10 * (IZR r * (pow2 (-24) * P) + pow2 (-24) * P) + 40 * (pow2 (-24) * P)) with ((10 * IZR r + 50) * pow2 (-24) * P) by ring. exact HDc. }
    assert (m399 : pow2 (-39) = 2 * pow2 (-40)) by (change 2 with (pow2 1); rewrite <- bpow_plus; reflexivity).
    pose proof (bpow_gt_0 radix2 (-40)) as m400.
    assert (JL : Rabs (det 3 K) - 5 * (t * P) <= Rabs (det 3 (freal_matrix J))).
    { pose proof (Rabs_triang_inv (det 3 K) (det 3 K - det 3 (freal_matrix J))) as V.
      replace (det 3 K - (det 3 K - det 3 (freal_matrix J))) with (det 3 (freal_matrix J)) in V by ring.
      rewrite (Rabs_minus_sym (det 3 K)) in V. lra. }
    assert (JH : Rabs (det 3 K) / 2 + 20 * (pow2 (-24) * P) <= Rabs (det 3 (freal_matrix J))) by lra.
    assert (C14 : 14 * pow2 (-24) * perm 3 (absm (freal_matrix J)) <= Rabs (det 3 (freal_matrix J))).
    { assert (14 * pow2 (-24) * perm 3 (absm (freal_matrix J)) <= 14 * (102 / 100) * (pow2 (-24) * P)).
      { replace (14 * (102 / 100) * (pow2 (-24) * P)) with (14 * pow2 (-24) * (102 / 100 * P)) by ring. apply Rmult_le_compat_l; lra. }
      lra. }
    destruct (inverse_fma_lemma c J HEnt ltac:(lra) C14) as (X' & d' & B & E' & HI & _ & HX').
    assert (EX : rows_of X' = rows_of (fun i j => Y [i; j])).
    { rewrite <- EY. clear -E E'. rewrite E in E'. revert E'. generalize (rows_of X0) (rows_of X') d d'. intros a b x y. intros Q. injection Q as -> _. reflexivity. }
    assert (KN : det 3 K <> 0) by (intros Q; rewrite Q, Rabs_R0 in HDm; lra).
    assert (JN : det 3 (freal_matrix J) <> 0) by (intros Q; rewrite Q, Rabs_R0 in JH; lra).
    exists (inv3 RNum K (/ det 3 K)). split; [apply inv3_Inverse; now apply Rinv_l|].
    intros i j Hi Hj. destruct (HX' i j Hi Hj) as (F & EE).
    assert (EYX : Y [i; j] = X' i j).
    { clear - EX Hi Hj. unfold rows_of in EX. assert (Ci : (i = 0 \/ i = 1 \/ i = 2)%Z) by lia. assert (Cj : (j = 0 \/ j = 1 \/ j = 2)%Z) by lia.
      cbn in EX. injection EX. intros. destruct Ci as [->|[->| ->]]; destruct Cj as [->|[->| ->]]; congruence. }
    rewrite EYX. split; [exact F|].
    rewrite (Inverse_cof K i j KN Hi Hj).
    assert (HI' : Inverse 3 (freal_matrix J) (inv3 RNum (freal_matrix J) (/ det 3 (freal_matrix J)))) by (apply inv3_Inverse; now apply Rinv_l).
    rewrite (Inverse_unique3 _ _ _ HI HI' i j Hi Hj), (Inverse_cof _ i j JN Hi Hj) in EE.
    pose proof (inv_pert K (freal_matrix J) S t T TK TJ i j Hi Hj) as IP. fold P in IP.
    specialize (IP ltac:(replace (10 * t * P) with (10 * (t * P)) by ring; lra) ltac:(lra)).
    destruct (cof_pert K (freal_matrix J) S t T TK TJ i j Hi Hj) as (_ & M1 & M3).
    set (D := Rabs (det 3 K)) in *. set (DJ := Rabs (det 3 (freal_matrix J))) in *. set (M := perm 2 (minor S j i)) in *.
    set (MJ := perm 2 (minor (absm (freal_matrix J)) j i)) in *. set (PJ := perm 3 (absm (freal_matrix J))) in *.
    assert (M0 : 0 <= M) by (eapply Rle_trans; [apply Rabs_pos|exact M1]).
    assert (ID : 0 < / D) by (apply Rinv_0_lt_compat; lra).
    assert (IJ : 0 < / DJ <= 2 * / D).
    { split; [apply Rinv_0_lt_compat; lra|]. replace (2 * / D) with (/ (D / 2)) by (field; lra). apply Rinv_le; lra. }
    assert (PJ0 : 0 <= PJ).
    { unfold PJ, perm, absm. cbn. repeat (apply Rplus_le_le_0_compat || apply Rmult_le_pos || apply Rabs_pos || lra). }
    assert (MJ0 : 0 <= MJ).
    { unfold MJ, perm, minor, absm. cbn. repeat (apply Rplus_le_le_0_compat || apply Rmult_le_pos || apply Rabs_pos || lra). }
    assert (A1 : PJ / DJ <= 204 / 100 * (P / D)).
    { unfold Rdiv. apply Rle_trans with ((102 / 100 * P) * (2 * / D)); [apply Rmult_le_compat; lra|]. apply Req_le. field. lra. }
    assert (A2 : MJ / DJ <= 202 / 100 * (M / D)).
    { unfold Rdiv. apply Rle_trans with ((101 / 100 * M) * (2 * / D)); [apply Rmult_le_compat; lra|]. apply Req_le. field. lra. }
    assert (N1 : 0 <= PJ / DJ) by (apply Rmult_le_pos; lra). assert (N2 : 0 <= MJ / DJ) by (apply Rmult_le_pos; lra).
    assert (N3 : 0 <= P / D) by (apply Rmult_le_pos; lra). assert (N4 : 0 <= M / D) by (apply Rmult_le_pos; lra).
    assert (A3 : (PJ / DJ) * (MJ / DJ) <= 4122 / 1000 * ((P / D) * (M / D))).
    { apply Rle_trans with ((204 / 100 * (P / D)) * (202 / 100 * (M / D))); [apply Rmult_le_compat; assumption|].
      pose proof (Rmult_le_pos _ _ N3 N4). lra. }
    set (Q := (P / D) * (M / D)) in *. pose proof (Rmult_le_pos _ _ N3 N4 : 0 <= Q) as Q0.
    assert (UQ : 0 <= pow2 (-24) * Q) by (apply Rmult_le_pos; lra).
    match goal with |- Rabs (?x - ?z) <= _ => match type of EE with Rabs (_ - ?y) <= _ => replace (x - z) with ((x - y) + (y - z)) by ring end end.
    eapply Rle_trans; [apply Rabs_triang|]. rewrite R16.
    replace ((16 * IZR r + 120) * pow2 (-24) * (P / D) * (M / D)) with (16 * t * Q + 104 * (pow2 (-24) * Q)) by (unfold t, Q; rewrite Er; ring).
    assert (B1 : 24 * pow2 (-24) * (PJ / DJ) * (MJ / DJ) <= 24 * (4122 / 1000) * (pow2 (-24) * Q)).
    { replace (24 * pow2 (-24) * (PJ / DJ) * (MJ / DJ)) with (24 * pow2 (-24) * ((PJ / DJ) * (MJ / DJ))) by ring.
      replace (24 * (4122 / 1000) * (pow2 (-24) * Q)) with (24 * pow2 (-24) * (4122 / 1000 * Q)) by ring. apply Rmult_le_compat_l; lra. }
    replace (16 * t * (P / D) * (M / D)) with (16 * t * Q) in IP by (unfold Q; ring).
    lra.
Qed.
End Cell.

Lemma hexC c ctx specs : Hex64 specs ->
  forall xi mem X L, Forall FReference xi -> length xi = 3%nat ->
  Holds (owning [2; 2; 2; 3]%Z) mem X ->
  pow2 (-8) <= L <= pow2 20 ->
  (forall t, InRange [2; 2; 2; 3]%Z t -> Plain32 (X t) /\ FFinite (X t) /\ Rabs (freal (X t)) <= L) ->
  exists K : matrix,
    (forall i j, (0 <= i < 3)%Z -> (j < 3)%nat ->
      Partial (fun p => BoxSum [2; 2; 2]%Z (fun s => trilinear s p * freal (X (s ++ [i])))) j (map freal xi) (K i (Z.of_nat j))) /\
    exists d invJ Y, inverseJacobian_wrapper (FmaNum32 c) ctx 3 (map (basisC32 c) specs) mem xi = Ok (d, invJ) /\
      Holds (owning [3%Z; 3%Z]) invJ Y /\ FFinite d /\
      Rabs (freal d - det 3 K) <= 1100 * pow2 (-24) * L ^ 3 /\
      (2400 * pow2 (-24) * L ^ 3 <= Rabs (det 3 K) ->
       exists B, Inverse 3 K B /\
       forall i j, (0 <= i < 3)%Z -> (0 <= j < 3)%Z -> FFinite (Y [i; j]) /\
         Rabs (freal (Y [i; j]) - B i j) <= 8000 * pow2 (-24) * (L ^ 5 / (det 3 K) ^ 2)).
Proof.
  intros (Hl & HS) xi mem X L Hxi Hx HX HL HD.
  assert (HSup : Forall Supported32 specs).
  { eapply Forall_impl; [|exact HS]. intros so [<-|[<-|[]]]; unfold Supported32; cbn [fst snd]; lia. }
  assert (Hsz : sizes64 specs = [2; 2; 2]%Z).
  { destruct specs as [|s0 [|s1 [|s2 [|? ?]]]]; try discriminate.
    inversion HS as [|? ? S0 HS1]; subst. inversion HS1 as [|? ? S1 HS2]; subst. inversion HS2 as [|? ? S2 _]; subst.
    assert (E : forall s, In s [(EqualSpacing, 1%Z); (GaussLobattoSpacing, 1%Z)] -> snd s = 1%Z) by (intros s [<-|[<-|[]]]; reflexivity).
    unfold sizes64. cbn [map]. rewrite (E s0 S0), (E s1 S1), (E s2 S2). reflexivity. }
  assert (Hr : roundings64 specs = 34%Z).
  { destruct specs as [|s0 [|s1 [|s2 [|? ?]]]]; try discriminate.
    inversion HS as [|? ? S0 HS1]; subst. inversion HS1 as [|? ? S1 HS2]; subst. inversion HS2 as [|? ? S2 _]; subst.
    assert (E : forall s, In s [(EqualSpacing, 1%Z); (GaussLobattoSpacing, 1%Z)] -> snd s = 1%Z) by (intros s [<-|[<-|[]]]; reflexivity).
    unfold roundings64. rewrite Hsz. cbn [map]. rewrite (E s0 S0), (E s1 S1), (E s2 S2). reflexivity. }
  destruct (cellC c ctx specs Hl HSup) as (ds & HG & H). rewrite Hsz, Hr in H.
  assert (HN : Forall Nodal ds) by (clear - HG; induction HG as [|? ? ? ? (_ & _ & N) _ IH]; constructor; assumption).
  assert (HU : Forall unit_direction ds).
  { clear - HG HS. induction HG as [|? ? ? ? G _ IH]; [constructor|]. inversion_clear HS. constructor; [eapply unit32; eassumption|now apply IH]. }
  assert (L3 : length ds = 3%nat) by (rewrite <- Hl; clear - HG; induction HG; cbn; congruence).
  destruct ds as [|d0 [|d1 [|d2 [|? ?]]]]; try discriminate. clear L3 HG.
  assert (C : counts [d0; d1; d2] = [2; 2; 2]%Z).
  { inversion HU as [|? ? U0 HU1]; subst. inversion HU1 as [|? ? U1 HU2]; subst. inversion HU2 as [|? ? U2 _]; subst.
    destruct U0 as (E0 & _), U1 as (E1 & _), U2 as (E2 & _). unfold counts. cbn [map]. congruence. }
  assert (HD' : forall s i, InRange [2; 2; 2]%Z s -> (0 <= i < 3)%Z -> InRange [2; 2; 2; 3]%Z (s ++ [i])).
  { intros s i Hs Hi. apply InRange3 in Hs. destruct Hs as (a & b & e & -> & Ha & Hb & He). repeat (constructor; [lia|]). constructor. }
  set (b := L + pow2 (-40)).
  assert (z0 : 0 < pow2 (-40)) by apply bpow_gt_0. assert (L0 : 0 < L) by (pose proof (bpow_gt_0 radix2 (-8)); lra).
  assert (zL : pow2 (-40) <= / 1000000 * L).
  { apply Rle_trans with (pow2 (-20) * pow2 (-8)); [rewrite <- bpow_plus; apply bpow_le; lia|].
    apply Rmult_le_compat; [apply bpow_ge_0|apply bpow_ge_0| |lra]. cbn -[Rinv]. apply Rinv_le; lra. }
  assert (HSz : forall i j, (0 <= i < 3)%Z -> (0 <= j < 3)%Z -> 0 <= cell_size32 [d0; d1; d2] (map freal xi) (fun s => freal (X s)) i j <= b).
  { intros i j Hi Hj. split.
    - unfold cell_size32. apply Rplus_le_le_0_compat; [|lra]. rewrite BoxSum_sumR. apply sumR_nonneg. intros s _.
      apply Rmult_le_pos; [apply dsize_nonneg|apply Rabs_pos].
    - destruct xi as [|x [|y [|z [|? ?]]]]; try discriminate.
      inversion Hxi as [|? ? X0 Hxi1]; subst. inversion Hxi1 as [|? ? X1 Hxi2]; subst. inversion Hxi2 as [|? ? X2 _]; subst.
      apply (hex_size d0 d1 d2 (freal x) (freal y) (freal z) (fun s => freal (X s)) L i j HN HU); [apply X0|apply X1|apply X2| |exact Hj].
      intros s Hs. apply HD. now apply HD'. }
  destruct (H xi mem X Hxi Hx HX) as (K & HK & d & invJ & Y & E & HY & Fd & Dd & Ed & HI).
  { intros s i Hs Hi. destruct (HD _ (HD' s i Hs Hi)) as (Pl & F & B). split; [exact Pl|]. split; [exact F|]. eapply Rle_trans; [exact B|].
    eapply Rle_trans; [apply HL|apply bpow_le; lia]. }
  { intros i j Hi Hj. eapply Rle_trans; [apply HSz; assumption|]. unfold b.
    replace (pow2 29) with (pow2 9 * pow2 20) by (rewrite <- bpow_plus; reflexivity).
    change (pow2 9) with 512. pose proof (bpow_gt_0 radix2 20). lra. }
  clear H. exists K. split.
  { intros i j Hi Hj. pose proof (HK i j Hi Hj) as P. rewrite C in P. revert P. unfold Partial. cbv beta. intros P.
    eapply deriv_ext; [|exact P]. intros w. cbv beta. apply BoxSum_ext. intros s Hs. f_equal.
    apply tensor_trilinear; [exact HN|exact HU|exact Hs|]. rewrite ProofBase.upd_length, map_length. exact Hx. }
  exists d, invJ, Y. split; [exact E|]. split; [exact HY|]. split; [exact Fd|].
  set (S := cell_size32 [d0; d1; d2] (map freal xi) (fun s => freal (X s))) in *.
  assert (b0 : 0 <= b) by (unfold b; lra).
  pose proof (perm3_le S b b0 HSz) as P3.
  assert (bL : b <= 1000001 / 1000000 * L) by (unfold b; lra).
  assert (b2 : b * b <= 10001 / 10000 * L ^ 2).
  { apply Rle_trans with ((1000001 / 1000000 * L) * (1000001 / 1000000 * L)); [apply Rmult_le_compat; assumption|].
    pose proof (Rmult_lt_0_compat _ _ L0 L0). cbn [pow]. nra. }
  assert (L20 : 0 < L ^ 2) by (apply pow_lt; exact L0). assert (L30 : 0 < L ^ 3) by (apply pow_lt; exact L0).
  assert (b3 : b * b * b <= 1001 / 1000 * L ^ 3).
  { apply Rle_trans with ((10001 / 10000 * L ^ 2) * (1000001 / 1000000 * L)).
    - apply Rmult_le_compat; [apply Rmult_le_pos; assumption|assumption|assumption|assumption].
    - replace (L ^ 3) with (L ^ 2 * L) by ring. pose proof (Rmult_lt_0_compat _ _ L20 L0). nra. }
  set (P := perm 3 S) in *. assert (PL : P <= 6006 / 1000 * L ^ 3) by lra.
  assert (u0 : 0 < pow2 (-24)) by apply bpow_gt_0.
  assert (uL : 0 < pow2 (-24) * L ^ 3) by (apply Rmult_lt_0_compat; assumption).
  assert (L3lo : pow2 (-24) <= L ^ 3).
  { assert (E3 : pow2 (-24) = pow2 (-8) ^ 3).
    { replace (pow2 (-8) ^ 3) with (pow2 (-8) * (pow2 (-8) * pow2 (-8))) by ring. rewrite <- (bpow_plus radix2 (-8) (-8)), <- bpow_plus. f_equal. }
    rewrite E3.
    apply pow_incr. split; [apply bpow_ge_0|apply HL]. }
  split.
  - eapply Rle_trans; [exact Ed|]. change (IZR (5 * 34 + 12)) with 182.
    assert (pow2 (-112) <= pow2 (-24) * L ^ 3).
    { apply Rle_trans with (pow2 (-24) * pow2 (-24)); [rewrite <- bpow_plus; apply bpow_le; lia|]. apply Rmult_le_compat_l; lra. }
    assert (182 * pow2 (-24) * P <= 182 * (6006 / 1000) * (pow2 (-24) * L ^ 3)).
    { replace (182 * (6006 / 1000) * (pow2 (-24) * L ^ 3)) with (182 * pow2 (-24) * (6006 / 1000 * L ^ 3)) by ring. apply Rmult_le_compat_l; lra. }
    lra.
  - intros HC. change (IZR (10 * 34 + 50)) with 390 in HI. change (IZR (16 * 34 + 120)) with 664 in HI.
    assert (C1 : pow2 (-39) <= Rabs (det 3 K)).
    { eapply Rle_trans; [|exact HC]. apply Rle_trans with (2048 * (pow2 (-24) * pow2 (-24))).
      - change 2048 with (pow2 11). rewrite <- !bpow_plus. apply bpow_le. lia.
      - assert (pow2 (-24) * pow2 (-24) <= pow2 (-24) * L ^ 3) by (apply Rmult_le_compat_l; lra). lra. }
    assert (C2 : 390 * pow2 (-24) * P <= Rabs (det 3 K)).
    { eapply Rle_trans; [|exact HC].
      assert (390 * pow2 (-24) * P <= 390 * (6006 / 1000) * (pow2 (-24) * L ^ 3)).
      { replace (390 * (6006 / 1000) * (pow2 (-24) * L ^ 3)) with (390 * pow2 (-24) * (6006 / 1000 * L ^ 3)) by ring. apply Rmult_le_compat_l; lra. }
      lra. }
    destruct (HI C1 C2) as (B & HB & HYB). exists B. split; [exact HB|]. intros i j Hi Hj.
    destruct (HYB i j Hi Hj) as (F & EB). split; [exact F|]. eapply Rle_trans; [exact EB|].
    assert (D0 : 0 < Rabs (det 3 K)) by (pose proof (bpow_gt_0 radix2 (-39)); lra).
    destruct (perm2_le S b j i b0 HSz Hj Hi) as (M0 & M1). set (M := perm 2 (minor S j i)) in *.
    assert (ED : (det 3 K) ^ 2 = Rabs (det 3 K) * Rabs (det 3 K)) by (rewrite <- Rabs_mult, Rabs_pos_eq by apply Rle_0_sqr; ring).
    rewrite ED. set (D := Rabs (det 3 K)) in *.
    assert (ID : 0 < / D) by (now apply Rinv_0_lt_compat).
    assert (ML : M <= 20002 / 10000 * L ^ 2) by lra.
    assert (P0 : 0 <= P) by (eapply Rle_trans; [apply Rabs_pos|exact Dd]).
    assert (PM : P * M <= 1202 / 100 * L ^ 5).
    { apply Rle_trans with ((6006 / 1000 * L ^ 3) * (20002 / 10000 * L ^ 2)); [apply Rmult_le_compat; assumption|].
      replace (L ^ 5) with (L ^ 3 * L ^ 2) by ring. pose proof (Rmult_lt_0_compat _ _ L30 L20). nra. }
    set (T := L ^ 5 / (D * D)).
    assert (PMD : (P / D) * (M / D) <= 1202 / 100 * T).
    { unfold T. replace (P / D * (M / D)) with (P * M * (/ D * / D)) by (unfold Rdiv; ring).
      replace (1202 / 100 * (L ^ 5 / (D * D))) with (1202 / 100 * L ^ 5 * (/ D * / D)) by (field; lra).
      apply Rmult_le_compat_r; [apply Rmult_le_pos; lra|exact PM]. }
    assert (TB : pow2 (-105) <= pow2 (-24) * T).
    { assert (T1 : / (37 * L) <= T).
      { assert (D1 : D <= 6006 / 1000 * L ^ 3) by (eapply Rle_trans; [exact Dd|exact PL]).
        assert (D2 : D * D <= 37 * (L ^ 6)).
        { apply Rle_trans with ((6006 / 1000 * L ^ 3) * (6006 / 1000 * L ^ 3)); [apply Rmult_le_compat; lra|].
          replace (L ^ 6) with (L ^ 3 * L ^ 3) by ring. pose proof (Rmult_lt_0_compat _ _ L30 L30). nra. }
        assert (L60 : 0 < L ^ 6) by (apply pow_lt; exact L0). assert (L50 : 0 < L ^ 5) by (apply pow_lt; exact L0).
        replace (/ (37 * L)) with (L ^ 5 * / (37 * L ^ 6)) by (field; lra).
        unfold T, Rdiv. apply Rmult_le_compat_l; [lra|]. apply Rinv_le; [apply Rmult_lt_0_compat; lra|exact D2]. }
      assert (T2 : pow2 (-30) <= / (37 * L)).
      { rewrite (bpow_opp radix2 30 : pow2 (-30) = / pow2 30). apply Rinv_le; [lra|].
        replace (pow2 30) with (pow2 10 * pow2 20) by (rewrite <- bpow_plus; reflexivity). change (pow2 10) with 1024. lra. }
      apply Rle_trans with (pow2 (-24) * pow2 (-30)); [rewrite <- bpow_plus; apply bpow_le; lia|]. apply Rmult_le_compat_l; lra. }
    replace (664 * pow2 (-24) * (P / D) * (M / D)) with (664 * pow2 (-24) * ((P / D) * (M / D))) by ring.
    assert (664 * pow2 (-24) * (P / D * (M / D)) <= 664 * (1202 / 100) * (pow2 (-24) * T)).
    { replace (664 * (1202 / 100) * (pow2 (-24) * T)) with (664 * pow2 (-24) * (1202 / 100 * T)) by ring. apply Rmult_le_compat_l; lra. }
    assert (0 <= pow2 (-24) * T) by (pose proof (bpow_ge_0 radix2 (-105)); lra).
    lra.
Qed.

