(** The 3x3 determinant and inverse in doubles with contraction. *)
From Coq Require Import ZArith Reals Bool Lia Lra Psatz.
From Flocq Require Import Core IEEE754.BinarySingleNaN.
From Verif Require Import Base ProofBase Num ModelB64 ModelFma ModelAssert ModelCArray ModelMath SpecMath SpecCArray SpecAccuracy SpecElement64 SpecFma
  ProofMath ProofB64 ProofErr64 ProofErrFma ProofInverse64.
Local Open Scope R_scope.
Notation M := (pow2 300).
Notation G2 := ((1 + u) * (1 + u) - 1).
Notation G3 := ((1 + G2) * (1 + u) - 1).
Notation G4 := ((1 + G3) * (1 + u) - 1).
Notation G5 := ((1 + G4) * (1 + u) - 1).

Definition ok_centry (x : cdouble) : Prop := Plain x /\ ok_entry (cval x).

Section C.
Context (c : contraction).
Lemma fap_prod2 p q : ok_centry p -> ok_centry q ->
  Fap (cmul p q) (CR p * CR q) (Rabs (CR p) * Rabs (CR q)) u eta.
Proof.
  intros [Pp [Fp Bp]] [Pq [Fq Bq]]. pose proof u_pos. pose proof eta_pos. pose proof (Rabs_pos (CR p)). pose proof (Rabs_pos (CR q)).
  eapply fap_weaken.
  - apply (fap_mult p q _ _ _ _ _ _ _ _ 600 (app_exact (cval p) Fp) (app_exact (cval q) Fq)); [lia|]. rewrite M2.
    rewrite !Rplus_0_r, !Rmult_1_l. apply Rmult_le_compat; lra.
  - apply Rle_refl.
  - apply Req_le. ring.
  - apply Req_le. ring.
Qed.
Lemma fap_cof p q r s : ok_centry p -> ok_centry q -> ok_centry r -> ok_centry s ->
  Fap (csub c (cmul p q) (cmul r s)) (CR p * CR q - CR r * CR s)
    (Rabs (CR p) * Rabs (CR q) + Rabs (CR r) * Rabs (CR s)) G2 (pow2 (-1073)).
Proof.
  intros Hp Hq Hr Hs. pose proof u_pos. pose proof u_small. pose proof eta_pos. pose proof M_big.
  assert (X : forall a b, ok_centry a -> ok_centry b -> 0 <= Rabs (CR a) * Rabs (CR b) <= M * M).
  { intros a b [_ [_ Ha]] [_ [_ Hb]]. pose proof (Rabs_pos (CR a)). pose proof (Rabs_pos (CR b)).
    split; [now apply Rmult_le_pos|apply Rmult_le_compat; lra]. }
  pose proof (X _ _ Hp Hq). pose proof (X _ _ Hr Hs).
  assert (E1 : eta <= 1) by (apply (bpow_le radix2 (-1075) 0); lia).
  eapply fap_weaken.
  - apply (fap_minus c _ _ _ _ _ _ _ _ _ 604 (fap_prod2 p q Hp Hq) (fap_prod2 r s Hr Hs)); [lia|]. rewrite p604. nra.
  - apply Rle_refl.
  - apply Rle_refl.
  - rewrite eta4. nra.
Qed.

Lemma fap_term s d r C : ok_centry s -> Fap d r C G2 (pow2 (-1073)) -> C <= 2 * (M * M) ->
  Fap (cmul s d) (CR s * r) (Rabs (CR s) * C) G3 (pow2 (-770)).
Proof.
  intros [Ps [Fs Bs]] Hc HC. pose proof G_le. pose proof u_pos. pose proof u_small. pose proof eta_pos. pose proof M_big.
  assert (E1 : eta <= 1) by (apply (bpow_le radix2 (-1075) 0); lia).
  assert (C0 : 0 <= C) by (destruct Hc as ((_ & _ & X & _) & _); pose proof (Rabs_pos r); lra).
  pose proof (Rabs_pos (CR s)) as S0.
  eapply fap_weaken.
  - apply (fap_mult s d _ _ _ _ _ _ _ _ 910 (app_exact (cval s) Fs) (fap_app _ _ _ _ _ Hc)); [lia|].
    rewrite p910, eta4.
    apply Rle_trans with (M * (7 * (M * M))); [|assert (0 <= M * (M * M)) by (repeat apply Rmult_le_pos; lra); lra].
    apply Rmult_le_compat; [lra| |lra|].
    + assert (0 <= (1 + G2) * C) by (apply Rmult_le_pos; lra). lra.
    + assert ((1 + G2) * C <= (1 + / 1000) * (2 * (M * M))) by (apply Rmult_le_compat; lra).
      pose proof MM_big. lra.
  - apply Rle_refl.
  - apply Req_le. ring.
  - rewrite e770, eta4. assert (eta <= M * eta) by nra. assert (Rabs (CR s) * eta <= M * eta) by nra.
    assert (0 <= M * eta) by nra. nra.
Qed.


Definition ok_cmatrix (f : Z -> Z -> cdouble) : Prop := forall i j, (0 <= i <= 2)%Z -> (0 <= j <= 2)%Z -> ok_centry (f i j).
Section Matrix.
Context (f : Z -> Z -> cdouble) (Hf : ok_cmatrix f).
Let F : Z -> Z -> b64 := fun i j => cval (f i j).
Let a : matrix := fun i j => CR (f i j).
Lemma fap_cof_ij i j : (0 <= i <= 2)%Z -> (0 <= j <= 2)%Z ->
  Fap (cof (FmaNum c) f i j) (cof RNum a i j) (acof F i j) G2 (pow2 (-1073)) /\ 0 <= acof F i j <= 2 * (M * M).
Proof.
  intros Hi Hj. assert (Ci : i = 0%Z \/ i = 1%Z \/ i = 2%Z) by lia. assert (Cj : j = 0%Z \/ j = 1%Z \/ j = 2%Z) by lia.
  destruct Ci as [->|[->| ->]]; destruct Cj as [->|[->| ->]]; cbn [cof minor0 acof];
    (split; [apply fap_cof; apply Hf; lia|apply R2_bound; apply (fun i j Hi Hj => proj2 (Hf i j Hi Hj)); lia]).
Qed.

Lemma fap_det : Fap (det3 (FmaNum c) f) (det3 RNum a) (aperm F) G5 (pow2 (-767)).
Proof.
  pose proof G_le as G. pose proof u_pos. pose proof u_small. pose proof eta_pos. pose proof M_big.
  assert (E1 : eta <= 1) by (apply (bpow_le radix2 (-1075) 0); lia).
  assert (T : forall i, (0 <= i <= 2)%Z -> Fap (cmul (f i 0%Z) (cof (FmaNum c) f 0 i)) (a i 0%Z * cof RNum a 0 i)
    (Rabs (CR (f i 0%Z)) * acof F 0 i) G3 (pow2 (-770)) /\ 0 <= Rabs (CR (f i 0%Z)) * acof F 0 i <= 2 * (M * (M * M))).
  { intros i Hi. destruct (fap_cof_ij 0 i ltac:(lia) Hi) as [X Y]. split; [apply fap_term; [apply Hf; lia|exact X|lra]|].
    destruct (Hf i 0%Z Hi ltac:(lia)) as [_ [_ B]]. pose proof (Rabs_pos (CR (f i 0%Z))). split; [apply Rmult_le_pos; lra|].
    replace (2 * (M * (M * M))) with (M * (2 * (M * M))) by ring. apply Rmult_le_compat; lra. }
  destruct (T 0%Z ltac:(lia)) as [T0 B0]. destruct (T 1%Z ltac:(lia)) as [T1 B1]. destruct (T 2%Z ltac:(lia)) as [T2 B2].
  pose proof MMM_big as Q.
  assert (ME : 0 < M * eta <= 1).
  { split; [nra|]. rewrite <- bpow_plus. apply (bpow_le radix2 _ 0). lia. }
  assert (S1 : Fap (cadd c (cmul (f 0%Z 0%Z) (cof (FmaNum c) f 0 0)) (cmul (f 1%Z 0%Z) (cof (FmaNum c) f 0 1)))
    (a 0%Z 0%Z * cof RNum a 0 0 + a 1%Z 0%Z * cof RNum a 0 1)
    (Rabs (CR (f 0%Z 0%Z)) * acof F 0 0 + Rabs (CR (f 1%Z 0%Z)) * acof F 0 1) G4 (66 * (M * eta))).
  { eapply fap_weaken.
    - apply (fap_plus c _ _ _ _ _ _ _ _ _ _ 910 T0 T1); [lia|reflexivity|]. rewrite p910, e770.
      apply Rle_trans with (2 * (4 * (M * (M * M))) + 64); [|lra].
      assert ((1 + G3) * (Rabs (CR (f 0%Z 0%Z)) * acof F 0 0 + Rabs (CR (f 1%Z 0%Z)) * acof F 0 1) <= 2 * (4 * (M * (M * M))))
        by (apply Rmult_le_compat; lra). lra.
    - apply Rle_refl.
    - apply Rle_refl.
    - rewrite e770. nra. }
  assert (T2' : Fap (cmul (f 2%Z 0%Z) (cof (FmaNum c) f 0 2)) (a 2%Z 0%Z * cof RNum a 0 2)
    (Rabs (CR (f 2%Z 0%Z)) * acof F 0 2) G4 (pow2 (-770))).
  { eapply fap_weaken; [exact T2|apply Rle_refl|lra|apply Rle_refl]. }
  change (Fap (cadd c (cadd c (cmul (f 0%Z 0%Z) (cof (FmaNum c) f 0 0)) (cmul (f 1%Z 0%Z) (cof (FmaNum c) f 0 1)))
    (cmul (f 2%Z 0%Z) (cof (FmaNum c) f 0 2)))
    (a 0%Z 0%Z * cof RNum a 0 0 + a 1%Z 0%Z * cof RNum a 0 1 + a 2%Z 0%Z * cof RNum a 0 2) (aperm F) G5 (pow2 (-767))).
  eapply fap_weaken.
  - apply (fap_plus c _ _ _ _ _ _ _ _ _ _ 910 S1 T2'); [lia|reflexivity|]. rewrite p910, e770.
    assert ((1 + G4) * (Rabs (CR (f 0%Z 0%Z)) * acof F 0 0 + Rabs (CR (f 1%Z 0%Z)) * acof F 0 1 + Rabs (CR (f 2%Z 0%Z)) * acof F 0 2)
      <= 2 * (6 * (M * (M * M)))) by (apply Rmult_le_compat; lra). lra.
  - apply Rle_refl.
  - apply Rle_refl.
  - rewrite e770, e767. nra.
Qed.

Notation D := (det3 RNum a).
Notation P := (aperm F).
Context (HD : pow2 (-400) <= Rabs D) (HP : 14 * u * P <= Rabs D).

Lemma perm_ge : Rabs D <= P.
Proof. exact (proj1 (proj2 (proj2 (fap_app _ _ _ _ _ fap_det)))). Qed.
Lemma perm_le : P <= 6 * (M * (M * M)).
Proof.
  assert (T : forall i, (0 <= i <= 2)%Z -> Rabs (B2R (F i 0%Z)) * acof F 0 i <= 2 * (M * (M * M))).
  { intros i Hi. change (B2R (F i 0%Z)) with (CR (f i 0%Z)). destruct (fap_cof_ij 0 i ltac:(lia) Hi) as [X Y]. destruct (Hf i 0%Z Hi ltac:(lia)) as [_ [_ B]].
    pose proof (Rabs_pos (CR (f i 0%Z))). replace (2 * (M * (M * M))) with (M * (2 * (M * M))) by ring.
    apply Rmult_le_compat; lra. }
  pose proof (T 0%Z ltac:(lia)). pose proof (T 1%Z ltac:(lia)). pose proof (T 2%Z ltac:(lia)). unfold aperm. lra.
Qed.
Lemma det_close : Rabs (CR (det3 (FmaNum c) f) - D) <= 7 * u * P.
Proof.
  destruct fap_det as [(_ & H & _) _]. eapply Rle_trans; [exact H|]. pose proof G_le as G. pose proof perm_ge.
  pose proof (Rabs_pos D). assert (G5 * P <= 6 * u * P) by (apply Rmult_le_compat_r; lra).
  assert (u * pow2 (-400) <= u * P) by (apply Rmult_le_compat_l; lra).
  assert (pow2 (-767) <= u * pow2 (-400)) by (rewrite <- bpow_plus; apply bpow_le; lia). lra.
Qed.
Lemma det_half : Rabs D / 2 <= Rabs (CR (det3 (FmaNum c) f)) <= 2 * Rabs D.
Proof.
  pose proof det_close as H. pose proof (Rabs_triang_inv D (D - CR (det3 (FmaNum c) f))) as T1.
  replace (D - (D - CR (det3 (FmaNum c) f))) with (CR (det3 (FmaNum c) f)) in T1 by ring.
  rewrite Rabs_minus_sym in H.
  pose proof (Rabs_triang (CR (det3 (FmaNum c) f) - D) D) as T2.
  replace (CR (det3 (FmaNum c) f) - D + D) with (CR (det3 (FmaNum c) f)) in T2 by ring.
  rewrite (Rabs_minus_sym (CR (det3 (FmaNum c) f))) in T2. pose proof (Rabs_pos D). lra.
Qed.

Notation dh := (det3 (FmaNum c) f).
Notation v := (cdiv (plain (b64_ofZ 1)) dh).
Lemma recip_ok : is_finite (cval v) = true /\ Rabs (CR v) <= pow2 401 /\ exists d, Rabs d <= u /\ CR v = 1 / CR dh * (1 + d).
Proof.
  destruct (b64_ofZ_exact 1 ltac:(lia)) as [F1 E1]. pose proof det_half as [L U].
  pose proof (bpow_gt_0 radix2 (-400)) as Z. pose proof perm_ge. pose proof perm_le. pose proof MMM_big.
  assert (NZ : CR dh <> 0) by (intros E; rewrite E, Rabs_R0 in L; lra).
  assert (Up : Rabs (1 / CR dh) <= pow2 401).
  { unfold Rdiv. rewrite Rmult_1_l, Rabs_inv. change 401%Z with (- (-401))%Z; rewrite bpow_opp.
    apply Rinv_le; [apply bpow_gt_0|]. change (-401)%Z with (-400 + -1)%Z. rewrite bpow_plus. change (pow2 (-1)) with (/ 2). lra. }
  destruct (B_div (b64_ofZ 1) (cval dh) 401 F1 NZ ltac:(lia)) as (Fv & Ev & Bv).
  { rewrite E1. exact Up. }
  split; [exact Fv|]. split; [exact Bv|]. rewrite E1 in Ev. cbn [cdiv computed cval plain given]. rewrite Ev. apply rnd_rel.
  unfold Rdiv. rewrite Rmult_1_l, Rabs_inv. change (pow2 (-1022)) with (/ pow2 1022).
  apply Rinv_le; [now apply Rabs_pos_lt|]. apply Rle_trans with (pow2 910); [|apply bpow_le; lia]. rewrite p910. lra.
Qed.

Lemma entry_close i j : (0 <= i <= 2)%Z -> (0 <= j <= 2)%Z ->
  is_finite (cval (inv3 (FmaNum c) f v i j)) = true /\
  Rabs (CR (inv3 (FmaNum c) f v i j) - cof RNum a i j / D) <= 24 * u * (P / Rabs D) * (acof F i j / Rabs D) + pow2 (-670).
Proof.
  intros Hi Hj. assert (E3 : in3 i j = true) by (unfold in3; lia). unfold inv3. rewrite E3. cbn [nmul FmaNum cmul cval].
  destruct (fap_cof_ij i j Hi Hj) as [[[Fc Hc] _] [C0 CM]]. pose proof (app_abs _ _ _ _ _ (conj Fc Hc)) as Ca.
  destruct Hc as (Hc & Hr & _). destruct recip_ok as (Fv & Bv & d1 & Hd1 & Ev).
  pose proof G_le as G. pose proof u_pos as Up. pose proof u_small as Us. pose proof perm_ge as PD. pose proof det_close as DC. pose proof det_half as [DL _].
  pose proof (bpow_gt_0 radix2 (-400)) as Z. pose proof MM_big as MB.
  assert (E1 : pow2 (-1073) <= 1) by (apply (bpow_le radix2 (-1073) 0); lia).
  destruct (B_mult (cval (cof (FmaNum c) f i j)) (cval v) 1010 Fc Fv ltac:(lia)) as (Fx & Ex & _).
  { rewrite Rabs_mult. replace (pow2 1010) with (pow2 609 * pow2 401) by (rewrite <- bpow_plus; reflexivity).
    apply Rmult_le_compat; [apply Rabs_pos|apply Rabs_pos| |exact Bv]. eapply Rle_trans; [exact Ca|].
    apply Rle_trans with (pow2 604); [|apply bpow_le; lia]. rewrite p604.
    assert ((1 + G2) * acof F i j <= 2 * (2 * (M * M))) by (apply Rmult_le_compat; lra). lra. }
  split; [exact Fx|]. rewrite Ex. destruct (rnd_mixed (CR (cof (FmaNum c) f i j) * CR v)) as (d2 & r & Hd2 & Hr2 & _ & ->).
  rewrite Ev. set (cc := cof RNum a i j) in *. set (ch := CR (cof (FmaNum c) f i j)) in *. set (C := acof F i j) in *.
  assert (DN : D <> 0) by (intros E; rewrite E, Rabs_R0 in HD; lra).
  assert (DP : 0 < Rabs D) by lra.
  set (k := P / Rabs D). assert (K1 : 1 <= k).
  { unfold k. apply (Rmult_le_reg_r (Rabs D)); [exact DP|]. unfold Rdiv. rewrite Rmult_assoc, Rinv_l, Rmult_1_r by lra. lra. }
  assert (KP : P = k * Rabs D) by (unfold k; field; lra).
  assert (KU : 14 * u * k <= 1).
  { apply (Rmult_le_reg_r (Rabs D)); [exact DP|]. rewrite KP in HP. lra. }
  set (t := (CR dh - D) / D). assert (Et : CR dh = D * (1 + t)) by (unfold t; field; exact DN).
  assert (Ht : Rabs t <= 7 * u * k).
  { unfold t, Rdiv. rewrite Rabs_mult, Rabs_inv. apply (Rmult_le_reg_r (Rabs D)); [exact DP|].
    rewrite Rmult_assoc, Rinv_l, Rmult_1_r by lra. rewrite KP in DC. lra. }
  assert (T1 : / 2 <= 1 + t) by (apply Rabs_le_inv in Ht; lra).
  set (w := (1 + d1) * (1 + d2) / (1 + t)).
  assert (Eq : ch * (1 / CR dh * (1 + d1)) * (1 + d2) + r - cc / D = (ch * w - cc) / D + r).
  { rewrite Et. unfold w. field. split; [lra|exact DN]. }
  rewrite Eq. clear Eq.
  assert (Q : Rabs ((1 + d1) * (1 + d2) - 1) <= 21 / 10 * u).
  { replace ((1 + d1) * (1 + d2) - 1) with (d1 + d2 + d1 * d2) by ring.
    eapply Rle_trans; [apply Rabs_triang|]. eapply Rle_trans; [apply Rplus_le_compat_r, Rabs_triang|]. rewrite Rabs_mult.
    pose proof (Rabs_pos d1). pose proof (Rabs_pos d2).
    assert (Rabs d1 * Rabs d2 <= u * / 1000000) by (apply Rmult_le_compat; lra). lra. }
  assert (IT : 0 < / (1 + t) <= 2).
  { split; [apply Rinv_0_lt_compat; lra|]. rewrite <- (Rinv_inv 2). apply Rinv_le; lra. }
  assert (W1 : Rabs (w - 1) <= 182 / 10 * (u * k)).
  { replace (w - 1) with (((1 + d1) * (1 + d2) - 1 - t) * / (1 + t)) by (unfold w; field; lra).
    rewrite Rabs_mult, (Rabs_pos_eq (/ (1 + t))) by lra.
    assert (Rabs ((1 + d1) * (1 + d2) - 1 - t) <= 91 / 10 * (u * k)).
    { eapply Rle_trans; [apply Rabs_triang|]. rewrite Rabs_Ropp.
      assert (u * 1 <= u * k) by (apply Rmult_le_compat_l; lra). lra. }
    replace (182 / 10 * (u * k)) with (91 / 10 * (u * k) * 2) by field.
    apply Rmult_le_compat; [apply Rabs_pos|lra|assumption|lra]. }
  assert (W2 : Rabs w <= 23 / 10).
  { replace w with ((w - 1) + 1) by ring. eapply Rle_trans; [apply Rabs_triang|]. rewrite Rabs_R1.
    assert (182 / 10 * (u * k) <= 13 / 10) by lra. lra. }
  assert (N : Rabs (ch * w - cc) <= 24 * (u * k) * C + 3 * pow2 (-1073)).
  { replace (ch * w - cc) with ((ch - cc) * w + cc * (w - 1)) by ring.
    eapply Rle_trans; [apply Rabs_triang|]. rewrite !Rabs_mult.
    pose proof (bpow_gt_0 radix2 (-1073)) as Z3.
    assert (X1 : Rabs (ch - cc) <= 21 / 10 * u * C + pow2 (-1073)).
    { eapply Rle_trans; [exact Hc|]. apply Rplus_le_compat_r, Rmult_le_compat_r; lra. }
    assert (X2 : Rabs (ch - cc) * Rabs w <= (21 / 10 * u * C + pow2 (-1073)) * (23 / 10)).
    { apply Rmult_le_compat; [apply Rabs_pos|apply Rabs_pos|exact X1|exact W2]. }
    assert (X3 : Rabs cc * Rabs (w - 1) <= C * (182 / 10 * (u * k))).
    { apply Rmult_le_compat; [apply Rabs_pos|apply Rabs_pos|exact Hr|exact W1]. }
    assert (X4 : u * C <= u * k * C).
    { apply Rmult_le_compat_r; [exact C0|]. assert (u * 1 <= u * k) by (apply Rmult_le_compat_l; lra). lra. }
    assert (X5 : 0 <= u * k * C) by (apply Rmult_le_pos; [apply Rmult_le_pos|]; lra).
    eapply Rle_trans; [apply Rplus_le_compat; [exact X2|exact X3]|].
    clear -X4 X5 Z3. nra. }
  eapply Rle_trans; [apply Rabs_triang|].
  assert (N2 : Rabs ((ch * w - cc) / D) <= 24 * u * k * (C / Rabs D) + 3 * pow2 (-673)).
  { unfold Rdiv. rewrite Rabs_mult, Rabs_inv.
    apply Rle_trans with ((24 * (u * k) * C + 3 * pow2 (-1073)) * / Rabs D).
    - apply Rmult_le_compat_r; [|exact N]. apply Rlt_le, Rinv_0_lt_compat. exact DP.
    - rewrite Rmult_plus_distr_r. apply Rplus_le_compat; [apply Req_le; ring|].
      rewrite Rmult_assoc. apply Rmult_le_compat_l; [lra|].
      change (-673)%Z with (-1073 + 400)%Z. rewrite bpow_plus. apply Rmult_le_compat_l; [apply bpow_ge_0|].
      change 400%Z with (- (-400))%Z; rewrite bpow_opp. apply Rinv_le; [exact Z|exact HD]. }
  assert (Rabs r <= pow2 (-673)) by (eapply Rle_trans; [exact Hr2|apply bpow_le; lia]).
  assert (pow2 (-670) = 8 * pow2 (-673)) by exact (p2 (-673) 3 ltac:(lia)).
  pose proof (bpow_gt_0 radix2 (-673)). fold k. lra.
Qed.
End Matrix.
End C.

(** ** Statements in terms of the specification *)
Section Statements.
Context (c : contraction) (f : Z -> Z -> cdouble).
Lemma ok_of_CEntries : CEntries f -> ok_cmatrix f.
Proof. intros H i j Hi Hj. apply H; lia. Qed.
Let A : Z -> Z -> b64 := fun i j => cval (f i j).

Lemma det_fma_lemma : CEntries f ->
  exists X d, inverse_c (FmaNum c) (rows_of f) = Ok (rows_of X, d) /\ CFinite d /\
    Rabs (creal d - det 3 (creal_matrix f)) <= 6 * pow2 (-53) * perm 3 (absm (creal_matrix f)) + pow2 (-767).
Proof.
  change (creal_matrix f) with (real_matrix A). intros H. destruct (fap_det c f (ok_of_CEntries H)) as [(F & E & B & _) _].
  exists (inv3 (FmaNum c) f (cdiv (plain (b64_ofZ 1)) (det3 (FmaNum c) f))), (det3 (FmaNum c) f).
  split; [exact (inverse_c_any (FmaNum c) f _ eq_refl)|]. split; [exact F|].
  rewrite <- aperm_perm, <- det3_det. eapply Rle_trans; [exact E|]. apply Rplus_le_compat_r, Rmult_le_compat_r.
  - eapply Rle_trans; [apply Rabs_pos|exact B].
  - apply G_le.
Qed.

Lemma inverse_fma_lemma : CEntries f ->
  pow2 (-400) <= Rabs (det 3 (creal_matrix f)) ->
  14 * pow2 (-53) * perm 3 (absm (creal_matrix f)) <= Rabs (det 3 (creal_matrix f)) ->
  exists X d B, inverse_c (FmaNum c) (rows_of f) = Ok (rows_of X, d) /\ Inverse 3 (creal_matrix f) B /\
    Rabs (creal d - det 3 (creal_matrix f)) <= 7 * pow2 (-53) * perm 3 (absm (creal_matrix f)) /\
    forall i j, (0 <= i < 3)%Z -> (0 <= j < 3)%Z -> CFinite (X i j) /\
      Rabs (creal (X i j) - B i j) <=
        24 * pow2 (-53) * (perm 3 (absm (creal_matrix f)) / Rabs (det 3 (creal_matrix f)))
          * (perm 2 (minor (absm (creal_matrix f)) j i) / Rabs (det 3 (creal_matrix f))) + pow2 (-670).
Proof.
  change (creal_matrix f) with (real_matrix A). intros H HD HP. rewrite <- aperm_perm, <- det3_det in *. pose proof (ok_of_CEntries H) as Hf.
  exists (inv3 (FmaNum c) f (cdiv (plain (b64_ofZ 1)) (det3 (FmaNum c) f))), (det3 (FmaNum c) f),
    (inv3 RNum (real_matrix A) (/ det3 RNum (real_matrix A))).
  split; [exact (inverse_c_any (FmaNum c) f _ eq_refl)|]. split.
  { apply inv3_Inverse. rewrite <- det3_det. apply Rinv_l. intros E. rewrite E, Rabs_R0 in HD.
    pose proof (bpow_gt_0 radix2 (-400)). lra. }
  split; [exact (det_close c f Hf HD)|]. intros i j Hi Hj. rewrite <- acof_perm by lia.
  destruct (entry_close c f Hf HD HP i j ltac:(lia) ltac:(lia)) as [F E]. split; [exact F|].
  assert (E3 : in3 i j = true) by (unfold in3; lia).
  replace (inv3 RNum (real_matrix A) (/ det3 RNum (real_matrix A)) i j) with (cof RNum (real_matrix A) i j / det3 RNum (real_matrix A)).
  - exact E.
  - unfold inv3. rewrite E3. reflexivity.
Qed.
End Statements.
