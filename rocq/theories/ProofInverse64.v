(** The 3x3 determinant and inverse in doubles. *)
From Coq Require Import ZArith Reals Bool Lia Lra Psatz.
From Flocq Require Import Core IEEE754.BinarySingleNaN.
From Verif Require Import Base ProofBase Num ModelB64 ModelAssert ModelCArray ModelMath SpecMath SpecCArray SpecAccuracy
  ProofMath ProofB64 ProofErr64.
Local Open Scope R_scope.

Notation M := (pow2 300).
Lemma M_big : 1 <= M. Proof. apply (bpow_le radix2 0 300). lia. Qed.
Lemma MM_big : 1 <= M * M. Proof. pose proof M_big. replace 1 with (1 * 1) by ring. apply Rmult_le_compat; lra. Qed.
Lemma MMM_big : 1 <= M * (M * M). Proof. pose proof M_big. pose proof MM_big. replace 1 with (1 * 1) by ring. apply Rmult_le_compat; lra. Qed.
Lemma M2 : pow2 600 = M * M. Proof. exact (bpow_plus radix2 300 300). Qed.
Lemma M3 : pow2 900 = M * (M * M). Proof. rewrite <- M2. exact (bpow_plus radix2 300 600). Qed.
Lemma p2 k j : (0 <= j)%Z -> pow2 (j + k) = IZR (2 ^ j) * pow2 k.
Proof. intros H. rewrite bpow_plus. f_equal. now rewrite <- IZR_Zpower. Qed.
Lemma eta4 : pow2 (-1073) = 4 * eta. Proof. exact (p2 (-1075) 2 ltac:(lia)). Qed.
Lemma e770 : pow2 (-770) = 32 * (M * eta).
Proof. rewrite <- bpow_plus. exact (p2 (-775) 5 ltac:(lia)). Qed.
Lemma e767 : pow2 (-767) = 256 * (M * eta).
Proof. rewrite <- bpow_plus. exact (p2 (-775) 8 ltac:(lia)). Qed.
Lemma p604 : pow2 604 = 16 * (M * M). Proof. rewrite <- M2. exact (p2 600 4 ltac:(lia)). Qed.
Lemma p910 : pow2 910 = 1024 * (M * (M * M)). Proof. rewrite <- M3. exact (p2 900 10 ltac:(lia)). Qed.

Notation G2 := ((1 + u) * (1 + u) - 1).
Notation G3 := ((1 + G2) * (1 + u) - 1).
Notation G4 := ((1 + G3) * (1 + u) - 1).
Notation G5 := ((1 + G4) * (1 + u) - 1).
Lemma G_le : 0 < u /\ u <= G2 /\ G2 <= G3 /\ G3 <= G4 /\ G4 <= G5 /\ G5 <= 6 * u /\ G2 <= 21 / 10 * u /\ G5 <= 1.
Proof.
  pose proof u_pos as P. pose proof u_small as S.
  assert (U2 : 0 <= u * u <= u * / 1000000) by nra.
  assert (E2 : 1 + G2 = 1 + 2 * u + u * u) by ring.
  assert (B2 : 2 * u <= G2 <= 21 / 10 * u) by lra.
  assert (B3 : 3 * u <= G3 <= 32 / 10 * u) by nra.
  assert (B4 : 4 * u <= G4 <= 43 / 10 * u) by nra.
  assert (B5 : 5 * u <= G5 <= 54 / 10 * u) by nra.
  lra.
Qed.

Definition ok_entry (x : b64) : Prop := is_finite x = true /\ Rabs (B2R x) <= M.
Lemma app_prod2 p q : ok_entry p -> ok_entry q ->
  App (Bmult mode_NE p q) (B2R p * B2R q) (Rabs (B2R p) * Rabs (B2R q)) u eta.
Proof.
  intros [Fp Bp] [Fq Bq]. pose proof u_pos. pose proof eta_pos. pose proof (Rabs_pos (B2R p)). pose proof (Rabs_pos (B2R q)).
  eapply app_weaken.
  - apply (app_mult p q _ _ _ _ _ _ _ _ 600 (app_exact p Fp) (app_exact q Fq)); [lia|]. rewrite M2.
    rewrite !Rplus_0_r, !Rmult_1_l. apply Rmult_le_compat; lra.
  - apply Rle_refl.
  - apply Req_le. ring.
  - apply Req_le. ring.
Qed.
Lemma app_cof p q r s : ok_entry p -> ok_entry q -> ok_entry r -> ok_entry s ->
  App (Bminus mode_NE (Bmult mode_NE p q) (Bmult mode_NE r s)) (B2R p * B2R q - B2R r * B2R s)
    (Rabs (B2R p) * Rabs (B2R q) + Rabs (B2R r) * Rabs (B2R s)) G2 (pow2 (-1073)).
Proof.
  intros Hp Hq Hr Hs. pose proof u_pos. pose proof u_small. pose proof eta_pos. pose proof M_big.
  assert (X : forall a b, ok_entry a -> ok_entry b -> 0 <= Rabs (B2R a) * Rabs (B2R b) <= M * M).
  { intros a b [_ Ha] [_ Hb]. pose proof (Rabs_pos (B2R a)). pose proof (Rabs_pos (B2R b)).
    split; [now apply Rmult_le_pos|apply Rmult_le_compat; lra]. }
  pose proof (X _ _ Hp Hq). pose proof (X _ _ Hr Hs).
  assert (E1 : eta <= 1) by (apply (bpow_le radix2 (-1075) 0); lia).
  eapply app_weaken.
  - apply (app_minus _ _ _ _ _ _ _ _ _ 604 (app_prod2 p q Hp Hq) (app_prod2 r s Hr Hs)); [lia|]. rewrite p604. nra.
  - apply Rle_refl.
  - apply Rle_refl.
  - rewrite eta4. nra.
Qed.

(** Absolute cofactors. *)
Definition R2 (p q r s : b64) : R := Rabs (B2R p) * Rabs (B2R q) + Rabs (B2R r) * Rabs (B2R s).
Lemma R2_bound p q r s : ok_entry p -> ok_entry q -> ok_entry r -> ok_entry s -> 0 <= R2 p q r s <= 2 * (M * M).
Proof.
  intros Hp Hq Hr Hs. assert (X : forall a b, ok_entry a -> ok_entry b -> 0 <= Rabs (B2R a) * Rabs (B2R b) <= M * M).
  { intros a b [_ Ha] [_ Hb]. pose proof (Rabs_pos (B2R a)). pose proof (Rabs_pos (B2R b)).
    split; [now apply Rmult_le_pos|apply Rmult_le_compat; lra]. }
  pose proof (X _ _ Hp Hq). pose proof (X _ _ Hr Hs). unfold R2. lra.
Qed.
Lemma app_term s c r C : ok_entry s -> App c r C G2 (pow2 (-1073)) -> C <= 2 * (M * M) ->
  App (Bmult mode_NE s c) (B2R s * r) (Rabs (B2R s) * C) G3 (pow2 (-770)).
Proof.
  intros [Fs Bs] Hc HC. pose proof G_le. pose proof u_pos. pose proof u_small. pose proof eta_pos. pose proof M_big.
  assert (E1 : eta <= 1) by (apply (bpow_le radix2 (-1075) 0); lia).
  assert (C0 : 0 <= C) by (destruct Hc as (_ & _ & X & _); pose proof (Rabs_pos r); lra).
  pose proof (Rabs_pos (B2R s)) as S0.
  eapply app_weaken.
  - apply (app_mult s c _ _ _ _ _ _ _ _ 910 (app_exact s Fs) Hc); [lia|].
    rewrite p910, eta4.
    apply Rle_trans with (M * (7 * (M * M))); [|assert (0 <= M * (M * M)) by (repeat apply Rmult_le_pos; lra); lra].
    apply Rmult_le_compat; [lra| |lra|].
    + assert (0 <= (1 + G2) * C) by (apply Rmult_le_pos; lra). lra.
    + assert ((1 + G2) * C <= (1 + / 1000) * (2 * (M * M))) by (apply Rmult_le_compat; lra).
      pose proof MM_big. lra.
  - apply Rle_refl.
  - apply Req_le. ring.
  - rewrite e770, eta4. assert (eta <= M * eta) by nra. assert (Rabs (B2R s) * eta <= M * eta) by nra.
    assert (0 <= M * eta) by nra. nra.
Qed.

Definition ok_matrix (f : Z -> Z -> b64) : Prop := forall i j, (0 <= i <= 2)%Z -> (0 <= j <= 2)%Z -> ok_entry (f i j).
(** Absolute cofactor matrix and the permanent. *)
Definition acof (f : Z -> Z -> b64) (i j : Z) : R :=
  match i with
  | 0 => match j with
         | 0 => R2 (f 1 1) (f 2 2) (f 1 2) (f 2 1)
         | 1 => R2 (f 0 2) (f 2 1) (f 0 1) (f 2 2)
         | _ => R2 (f 0 1) (f 1 2) (f 0 2) (f 1 1)
         end
  | 1 => match j with
         | 0 => R2 (f 1 2) (f 2 0) (f 1 0) (f 2 2)
         | 1 => R2 (f 0 0) (f 2 2) (f 0 2) (f 2 0)
         | _ => R2 (f 0 2) (f 1 0) (f 0 0) (f 1 2)
         end
  | _ => match j with
         | 0 => R2 (f 1 0) (f 2 1) (f 1 1) (f 2 0)
         | 1 => R2 (f 0 1) (f 2 0) (f 0 0) (f 2 1)
         | _ => R2 (f 0 0) (f 1 1) (f 0 1) (f 1 0)
         end
  end%Z.
Definition aperm (f : Z -> Z -> b64) : R :=
  Rabs (B2R (f 0%Z 0%Z)) * acof f 0 0 + Rabs (B2R (f 1%Z 0%Z)) * acof f 0 1 + Rabs (B2R (f 2%Z 0%Z)) * acof f 0 2.

Section Matrix.
Context (f : Z -> Z -> b64) (Hf : ok_matrix f).
Let a : matrix := fun i j => B2R (f i j).

Lemma app_cof_ij i j : (0 <= i <= 2)%Z -> (0 <= j <= 2)%Z ->
  App (cof B64Num f i j) (cof RNum a i j) (acof f i j) G2 (pow2 (-1073)) /\ 0 <= acof f i j <= 2 * (M * M).
Proof.
  intros Hi Hj. assert (Ci : i = 0%Z \/ i = 1%Z \/ i = 2%Z) by lia. assert (Cj : j = 0%Z \/ j = 1%Z \/ j = 2%Z) by lia.
  destruct Ci as [->|[->| ->]]; destruct Cj as [->|[->| ->]]; cbn [cof minor0 acof];
    (split; [apply app_cof; apply Hf; lia|apply R2_bound; apply Hf; lia]).
Qed.

Lemma app_det : App (det3 B64Num f) (det3 RNum a) (aperm f) G5 (pow2 (-767)).
Proof.
  pose proof G_le as G. pose proof u_pos. pose proof u_small. pose proof eta_pos. pose proof M_big.
  assert (E1 : eta <= 1) by (apply (bpow_le radix2 (-1075) 0); lia).
  assert (T : forall i, (0 <= i <= 2)%Z -> App (Bmult mode_NE (f i 0%Z) (cof B64Num f 0 i)) (a i 0%Z * cof RNum a 0 i)
    (Rabs (B2R (f i 0%Z)) * acof f 0 i) G3 (pow2 (-770)) /\ 0 <= Rabs (B2R (f i 0%Z)) * acof f 0 i <= 2 * (M * (M * M))).
  { intros i Hi. destruct (app_cof_ij 0 i ltac:(lia) Hi) as [X Y]. split; [apply app_term; [apply Hf; lia|exact X|lra]|].
    destruct (Hf i 0%Z Hi ltac:(lia)) as [_ B]. pose proof (Rabs_pos (B2R (f i 0%Z))). split; [apply Rmult_le_pos; lra|].
    replace (2 * (M * (M * M))) with (M * (2 * (M * M))) by ring. apply Rmult_le_compat; lra. }
  destruct (T 0%Z ltac:(lia)) as [T0 B0]. destruct (T 1%Z ltac:(lia)) as [T1 B1]. destruct (T 2%Z ltac:(lia)) as [T2 B2].
  pose proof MMM_big as Q.
  assert (ME : 0 < M * eta <= 1).
  { split; [nra|]. rewrite <- bpow_plus. apply (bpow_le radix2 _ 0). lia. }
  assert (S1 : App (Bplus mode_NE (Bmult mode_NE (f 0%Z 0%Z) (cof B64Num f 0 0)) (Bmult mode_NE (f 1%Z 0%Z) (cof B64Num f 0 1)))
    (a 0%Z 0%Z * cof RNum a 0 0 + a 1%Z 0%Z * cof RNum a 0 1)
    (Rabs (B2R (f 0%Z 0%Z)) * acof f 0 0 + Rabs (B2R (f 1%Z 0%Z)) * acof f 0 1) G4 (65 * (M * eta))).
  { eapply app_weaken.
    - apply (app_plus _ _ _ _ _ _ _ _ _ _ 910 T0 T1); [lia|reflexivity|]. rewrite p910, e770.
      apply Rle_trans with (2 * (4 * (M * (M * M))) + 64); [|lra].
      assert ((1 + G3) * (Rabs (B2R (f 0%Z 0%Z)) * acof f 0 0 + Rabs (B2R (f 1%Z 0%Z)) * acof f 0 1) <= 2 * (4 * (M * (M * M))))
        by (apply Rmult_le_compat; lra). lra.
    - apply Rle_refl.
    - apply Rle_refl.
    - rewrite e770. nra. }
  assert (T2' : App (Bmult mode_NE (f 2%Z 0%Z) (cof B64Num f 0 2)) (a 2%Z 0%Z * cof RNum a 0 2)
    (Rabs (B2R (f 2%Z 0%Z)) * acof f 0 2) G4 (pow2 (-770))).
  { eapply app_weaken; [exact T2|apply Rle_refl|lra|apply Rle_refl]. }
  change (App (Bplus mode_NE (Bplus mode_NE (Bmult mode_NE (f 0%Z 0%Z) (cof B64Num f 0 0)) (Bmult mode_NE (f 1%Z 0%Z) (cof B64Num f 0 1)))
    (Bmult mode_NE (f 2%Z 0%Z) (cof B64Num f 0 2)))
    (a 0%Z 0%Z * cof RNum a 0 0 + a 1%Z 0%Z * cof RNum a 0 1 + a 2%Z 0%Z * cof RNum a 0 2) (aperm f) G5 (pow2 (-767))).
  eapply app_weaken.
  - apply (app_plus _ _ _ _ _ _ _ _ _ _ 910 S1 T2'); [lia|reflexivity|]. rewrite p910, e770.
    assert ((1 + G4) * (Rabs (B2R (f 0%Z 0%Z)) * acof f 0 0 + Rabs (B2R (f 1%Z 0%Z)) * acof f 0 1 + Rabs (B2R (f 2%Z 0%Z)) * acof f 0 2)
      <= 2 * (6 * (M * (M * M)))) by (apply Rmult_le_compat; lra). lra.
  - apply Rle_refl.
  - apply Rle_refl.
  - rewrite e770, e767. nra.
Qed.

Notation D := (det3 RNum a).
Notation P := (aperm f).
Context (HD : pow2 (-400) <= Rabs D) (HP : 14 * u * P <= Rabs D).

Lemma perm_ge : Rabs D <= P.
Proof. exact (proj1 (proj2 (proj2 app_det))). Qed.
Lemma perm_le : P <= 6 * (M * (M * M)).
Proof.
  assert (T : forall i, (0 <= i <= 2)%Z -> Rabs (B2R (f i 0%Z)) * acof f 0 i <= 2 * (M * (M * M))).
  { intros i Hi. destruct (app_cof_ij 0 i ltac:(lia) Hi) as [X Y]. destruct (Hf i 0%Z Hi ltac:(lia)) as [_ B].
    pose proof (Rabs_pos (B2R (f i 0%Z))). replace (2 * (M * (M * M))) with (M * (2 * (M * M))) by ring.
    apply Rmult_le_compat; lra. }
  pose proof (T 0%Z ltac:(lia)). pose proof (T 1%Z ltac:(lia)). pose proof (T 2%Z ltac:(lia)). unfold aperm. lra.
Qed.
Lemma det_close : Rabs (B2R (det3 B64Num f) - D) <= 7 * u * P.
Proof.
  destruct app_det as (_ & H & _). eapply Rle_trans; [exact H|]. pose proof G_le as G. pose proof perm_ge.
  pose proof (Rabs_pos D). assert (G5 * P <= 6 * u * P) by (apply Rmult_le_compat_r; lra).
  assert (u * pow2 (-400) <= u * P) by (apply Rmult_le_compat_l; lra).
  assert (pow2 (-767) <= u * pow2 (-400)) by (rewrite <- bpow_plus; apply bpow_le; lia). lra.
Qed.
Lemma det_half : Rabs D / 2 <= Rabs (B2R (det3 B64Num f)) <= 2 * Rabs D.
Proof.
  pose proof det_close as H. pose proof (Rabs_triang_inv D (D - B2R (det3 B64Num f))) as T1.
  replace (D - (D - B2R (det3 B64Num f))) with (B2R (det3 B64Num f)) in T1 by ring.
  rewrite Rabs_minus_sym in H.
  pose proof (Rabs_triang (B2R (det3 B64Num f) - D) D) as T2.
  replace (B2R (det3 B64Num f) - D + D) with (B2R (det3 B64Num f)) in T2 by ring.
  rewrite (Rabs_minus_sym (B2R (det3 B64Num f))) in T2. pose proof (Rabs_pos D). lra.
Qed.

Notation dh := (det3 B64Num f).
Notation v := (Bdiv mode_NE (b64_ofZ 1) dh).
Lemma recip_ok : is_finite v = true /\ Rabs (B2R v) <= pow2 401 /\ exists d, Rabs d <= u /\ B2R v = 1 / B2R dh * (1 + d).
Proof.
  destruct (b64_ofZ_exact 1 ltac:(lia)) as [F1 E1]. pose proof det_half as [L U].
  pose proof (bpow_gt_0 radix2 (-400)) as Z. pose proof perm_ge. pose proof perm_le. pose proof MMM_big.
  assert (NZ : B2R dh <> 0) by (intros E; rewrite E, Rabs_R0 in L; lra).
  assert (Up : Rabs (1 / B2R dh) <= pow2 401).
  { unfold Rdiv. rewrite Rmult_1_l, Rabs_inv. change 401%Z with (- (-401))%Z; rewrite bpow_opp.
    apply Rinv_le; [apply bpow_gt_0|]. change (-401)%Z with (-400 + -1)%Z. rewrite bpow_plus. change (pow2 (-1)) with (/ 2). lra. }
  destruct (B_div (b64_ofZ 1) dh 401 F1 NZ ltac:(lia)) as (Fv & Ev & Bv).
  { rewrite E1. exact Up. }
  split; [exact Fv|]. split; [exact Bv|]. rewrite E1 in Ev. rewrite Ev. apply rnd_rel.
  unfold Rdiv. rewrite Rmult_1_l, Rabs_inv. change (pow2 (-1022)) with (/ pow2 1022).
  apply Rinv_le; [now apply Rabs_pos_lt|]. apply Rle_trans with (pow2 910); [|apply bpow_le; lia]. rewrite p910. lra.
Qed.

Lemma entry_close i j : (0 <= i <= 2)%Z -> (0 <= j <= 2)%Z ->
  is_finite (inv3 B64Num f v i j) = true /\
  Rabs (B2R (inv3 B64Num f v i j) - cof RNum a i j / D) <= 24 * u * (P / Rabs D) * (acof f i j / Rabs D) + pow2 (-670).
Proof.
  intros Hi Hj. assert (E3 : in3 i j = true) by (unfold in3; lia). unfold inv3. rewrite E3. cbn [nmul B64Num].
  destruct (app_cof_ij i j Hi Hj) as [[Fc Hc] [C0 CM]]. pose proof (app_abs _ _ _ _ _ (conj Fc Hc)) as Ca.
  destruct Hc as (Hc & Hr & _). destruct recip_ok as (Fv & Bv & d1 & Hd1 & Ev).
  pose proof G_le as G. pose proof u_pos as Up. pose proof u_small as Us. pose proof perm_ge as PD. pose proof det_close as DC. pose proof det_half as [DL _].
  pose proof (bpow_gt_0 radix2 (-400)) as Z. pose proof MM_big as MB.
  assert (E1 : pow2 (-1073) <= 1) by (apply (bpow_le radix2 (-1073) 0); lia).
  destruct (B_mult (cof B64Num f i j) v 1010 Fc Fv ltac:(lia)) as (Fx & Ex & _).
  { rewrite Rabs_mult. replace (pow2 1010) with (pow2 609 * pow2 401) by (rewrite <- bpow_plus; reflexivity).
    apply Rmult_le_compat; [apply Rabs_pos|apply Rabs_pos| |exact Bv]. eapply Rle_trans; [exact Ca|].
    apply Rle_trans with (pow2 604); [|apply bpow_le; lia]. rewrite p604.
    assert ((1 + G2) * acof f i j <= 2 * (2 * (M * M))) by (apply Rmult_le_compat; lra). lra. }
  split; [exact Fx|]. rewrite Ex. destruct (rnd_mixed (B2R (cof B64Num f i j) * B2R v)) as (d2 & r & Hd2 & Hr2 & _ & ->).
  rewrite Ev. set (c := cof RNum a i j) in *. set (ch := B2R (cof B64Num f i j)) in *. set (C := acof f i j) in *.
  assert (DN : D <> 0) by (intros E; rewrite E, Rabs_R0 in HD; lra).
  assert (DP : 0 < Rabs D) by lra.
  set (k := P / Rabs D). assert (K1 : 1 <= k).
  { unfold k. apply (Rmult_le_reg_r (Rabs D)); [exact DP|]. unfold Rdiv. rewrite Rmult_assoc, Rinv_l, Rmult_1_r by lra. lra. }
  assert (KP : P = k * Rabs D) by (unfold k; field; lra).
  assert (KU : 14 * u * k <= 1).
  { apply (Rmult_le_reg_r (Rabs D)); [exact DP|]. rewrite KP in HP. lra. }
  set (t := (B2R dh - D) / D). assert (Et : B2R dh = D * (1 + t)) by (unfold t; field; exact DN).
  assert (Ht : Rabs t <= 7 * u * k).
  { unfold t, Rdiv. rewrite Rabs_mult, Rabs_inv. apply (Rmult_le_reg_r (Rabs D)); [exact DP|].
    rewrite Rmult_assoc, Rinv_l, Rmult_1_r by lra. rewrite KP in DC. lra. }
  assert (T1 : / 2 <= 1 + t) by (apply Rabs_le_inv in Ht; lra).
  set (w := (1 + d1) * (1 + d2) / (1 + t)).
  assert (Eq : ch * (1 / B2R dh * (1 + d1)) * (1 + d2) + r - c / D = (ch * w - c) / D + r).
  { rewrite Et. unfold w. field. split; [lra|exact DN]. }
  rewrite Eq. clear Eq.
  assert (Q : Rabs ((1 + d1) * (1 + d2) - 1) <= 21 / 10 * u).
  { replace ((1 + d1) * (1 + d2) - 1) with (d1 + d2 + d1 * d2) by ring.
    eapply Rle_trans; [apply Rabs_triang|]. eapply Rle_trans; [apply Rplus_le_compat_r, Rabs_triang|]. rewrite Rabs_mult.
    pose proof (Rabs_pos d1). pose proof (Rabs_pos d2).
    assert (Rabs d1 * Rabs d2 <= u * / 1000000) by (apply Rmult_le_compat; lra). lra. }
  assert (IT : 0 < / (1 + t) <= 2).
  { split; [apply Rinv_0_lt_compat; lra|]. rewrite <- (Rinv_inv 2). apply Rinv_le; lra. }
  assert (W1 : Rabs (w - 1) <= 182 / 10 * (u * k)).
  { replace (w - 1) with (((1 + d1) * (1 + d2) - 1 - t) * / (1 + t)) by (unfold w; field; lra).
    rewrite Rabs_mult, (Rabs_pos_eq (/ (1 + t))) by lra.
    assert (Rabs ((1 + d1) * (1 + d2) - 1 - t) <= 91 / 10 * (u * k)).
    { eapply Rle_trans; [apply Rabs_triang|]. rewrite Rabs_Ropp.
      assert (u * 1 <= u * k) by (apply Rmult_le_compat_l; lra). lra. }
    replace (182 / 10 * (u * k)) with (91 / 10 * (u * k) * 2) by field.
    apply Rmult_le_compat; [apply Rabs_pos|lra|assumption|lra]. }
  assert (W2 : Rabs w <= 23 / 10).
  { replace w with ((w - 1) + 1) by ring. eapply Rle_trans; [apply Rabs_triang|]. rewrite Rabs_R1.
    assert (182 / 10 * (u * k) <= 13 / 10) by lra. lra. }
  assert (N : Rabs (ch * w - c) <= 24 * (u * k) * C + 3 * pow2 (-1073)).
  { replace (ch * w - c) with ((ch - c) * w + c * (w - 1)) by ring.
    eapply Rle_trans; [apply Rabs_triang|]. rewrite !Rabs_mult.
    pose proof (bpow_gt_0 radix2 (-1073)) as Z3.
    assert (X1 : Rabs (ch - c) <= 21 / 10 * u * C + pow2 (-1073)).
    { eapply Rle_trans; [exact Hc|]. apply Rplus_le_compat_r, Rmult_le_compat_r; lra. }
    assert (X2 : Rabs (ch - c) * Rabs w <= (21 / 10 * u * C + pow2 (-1073)) * (23 / 10)).
    { apply Rmult_le_compat; [apply Rabs_pos|apply Rabs_pos|exact X1|exact W2]. }
    assert (X3 : Rabs c * Rabs (w - 1) <= C * (182 / 10 * (u * k))).
    { apply Rmult_le_compat; [apply Rabs_pos|apply Rabs_pos|exact Hr|exact W1]. }
    assert (X4 : u * C <= u * k * C).
    { apply Rmult_le_compat_r; [exact C0|]. assert (u * 1 <= u * k) by (apply Rmult_le_compat_l; lra). lra. }
    assert (X5 : 0 <= u * k * C) by (apply Rmult_le_pos; [apply Rmult_le_pos|]; lra).
    eapply Rle_trans; [apply Rplus_le_compat; [exact X2|exact X3]|].
    clear -X4 X5 Z3. nra. }
  eapply Rle_trans; [apply Rabs_triang|].
  assert (N2 : Rabs ((ch * w - c) / D) <= 24 * u * k * (C / Rabs D) + 3 * pow2 (-673)).
  { unfold Rdiv. rewrite Rabs_mult, Rabs_inv.
    apply Rle_trans with ((24 * (u * k) * C + 3 * pow2 (-1073)) * / Rabs D).
    - apply Rmult_le_compat_r; [|exact N]. apply Rlt_le, Rinv_0_lt_compat. exact DP.
    - rewrite Rmult_plus_distr_r. apply Rplus_le_compat; [apply Req_le; ring|].
      rewrite Rmult_assoc. apply Rmult_le_compat_l; [lra|].
      change (-673)%Z with (-1073 + 400)%Z. rewrite bpow_plus. apply Rmult_le_compat_l; [apply bpow_ge_0|].
      change 400%Z with (- (-400))%Z; rewrite bpow_opp. apply Rinv_le; [exact Z|exact HD]. }
  assert (Rabs r <= pow2 (-673)) by (eapply Rle_trans; [exact Hr2|apply bpow_le; lia]).
  assert (pow2 (-670) = 8 * pow2 (-673)) by exact (p2 (-673) 3 ltac:(lia)).
  pose proof (bpow_gt_0 radix2 (-673)). fold k. lra.
Qed.
End Matrix.

(** ** Statements in terms of the specification *)
Lemma ok_of_Entries A : Entries64 A -> ok_matrix A.
Proof. intros H i j Hi Hj. apply H; lia. Qed.
Lemma aperm_perm f : aperm f = perm 3 (absm (real_matrix f)).
Proof. unfold perm, aperm, acof, R2, absm, real_matrix. cbn. ring. Qed.
Lemma acof_perm f i j : (0 <= i <= 2)%Z -> (0 <= j <= 2)%Z -> acof f i j = perm 2 (minor (absm (real_matrix f)) j i).
Proof.
  intros Hi Hj. assert (Ci : (i = 0 \/ i = 1 \/ i = 2)%Z) by lia. assert (Cj : (j = 0 \/ j = 1 \/ j = 2)%Z) by lia.
  destruct Ci as [->|[->| ->]]; destruct Cj as [->|[->| ->]];
    unfold perm, acof, R2, minor, absm, real_matrix; cbn; ring.
Qed.

Lemma det64_lemma A : Entries64 A ->
  exists X d, inverse_c B64Num (rows_of A) = Ok (rows_of X, d) /\ is_finite d = true /\
    Rabs (B2R d - det 3 (real_matrix A)) <= 6 * pow2 (-53) * perm 3 (absm (real_matrix A)) + pow2 (-767).
Proof.
  intros H. pose proof (app_det A (ok_of_Entries A H)) as (F & E & B & _).
  exists (inv3 B64Num A (Bdiv mode_NE (b64_ofZ 1) (det3 B64Num A))), (det3 B64Num A).
  split; [exact (inverse_c_any B64Num A _ eq_refl)|]. split; [exact F|].
  rewrite <- aperm_perm, <- det3_det. eapply Rle_trans; [exact E|]. apply Rplus_le_compat_r, Rmult_le_compat_r.
  - eapply Rle_trans; [apply Rabs_pos|exact B].
  - apply G_le.
Qed.

Lemma inverse64_lemma A : Entries64 A ->
  pow2 (-400) <= Rabs (det 3 (real_matrix A)) ->
  14 * pow2 (-53) * perm 3 (absm (real_matrix A)) <= Rabs (det 3 (real_matrix A)) ->
  exists X d B, inverse_c B64Num (rows_of A) = Ok (rows_of X, d) /\ Inverse 3 (real_matrix A) B /\
    Rabs (B2R d - det 3 (real_matrix A)) <= 7 * pow2 (-53) * perm 3 (absm (real_matrix A)) /\
    forall i j, (0 <= i < 3)%Z -> (0 <= j < 3)%Z -> is_finite (X i j) = true /\
      Rabs (B2R (X i j) - B i j) <=
        24 * pow2 (-53) * (perm 3 (absm (real_matrix A)) / Rabs (det 3 (real_matrix A)))
          * (perm 2 (minor (absm (real_matrix A)) j i) / Rabs (det 3 (real_matrix A))) + pow2 (-670).
Proof.
  intros H HD HP. rewrite <- aperm_perm, <- det3_det in *. pose proof (ok_of_Entries A H) as Hf.
  exists (inv3 B64Num A (Bdiv mode_NE (b64_ofZ 1) (det3 B64Num A))), (det3 B64Num A), (inv3 RNum (real_matrix A) (/ det3 RNum (real_matrix A))).
  split; [exact (inverse_c_any B64Num A _ eq_refl)|]. split.
  { apply inv3_Inverse. rewrite <- det3_det. apply Rinv_l. intros E. rewrite E, Rabs_R0 in HD.
    pose proof (bpow_gt_0 radix2 (-400)). lra. }
  split; [exact (det_close A Hf HD)|]. intros i j Hi Hj. rewrite <- acof_perm by lia.
  destruct (entry_close A Hf HD HP i j ltac:(lia) ltac:(lia)) as [F E]. split; [exact F|].
  assert (E3 : in3 i j = true) by (unfold in3; lia).
  replace (inv3 RNum (real_matrix A) (/ det3 RNum (real_matrix A)) i j) with (cof RNum (real_matrix A) i j / det3 RNum (real_matrix A)).
  - exact E.
  - unfold inv3. rewrite E3. reflexivity.
Qed.
