(** Scaling and UniformScaling in doubles. *)
From Coq Require Import ZArith Reals Bool Lia Lra Psatz.
From Flocq Require Import Core IEEE754.BinarySingleNaN.
Require Import Flocq.Prop.Mult_error.
From Verif Require Import Base ProofBase Num ModelAssert ModelCArray ModelB64 ModelTransforms SpecB64 ProofTransform
  ProofB64 ProofErr64 ProofNodes64.
Local Open Scope R_scope.

Lemma exact_shift x k : fmt x -> (0 <= k)%Z -> pow2 (-1022 + k) <= Rabs x -> fmt (x * pow2 (- k)).
Proof.
  intros F Hk H. apply (mult_bpow_exact_FLT radix2 (-1074) 53); [exact F|].
  assert (M : (-1022 + k < mag radix2 x)%Z) by (apply mag_gt_bpow; exact H). lia.
Qed.
Lemma eighth64 : is_finite (b64_lit 125 3) = true /\ B2R (b64_lit 125 3) = / 8.
Proof.
  assert (E : B2SF (b64_lit 125 3) = SpecFloat.S754_finite false 4503599627370496 (-55)) by (vm_compute; reflexivity).
  split; [rewrite <- is_finite_SF_B2SF, E; reflexivity|]. rewrite <- SF2R_B2SF, E. unfold SF2R, F2R. cbn. lra.
Qed.
Lemma half64 : is_finite (b64_lit 5 1) = true /\ B2R (b64_lit 5 1) = / 2.
Proof. destruct half_reference as ((F & _) & E). auto. Qed.

Lemma halve h : is_finite h = true -> (pow2 (-1021) <= Rabs (B2R h)) -> IsNum (Bmult mode_NE (b64_lit 5 1) h) (B2R h / 2).
Proof.
  intros F H. destruct half64 as [F2 E2].
  assert (L : Rabs (/ 2 * B2R h) < pow2 1023).
  { rewrite Rabs_mult, (Rabs_pos_eq (/ 2)) by lra. pose proof (B_lt_max h) as L.
    change 1024%Z with (1 + 1023)%Z in L. rewrite bpow_plus in L. change (pow2 1) with 2 in L. lra. }
  destruct (B_mult (b64_lit 5 1) h 1023 F2 F ltac:(lia)) as (FX & EX & _); [rewrite E2; lra|].
  split; [exact FX|]. rewrite EX, E2. rewrite rnd_id; [field|].
  replace (/ 2 * B2R h) with (B2R h * pow2 (- 1)) by (change (pow2 (- 1)) with (/ 2); ring).
  apply (exact_shift _ 1); [apply fmt_B|lia|exact H].
Qed.

Definition side64 (h : b64) : Prop := is_finite h = true /\ pow2 (-300) <= Rabs (B2R h) <= pow2 300.

Lemma two_over h : side64 h ->
  is_finite (Bdiv mode_NE (b64_ofZ 2) h) = true /\
  Rabs (B2R (Bdiv mode_NE (b64_ofZ 2) h) - 2 / B2R h) <= u * Rabs (2 / B2R h).
Proof.
  intros (F & L & U). destruct (b64_ofZ_exact 2 ltac:(lia)) as [F2 E2].
  pose proof (bpow_gt_0 radix2 (-300)) as Z.
  assert (N : B2R h <> 0) by (intros E; rewrite E, Rabs_R0 in L; lra).
  assert (A : Rabs (2 / B2R h) = 2 * / Rabs (B2R h)) by (unfold Rdiv; rewrite Rabs_mult, Rabs_inv, (Rabs_pos_eq 2) by lra; reflexivity).
  destruct (B_div (b64_ofZ 2) h 301 F2 N ltac:(lia)) as (FX & EX & _).
  { rewrite E2, A. change 301%Z with (1 + 300)%Z. rewrite bpow_plus. change (pow2 1) with 2. apply Rmult_le_compat_l; [lra|].
    change 300%Z with (- (-300))%Z. rewrite bpow_opp. apply Rinv_le; assumption. }
  split; [exact FX|]. rewrite EX, E2. destruct (rnd_rel (2 / B2R h)) as (d & Hd & ->).
  { rewrite A. apply Rle_trans with (/ pow2 300).
    - rewrite <- bpow_opp. apply bpow_le. lia.
    - assert (/ pow2 300 <= / Rabs (B2R h)) by (apply Rinv_le; lra). pose proof (Rinv_0_lt_compat (pow2 300) (bpow_gt_0 _ _)). lra. }
  replace (2 / B2R h * (1 + d) - 2 / B2R h) with (d * (2 / B2R h)) by ring.
  rewrite Rabs_mult. apply Rmult_le_compat_r; [apply Rabs_pos|exact Hd].
Qed.

Lemma volume h0 h1 h2 : side64 h0 -> side64 h1 -> side64 h2 ->
  let d := Bmult mode_NE (Bmult mode_NE (Bmult mode_NE (b64_lit 125 3) h0) h1) h2 in
  let v := B2R h0 * B2R h1 * B2R h2 / 8 in
  is_finite d = true /\ Rabs (B2R d - v) <= 3 * u * Rabs v.
Proof.
  intros (F0 & L0 & U0) (F1 & L1 & U1) (F2 & L2 & U2). destruct eighth64 as [F8 E8]. pose proof u_pos. pose proof u_small.
  assert (P : forall x y m n, pow2 m <= Rabs x -> pow2 n <= Rabs y -> pow2 (m + n) <= Rabs (x * y)).
  { intros x y m n Hx Hy. rewrite Rabs_mult, bpow_plus. apply Rmult_le_compat; try apply bpow_ge_0; assumption. }
  assert (Q : forall x y m n, Rabs x <= pow2 m -> Rabs y <= pow2 n -> Rabs (x * y) <= pow2 (m + n)).
  { intros x y m n Hx Hy. rewrite Rabs_mult, bpow_plus. apply Rmult_le_compat; try apply Rabs_pos; assumption. }
  (* 0.125 * h0 is exact *)
  destruct (B_mult (b64_lit 125 3) h0 300 F8 F0 ltac:(lia)) as (FA & EA & _).
  { rewrite E8, Rabs_mult, (Rabs_pos_eq (/ 8)) by lra. pose proof (Rabs_pos (B2R h0)). lra. }
  assert (A : B2R (Bmult mode_NE (b64_lit 125 3) h0) = B2R h0 * pow2 (- 3)).
  { rewrite EA, E8. replace (/ 8 * B2R h0) with (B2R h0 * pow2 (- 3)) by (change (pow2 (- 3)) with (/ 8); ring).
    apply rnd_id, (exact_shift _ 3); [apply fmt_B|lia|]. eapply Rle_trans; [|exact L0]. apply bpow_le. lia. }
  assert (P3 : Rabs (pow2 (- 3)) = pow2 (- 3)) by (apply Rabs_pos_eq, bpow_ge_0).
  set (a := Bmult mode_NE (b64_lit 125 3) h0) in *.
  assert (LA : pow2 (-303) <= Rabs (B2R a)) by (rewrite A; apply (P _ _ (-300)%Z (-3)%Z L0); rewrite P3; apply Rle_refl).
  assert (UA : Rabs (B2R a) <= pow2 300).
  { rewrite A. eapply Rle_trans; [apply (Q _ _ 300%Z (-3)%Z U0); rewrite P3; apply Rle_refl|apply bpow_le; lia]. }
  pose proof (P _ _ _ _ LA L1) as LB. pose proof (Q _ _ _ _ UA U1) as UB. simpl Z.add in LB, UB.
  destruct (B_mult a h1 600 FA F1 ltac:(lia) UB) as (FB & EB & UB').
  destruct (rnd_rel (B2R a * B2R h1)) as (d1 & Hd1 & R1); [eapply Rle_trans; [|exact LB]; apply bpow_le; lia|].
  rewrite R1 in EB. set (b := Bmult mode_NE a h1) in *.
  assert (LB' : pow2 (-604) <= Rabs (B2R b)).
  { rewrite EB, Rabs_mult. change (-604)%Z with (-603 + -1)%Z. rewrite bpow_plus. apply Rmult_le_compat; try apply bpow_ge_0; [exact LB|].
    change (pow2 (-1)) with (/ 2). apply Rabs_le_inv in Hd1. rewrite Rabs_pos_eq; lra. }
  pose proof (P _ _ _ _ LB' L2) as LC. pose proof (Q _ _ _ _ UB' U2) as UC. simpl Z.add in LC, UC.
  destruct (B_mult b h2 900 FB F2 ltac:(lia) UC) as (FC & EC & _).
  destruct (rnd_rel (B2R b * B2R h2)) as (d2 & Hd2 & R2); [eapply Rle_trans; [|exact LC]; apply bpow_le; lia|].
  cbv zeta. split; [exact FC|]. rewrite EC, R2, EB, A. change (pow2 (- 3)) with (/ 8).
  set (v := B2R h0 * B2R h1 * B2R h2 / 8).
  replace (B2R h0 * / 8 * B2R h1 * (1 + d1) * B2R h2 * (1 + d2) - v) with ((d1 + d2 + d1 * d2) * v) by (unfold v; field).
  rewrite Rabs_mult. apply Rmult_le_compat_r; [apply Rabs_pos|].
  eapply Rle_trans; [apply Rabs_triang|]. eapply Rle_trans; [apply Rplus_le_compat_r, Rabs_triang|]. rewrite Rabs_mult.
  pose proof (Rabs_pos d1). pose proof (Rabs_pos d2).
  assert (Rabs d1 * Rabs d2 <= u * 1) by (apply Rmult_le_compat; lra). lra.
Qed.

Lemma scaling64_lemma c h0 h1 h2 :
  (forall h, In h [h0; h1; h2] -> is_finite h = true /\ pow2 (-300) <= Rabs (B2R h) <= pow2 300) ->
  (exists j0 j1 j2, scaling_jacobian_wrapper B64Num c [h0; h1; h2] = Ok [j0; j1; j2] /\
     IsNum j0 (B2R h0 / 2) /\ IsNum j1 (B2R h1 / 2) /\ IsNum j2 (B2R h2 / 2)) /\
  exists d q0 q1 q2, scaling_inverseJacobian_wrapper B64Num c [h0; h1; h2] = Ok (d, [q0; q1; q2]) /\
    (forall h q, In (h, q) [(h0, q0); (h1, q1); (h2, q2)] -> is_finite q = true /\
       Rabs (B2R q - / (B2R h / 2)) <= pow2 (-53) * Rabs (/ (B2R h / 2))) /\
    is_finite d = true /\
    Rabs (B2R d - B2R h0 / 2 * (B2R h1 / 2) * (B2R h2 / 2)) <= 3 * pow2 (-53) * Rabs (B2R h0 / 2 * (B2R h1 / 2) * (B2R h2 / 2)).
Proof.
  intros H. assert (S0 : side64 h0) by (apply H; simpl; auto). assert (S1 : side64 h1) by (apply H; simpl; auto).
  assert (S2 : side64 h2) by (apply H; simpl; auto).
  assert (J : forall h, side64 h -> IsNum (Bmult mode_NE (b64_lit 5 1) h) (B2R h / 2)).
  { intros h (F & L & _). apply halve; [exact F|]. eapply Rle_trans; [|exact L]. apply bpow_le. lia. }
  split.
  - do 3 eexists. split; [apply scaling_jacobian_eq|]. split; [|split]; apply J; assumption.
  - do 4 eexists. split; [etransitivity; [apply scaling_inverse_eq|]; reflexivity|].
    split; [|replace (B2R h0 / 2 * (B2R h1 / 2) * (B2R h2 / 2)) with (B2R h0 * B2R h1 * B2R h2 / 8) by field; exact (volume h0 h1 h2 S0 S1 S2)].
    assert (Q : forall h, side64 h -> is_finite (Bdiv mode_NE (b64_ofZ 2) h) = true /\
      Rabs (B2R (Bdiv mode_NE (b64_ofZ 2) h) - / (B2R h / 2)) <= pow2 (-53) * Rabs (/ (B2R h / 2))).
    { intros h S. assert (N : B2R h <> 0).
      { destruct S as (_ & L & _). intros E. rewrite E, Rabs_R0 in L. pose proof (bpow_gt_0 radix2 (-300)). lra. }
      replace (/ (B2R h / 2)) with (2 / B2R h) by (field; exact N). now apply two_over. }
    intros h q [E|[E|[E|[]]]].
    + apply pair_equal_spec in E. destruct E as [<- <-]. now apply Q.
    + apply pair_equal_spec in E. destruct E as [<- <-]. now apply Q.
    + apply pair_equal_spec in E. destruct E as [<- <-]. now apply Q.
Qed.

(** The Jacobian alone is exact for all normal numbers but the smallest. *)
Lemma scaling64_exact_lemma c h0 h1 h2 :
  (forall h, In h [h0; h1; h2] -> is_finite h = true /\ pow2 (-1021) <= Rabs (B2R h)) ->
  exists j0 j1 j2, scaling_jacobian_wrapper B64Num c [h0; h1; h2] = Ok [j0; j1; j2] /\
     IsNum j0 (B2R h0 / 2) /\ IsNum j1 (B2R h1 / 2) /\ IsNum j2 (B2R h2 / 2).
Proof.
  intros H. do 3 eexists. split; [apply scaling_jacobian_eq|].
  split; [|split]; (apply halve; apply H; simpl; auto).
Qed.

(** Small cells: the Jacobian is exactly invertible, its determinant is returned as 0. *)
Definition tiny : b64 := b64_lit 1 120.
Lemma scaling64_underflow_refuted : exists h : b64, is_finite h = true /\ 0 < B2R h /\
  forall c, exists d q, scaling_inverseJacobian_wrapper B64Num c [h; h; h] = Ok (d, [q; q; q]) /\
    is_finite q = true /\ B2R d = 0.
Proof.
  exists tiny.
  assert (F : is_finite tiny = true) by (vm_compute; reflexivity).
  assert (P : Bsign tiny = false /\ is_finite_strict tiny = true) by (split; vm_compute; reflexivity).
  split; [exact F|]. split.
  { destruct P as [P1 P2]. clear F. revert P1 P2. generalize tiny. intros [| | |s m e He]; try discriminate. cbn. intros -> _.
    apply F2R_gt_0. reflexivity. }
  intros c. do 2 eexists. split; [etransitivity; [apply scaling_inverse_eq|]; reflexivity|].
  assert (D : B2SF (Bmult mode_NE (Bmult mode_NE (Bmult mode_NE (b64_lit 125 3) tiny) tiny) tiny) = SpecFloat.S754_zero false) by (vm_compute; reflexivity).
  assert (Q : is_finite_SF (B2SF (Bdiv mode_NE (b64_ofZ 2) tiny)) = true) by (vm_compute; reflexivity).
  split.
  - rewrite is_finite_SF_B2SF in Q. exact Q.
  - rewrite <- SF2R_B2SF. exact (f_equal (SF2R radix2) D).
Qed.

Lemma three_tenths : is_finite (b64_lit 3 1) = true /\ pow2 (-300) <= Rabs (B2R (b64_lit 3 1)) <= pow2 300.
Proof.
  assert (E : B2SF (b64_lit 3 1) = SpecFloat.S754_finite false 5404319552844595 (-54)) by (vm_compute; reflexivity).
  split; [rewrite <- is_finite_SF_B2SF, E; reflexivity|].
  assert (V : B2R (b64_lit 3 1) = IZR 5404319552844595 * pow2 (-54)) by (rewrite <- SF2R_B2SF, E; reflexivity).
  rewrite V, Rabs_pos_eq by (apply Rmult_le_pos; [lra|apply bpow_ge_0]). split.
  - apply Rle_trans with (1 * pow2 (-54)); [rewrite Rmult_1_l; apply bpow_le; lia|]. apply Rmult_le_compat_r; [apply bpow_ge_0|lra].
  - apply Rle_trans with (pow2 53 * pow2 (-54)).
    + apply Rmult_le_compat_r; [apply bpow_ge_0|]. change (pow2 53) with 9007199254740992. lra.
    + rewrite <- bpow_plus. apply bpow_le. lia.
Qed.
