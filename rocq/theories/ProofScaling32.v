(** Scaling and UniformScaling in floats. *)
From Coq Require Import ZArith Reals Bool Lia Lra Psatz.
From Flocq Require Import Core IEEE754.BinarySingleNaN.
Require Import Flocq.Prop.Mult_error.
From Verif Require Import Base ProofBase Num ModelAssert ModelCArray ModelB64 ModelF32 ModelTransforms ModelTransforms32 SpecF32 ProofTransform
  ProofF32 ProofDiv32 ProofErr32.
Require Verif.ProofB64 Verif.ProofScaling64.
Local Open Scope R_scope.

Lemma exact_shift32 x k : fmt x -> (0 <= k)%Z -> pow2 (-126 + k) <= Rabs x -> fmt (x * pow2 (- k)).
Proof.
  intros F Hk H. apply (mult_bpow_exact_FLT radix2 (-149) 24); [exact F|].
  assert (M : (-126 + k < mag radix2 x)%Z) by (apply mag_gt_bpow; exact H). lia.
Qed.
Lemma fmt64_mult x y : fmt x -> fmt y -> Rabs (x * y) <= pow2 1023 ->
  generic_format radix2 (SpecFloat.fexp prec64 emax64) (x * y).
Proof.
  intros Fx Fy _. apply generic_format_FLT. apply FLT_format_generic in Fx; [|reflexivity]. apply FLT_format_generic in Fy; [|reflexivity].
  destruct Fx as [[mx ex] Ex Mx Lx]. destruct Fy as [[my ey] Ey My Ly]. cbn [Fnum Fexp] in *.
  exists (Float radix2 (mx * my) (ex + ey)).
  - rewrite Ex, Ey. unfold F2R. cbn [Fnum Fexp]. rewrite mult_IZR, bpow_plus. ring.
  - cbn [Fnum Fexp]. rewrite Z.abs_mul. assert (A : (Z.abs mx < 2 ^ 24)%Z) by exact Mx. assert (B : (Z.abs my < 2 ^ 24)%Z) by exact My.
    change (Z.abs mx * Z.abs my < 2 ^ 53)%Z. clear -A B.
    assert (Z.abs mx * Z.abs my <= 2 ^ 24 * 2 ^ 24)%Z by (apply Z.mul_le_mono_nonneg; lia). lia.
  - cbn [Fnum Fexp]. assert (A : (-149 <= ex)%Z) by exact Lx. assert (B : (-149 <= ey)%Z) by exact Ly.
    change (-1074 <= ex + ey)%Z. lia.
Qed.

Lemma halve32 h : is_finite h = true -> pow2 (-125) <= Rabs (B2R h) ->
  IsFloat (narrow (Bmult mode_NE (b64_lit 5 1) (widen h))) (B2R h / 2).
Proof.
  intros F H. destruct ProofScaling64.half64 as [F2 E2]. destruct (widen_ok h F) as [FW EW].
  assert (L : Rabs (/ 2 * B2R h) <= pow2 127).
  { rewrite Rabs_mult, (Rabs_pos_eq (/ 2)) by lra. pose proof (B_lt_max h) as L.
    change 128%Z with (1 + 127)%Z in L. rewrite bpow_plus in L. change (pow2 1) with 2 in L. lra. }
  destruct (ProofB64.B_mult (b64_lit 5 1) (widen h) 127 F2 FW ltac:(lia)) as (FX & EX & _); [rewrite E2, EW; lra|].
  assert (G : fmt (B2R h / 2)).
  { replace (B2R h / 2) with (B2R h * pow2 (- 1)) by (change (pow2 (- 1)) with (/ 2); field).
    apply (exact_shift32 _ 1); [apply fmt_B|lia|exact H]. }
  assert (V : B2R (Bmult mode_NE (b64_lit 5 1) (widen h)) = B2R h / 2).
  { rewrite EX, E2, EW. replace (/ 2 * B2R h) with (B2R h / 2) by field. apply round_generic; [typeclasses eauto|].
    apply fmt_32_64, G. }
  destruct (narrow_ok _ 127 FX ltac:(lia)) as (FN & EN & _); [rewrite V; replace (B2R h / 2) with (/ 2 * B2R h) by field; exact L|].
  split; [exact FN|]. rewrite EN, V. now apply rnd_id.
Qed.

Definition side32 (h : b32) : Prop := is_finite h = true /\ pow2 (-40) <= Rabs (B2R h) <= pow2 40.

Lemma two64_is_widen : b64_ofZ 2 = widen (b32_ofZ 2).
Proof. apply B2SF_inj. vm_compute. reflexivity. Qed.
Lemma two_over_eq h : narrow (Bdiv mode_NE (b64_ofZ 2) (widen h)) = Bdiv mode_NE (b32_ofZ 2) h.
Proof. rewrite two64_is_widen. apply fdiv_exact. Qed.

Lemma two_over32 h : side32 h ->
  is_finite (Bdiv mode_NE (b32_ofZ 2) h) = true /\
  Rabs (B2R (Bdiv mode_NE (b32_ofZ 2) h) - 2 / B2R h) <= u * Rabs (2 / B2R h).
Proof.
  intros (F & L & U). destruct (b32_ofZ_exact 2 ltac:(lia)) as [F2 E2]. rewrite <- fdiv_exact.
  pose proof (bpow_gt_0 radix2 (-40)) as Z.
  assert (N : B2R h <> 0) by (intros E; rewrite E, Rabs_R0 in L; lra).
  assert (A : Rabs (2 / B2R h) = 2 * / Rabs (B2R h)) by (unfold Rdiv; rewrite Rabs_mult, Rabs_inv, (Rabs_pos_eq 2) by lra; reflexivity).
  destruct (B_div (b32_ofZ 2) h 41 F2 F N ltac:(lia)) as (FX & EX & _).
  { rewrite E2, A. change 41%Z with (1 + 40)%Z. rewrite bpow_plus. change (pow2 1) with 2. apply Rmult_le_compat_l; [lra|].
    change 40%Z with (- (-40))%Z. rewrite bpow_opp. apply Rinv_le; assumption. }
  split; [exact FX|]. rewrite EX, E2. destruct (rnd_rel (2 / B2R h)) as (d & Hd & ->).
  { rewrite A. apply Rle_trans with (/ pow2 40).
    - rewrite <- bpow_opp. apply bpow_le. lia.
    - assert (/ pow2 40 <= / Rabs (B2R h)) by (apply Rinv_le; lra). pose proof (Rinv_0_lt_compat (pow2 40) (bpow_gt_0 _ _)). lra. }
  replace (2 / B2R h * (1 + d) - 2 / B2R h) with (d * (2 / B2R h)) by ring.
  rewrite Rabs_mult. apply Rmult_le_compat_r; [apply Rabs_pos|exact Hd].
Qed.

Lemma volume32 h0 h1 h2 : side32 h0 -> side32 h1 -> side32 h2 ->
  let d := narrow (Bmult mode_NE (Bmult mode_NE (Bmult mode_NE (b64_lit 125 3) (widen h0)) (widen h1)) (widen h2)) in
  let v := B2R h0 * B2R h1 * B2R h2 / 8 in
  is_finite d = true /\ Rabs (B2R d - v) <= (pow2 (-24) + pow2 (-52)) * Rabs v.
Proof.
  intros (F0 & L0 & U0) (F1 & L1 & U1) (F2 & L2 & U2). destruct ProofScaling64.eighth64 as [F8 E8]. pose proof u_pos. pose proof u_small.
  destruct (widen_ok h0 F0) as [W0 V0]. destruct (widen_ok h1 F1) as [W1 V1]. destruct (widen_ok h2 F2) as [W2 V2].
  assert (P : forall x y m n, pow2 m <= Rabs x -> pow2 n <= Rabs y -> pow2 (m + n) <= Rabs (x * y)).
  { intros x y m n Hx Hy. rewrite Rabs_mult, bpow_plus. apply Rmult_le_compat; try apply bpow_ge_0; assumption. }
  assert (Q : forall x y m n, Rabs x <= pow2 m -> Rabs y <= pow2 n -> Rabs (x * y) <= pow2 (m + n)).
  { intros x y m n Hx Hy. rewrite Rabs_mult, bpow_plus. apply Rmult_le_compat; try apply Rabs_pos; assumption. }
  assert (P3 : Rabs (pow2 (- 3)) = pow2 (- 3)) by (apply Rabs_pos_eq, bpow_ge_0).
  assert (X8 : / 8 * B2R h0 = B2R h0 * pow2 (- 3)) by (change (pow2 (- 3)) with (/ 8); ring).
  assert (G8 : fmt (/ 8 * B2R h0)).
  { rewrite X8. apply (exact_shift32 _ 3); [apply fmt_B|lia|]. eapply Rle_trans; [|exact L0]. apply bpow_le. lia. }
  assert (B8 : Rabs (/ 8 * B2R h0) <= pow2 37) by (rewrite X8; apply (Q _ _ 40%Z (-3)%Z U0); rewrite P3; apply Rle_refl).
  assert (C8 : pow2 (-43) <= Rabs (/ 8 * B2R h0)) by (rewrite X8; apply (P _ _ (-40)%Z (-3)%Z L0); rewrite P3; apply Rle_refl).
  destruct (ProofB64.B_mult (b64_lit 125 3) (widen h0) 37 F8 W0 ltac:(lia)) as (FA & EA & _); [rewrite E8, V0; exact B8|].
  rewrite E8, V0 in EA. rewrite (round_generic _ _ _ _ (fmt_32_64 _ G8)) in EA.
  set (a := Bmult mode_NE (b64_lit 125 3) (widen h0)) in *.
  pose proof (Q _ _ _ _ B8 U1) as B9. pose proof (P _ _ _ _ C8 L1) as C9. simpl Z.add in B9, C9.
  destruct (ProofB64.B_mult a (widen h1) 77 FA W1 ltac:(lia)) as (FB & EB & _); [rewrite EA, V1; exact B9|].
  rewrite EA, V1 in EB. rewrite round_generic in EB; [|typeclasses eauto|].
  2: { apply fmt64_mult; [exact G8|apply fmt_B|]. eapply Rle_trans; [exact B9|apply bpow_le; lia]. }
  set (b := Bmult mode_NE a (widen h1)) in *.
  pose proof (Q _ _ _ _ B9 U2) as BC. pose proof (P _ _ _ _ C9 L2) as CC. simpl Z.add in BC, CC.
  destruct (ProofB64.B_mult b (widen h2) 117 FB W2 ltac:(lia)) as (FC & EC & UC); [rewrite EB, V2; exact BC|].
  rewrite EB, V2 in EC. destruct (ProofB64.rnd_rel (/ 8 * B2R h0 * B2R h1 * B2R h2)) as (d1 & Hd1 & R1).
  { eapply Rle_trans; [|exact CC]. apply bpow_le. lia. }
  rewrite R1 in EC. set (w := Bmult mode_NE b (widen h2)) in *.
  destruct (narrow_ok w 117 FC ltac:(lia) UC) as (FD & ED & _).
  cbv zeta. split; [exact FD|]. rewrite ED.
  assert (D1 : Rabs d1 <= / 2) by (eapply Rle_trans; [exact Hd1|]; change (/ 2) with (pow2 (-1)); apply bpow_le; lia).
  destruct (rnd_rel (B2R w)) as (d2 & Hd2 & ->).
  { rewrite EC, Rabs_mult. apply Rle_trans with (pow2 (-124)); [apply bpow_le; lia|].
    change (-124)%Z with (-123 + -1)%Z. rewrite bpow_plus. apply Rmult_le_compat; try apply bpow_ge_0; [exact CC|].
    change (pow2 (-1)) with (/ 2). apply Rabs_le_inv in D1. rewrite Rabs_pos_eq; lra. }
  rewrite EC. set (v := B2R h0 * B2R h1 * B2R h2 / 8).
  replace (/ 8 * B2R h0 * B2R h1 * B2R h2 * (1 + d1) * (1 + d2) - v) with ((d1 + d2 + d1 * d2) * v) by (unfold v; field).
  rewrite Rabs_mult. apply Rmult_le_compat_r; [apply Rabs_pos|].
  eapply Rle_trans; [apply Rabs_triang|]. eapply Rle_trans; [apply Rplus_le_compat_r, Rabs_triang|]. rewrite Rabs_mult.
  pose proof (Rabs_pos d1). pose proof (Rabs_pos d2).
  assert (Rabs d1 * Rabs d2 <= pow2 (-53) * 1) by (apply Rmult_le_compat; lra).
  assert (pow2 (-52) = 2 * pow2 (-53)) by (change (-52)%Z with (1 + -53)%Z; rewrite bpow_plus; reflexivity). lra.
Qed.

Lemma scaling_jacobian_eq32 c h0 h1 h2 :
  scaling_jacobian_wrapper32 c [h0; h1; h2] =
  Ok [narrow (Bmult mode_NE (b64_lit 5 1) (widen h0)); narrow (Bmult mode_NE (b64_lit 5 1) (widen h1)); narrow (Bmult mode_NE (b64_lit 5 1) (widen h2))].
Proof.
  unfold scaling_jacobian_wrapper32. change (list_init (b32_ofZ 0) [3%Z] []) with (Ok [b32_ofZ 0; b32_ofZ 0; b32_ofZ 0]).
  cbn [bind]. unfold scaling_jacobian32, scaling_jacobian_array.
  assert (R0 : rd [h0; h1; h2] 0 = Ok h0) by reflexivity. assert (R1 : rd [h0; h1; h2] 1 = Ok h1) by reflexivity.
  assert (R2 : rd [h0; h1; h2] 2 = Ok h2) by reflexivity. rewrite R0, R1, R2. cbn [bind].
  rewrite (proj1 (put3 _ _ _ _ _)). cbn [bind]. rewrite (proj1 (proj2 (put3 _ _ _ _ _))). cbn [bind].
  rewrite (proj2 (proj2 (put3 _ _ _ _ _))). reflexivity.
Qed.
Lemma scaling_inverse_eq32 c h0 h1 h2 :
  scaling_inverseJacobian_wrapper32 c [h0; h1; h2] =
  Ok (narrow (Bmult mode_NE (Bmult mode_NE (Bmult mode_NE (b64_lit 125 3) (widen h0)) (widen h1)) (widen h2)),
      [Bdiv mode_NE (b32_ofZ 2) h0; Bdiv mode_NE (b32_ofZ 2) h1; Bdiv mode_NE (b32_ofZ 2) h2]).
Proof.
  unfold scaling_inverseJacobian_wrapper32. change (list_init (b32_ofZ 0) [3%Z] []) with (Ok [b32_ofZ 0; b32_ofZ 0; b32_ofZ 0]).
  cbn [bind]. unfold scaling_inverseJacobian32, scaling_jacobian_array.
  assert (R0 : rd [h0; h1; h2] 0 = Ok h0) by reflexivity. assert (R1 : rd [h0; h1; h2] 1 = Ok h1) by reflexivity.
  assert (R2 : rd [h0; h1; h2] 2 = Ok h2) by reflexivity. rewrite R0, R1, R2. cbn [bind]. rewrite !two_over_eq.
  rewrite (proj1 (put3 _ _ _ _ _)). cbn [bind]. rewrite (proj1 (proj2 (put3 _ _ _ _ _))). cbn [bind].
  rewrite (proj2 (proj2 (put3 _ _ _ _ _))). reflexivity.
Qed.

Lemma scaling32_lemma c h0 h1 h2 :
  (forall h, In h [h0; h1; h2] -> is_finite h = true /\ pow2 (-40) <= Rabs (B2R h) <= pow2 40) ->
  (exists j0 j1 j2, scaling_jacobian_wrapper32 c [h0; h1; h2] = Ok [j0; j1; j2] /\
     IsFloat j0 (B2R h0 / 2) /\ IsFloat j1 (B2R h1 / 2) /\ IsFloat j2 (B2R h2 / 2)) /\
  exists d q0 q1 q2, scaling_inverseJacobian_wrapper32 c [h0; h1; h2] = Ok (d, [q0; q1; q2]) /\
    (forall h q, In (h, q) [(h0, q0); (h1, q1); (h2, q2)] -> is_finite q = true /\
       Rabs (B2R q - / (B2R h / 2)) <= pow2 (-24) * Rabs (/ (B2R h / 2))) /\
    is_finite d = true /\
    Rabs (B2R d - B2R h0 / 2 * (B2R h1 / 2) * (B2R h2 / 2)) <= (pow2 (-24) + pow2 (-52)) * Rabs (B2R h0 / 2 * (B2R h1 / 2) * (B2R h2 / 2)).
Proof.
  intros H. assert (S0 : side32 h0) by (apply H; simpl; auto). assert (S1 : side32 h1) by (apply H; simpl; auto).
  assert (S2 : side32 h2) by (apply H; simpl; auto).
  assert (J : forall h, side32 h -> IsFloat (narrow (Bmult mode_NE (b64_lit 5 1) (widen h))) (B2R h / 2)).
  { intros h (F & L & _). apply halve32; [exact F|]. eapply Rle_trans; [|exact L]. apply bpow_le. lia. }
  split.
  - do 3 eexists. split; [apply scaling_jacobian_eq32|]. split; [|split]; apply J; assumption.
  - do 4 eexists. split; [apply scaling_inverse_eq32|].
    split; [|replace (B2R h0 / 2 * (B2R h1 / 2) * (B2R h2 / 2)) with (B2R h0 * B2R h1 * B2R h2 / 8) by field; exact (volume32 h0 h1 h2 S0 S1 S2)].
    assert (Q : forall h, side32 h -> is_finite (Bdiv mode_NE (b32_ofZ 2) h) = true /\
      Rabs (B2R (Bdiv mode_NE (b32_ofZ 2) h) - / (B2R h / 2)) <= pow2 (-24) * Rabs (/ (B2R h / 2))).
    { intros h S. assert (N : B2R h <> 0).
      { destruct S as (_ & L & _). intros E. rewrite E, Rabs_R0 in L. pose proof (bpow_gt_0 radix2 (-40)). lra. }
      replace (/ (B2R h / 2)) with (2 / B2R h) by (field; exact N). now apply two_over32. }
    intros h q [E|[E|[E|[]]]].
    + apply pair_equal_spec in E. destruct E as [<- <-]. now apply Q.
    + apply pair_equal_spec in E. destruct E as [<- <-]. now apply Q.
    + apply pair_equal_spec in E. destruct E as [<- <-]. now apply Q.
Qed.
Lemma scaling32_exact_lemma c h0 h1 h2 :
  (forall h, In h [h0; h1; h2] -> is_finite h = true /\ pow2 (-125) <= Rabs (B2R h)) ->
  exists j0 j1 j2, scaling_jacobian_wrapper32 c [h0; h1; h2] = Ok [j0; j1; j2] /\
     IsFloat j0 (B2R h0 / 2) /\ IsFloat j1 (B2R h1 / 2) /\ IsFloat j2 (B2R h2 / 2).
Proof.
  intros H. do 3 eexists. split; [apply scaling_jacobian_eq32|].
  split; [|split]; (apply halve32; apply H; simpl; auto).
Qed.

Lemma uniform32_lemma c h :
  (exists v, uniform_jacobian_wrapper32 c h = Ok [v] /\ scaling_jacobian_wrapper32 c [h; h; h] = Ok [v; v; v]) /\
  exists d q, uniform_inverseJacobian_wrapper32 c h = Ok (d, [q]) /\ scaling_inverseJacobian_wrapper32 c [h; h; h] = Ok (d, [q; q; q]).
Proof.
  split.
  - eexists. split; [|apply scaling_jacobian_eq32]. unfold uniform_jacobian_wrapper32.
    change (list_init (b32_ofZ 0) [1%Z] []) with (Ok [b32_ofZ 0]). cbn [bind]. unfold uniform_jacobian32, uniform_jacobian_array. apply put1.
  - do 2 eexists. split; [|apply scaling_inverse_eq32]. unfold uniform_inverseJacobian_wrapper32.
    change (list_init (b32_ofZ 0) [1%Z] []) with (Ok [b32_ofZ 0]). cbn [bind]. unfold uniform_inverseJacobian32, uniform_jacobian_array.
    rewrite put1. reflexivity.
Qed.

(** Small and large cells. *)
Definition tiny32 : b32 := narrow (b64_lit 1 15).
Definition huge32 : b32 := b32_ofZ 100000000000000.
Lemma scaling32_underflow_refuted : exists h : b32, is_finite h = true /\ / 10 ^ 16 < B2R h /\
  forall c, exists d q, scaling_inverseJacobian_wrapper32 c [h; h; h] = Ok (d, [q; q; q]) /\
    is_finite q = true /\ B2R d = 0.
Proof.
  exists tiny32.
  assert (E : B2SF tiny32 = SpecFloat.S754_finite false 9444733 (-73)) by (vm_compute; reflexivity).
  split; [rewrite <- is_finite_SF_B2SF, E; reflexivity|]. split.
  { rewrite <- SF2R_B2SF, E. unfold SF2R, F2R. cbn -[Rinv pow]. rewrite ?Rinv_1. lra. }
  intros c. do 2 eexists. split; [apply scaling_inverse_eq32|].
  assert (D : B2SF (narrow (Bmult mode_NE (Bmult mode_NE (Bmult mode_NE (b64_lit 125 3) (widen tiny32)) (widen tiny32)) (widen tiny32))) = SpecFloat.S754_zero false) by (vm_compute; reflexivity).
  assert (Q : is_finite_SF (B2SF (Bdiv mode_NE (b32_ofZ 2) tiny32)) = true) by (vm_compute; reflexivity).
  split.
  - rewrite is_finite_SF_B2SF in Q. exact Q.
  - rewrite <- SF2R_B2SF. exact (f_equal (SF2R radix2) D).
Qed.
Lemma scaling32_overflow_refuted : exists h : b32, is_finite h = true /\ B2R h < 10 ^ 15 /\
  forall c, exists d q, scaling_inverseJacobian_wrapper32 c [h; h; h] = Ok (d, [q; q; q]) /\
    is_finite q = true /\ is_finite d = false.
Proof.
  exists huge32.
  assert (E : B2SF huge32 = SpecFloat.S754_finite false 11920929 23) by (vm_compute; reflexivity).
  split; [rewrite <- is_finite_SF_B2SF, E; reflexivity|]. split.
  { rewrite <- SF2R_B2SF, E. unfold SF2R, F2R. cbn -[pow]. lra. }
  intros c. do 2 eexists. split; [apply scaling_inverse_eq32|].
  assert (D : is_finite_SF (B2SF (narrow (Bmult mode_NE (Bmult mode_NE (Bmult mode_NE (b64_lit 125 3) (widen huge32)) (widen huge32)) (widen huge32)))) = false) by (vm_compute; reflexivity).
  assert (Q : is_finite_SF (B2SF (Bdiv mode_NE (b32_ofZ 2) huge32)) = true) by (vm_compute; reflexivity).
  split; [rewrite is_finite_SF_B2SF in Q; exact Q|rewrite is_finite_SF_B2SF in D; exact D].
Qed.

Lemma three_tenths32 : is_finite (narrow (b64_lit 3 1)) = true /\ pow2 (-40) <= Rabs (B2R (narrow (b64_lit 3 1))) <= pow2 40.
Proof.
  assert (E : B2SF (narrow (b64_lit 3 1)) = SpecFloat.S754_finite false 10066330 (-25)) by (vm_compute; reflexivity).
  split; [rewrite <- is_finite_SF_B2SF, E; reflexivity|].
  assert (V : B2R (narrow (b64_lit 3 1)) = IZR 10066330 * pow2 (-25)) by (rewrite <- SF2R_B2SF, E; reflexivity).
  rewrite V, Rabs_pos_eq by (apply Rmult_le_pos; [lra|apply bpow_ge_0]). split.
  - apply Rle_trans with (1 * pow2 (-25)); [rewrite Rmult_1_l; apply bpow_le; lia|]. apply Rmult_le_compat_r; [apply bpow_ge_0|lra].
  - apply Rle_trans with (pow2 24 * pow2 (-25)).
    + apply Rmult_le_compat_r; [apply bpow_ge_0|]. change (pow2 24) with 16777216. lra.
    + rewrite <- bpow_plus. apply bpow_le. lia.
Qed.
