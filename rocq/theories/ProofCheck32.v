(** [pmpl::check] in binary32. *)
From Coq Require Import ZArith Reals Bool Lia Lra Psatz.
From Flocq Require Import Core IEEE754.BinarySingleNaN.
From Verif Require Import Base Num ModelF32 ModelPmpl ProofF32.
Local Open Scope R_scope.

Lemma rnd_half_min : rnd (pow2 (-150)) = 0.
Proof.
  generalize (binary_normalize_correct prec32 emax32 _ _ mode_NE 1 (-150) false).
  cbv zeta. change (round_mode mode_NE) with ZnearestE.
  assert (E : F2R (Float radix2 1 (-150)) = pow2 (-150)).
  { unfold F2R. cbn [Fnum Fexp]. ring. }
  rewrite E. rewrite Rlt_bool_true.
  - intros [H _]. rewrite <- H. rewrite <- SF2R_B2SF.
    vm_compute (B2SF _). reflexivity.
  - apply Rle_lt_trans with (pow2 (-149)); [|apply bpow_lt; reflexivity].
    apply rnd_abs_pow2; [lia|]. rewrite Rabs_pos_eq by apply bpow_ge_0.
    apply bpow_le. lia.
Qed.

Lemma rnd_zero_iff x : 0 <= x -> rnd x = 0 <-> x <= pow2 (-150).
Proof.
  intros Hx. split.
  - intros H. destruct (round_N_pt radix2 fexp32 (fun t => negb (Z.even t)) x) as [_ N].
    specialize (N (pow2 (-149)) (fmt_pow2 (-149) ltac:(lia))).
    change (Znearest (fun t => negb (Z.even t))) with ZnearestE in N.
    rewrite H in N.
    assert (E : pow2 (-149) = 2 * pow2 (-150)).
    { change (-149)%Z with (1 + -150)%Z. rewrite bpow_plus. reflexivity. }
    pose proof (bpow_gt_0 radix2 (-150)).
    revert N. unfold Rabs. destruct (Rcase_abs (0 - x)), (Rcase_abs (pow2 (-149) - x)); lra.
  - intros H. apply Rle_antisym.
    + rewrite <- rnd_half_min. now apply rnd_le.
    + rewrite <- rnd_0. now apply rnd_le.
Qed.

Lemma finite_not_inf_SF (x : b32) s : is_finite x = true -> B2SF x <> SpecFloat.S754_infinity s.
Proof. destruct x; cbn; congruence. Qed.
Lemma inf_SF (x : b32) s : B2SF x = SpecFloat.S754_infinity s -> x = B754_infinity s.
Proof. destruct x; cbn; congruence. Qed.

(** The square of a double. *)
Lemma square_cases (x : b32) : is_finite x = true ->
  (is_finite (Bmult mode_NE x x) = true /\ B2R (Bmult mode_NE x x) = rnd (B2R x * B2R x) /\
   rnd (B2R x * B2R x) < pow2 128) \/
  (Bmult mode_NE x x = B754_infinity false /\ pow2 128 <= rnd (B2R x * B2R x)).
Proof.
  intros Fx. generalize (Bmult_correct prec32 emax32 _ _ mode_NE x x).
  change (round_mode mode_NE) with ZnearestE.
  assert (Hp : 0 <= rnd (B2R x * B2R x)).
  { rewrite <- rnd_0. apply rnd_le. nra. }
  rewrite Rabs_pos_eq by exact Hp.
  destruct (Rlt_bool_spec (rnd (B2R x * B2R x)) (pow2 emax32)) as [H|H].
  - intros (E & Fin & _). rewrite Fx in Fin. left. split; [exact Fin|]. split; [exact E|exact H].
  - intros E. right. split; [|exact H]. apply inf_SF. rewrite E, xorb_nilpotent. reflexivity.
Qed.

Lemma Bltb_inf_l s (y : b32) : Bltb (B754_infinity s) y = true -> s = true.
Proof. destruct s, y; try destruct s; cbn; try easy. Qed.
Lemma Bltb_inf_r (x : b32) : is_finite x = true -> Bltb x (B754_infinity false) = true.
Proof. destruct x as [s|s| |s m e H]; cbn; try easy. Qed.
Lemma Bltb_nan_l (y : b32) : Bltb B754_nan y = false.
Proof. destruct y; reflexivity. Qed.
Lemma Bltb_finite_l (x y : b32) : Bltb x y = true ->
  is_finite x = true \/ x = B754_infinity true.
Proof.
  destruct x as [s|s| |s m e H]; intros Hb; try (left; reflexivity).
  - right. now rewrite (Bltb_inf_l _ _ Hb).
  - rewrite Bltb_nan_l in Hb. discriminate.
Qed.

(** Doubles: the difference is finite only for finite arguments. *)
Lemma minus_finite (a b : b32) : is_finite (Bminus mode_NE a b) = true ->
  is_finite a = true /\ is_finite b = true /\
  B2R (Bminus mode_NE a b) = rnd (B2R a - B2R b).
Proof.
  intros Fs.
  assert (Fab : is_finite a = true /\ is_finite b = true).
  { destruct a as [sa|sa| |sa ma ea Ha], b as [sb|sb| |sb mb eb Hb];
      try (split; reflexivity); cbn in Fs; try discriminate Fs;
      destruct sa, sb; cbn in Fs; discriminate Fs. }
  destruct Fab as [Fa Fb]. split; [exact Fa|]. split; [exact Fb|].
  generalize (Bminus_correct prec32 emax32 _ _ mode_NE a b Fa Fb).
  destruct Rlt_bool.
  - intros [E _]. exact E.
  - intros [E _]. exfalso. revert E. cbn. now apply finite_not_inf_SF.
Qed.

Lemma sq_lt_abs x y : x * x < y * y -> Rabs x < Rabs y.
Proof. intros H. apply Rsqr_lt_abs_0. exact H. Qed.

Lemma check32_sound (a b tol : b32) : check F32Num a b tol = true ->
  is_finite a = true /\ is_finite b = true /\
  (is_finite tol = true -> Rabs (B2R a - B2R b) < Rabs (B2R tol)).
Proof.
  unfold check. cbn [nlt nmul nsub F32Num]. set (s := Bminus mode_NE a b). intros H.
  assert (Fs : is_finite s = true).
  { destruct s as [ss|ss| |ss m e Hm]; try reflexivity.
    - cbn [Bmult] in H. rewrite xorb_nilpotent in H. apply Bltb_inf_l in H. discriminate.
    - cbn [Bmult] in H. rewrite Bltb_nan_l in H. discriminate. }
  destruct (minus_finite a b Fs) as (Fa & Fb & Es). fold s in Es.
  split; [exact Fa|]. split; [exact Fb|]. intros Ft.
  assert (Hlt : rnd (B2R s * B2R s) < rnd (B2R tol * B2R tol)).
  { destruct (square_cases s Fs) as [(F1 & E1 & L1)|[E1 _]].
    2: { rewrite E1 in H. apply Bltb_inf_l in H. discriminate. }
    destruct (square_cases tol Ft) as [(F2 & E2 & L2)|[E2 L2]].
    - rewrite Bltb_correct in H by assumption. rewrite E1, E2 in H.
      destruct (Rlt_bool_spec (rnd (B2R s * B2R s)) (rnd (B2R tol * B2R tol))); easy.
    - lra. }
  apply rnd_lt_inv, sq_lt_abs in Hlt. rewrite Es, <- rnd_abs in Hlt.
  apply rnd_lt_inv. rewrite (rnd_id (Rabs (B2R tol))); [exact Hlt|].
  apply generic_format_abs, fmt_B.
Qed.

Lemma check32_complete (a b tol : b32) :
  is_finite a = true -> is_finite b = true -> is_finite tol = true ->
  pow2 (-63) <= Rabs (B2R tol) <= pow2 63 ->
  Rabs (B2R a - B2R b) <= (1 - pow2 (-22)) * Rabs (B2R tol) ->
  check F32Num a b tol = true.
Proof.
  intros Fa Fb Ft [T1 T2] Hab.
  set (t := Rabs (B2R tol)) in *.
  assert (U : pow2 (-22) = 4 * u).
  { change (-22)%Z with (2 + -24)%Z. rewrite bpow_plus. reflexivity. }
  pose proof u_pos as Up. assert (Us : u <= / 1000) by (rewrite u_val; lra).
  rewrite U in Hab.
  assert (Tp : 0 < t) by (pose proof (bpow_gt_0 radix2 (-63)); lra).
  destruct (B_minus a b 63 Fa Fb) as (Fs & Es & Bs); [lia| |].
  { eapply Rle_trans; [exact Hab|]. nra. }
  unfold check. cbn [nlt nmul nsub F32Num]. set (s := Bminus mode_NE a b) in *.
  assert (P : pow2 (-126) <= t * t).
  { change (-126)%Z with (-63 + -63)%Z. rewrite bpow_plus.
    pose proof (bpow_gt_0 radix2 (-63)). nra. }
  (* |s| <= (1 - 3u) t *)
  assert (S1 : Rabs (B2R s) <= (1 - 3 * u) * t).
  { rewrite Es, <- rnd_abs. eapply Rle_trans; [apply rnd_le; exact Hab|].
    destruct (rnd_rel ((1 - 4 * u) * t)) as (d & Hd & E).
    { rewrite Rabs_pos_eq by nra. 
      apply Rle_trans with (/ 2 * pow2 (-63)); [|nra].
      apply Rle_trans with (pow2 (-64)); [apply bpow_le; lia|].
      change (-64)%Z with (-1 + -63)%Z. rewrite bpow_plus. apply Rle_refl. }
    rewrite E. apply Rabs_le_inv in Hd. 
    apply Rle_trans with ((1 - 4 * u) * t * (1 + u)); [apply Rmult_le_compat_l; nra|].
    nra. }
  assert (S2 : B2R s * B2R s <= (1 - 5 * u) * (t * t)).
  { replace (B2R s * B2R s) with (Rabs (B2R s) * Rabs (B2R s)) by (rewrite <- Rabs_mult; apply Rabs_pos_eq; nra).
    pose proof (Rabs_pos (B2R s)).
    apply Rle_trans with (((1 - 3 * u) * t) * ((1 - 3 * u) * t)); [nra|].
    replace ((1 - 3 * u) * t * ((1 - 3 * u) * t)) with (((1 - 3 * u) * (1 - 3 * u)) * (t * t)) by ring.
    apply Rmult_le_compat_r; nra. }
  assert (Tt : B2R tol * B2R tol = t * t).
  { unfold t. rewrite <- Rabs_mult. symmetry. apply Rabs_pos_eq. nra. }
  assert (Hlt : rnd (B2R s * B2R s) < rnd (B2R tol * B2R tol)).
  { rewrite Tt. eapply Rle_lt_trans; [apply rnd_le; exact S2|].
    destruct (rnd_rel (t * t)) as (d & Hd & E); [rewrite Rabs_pos_eq; nra|].
    destruct (rnd_mixed ((1 - 5 * u) * (t * t))) as (d' & r' & Hd' & Hr' & Hz' & E').
    assert (R1 : pow2 (-150) <= u * (t * t)).
    { change (-150)%Z with (-24 + -126)%Z. rewrite bpow_plus. apply Rmult_le_compat_l; lra. }
    rewrite E, E'. apply Rabs_le_inv in Hd. apply Rabs_le_inv in Hd'. apply Rabs_le_inv in Hr'.
    assert (0 < t * t) by nra. set (q := t * t) in *.
    apply Rle_lt_trans with ((1 - 5 * u) * q * (1 + u) + u * q).
    - apply Rplus_le_compat; [apply Rmult_le_compat_l; nra|lra].
    - apply Rlt_le_trans with (q * (1 - u)); [nra|]. apply Rmult_le_compat_l; lra. }
  destruct (square_cases s Fs) as [(F1 & E1 & L1)|[_ L1]].
  - destruct (square_cases tol Ft) as [(F2 & E2 & L2)|[E2 L2]].
    + rewrite Bltb_correct by assumption. rewrite E1, E2. now apply Rlt_bool_true.
    + rewrite E2. now apply Bltb_inf_r.
  - exfalso.
    assert (rnd (B2R s * B2R s) <= pow2 126).
    { apply Rle_trans with (Rabs (rnd (B2R s * B2R s))); [apply Rle_abs|].
      apply rnd_abs_pow2; [lia|]. rewrite Rabs_mult.
      change 126%Z with (63 + 63)%Z. rewrite bpow_plus. pose proof (Rabs_pos (B2R s)). nra. }
    pose proof (bpow_lt radix2 126 128 ltac:(reflexivity)). lra.
Qed.

Lemma minus_self (a : b32) : is_finite a = true ->
  is_finite (Bminus mode_NE a a) = true /\ B2R (Bminus mode_NE a a) = 0.
Proof.
  intros Fa. destruct (B_minus a a 0 Fa Fa) as (F & E & _); [lia| |].
  { rewrite Rminus_diag_eq by reflexivity. rewrite Rabs_R0. apply bpow_ge_0. }
  split; [exact F|]. rewrite E, Rminus_diag_eq by reflexivity. apply rnd_0.
Qed.

Lemma check32_self (a tol : b32) : is_finite a = true -> is_finite tol = true ->
  check F32Num a a tol = true <-> pow2 (-150) < B2R tol * B2R tol.
Proof.
  intros Fa Ft. destruct (minus_self a Fa) as [Fs Es].
  unfold check. cbn [nlt nmul nsub F32Num].
  assert (Hs : 0 <= B2R tol * B2R tol) by nra.
  destruct (square_cases _ Fs) as [(F1 & E1 & _)|[_ L1]].
  2: { exfalso. rewrite Es, Rmult_0_l, rnd_0 in L1.
       pose proof (bpow_gt_0 radix2 128). lra. }
  rewrite Es, Rmult_0_l, rnd_0 in E1.
  destruct (square_cases tol Ft) as [(F2 & E2 & _)|[E2 L2]].
  - rewrite Bltb_correct by assumption. rewrite E1, E2.
    assert (Hr : 0 <= rnd (B2R tol * B2R tol)).
    { rewrite <- rnd_0. now apply rnd_le. }
    pose proof (rnd_zero_iff _ Hs) as [Z1 Z2].
    destruct (Rlt_bool_spec 0 (rnd (B2R tol * B2R tol))) as [H|H].
    + split; [intros _|reflexivity].
      destruct (Rlt_or_le (pow2 (-150)) (B2R tol * B2R tol)) as [|Hle]; [assumption|].
      apply Z2 in Hle. lra.
    + split; [discriminate|]. intros Hc. assert (Hz : rnd (B2R tol * B2R tol) = 0) by lra.
      apply Z1 in Hz. lra.
  - rewrite E2. split; [intros _|intros _; now apply Bltb_inf_r].
    destruct (Rlt_or_le (pow2 (-150)) (B2R tol * B2R tol)) as [|Hle]; [assumption|].
    apply (proj2 (rnd_zero_iff _ Hs)) in Hle. rewrite Hle in L2.
    pose proof (bpow_gt_0 radix2 128). lra.
Qed.

(** Doubles 2^e. *)
Lemma b32_pow2 e : (-126 <= e < 128)%Z -> exists x : b32, is_finite x = true /\ B2R x = pow2 e.
Proof.
  intros He. exists (binary_normalize prec32 emax32 _ _ mode_NE 1 e false).
  generalize (binary_normalize_correct prec32 emax32 _ _ mode_NE 1 e false).
  cbv zeta. change (round_mode mode_NE) with ZnearestE.
  assert (E : F2R (Float radix2 1 e) = pow2 e) by (unfold F2R; cbn [Fnum Fexp]; ring).
  rewrite E, (rnd_id _ (fmt_pow2 e ltac:(lia))). rewrite Rabs_pos_eq by apply bpow_ge_0.
  rewrite Rlt_bool_true by (apply bpow_lt; apply He).
  intros (E1 & F1 & _). split; [exact F1|exact E1].
Qed.

Lemma check32_underflow_refuted : exists a tol : b32, is_finite a = true /\ is_finite tol = true /\
  0 < B2R tol /\ check F32Num a a tol = false.
Proof.
  destruct (b32_pow2 (-80)) as (t & Ft & Et); [lia|].
  exists (b32_ofZ 1), t. destruct (b32_ofZ_exact 1 ltac:(lia)) as [F1 _].
  split; [exact F1|]. split; [exact Ft|]. split; [rewrite Et; apply bpow_gt_0|].
  apply not_true_is_false. intros H. apply (check32_self _ _ F1 Ft) in H.
  rewrite Et, <- bpow_plus in H. apply lt_bpow in H. lia.
Qed.

Lemma check32_overflow_refuted : exists a b tol : b32,
  is_finite a = true /\ is_finite b = true /\ is_finite tol = true /\
  2 * Rabs (B2R a - B2R b) < B2R tol /\ check F32Num a b tol = false.
Proof.
  destruct (b32_pow2 80) as (a & Fa & Ea); [lia|].
  destruct (b32_pow2 90) as (t & Ft & Et); [lia|].
  exists a, b32_zero, t. split; [exact Fa|]. split; [reflexivity|]. split; [exact Ft|]. split.
  - cbn [B2R b32_zero]. rewrite Rminus_0_r, Ea, Et, Rabs_pos_eq by apply bpow_ge_0.
    change 2 with (pow2 1). rewrite <- bpow_plus. apply bpow_lt. lia.
  - assert (B : forall (x : b32) e, is_finite x = true -> B2R x = pow2 e -> (64 <= e)%Z ->
                Bmult mode_NE x x = B754_infinity false).
    { intros x e Fx Ex He. destruct (square_cases x Fx) as [(_ & _ & L)|[E _]]; [exfalso|exact E].
      rewrite Ex, <- bpow_plus, rnd_id in L by (apply fmt_pow2; lia). apply lt_bpow in L. lia. }
    unfold check. cbn [nlt nmul nsub F32Num].
    rewrite (B t 90%Z Ft Et) by lia.
    destruct (B_minus a b32_zero 80 Fa eq_refl) as (Fs & Es & _); [lia| |].
    { cbn [B2R b32_zero]. rewrite Rminus_0_r, Ea, Rabs_pos_eq by apply bpow_ge_0. lra. }
    rewrite (B (Bminus mode_NE a b32_zero) 80%Z Fs).
    + reflexivity.
    + rewrite Es. cbn [B2R b32_zero]. rewrite Rminus_0_r, Ea. apply rnd_id, fmt_pow2. lia.
    + lia.
Qed.
