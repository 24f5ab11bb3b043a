(** Powers, coordinates and volumes of the shapes in doubles. *)
From Coq Require Import ZArith Reals Lia Lra Psatz Factorial.
From Flocq Require Import Core IEEE754.BinarySingleNaN.
From Verif Require Import Base Num ModelF32 ModelMath ModelShapes SpecShape ProofBase ProofF32 ProofLagrange32.
Local Open Scope R_scope.

Definition Fac (n : nat) (f : R) : Prop := (1 - u) ^ n <= f <= (1 + u) ^ n.
Definition N32 (n : nat) (x : b32) (r : R) : Prop := is_finite x = true /\ exists f, Fac n f /\ B2R x = r * f.

Lemma u_small : 0 < u <= / 1000.
Proof. pose proof u_pos. split; [lra|]. rewrite u_val. lra. Qed.
Lemma pow_lo_pos n : 0 < (1 - u) ^ n.
Proof. apply pow_lt. pose proof u_small. lra. Qed.
Lemma Fac_mul n m f g : Fac n f -> Fac m g -> Fac (n + m) (f * g).
Proof.
  intros (A & B) (C & D). pose proof (pow_lo_pos n). pose proof (pow_lo_pos m). unfold Fac. rewrite !pow_add.
  split; apply Rmult_le_compat; lra.
Qed.
Lemma Fac_d d : Rabs d <= u -> Fac 1 (1 + d).
Proof. intros H. apply Rabs_le_inv in H. unfold Fac. rewrite !pow_1. lra. Qed.
Lemma Fac_le n m f : (n <= m)%nat -> Fac n f -> Fac m f.
Proof.
  intros H (A & B). replace m with (n + (m - n))%nat by lia. unfold Fac. rewrite !pow_add.
  destruct (pow_pair (m - n)) as (_ & C & D). pose proof (pow_lo_pos n). pose proof (pow_lo_pos (m - n)).
  assert (0 < (1 + u) ^ n) by (apply pow_lt; pose proof u_small; lra).
  set (p := (1 - u) ^ n) in *. set (q := (1 - u) ^ (m - n)) in *. set (s := (1 + u) ^ n) in *. set (t := (1 + u) ^ (m - n)) in *.
  clearbody p q s t. split; nra.
Qed.
Lemma pow_lo_le n : 1 - IZR (Z.of_nat n) * u <= (1 - u) ^ n.
Proof.
  pose proof u_small. induction n as [|n IH]; [cbn; lra|].
  rewrite Nat2Z.inj_succ, succ_IZR. cbn [Rpow_def.pow].
  assert (0 <= IZR (Z.of_nat n)) by (apply (IZR_le 0); lia). set (m := IZR (Z.of_nat n)) in *. set (P := (1 - u) ^ n) in *.
  assert (A : (1 - u) * (1 - m * u) <= (1 - u) * P) by (apply Rmult_le_compat_l; lra).
  assert (B : 0 <= m * (u * u)) by (apply Rmult_le_pos; [lra|]; apply Rmult_le_pos; lra). lra.
Qed.
Lemma Fac_bounds n f : (Z.of_nat n <= 2 ^ 20)%Z -> Fac n f -> / 2 <= f <= 2.
Proof.
  intros Hn (A & B).
  assert (Hu : IZR (Z.of_nat n) * u <= / 2).
  { apply Rle_trans with (IZR (2 ^ 20) * u).
    - apply Rmult_le_compat_r; [pose proof u_pos; lra|]. now apply IZR_le.
    - rewrite u_val. change (2 ^ 20)%Z with 1048576%Z. lra. }
  pose proof (pow_lo_le n). pose proof (pow_hi n ltac:(lra)) as Hh.
  assert (0 < (1 + u) ^ n) by (apply pow_lt; pose proof u_small; lra). split; [lra|]. nra.
Qed.

Lemma N32_near n x r : N32 n x r -> Near32 n x r.
Proof.
  intros (F & f & (A & B) & E). split; [exact F|]. rewrite E.
  replace (r * f - r) with (r * (f - 1)) by ring. rewrite Rabs_mult, Rmult_comm.
  apply Rmult_le_compat_r; [apply Rabs_pos|]. destruct (pow_pair n) as (C & D & G). apply Rabs_le. lra.
Qed.
Lemma N32_exact x r : is_finite x = true -> B2R x = r -> N32 0 x r.
Proof. intros F E. split; [exact F|]. exists 1. unfold Fac. cbn [Rpow_def.pow]. split; [lra|]. rewrite E. ring. Qed.
Lemma N32_le n m x r : (n <= m)%nat -> N32 n x r -> N32 m x r.
Proof. intros H (F & f & A & E). split; [exact F|]. exists f. split; [now apply (Fac_le n)|exact E]. Qed.

Lemma range_scale r h : / 2 <= h <= 2 -> pow2 (-124) <= Rabs r <= pow2 124 ->
  pow2 (-126) <= Rabs (r * h) <= pow2 125.
Proof.
  intros Hh Hr. rewrite Rabs_mult, (Rabs_pos_eq h) by lra.
  change (-126)%Z with (-124 + -2)%Z. change 125%Z with (124 + 1)%Z. rewrite !bpow_plus.
  change (pow2 (-2)) with (/ 4). change (pow2 1) with 2.
  pose proof (bpow_gt_0 radix2 (-124)). pose proof (bpow_gt_0 radix2 124). pose proof (Rabs_pos r). split; nra.
Qed.

Lemma near_mult n m (x y : b32) a b : N32 n x a -> N32 m y b -> (Z.of_nat (n + m) <= 2 ^ 20)%Z ->
  pow2 (-124) <= Rabs (a * b) <= pow2 124 -> N32 (n + m + 1) (Bmult mode_NE x y) (a * b).
Proof.
  intros (Fx & f & Hf & Ex) (Fy & g & Hg & Ey) Hn Hr.
  pose proof (Fac_mul _ _ _ _ Hf Hg) as Hfg. pose proof (Fac_bounds _ _ Hn Hfg) as Hb.
  pose proof (range_scale _ _ Hb Hr) as Hs.
  assert (E : B2R x * B2R y = a * b * (f * g)) by (rewrite Ex, Ey; ring).
  destruct (B_mult x y 125 Fx Fy ltac:(lia)) as (F & Er & _); [rewrite E; apply Hs|].
  split; [exact F|]. rewrite E in Er. destruct (rnd_rel _ (proj1 Hs)) as (d & Hd & Ed).
  exists (f * g * (1 + d)). split; [apply Fac_mul; [exact Hfg|now apply Fac_d]|].
  rewrite Er, Ed. ring.
Qed.
Lemma Fac_inv m g : Fac m g -> Fac (2 * m) (/ g).
Proof.
  intros (A & B). pose proof (pow_lo_pos m) as P. pose proof u_small as Hu.
  replace (2 * m)%nat with (m + m)%nat by lia. unfold Fac. rewrite !pow_add, <- !Rpow_mult_distr.
  assert (H1 : forall k, ((1 - u) * (1 - u)) ^ k * (1 + u) ^ k <= 1).
  { intros k. rewrite <- Rpow_mult_distr. eapply Rle_trans; [apply (pow_incr _ 1); split; nra|]. rewrite pow1. lra. }
  assert (H2 : forall k, 1 <= ((1 + u) * (1 + u)) ^ k * (1 - u) ^ k).
  { intros k. rewrite <- Rpow_mult_distr. apply pow_R1_Rle. nra. }
  specialize (H1 m). specialize (H2 m).
  assert (Q1 : 0 < ((1 - u) * (1 - u)) ^ m) by (apply pow_lt; nra).
  assert (Q2 : 0 < ((1 + u) * (1 + u)) ^ m) by (apply pow_lt; nra).
  set (q1 := ((1 - u) * (1 - u)) ^ m) in *. set (q2 := ((1 + u) * (1 + u)) ^ m) in *.
  set (lo := (1 - u) ^ m) in *. set (hi := (1 + u) ^ m) in *. clearbody q1 q2 lo hi.
  assert (G : 0 < g) by lra. split.
  - apply (Rmult_le_reg_r g); [exact G|]. rewrite Rinv_l by lra. nra.
  - apply (Rmult_le_reg_r g); [exact G|]. rewrite Rinv_l by lra. nra.
Qed.
Lemma near_div n m (x y : b32) a b : N32 n x a -> N32 m y b -> b <> 0 -> (Z.of_nat (n + 2 * m) <= 2 ^ 20)%Z ->
  pow2 (-124) <= Rabs (a / b) <= pow2 124 -> N32 (n + 2 * m + 1) (fdiv x y) (a / b).
Proof.
  intros (Fx & f & Hf & Ex) (Fy & g & Hg & Ey) Hb0 Hn Hr.
  pose proof (Fac_mul _ _ _ _ Hf (Fac_inv _ _ Hg)) as Hfg. pose proof (Fac_bounds _ _ Hn Hfg) as Hb.
  pose proof (range_scale _ _ Hb Hr) as Hs.
  assert (Hg0 : g <> 0) by (destruct Hg; pose proof (pow_lo_pos m); lra).
  assert (E : B2R x / B2R y = a / b * (f * / g)) by (rewrite Ex, Ey; field; auto).
  destruct (B_div x y 125 Fx Fy) as (F & Er & _); [rewrite Ey; apply Rmult_integral_contrapositive_currified; assumption|lia|rewrite E; apply Hs|].
  split; [exact F|]. rewrite E in Er. destruct (rnd_rel _ (proj1 Hs)) as (d & Hd & Ed).
  exists (f * / g * (1 + d)). split; [apply Fac_mul; [exact Hfg|now apply Fac_d]|].
  rewrite Er, Ed. ring.
Qed.
(** Multiplication by one. *)
Lemma times_one_l n (x : b32) r : N32 n x r -> N32 n (Bmult mode_NE (b32_ofZ 1) x) r.
Proof.
  intros (F & f & Hf & E). destruct (b32_ofZ_exact 1 ltac:(lia)) as (F1 & E1).
  assert (Ep : B2R (b32_ofZ 1) * B2R x = B2R x) by (rewrite E1; ring).
  generalize (Bmult_correct prec32 emax32 _ _ mode_NE (b32_ofZ 1) x). rewrite Ep.
  change (round_mode mode_NE) with ZnearestE. rewrite rnd_id by apply fmt_B.
  rewrite Rlt_bool_true by apply B_lt_max. intros (E2 & F2 & _). rewrite F1, F in F2.
  split; [exact F2|]. exists f. split; [exact Hf|]. rewrite E2. exact E.
Qed.
Lemma times_one_r n (x : b32) r : N32 n x r -> N32 n (Bmult mode_NE x (b32_ofZ 1)) r.
Proof.
  intros (F & f & Hf & E). destruct (b32_ofZ_exact 1 ltac:(lia)) as (F1 & E1).
  assert (Ep : B2R x * B2R (b32_ofZ 1) = B2R x) by (rewrite E1; ring).
  generalize (Bmult_correct prec32 emax32 _ _ mode_NE x (b32_ofZ 1)). rewrite Ep.
  change (round_mode mode_NE) with ZnearestE. rewrite rnd_id by apply fmt_B.
  rewrite Rlt_bool_true by apply B_lt_max. intros (E2 & F2 & _). rewrite F1, F in F2.
  split; [exact F2|]. exists f. split; [exact Hf|]. rewrite E2. exact E.
Qed.

(** * pow *)
Lemma pow_between b k n : (k <= n)%nat -> pow2 (-124) <= Rabs (b ^ n) <= pow2 124 ->
  pow2 (-124) <= Rabs (b ^ k) <= pow2 124.
Proof.
  intros Hk. rewrite <- !RPow_abs. set (a := Rabs b). intros (H1 & H2).
  assert (P1 : pow2 (-124) <= 1) by (change 1 with (pow2 0); apply bpow_le; lia).
  assert (P2 : 1 <= pow2 124) by (change 1 with (pow2 0); apply bpow_le; lia).
  assert (Ha : 0 <= a) by apply Rabs_pos.
  destruct (Rle_or_lt 1 a) as [Hge|Hlt].
  - split; [eapply Rle_trans; [exact P1|]; now apply pow_R1_Rle|].
    eapply Rle_trans; [|exact H2]. now apply Rle_pow.
  - assert (Hle : forall i, 0 <= a ^ i <= 1).
    { intros i. split; [now apply pow_le|]. rewrite <- (pow1 i). apply pow_incr. lra. }
    split; [|eapply Rle_trans; [apply Hle|exact P2]].
    eapply Rle_trans; [exact H1|]. replace n with (k + (n - k))%nat by lia. rewrite pow_add.
    pose proof (Hle k). pose proof (Hle (n - k)%nat). nra.
Qed.

Lemma pow_loop32 (b : b32) n : forall k r, is_finite b = true ->
  (Z.of_nat (S k + n) <= 2 ^ 19)%Z -> pow2 (-124) <= Rabs (B2R b ^ (S k + n)) <= pow2 124 ->
  N32 k r (B2R b ^ S k) ->
  exists v, pow_loop (nmulM F32Num) b n r = Ok v /\ N32 (k + n) v (B2R b ^ (S k + n)).
Proof.
  induction n as [|n IH]; intros k r Fb Hk Hr Hn.
  - exists r. rewrite !Nat.add_0_r. auto.
  - cbn [pow_loop nmulM bind nmul F32Num].
    assert (Hm : N32 (S k) (Bmult mode_NE r b) (B2R b ^ S (S k))).
    { replace (B2R b ^ S (S k)) with (B2R b ^ S k * B2R b) by (cbn [Rpow_def.pow]; ring).
      replace (S k) with (k + 0 + 1)%nat at 1 by lia. apply near_mult; [exact Hn|now apply N32_exact|lia|].
      replace (B2R b ^ S k * B2R b) with (B2R b ^ S (S k)) by (cbn [Rpow_def.pow]; ring).
      apply (pow_between _ _ (S k + S n)); [lia|exact Hr]. }
    destruct (IH (S k) (Bmult mode_NE r b) Fb) as (v & Ev & Hv).
    + lia.
    + now replace (S (S k) + n)%nat with (S k + S n)%nat by lia.
    + exact Hm.
    + exists v. split; [exact Ev|]. replace (S k + S n)%nat with (S (S k) + n)%nat by lia.
      now replace (k + S n)%nat with (S k + n)%nat by lia.
Qed.

Lemma pow32_lemma (b : b32) E : is_finite b = true -> (0 <= E <= 2 ^ 19)%Z ->
  pow2 (-124) <= Rabs (B2R b ^ Z.to_nat E) <= pow2 124 ->
  exists v, pow_real F32Num E b = Ok v /\ Near32 (Z.to_nat (E - 1)) v (B2R b ^ Z.to_nat E).
Proof.
  intros Fb HE Hr. unfold pow_real, ModelMath.pow. destruct (Z.to_nat E) as [|n] eqn:En.
  - cbn [pow_loop]. eexists. split; [reflexivity|]. destruct (b32_ofZ_exact 1 ltac:(lia)) as (F1 & E1).
    replace (Z.to_nat (E - 1)) with 0%nat by lia. apply N32_near, N32_exact; [exact F1|exact E1].
  - cbn [pow_loop nmulM bind nmul F32Num nofZ].
    destruct (pow_loop32 b n 0 (Bmult mode_NE (b32_ofZ 1) b) Fb) as (v & Ev & Hv).
    + lia.
    + exact Hr.
    + apply times_one_l. apply N32_exact; [exact Fb|]. cbn [Rpow_def.pow]. ring.
    + exists v. split; [exact Ev|]. replace (Z.to_nat (E - 1)) with n by lia. apply N32_near. exact Hv.
Qed.

(** * Shapes *)
Definition conv (c : nat) (z : Z) : Prop := N32 c (b32_ofZ z) (IZR z).
Lemma conv_small z : (Z.abs z < 2 ^ 24)%Z -> conv 0 z.
Proof. intros H. destruct (b32_ofZ_exact z H) as (F & E). now apply N32_exact. Qed.
Lemma conv_int z : (Z.abs z <= 2 ^ 31)%Z -> conv 1 z.
Proof.
  intros Hz. destruct (Z.eq_dec z 0) as [->|Hne]; [apply (N32_le 0); [lia|]; apply conv_small; lia|].
  assert (H1 : 1 <= Rabs (IZR z)) by (rewrite <- abs_IZR; apply IZR_le; lia).
  assert (H2 : Rabs (IZR z) <= pow2 31).
  { rewrite <- abs_IZR. change (pow2 31) with (IZR 2147483648). apply IZR_le. lia. }
  assert (E : F2R (Float radix2 z 0) = IZR z) by (unfold F2R; cbn; ring).
  generalize (binary_normalize_correct prec32 emax32 _ _ mode_NE z 0 false).
  cbv zeta. rewrite E. change (round_mode mode_NE) with ZnearestE.
  destruct (rnd_rel (IZR z)) as (d & Hd & Ed).
  { eapply Rle_trans; [|exact H1]. change 1 with (pow2 0). apply bpow_le. lia. }
  rewrite Rlt_bool_true.
  - intros (E1 & F1 & _). split; [exact F1|]. exists (1 + d). split; [now apply Fac_d|].
    unfold b32_ofZ. exact (eq_trans E1 Ed).
  - apply Rle_lt_trans with (pow2 31); [|apply bpow_lt; reflexivity]. apply rnd_abs_pow2; [lia|exact H2].
Qed.

Lemma ratio_range a b : (1 <= Z.abs a <= 2 ^ 31)%Z -> (1 <= b <= 2 ^ 31)%Z ->
  pow2 (-31) <= Rabs (IZR a / IZR b) <= pow2 31.
Proof.
  intros Ha Hb. unfold Rdiv. rewrite Rabs_mult, Rabs_inv, <- !abs_IZR.
  assert (A : 1 <= IZR (Z.abs a) <= 2147483648) by (split; apply IZR_le; lia).
  assert (B : 1 <= IZR (Z.abs b) <= 2147483648) by (split; apply IZR_le; lia).
  change (pow2 (-31)) with (/ 2147483648). change (pow2 31) with 2147483648.
  set (p := IZR (Z.abs a)) in *. set (q := IZR (Z.abs b)) in *.
  assert (I : / 2147483648 <= / q <= 1).
  { split; [apply Rinv_le_contravar; lra|]. rewrite <- Rinv_1. apply Rinv_le_contravar; lra. }
  assert (0 < / q) by (apply Rinv_0_lt_compat; lra). split; nra.
Qed.
Lemma quotient32 c a b : (c <= 1)%nat -> conv c a -> conv c b -> (Z.abs a <= 2 ^ 31)%Z -> (1 <= b <= 2 ^ 31)%Z ->
  N32 (3 * c + 1) (fdiv (b32_ofZ a) (b32_ofZ b)) (IZR a / IZR b).
Proof.
  intros Hc Ca Cb Ha Hb.
  assert (B0 : IZR b <> 0) by (apply not_0_IZR; lia).
  destruct (Z.eq_dec a 0) as [->|Hne].
  - replace (IZR 0 / IZR b) with 0 by (unfold Rdiv; rewrite Rmult_0_l; reflexivity).
    destruct (b32_ofZ_exact 0 ltac:(lia)) as (Fa & Ea). destruct Cb as (Fb & g & Hg & Eb).
    destruct (B_div (b32_ofZ 0) (b32_ofZ b) 0 Fa Fb) as (F & E & _).
    + rewrite Eb. destruct Hg. pose proof (pow_lo_pos c). apply Rmult_integral_contrapositive_currified; lra.
    + lia.
    + rewrite Ea. unfold Rdiv. rewrite Rmult_0_l, Rabs_R0. apply bpow_ge_0.
    + apply (N32_le 0); [lia|]. apply N32_exact; [exact F|]. rewrite E, Ea. unfold Rdiv. now rewrite Rmult_0_l, rnd_0.
  - replace (3 * c + 1)%nat with (c + 2 * c + 1)%nat by lia.
    apply near_div; [exact Ca|exact Cb|exact B0|lia|].
    pose proof (ratio_range a b ltac:(lia) Hb) as H.
    assert (pow2 (-124) <= pow2 (-31)) by (apply bpow_le; lia). assert (pow2 31 <= pow2 124) by (apply bpow_le; lia). lra.
Qed.

Lemma bpow_pow e n : pow2 e ^ n = pow2 (e * Z.of_nat n).
Proof.
  induction n as [|n IH]; [now rewrite Z.mul_0_r|].
  cbn [Rpow_def.pow]. rewrite IH, <- bpow_plus. f_equal. lia.
Qed.
Lemma range_in e1 e2 r : (-124 <= e1)%Z -> (e2 <= 124)%Z -> pow2 e1 <= r <= pow2 e2 ->
  pow2 (-124) <= Rabs r <= pow2 124.
Proof.
  intros H1 H2 H. pose proof (bpow_gt_0 radix2 e1). rewrite Rabs_pos_eq by lra.
  assert (pow2 (-124) <= pow2 e1) by (apply bpow_le; lia). assert (pow2 e2 <= pow2 124) by (apply bpow_le; lia). lra.
Qed.

Section Shape.
Context (MIN MAX DIVISOR : Z) (HMM : (MIN < MAX)%Z) (HD : (0 < DIVISOR <= INT_MAX)%Z).
Context (Hmin : is_int MIN) (Hmax : is_int MAX) (Hl : (MAX - MIN <= INT_MAX)%Z).
Context (c : nat) (Hc : (c <= 1)%nat) (Cmin : conv c MIN) (Cmax : conv c MAX) (Clen : conv c (MAX - MIN)) (Cdiv : conv c DIVISOR).
Let L : R := IZR (MAX - MIN) / IZR DIVISOR.

Lemma bounds_fine : bounds_ok MIN MAX DIVISOR = Ok tt.
Proof using All. unfold bounds_ok. now replace ((MIN <? MAX)%Z && (0 <? DIVISOR)%Z) with true by lia. Qed.

Lemma min32 : exists x, minCoord F32Num MIN MAX DIVISOR = Ok x /\ N32 (3 * c + 1) x (IZR MIN / IZR DIVISOR).
Proof using All.
  unfold minCoord. rewrite bounds_fine. cbn [bind ndiv nofZ F32Num]. eexists. split; [reflexivity|].
  unfold is_int, INT_MIN, INT_MAX in *. apply quotient32; first [assumption|lia].
Qed.
Lemma max32 : exists x, maxCoord F32Num MIN MAX DIVISOR = Ok x /\ N32 (3 * c + 1) x (IZR MAX / IZR DIVISOR).
Proof using All.
  unfold maxCoord. rewrite bounds_fine. cbn [bind ndiv nofZ F32Num]. eexists. split; [reflexivity|].
  unfold is_int, INT_MIN, INT_MAX in *. apply quotient32; first [assumption|lia].
Qed.
Lemma length32 : exists x, length_ F32Num MIN MAX DIVISOR = Ok x /\ N32 (3 * c + 1) x L.
Proof using All.
  unfold length_. rewrite bounds_fine. cbn [bind]. unfold is_int, INT_MIN, INT_MAX in *.
  rewrite isub_ok by (unfold INT_MIN, INT_MAX; lia). cbn [bind ndiv nofZ F32Num]. eexists. split; [reflexivity|].
  apply quotient32; first [assumption|lia].
Qed.

Lemma L_range : pow2 (-31) <= L <= pow2 31.
Proof using All.
  unfold INT_MAX in *. pose proof (ratio_range (MAX - MIN) DIVISOR ltac:(lia) ltac:(lia)) as H.
  assert (0 < L).
  { unfold L. apply Rmult_lt_0_compat; [apply (IZR_lt 0); lia|]. apply Rinv_0_lt_compat. apply (IZR_lt 0). lia. }
  fold L in H. rewrite Rabs_pos_eq in H by lra. exact H.
Qed.
Lemma cube32 d : (d <= 2)%nat ->
  exists v, cube_volumeHelper F32Num MIN MAX DIVISOR (S d) = Ok v /\ N32 ((3 * c + 2) * d + 3 * c + 1) v (L ^ S d).
Proof using All.
  destruct length32 as (l & El & Hln). pose proof L_range as HL.
  induction d as [|d IH]; intros Hd.
  - cbn [cube_volumeHelper]. rewrite El. cbn [bind nmul nofZ F32Num]. eexists. split; [reflexivity|].
    apply times_one_r. rewrite Nat.mul_0_r. cbn [Rpow_def.pow]. rewrite Rmult_1_r. exact Hln.
  - destruct (IH ltac:(lia)) as (v & Ev & Hv). cbn [cube_volumeHelper] in *. rewrite El in *. cbn [bind] in *.
    rewrite Ev. cbn [bind nmul F32Num]. eexists. split; [reflexivity|].
    replace ((3 * c + 2) * S d + 3 * c + 1)%nat with ((3 * c + 1) + ((3 * c + 2) * d + 3 * c + 1) + 1)%nat by lia.
    replace (L ^ S (S d)) with (L * L ^ S d) by (cbn [Rpow_def.pow]; ring).
    apply near_mult; [exact Hln|exact Hv|nia|].
    replace (L * L ^ S d) with (L ^ S (S d)) by (cbn [Rpow_def.pow]; ring).
    apply (range_in (-31 * Z.of_nat (S (S d))) (31 * Z.of_nat (S (S d)))); [lia|lia|].
    rewrite <- !bpow_pow. pose proof (bpow_gt_0 radix2 (-31)). split; apply pow_incr; lra.
Qed.

Fixpoint sv (d : nat) : R := match d with O => 1 | S d' => L / INR d * sv d' end.
Lemma sv_fact d : sv d = L ^ d / INR (fact d).
Proof using.
  induction d as [|d IH]; [cbn; field|].
  assert (INR (S d) <> 0) by (apply not_0_INR; discriminate). pose proof (INR_fact_neq_0 d).
  change (sv (S d)) with (L / INR (S d) * sv d). rewrite IH.
  change (fact (S d)) with (S d * fact d)%nat. rewrite mult_INR. cbn [Rpow_def.pow]. field. auto.
Qed.
Lemma step_range d : (d <= 2)%nat -> pow2 (-33) <= L / INR (S d) <= pow2 31.
Proof using All.
  intros Hd. pose proof L_range as HL. rewrite INR_IZR_INZ.
  assert (B : 1 <= IZR (Z.of_nat (S d)) <= 4) by (split; apply IZR_le; lia). set (q := IZR (Z.of_nat (S d))) in *.
  assert (I : / 4 <= / q <= 1).
  { split; [apply Rinv_le_contravar; lra|]. rewrite <- Rinv_1. apply Rinv_le_contravar; lra. }
  change (-33)%Z with (-31 + -2)%Z. rewrite bpow_plus. change (pow2 (-2)) with (/ 4).
  pose proof (bpow_gt_0 radix2 (-31)). unfold Rdiv. split; nra.
Qed.
Lemma sv_range d : (d <= 3)%nat -> pow2 (-33 * Z.of_nat d) <= sv d <= pow2 (31 * Z.of_nat d).
Proof using All.
  induction d as [|d IH]; intros Hd; [cbn; lra|].
  specialize (IH ltac:(lia)). pose proof (step_range d ltac:(lia)) as Hs.
  change (sv (S d)) with (L / INR (S d) * sv d).
  replace (-33 * Z.of_nat (S d))%Z with (-33 + -33 * Z.of_nat d)%Z by lia.
  replace (31 * Z.of_nat (S d))%Z with (31 + 31 * Z.of_nat d)%Z by lia. rewrite !bpow_plus.
  pose proof (bpow_gt_0 radix2 (-33)). pose proof (bpow_gt_0 radix2 (-33 * Z.of_nat d)).
  split; apply Rmult_le_compat; lra.
Qed.
Lemma simplex32 d : (d <= 2)%nat ->
  exists v, simplex_volumeHelper F32Num MIN MAX DIVISOR (S d) = Ok v /\ N32 ((3 * c + 3) * d + 3 * c + 2) v (sv (S d)).
Proof using All.
  destruct length32 as (l & El & Hln).
  assert (Hq : forall d, (d <= 2)%nat -> N32 (3 * c + 2) (fdiv l (b32_ofZ (Z.of_nat (S d)))) (L / INR (S d))).
  { intros k Hk. pose proof (conv_small (Z.of_nat (S k)) ltac:(lia)) as Cb. unfold conv in Cb. rewrite <- INR_IZR_INZ in Cb.
    replace (3 * c + 2)%nat with ((3 * c + 1) + 2 * 0 + 1)%nat by lia.
    apply near_div; [exact Hln|exact Cb|apply not_0_INR; lia|lia|].
    apply (range_in (-33) 31); [lia|lia|]. now apply step_range. }
  induction d as [|d IH]; intros Hd.
  - cbn [simplex_volumeHelper]. rewrite El. cbn [bind ndiv nmul nofZ F32Num]. eexists. split; [reflexivity|].
    apply times_one_r. rewrite Nat.mul_0_r. replace (sv 1) with (L / INR 1) by (cbn [sv]; ring). apply (Hq 0%nat). lia.
  - destruct (IH ltac:(lia)) as (v & Ev & Hv). cbn [simplex_volumeHelper] in *. rewrite El in *. cbn [bind ndiv nofZ F32Num] in *.
    rewrite Ev. cbn [bind nmul F32Num]. eexists. split; [reflexivity|].
    replace ((3 * c + 3) * S d + 3 * c + 2)%nat with ((3 * c + 2) + ((3 * c + 3) * d + 3 * c + 2) + 1)%nat by lia.
    change (sv (S (S d))) with (L / INR (S (S d)) * sv (S d)).
    apply near_mult; [apply Hq; lia|exact Hv|nia|].
    change (L / INR (S (S d)) * sv (S d)) with (sv (S (S d))).
    apply (range_in (-33 * Z.of_nat (S (S d))) (31 * Z.of_nat (S (S d)))); [lia|lia|]. apply sv_range. lia.
Qed.
End Shape.

Lemma shape32_general MIN MAX DIVISOR N c : (MIN < MAX)%Z -> (0 < DIVISOR <= INT_MAX)%Z -> is_int MIN -> is_int MAX ->
  (MAX - MIN <= INT_MAX)%Z -> (1 <= N <= 3)%Z ->
  (c <= 1)%nat -> conv c MIN -> conv c MAX -> conv c (MAX - MIN) -> conv c DIVISOR ->
  let L := IZR (MAX - MIN) / IZR DIVISOR in
  (exists x, minCoord F32Num MIN MAX DIVISOR = Ok x /\ Near32 (3 * c + 1) x (IZR MIN / IZR DIVISOR)) /\
  (exists x, maxCoord F32Num MIN MAX DIVISOR = Ok x /\ Near32 (3 * c + 1) x (IZR MAX / IZR DIVISOR)) /\
  (exists x, length_ F32Num MIN MAX DIVISOR = Ok x /\ Near32 (3 * c + 1) x L) /\
  (exists v, cube_volume F32Num MIN MAX DIVISOR N = Ok v /\ Near32 ((3 * c + 2) * Z.to_nat N - 1) v (L ^ Z.to_nat N)) /\
  (exists v, simplex_volume F32Num MIN MAX DIVISOR N = Ok v /\
     Near32 ((3 * c + 3) * Z.to_nat N - 1) v (L ^ Z.to_nat N / INR (fact (Z.to_nat N)))).
Proof.
  intros HMM HD Hmin Hmax Hl HN Hc Cmin Cmax Clen Cdiv L.
  destruct (min32 MIN MAX DIVISOR HMM HD Hmin Hmax Hl c Hc Cmin Cmax Clen Cdiv) as (x0 & E0 & H0).
  destruct (max32 MIN MAX DIVISOR HMM HD Hmin Hmax Hl c Hc Cmin Cmax Clen Cdiv) as (x1 & E1 & H1).
  destruct (length32 MIN MAX DIVISOR HMM HD Hmin Hmax Hl c Hc Cmin Cmax Clen Cdiv) as (x2 & E2 & H2).
  destruct (Z.to_nat N) as [|d] eqn:En; [lia|].
  destruct (cube32 MIN MAX DIVISOR HMM HD Hmin Hmax Hl c Hc Cmin Cmax Clen Cdiv d ltac:(lia)) as (v & Ev & Hv).
  destruct (simplex32 MIN MAX DIVISOR HMM HD Hmin Hmax Hl c Hc Cmin Cmax Clen Cdiv d ltac:(lia)) as (w & Ew & Hw).
  split; [exists x0; split; [exact E0|now apply N32_near]|].
  split; [exists x1; split; [exact E1|now apply N32_near]|].
  split; [exists x2; split; [exact E2|now apply N32_near]|]. split.
  - exists v. unfold cube_volume. replace (0 <? N)%Z with true by lia. rewrite En. split; [exact Ev|].
    apply N32_near. replace ((3 * c + 2) * S d - 1)%nat with ((3 * c + 2) * d + 3 * c + 1)%nat by lia. exact Hv.
  - exists w. unfold simplex_volume. replace (0 <? N)%Z with true by lia. rewrite En. split; [exact Ew|].
    apply N32_near. replace ((3 * c + 3) * S d - 1)%nat with ((3 * c + 3) * d + 3 * c + 2)%nat by lia. rewrite sv_fact in Hw. exact Hw.
Qed.

(** * Exact results *)
Definition X32 (m e : Z) (x : b32) : Prop := is_finite x = true /\ B2R x = IZR m * pow2 e.

Lemma scaled_le m e : (Z.abs m < 2 ^ 24)%Z -> (e <= 100)%Z -> Rabs (IZR m * pow2 e) <= pow2 124.
Proof.
  intros Hm He. rewrite Rabs_mult, (Rabs_pos_eq (pow2 e)) by apply bpow_ge_0. rewrite <- abs_IZR.
  change 124%Z with (24 + 100)%Z. rewrite bpow_plus. apply Rmult_le_compat.
  - apply (IZR_le 0). lia.
  - apply bpow_ge_0.
  - apply Rle_trans with (IZR (Zpower radix2 24)); [apply IZR_le; change (Zpower radix2 24) with (2 ^ 24)%Z; lia|].
    rewrite IZR_Zpower by lia. apply bpow_le. lia.
  - apply bpow_le. lia.
Qed.
Lemma exact_mult m e p f (x y : b32) : X32 m e x -> X32 p f y -> (Z.abs (m * p) < 2 ^ 24)%Z -> (-149 <= e + f <= 100)%Z ->
  X32 (m * p) (e + f) (Bmult mode_NE x y).
Proof.
  intros (Fx & Ex) (Fy & Ey) Hm He.
  assert (E : B2R x * B2R y = IZR (m * p) * pow2 (e + f)) by (rewrite Ex, Ey, mult_IZR, bpow_plus; ring).
  destruct (B_mult x y 124 Fx Fy ltac:(lia)) as (F & Er & _); [rewrite E; apply scaled_le; lia|].
  split; [exact F|]. rewrite Er, E. apply rnd_id, fmt_int; lia.
Qed.
Lemma exact_div a k : (Z.abs a < 2 ^ 24)%Z -> (0 <= k <= 23)%Z -> X32 a (- k) (fdiv (b32_ofZ a) (b32_ofZ (2 ^ k))).
Proof.
  intros Ha Hk. assert (H2 : (0 < 2 ^ k <= 2 ^ 23)%Z) by (split; [apply Z.pow_pos_nonneg; lia|apply Z.pow_le_mono_r; lia]).
  destruct (b32_ofZ_exact a Ha) as (Fa & Ea). destruct (b32_ofZ_exact (2 ^ k) ltac:(lia)) as (Fb & Eb).
  change (IZR (2 ^ k)) with (IZR (Zpower radix2 k)) in Eb. rewrite IZR_Zpower in Eb by lia.
  assert (E : B2R (b32_ofZ a) / B2R (b32_ofZ (2 ^ k)) = IZR a * pow2 (- k)) by (rewrite Ea, Eb, bpow_opp; reflexivity).
  destruct (B_div (b32_ofZ a) (b32_ofZ (2 ^ k)) 124 Fa Fb) as (F & Er & _).
  - rewrite Eb. pose proof (bpow_gt_0 radix2 k). lra.
  - lia.
  - rewrite E. apply scaled_le; lia.
  - split; [exact F|]. rewrite Er, E. apply rnd_id, fmt_int; lia.
Qed.

Lemma X32_pow m e n : IZR (m ^ Z.of_nat n) * pow2 (e * Z.of_nat n) = (IZR m * pow2 e) ^ n.
Proof. now rewrite Rpow_mult_distr, bpow_pow, pow_IZR. Qed.
Lemma zpow_abs_le m k n : (0 <= k <= n)%Z -> (0 < k)%Z -> (Z.abs (m ^ k) <= Z.abs (m ^ n))%Z.
Proof.
  intros H Hk. rewrite !Z.abs_pow. destruct (Z.eq_dec m 0) as [->|Hm].
  - change (Z.abs 0) with 0%Z. rewrite !Z.pow_0_l by lia. lia.
  - apply Z.pow_le_mono_r; lia.
Qed.

Lemma pow_loop_exact32 (b : b32) m e n : X32 m e b -> forall k r,
  (Z.abs (m ^ Z.of_nat (S k + n)) < 2 ^ 24)%Z -> (-149 <= e * Z.of_nat (S k + n))%Z -> (e * Z.of_nat (S k + n) <= 100)%Z ->
  X32 (m ^ Z.of_nat (S k)) (e * Z.of_nat (S k)) r ->
  exists v, pow_loop (nmulM F32Num) b n r = Ok v /\ X32 (m ^ Z.of_nat (S k + n)) (e * Z.of_nat (S k + n)) v.
Proof.
  intros Hb. induction n as [|n IH]; intros k r Hm He1 He2 Hr.
  - exists r. rewrite !Nat.add_0_r. auto.
  - cbn [pow_loop nmulM bind nmul F32Num].
    assert (Em : (m ^ Z.of_nat (S (S k)) = m ^ Z.of_nat (S k) * m)%Z).
    { rewrite (Nat2Z.inj_succ (S k)), Z.pow_succ_r by lia. ring. }
    assert (Ee : (e * Z.of_nat (S (S k)) = e * Z.of_nat (S k) + e)%Z) by lia.
    destruct (IH (S k) (Bmult mode_NE r b)) as (v & Ev & Hv).
    + now replace (S (S k) + n)%nat with (S k + S n)%nat by lia.
    + now replace (S (S k) + n)%nat with (S k + S n)%nat by lia.
    + now replace (S (S k) + n)%nat with (S k + S n)%nat by lia.
    + rewrite Em, Ee. apply exact_mult; [exact Hr|exact Hb| |].
      * rewrite <- Em. eapply Z.le_lt_trans; [|exact Hm]. apply zpow_abs_le; lia.
      * rewrite <- Ee. split; nia.
    + exists v. split; [exact Ev|]. now replace (S k + S n)%nat with (S (S k) + n)%nat by lia.
Qed.
Lemma X32_one : X32 1 0 (b32_ofZ 1).
Proof. destruct (b32_ofZ_exact 1 ltac:(lia)) as (F & E). split; [exact F|]. rewrite E. cbn. ring. Qed.

Lemma pow_exact32_lemma (b : b32) m e E : is_finite b = true -> B2R b = IZR m * pow2 e -> (1 <= E <= INT_MAX)%Z ->
  (Z.abs (m ^ E) < 2 ^ 24)%Z -> (-149 <= e * E <= 100)%Z ->
  exists v, pow_real F32Num E b = Ok v /\ is_finite v = true /\ B2R v = B2R b ^ Z.to_nat E.
Proof.
  intros Fb Eb HE Hm He. unfold pow_real, ModelMath.pow. destruct (Z.to_nat E) as [|n] eqn:En; [lia|].
  assert (EE : E = Z.of_nat (S n)) by lia. rewrite EE in Hm, He.
  cbn [pow_loop nmulM bind nmul F32Num nofZ].
  destruct (pow_loop_exact32 b m e n) with (k := 0%nat) (r := Bmult mode_NE (b32_ofZ 1) b) as (v & Ev & Fv & Hv).
  - now split.
  - exact Hm.
  - apply He.
  - apply He.
  - destruct (times_one_l 0 b (B2R b)) as (F1 & f & Hf & E1); [now apply N32_exact|].
    assert (f = 1) by (unfold Fac in Hf; cbn in Hf; lra). subst f.
    split; [exact F1|]. change (Z.of_nat 1) with 1%Z. rewrite Z.pow_1_r, Z.mul_1_r, E1, <- Eb. ring.
  - exists v. split; [exact Ev|]. split; [exact Fv|]. rewrite Eb. change (1 + n)%nat with (S n) in Hv. now rewrite Hv, X32_pow.
Qed.

Section Exact.
Context (MIN MAX k : Z) (HMM : (MIN < MAX)%Z) (Hk : (0 <= k <= 23)%Z).
Context (Hmin : (Z.abs MIN < 2 ^ 24)%Z) (Hmax : (Z.abs MAX < 2 ^ 24)%Z) (Hl : (MAX - MIN < 2 ^ 24)%Z).
Lemma bounds_fine2 : bounds_ok MIN MAX (2 ^ k) = Ok tt.
Proof using All.
  unfold bounds_ok. assert (0 < 2 ^ k)%Z by (apply Z.pow_pos_nonneg; lia).
  now replace ((MIN <? MAX)%Z && (0 <? 2 ^ k)%Z) with true by lia.
Qed.
Lemma exact_length32 : exists x, length_ F32Num MIN MAX (2 ^ k) = Ok x /\ X32 (MAX - MIN) (- k) x.
Proof using All.
  unfold length_. rewrite bounds_fine2. cbn [bind]. 
  rewrite isub_ok by (unfold INT_MIN, INT_MAX; lia). cbn [bind ndiv nofZ F32Num]. eexists. split; [reflexivity|].
  apply exact_div; lia.
Qed.
Lemma exact_cube32 d : ((MAX - MIN) ^ Z.of_nat d < 2 ^ 24)%Z -> (k * Z.of_nat d <= 120)%Z ->
  exists v, cube_volumeHelper F32Num MIN MAX (2 ^ k) d = Ok v /\ X32 ((MAX - MIN) ^ Z.of_nat d) (- k * Z.of_nat d) v.
Proof using All.
  destruct exact_length32 as (l & El & Hx). induction d as [|d IH]; intros Hd Hkd.
  - exists (b32_ofZ 1). split; [reflexivity|]. rewrite Z.mul_0_r. apply X32_one.
  - assert (Em : ((MAX - MIN) ^ Z.of_nat (S d) = (MAX - MIN) * (MAX - MIN) ^ Z.of_nat d)%Z).
    { now rewrite Nat2Z.inj_succ, Z.pow_succ_r by lia. }
    assert (P : (0 < (MAX - MIN) ^ Z.of_nat d)%Z) by (apply Z.pow_pos_nonneg; lia).
    destruct IH as (v & Ev & Hv); [nia|nia|].
    cbn [cube_volumeHelper]. rewrite El. cbn [bind]. rewrite Ev. cbn [bind nmul F32Num]. eexists. split; [reflexivity|].
    rewrite Em. replace (- k * Z.of_nat (S d))%Z with (- k + - k * Z.of_nat d)%Z by lia.
    apply exact_mult; [exact Hx|exact Hv|rewrite <- Em; apply Z.abs_lt; nia|nia].
Qed.
End Exact.

Lemma shape_exact32_lemma MIN MAX k N : (MIN < MAX)%Z -> (0 <= k <= 23)%Z -> (Z.abs MIN < 2 ^ 24)%Z -> (Z.abs MAX < 2 ^ 24)%Z ->
  (MAX - MIN < 2 ^ 24)%Z -> (1 <= N)%Z -> ((MAX - MIN) ^ N < 2 ^ 24)%Z -> (k * N <= 120)%Z ->
  let D := (2 ^ k)%Z in
  (exists x, minCoord F32Num MIN MAX D = Ok x /\ is_finite x = true /\ B2R x = IZR MIN / IZR D) /\
  (exists x, maxCoord F32Num MIN MAX D = Ok x /\ is_finite x = true /\ B2R x = IZR MAX / IZR D) /\
  (exists x, length_ F32Num MIN MAX D = Ok x /\ is_finite x = true /\ B2R x = IZR (MAX - MIN) / IZR D) /\
  (exists v, cube_volume F32Num MIN MAX D N = Ok v /\ is_finite v = true /\
     B2R v = (IZR (MAX - MIN) / IZR D) ^ Z.to_nat N).
Proof.
  intros HMM Hk Hmin Hmax Hl HN Hm HkN D.
  assert (ED : forall a, IZR a / IZR D = IZR a * pow2 (- k)).
  { intros a. unfold D. change (2 ^ k)%Z with (Zpower radix2 k). rewrite IZR_Zpower, bpow_opp by lia. reflexivity. }
  rewrite !ED. assert (HB := bounds_fine2 MIN MAX k HMM Hk Hmin Hmax Hl).
  split; [|split; [|split]].
  - unfold minCoord, D. rewrite HB. cbn [bind ndiv nofZ F32Num]. eexists. split; [reflexivity|]. apply exact_div; lia.
  - unfold maxCoord, D. rewrite HB. cbn [bind ndiv nofZ F32Num]. eexists. split; [reflexivity|]. apply exact_div; lia.
  - apply exact_length32; lia.
  - destruct (exact_cube32 MIN MAX k HMM Hk Hmin Hmax Hl (Z.to_nat N)) as (v & Ev & Fv & Hv).
    + now rewrite Z2Nat.id by lia.
    + now rewrite Z2Nat.id by lia.
    + exists v. unfold cube_volume. replace (0 <? N)%Z with true by lia. split; [exact Ev|]. split; [exact Fv|].
      now rewrite Hv, X32_pow.
Qed.

Lemma shape32_lemma MIN MAX DIVISOR N : (MIN < MAX)%Z -> (0 < DIVISOR <= INT_MAX)%Z -> is_int MIN -> is_int MAX ->
  (MAX - MIN <= INT_MAX)%Z -> (1 <= N <= 3)%Z ->
  let L := IZR (MAX - MIN) / IZR DIVISOR in
  (exists x, minCoord F32Num MIN MAX DIVISOR = Ok x /\ Near32 4 x (IZR MIN / IZR DIVISOR)) /\
  (exists x, maxCoord F32Num MIN MAX DIVISOR = Ok x /\ Near32 4 x (IZR MAX / IZR DIVISOR)) /\
  (exists x, length_ F32Num MIN MAX DIVISOR = Ok x /\ Near32 4 x L) /\
  (exists v, cube_volume F32Num MIN MAX DIVISOR N = Ok v /\ Near32 (5 * Z.to_nat N - 1) v (L ^ Z.to_nat N)) /\
  (exists v, simplex_volume F32Num MIN MAX DIVISOR N = Ok v /\
     Near32 (6 * Z.to_nat N - 1) v (L ^ Z.to_nat N / INR (fact (Z.to_nat N)))).
Proof.
  intros HMM HD Hmin Hmax Hl HN. unfold is_int, INT_MIN, INT_MAX in *.
  apply (shape32_general MIN MAX DIVISOR N 1); try assumption; try (apply conv_int; lia); lia.
Qed.
Lemma shape32_small_lemma MIN MAX DIVISOR N : (MIN < MAX)%Z -> (0 < DIVISOR < 2 ^ 24)%Z -> (Z.abs MIN < 2 ^ 24)%Z ->
  (Z.abs MAX < 2 ^ 24)%Z -> (MAX - MIN < 2 ^ 24)%Z -> (1 <= N <= 3)%Z ->
  let L := IZR (MAX - MIN) / IZR DIVISOR in
  (exists x, minCoord F32Num MIN MAX DIVISOR = Ok x /\ Near32 1 x (IZR MIN / IZR DIVISOR)) /\
  (exists x, maxCoord F32Num MIN MAX DIVISOR = Ok x /\ Near32 1 x (IZR MAX / IZR DIVISOR)) /\
  (exists x, length_ F32Num MIN MAX DIVISOR = Ok x /\ Near32 1 x L) /\
  (exists v, cube_volume F32Num MIN MAX DIVISOR N = Ok v /\ Near32 (2 * Z.to_nat N - 1) v (L ^ Z.to_nat N)) /\
  (exists v, simplex_volume F32Num MIN MAX DIVISOR N = Ok v /\
     Near32 (3 * Z.to_nat N - 1) v (L ^ Z.to_nat N / INR (fact (Z.to_nat N)))).
Proof.
  intros HMM HD Hmin Hmax Hl HN.
  apply (shape32_general MIN MAX DIVISOR N 0); try (apply conv_small; lia); unfold is_int, INT_MIN, INT_MAX; lia.
Qed.

(** Both the bound and the divisor are rounded, then the quotient. *)
Lemma holds_ok {A} (o : outcome A) p : holds o p = true -> exists x, o = Ok x /\ p x = true.
Proof. destruct o; try discriminate. intros H. now exists a. Qed.
Lemma Beqb_value (x y : b32) : is_finite x && Beqb x y = true -> is_finite y = true -> B2R x = B2R y.
Proof.
  intros H Fy. apply andb_prop in H as (Fx & H). rewrite Beqb_correct in H by assumption.
  now destruct (Req_bool_spec (B2R x) (B2R y)).
Qed.
Lemma float_large_lemma : exists MIN MAX DIVISOR x,
  (MIN < MAX)%Z /\ (0 < DIVISOR <= INT_MAX)%Z /\ is_int MIN /\ is_int MAX /\ (MAX < DIVISOR)%Z /\
  maxCoord F32Num MIN MAX DIVISOR = Ok x /\ B2R x = 1 /\ ~ Near32 1 x (IZR MAX / IZR DIVISOR).
Proof.
  destruct (holds_ok (maxCoord F32Num 0 16777219 16777221) (fun x => is_finite x && Beqb x (b32_ofZ 1))) as (x & Ex & Hx).
  { vm_compute. reflexivity. }
  destruct (b32_ofZ_exact 1 ltac:(lia)) as (F1 & E1). apply Beqb_value in Hx; [|exact F1]. rewrite E1 in Hx.
  exists 0%Z, 16777219%Z, 16777221%Z, x. unfold is_int, INT_MIN, INT_MAX.
  split; [lia|]. split; [lia|]. split; [lia|]. split; [lia|]. split; [lia|]. split; [exact Ex|]. split; [exact Hx|].
  intros (_ & H). rewrite Hx in H. revert H.
  change (bpow radix2 (-24)) with (/ 16777216). rewrite pow_1.
  rewrite Rabs_pos_eq by lra. rewrite Rabs_pos_eq by lra. lra.
Qed.
