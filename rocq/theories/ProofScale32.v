(** Scaling by powers of two commutes with the arithmetic of linear elements in binary32. *)
From Coq Require Import ZArith Reals Bool List Lia Lra.
From Flocq Require Import Core IEEE754.BinarySingleNaN.
From Verif Require Import Base ProofBase Num ModelF32 SpecIndex ProofBox SpecScale ProofF32 ProofGeneric ProofNodes32 ProofLinear32.
Local Open Scope R_scope.

(** Multiples of a power of two. *)
Definition Grid (e : Z) (x : R) : Prop := exists z, x = IZR z * pow2 e.
Lemma Grid_le e f x : Grid f x -> (e <= f)%Z -> Grid e x.
Proof.
  intros (z & ->) H. exists (z * 2 ^ (f - e))%Z. rewrite mult_IZR. change (IZR (2 ^ (f - e))) with (IZR (Zpower radix2 (f - e))).
  rewrite IZR_Zpower by lia. rewrite Rmult_assoc, <- bpow_plus. do 2 f_equal. lia.
Qed.
Lemma Grid_mult e f x y : Grid e x -> Grid f y -> Grid (e + f) (x * y).
Proof. intros (z & ->) (w & ->). exists (z * w)%Z. rewrite mult_IZR, bpow_plus. ring. Qed.
Lemma Grid_plus e x y : Grid e x -> Grid e y -> Grid e (x + y).
Proof. intros (z & ->) (w & ->). exists (z + w)%Z. rewrite plus_IZR. ring. Qed.
Lemma Grid_minus e x y : Grid e x -> Grid e y -> Grid e (x - y).
Proof. intros (z & ->) (w & ->). exists (z - w)%Z. rewrite minus_IZR. ring. Qed.
Lemma Grid_0 e : Grid e 0.
Proof. exists 0%Z. ring. Qed.
Lemma Grid_abs e x : Grid e x -> x <> 0 -> pow2 e <= Rabs x.
Proof.
  intros (z & ->) H. rewrite Rabs_mult, (Rabs_pos_eq (pow2 e)) by apply bpow_ge_0. rewrite <- (Rmult_1_l (pow2 e)) at 1.
  apply Rmult_le_compat_r; [apply bpow_ge_0|]. rewrite <- abs_IZR. apply IZR_le.
  assert (z <> 0)%Z by (intros ->; apply H; ring). lia.
Qed.
Lemma Grid_rnd e x : (-149 <= e)%Z -> Grid e x -> Grid e (rnd x).
Proof.
  intros He (z & E). destruct (Z.lt_ge_cases (Z.abs z) (2 ^ 24)) as [H|H].
  - rewrite rnd_id; [now exists z|]. rewrite E. now apply fmt_int.
  - assert (A : pow2 (e + 24) <= Rabs x).
    { rewrite E, Rabs_mult, (Rabs_pos_eq (pow2 e)) by apply bpow_ge_0. rewrite Z.add_comm, bpow_plus.
      apply Rmult_le_compat_r; [apply bpow_ge_0|]. rewrite <- abs_IZR. change (pow2 24) with (IZR (2 ^ 24)). now apply IZR_le. }
    assert (B : pow2 (e + 24) <= Rabs (rnd x)).
    { rewrite <- rnd_abs, <- (rnd_id (pow2 (e + 24))) by (apply fmt_pow2; lia). now apply rnd_le. }
    destruct (fmt_grain (rnd x) (e + 24) (rnd_fmt x) ltac:(lia) B) as (m & Em).
    apply (Grid_le _ (e + 24 - 23)); [now exists m|lia].
Qed.

(** Rounding commutes with scaling away from the subnormal numbers. *)
Lemma rnd_pow2 x k : pow2 (-126) <= Rabs x -> pow2 (-126) <= Rabs (x * pow2 k) -> rnd (x * pow2 k) = rnd x * pow2 k.
Proof.
  intros Hx Hk. pose proof (bpow_gt_0 radix2 (-126)) as P.
  assert (N : x <> 0) by (intros ->; rewrite Rabs_R0 in Hx; lra).
  assert (C : cexp radix2 fexp32 (x * pow2 k) = (cexp radix2 fexp32 x + k)%Z).
  { unfold cexp. rewrite mag_mult_bpow by exact N.
    pose proof (mag_ge_bpow radix2 x (-125) Hx) as M1.
    pose proof (mag_ge_bpow radix2 (x * pow2 k) (-125) Hk) as M2. rewrite mag_mult_bpow in M2 by exact N.
    unfold SpecFloat.fexp, SpecFloat.emin, prec32, emax32. lia. }
  unfold rnd, round, F2R, scaled_mantissa. cbn [Fnum Fexp]. rewrite C, bpow_plus.
  replace (x * pow2 k * pow2 (- (cexp radix2 fexp32 x + k))) with (x * pow2 (- cexp radix2 fexp32 x)).
  - ring.
  - rewrite Rmult_assoc, <- bpow_plus. do 2 f_equal. lia.
Qed.
Lemma rnd_scale x e k s : Grid e x -> (-126 <= e)%Z -> (-126 <= e + k)%Z -> s = 1 \/ s = -1 ->
  rnd (s * pow2 k * x) = s * pow2 k * rnd x.
Proof.
  intros G He Hk Hs.
  assert (E : rnd (x * pow2 k) = rnd x * pow2 k).
  { destruct (Req_dec x 0) as [->|N]; [rewrite Rmult_0_l, rnd_0; ring|].
    pose proof (Grid_abs e x G N) as A. apply rnd_pow2.
    - eapply Rle_trans; [|exact A]. now apply bpow_le.
    - rewrite Rabs_mult, (Rabs_pos_eq (pow2 k)) by apply bpow_ge_0.
      apply Rle_trans with (pow2 (e + k)); [now apply bpow_le|]. rewrite bpow_plus.
      apply Rmult_le_compat_r; [apply bpow_ge_0|exact A]. }
  destruct Hs as [-> | ->].
  - replace (1 * pow2 k * x) with (x * pow2 k) by ring. rewrite E. ring.
  - replace (-1 * pow2 k * x) with (- (x * pow2 k)) by ring. rewrite rnd_opp, E. ring.
Qed.

(** [a'] is [s 2^k] times [a], and [a] is a multiple of [2^e] of at most [2^m]. *)
Definition Sc (a a' : b32) (k : Z) (s : R) (e m : Z) : Prop :=
  is_finite a = true /\ is_finite a' = true /\ (s = 1 \/ s = -1) /\ B2R a' = s * pow2 k * B2R a /\
  Grid e (B2R a) /\ Rabs (B2R a) <= pow2 m.
Definition fits (k e m : Z) : Prop :=
  (-126 <= e /\ -126 <= e + k /\ -126 <= m < 128 /\ -126 <= m + k < 128)%Z.
Lemma abs_scaled s k x m : s = 1 \/ s = -1 -> Rabs x <= pow2 m -> Rabs (s * pow2 k * x) <= pow2 (m + k).
Proof.
  intros Hs H. rewrite Z.add_comm, bpow_plus, !Rabs_mult, (Rabs_pos_eq (pow2 k)) by apply bpow_ge_0.
  assert (Es : Rabs s = 1) by (destruct Hs as [-> | ->]; [apply Rabs_R1|rewrite Rabs_left; lra]).
  rewrite Es, Rmult_1_l. apply Rmult_le_compat_l; [apply bpow_ge_0|exact H].
Qed.
Lemma sign_mult s t : s = 1 \/ s = -1 -> t = 1 \/ t = -1 -> s * t = 1 \/ s * t = -1.
Proof. intros [-> | ->] [-> | ->]; [left|right|right|left]; ring. Qed.

Lemma Sc_mult a a' b b' k l s t e f m n : Sc a a' k s e m -> Sc b b' l t f n -> fits (k + l) (e + f) (m + n) ->
  Sc (Bmult mode_NE a b) (Bmult mode_NE a' b') (k + l) (s * t) (e + f) (m + n).
Proof.
  intros (Fa & Fa' & Hs & Ea & Ga & Ba) (Fb & Fb' & Ht & Eb & Gb & Bb) (H1 & H2 & H3 & H4).
  pose proof (sign_mult s t Hs Ht) as Hst. pose proof (Grid_mult _ _ _ _ Ga Gb) as G.
  assert (B : Rabs (B2R a * B2R b) <= pow2 (m + n)).
  { rewrite Rabs_mult, bpow_plus. apply Rmult_le_compat; [apply Rabs_pos|apply Rabs_pos|exact Ba|exact Bb]. }
  assert (E' : B2R a' * B2R b' = s * t * pow2 (k + l) * (B2R a * B2R b)) by (rewrite Ea, Eb, bpow_plus; ring).
  destruct (B_mult a b (m + n) Fa Fb ltac:(lia) B) as (F & E & C).
  destruct (B_mult a' b' (m + n + (k + l)) Fa' Fb' ltac:(lia)) as (F' & E2 & _).
  { rewrite E'. now apply abs_scaled. }
  split; [exact F|]. split; [exact F'|]. split; [exact Hst|]. split; [|split; [rewrite E; apply Grid_rnd; [lia|exact G]|exact C]].
  rewrite E2, E', E. now apply (rnd_scale _ (e + f)).
Qed.
Lemma Sc_plus a a' b b' k s e m : Sc a a' k s e m -> Sc b b' k s e m -> fits k e (m + 1) ->
  Sc (Bplus mode_NE a b) (Bplus mode_NE a' b') k s e (m + 1).
Proof.
  intros (Fa & Fa' & Hs & Ea & Ga & Ba) (Fb & Fb' & Ht & Eb & Gb & Bb) (H1 & H2 & H3 & H4).
  pose proof (Grid_plus _ _ _ Ga Gb) as G.
  assert (B : Rabs (B2R a + B2R b) <= pow2 (m + 1)).
  { eapply Rle_trans; [apply Rabs_triang|]. rewrite bpow_plus. change (pow2 1) with 2. lra. }
  assert (E' : B2R a' + B2R b' = s * pow2 k * (B2R a + B2R b)) by (rewrite Ea, Eb; ring).
  destruct (B_plus a b (m + 1) Fa Fb ltac:(lia) B) as (F & E & C).
  destruct (B_plus a' b' (m + 1 + k) Fa' Fb' ltac:(lia)) as (F' & E2 & _).
  { rewrite E'. now apply abs_scaled. }
  split; [exact F|]. split; [exact F'|]. split; [exact Hs|]. split; [|split; [rewrite E; apply Grid_rnd; [lia|exact G]|exact C]].
  rewrite E2, E', E. now apply (rnd_scale _ e).
Qed.
Lemma Sc_minus a a' b b' k s e m : Sc a a' k s e m -> Sc b b' k s e m -> fits k e (m + 1) ->
  Sc (Bminus mode_NE a b) (Bminus mode_NE a' b') k s e (m + 1).
Proof.
  intros (Fa & Fa' & Hs & Ea & Ga & Ba) (Fb & Fb' & Ht & Eb & Gb & Bb) (H1 & H2 & H3 & H4).
  pose proof (Grid_minus _ _ _ Ga Gb) as G.
  assert (B : Rabs (B2R a - B2R b) <= pow2 (m + 1)).
  { unfold Rminus. eapply Rle_trans; [apply Rabs_triang|]. rewrite Rabs_Ropp, bpow_plus. change (pow2 1) with 2. lra. }
  assert (E' : B2R a' - B2R b' = s * pow2 k * (B2R a - B2R b)) by (rewrite Ea, Eb; ring).
  destruct (B_minus a b (m + 1) Fa Fb ltac:(lia) B) as (F & E & C).
  destruct (B_minus a' b' (m + 1 + k) Fa' Fb' ltac:(lia)) as (F' & E2 & _).
  { rewrite E'. now apply abs_scaled. }
  split; [exact F|]. split; [exact F'|]. split; [exact Hs|]. split; [|split; [rewrite E; apply Grid_rnd; [lia|exact G]|exact C]].
  rewrite E2, E', E. now apply (rnd_scale _ e).
Qed.
Lemma Sc_le a a' k s e m e' m' : Sc a a' k s e m -> (e' <= e)%Z -> (m <= m')%Z -> Sc a a' k s e' m'.
Proof.
  intros (F & F' & S & E & G & B) He Hm. split; [exact F|]. split; [exact F'|]. split; [exact S|]. split; [exact E|].
  split; [now apply (Grid_le _ e)|]. eapply Rle_trans; [exact B|now apply bpow_le].
Qed.
Lemma Sc_zero k s e m : s = 1 \/ s = -1 -> Sc (b32_ofZ 0) (b32_ofZ 0) k s e m.
Proof.
  intros Hs. destruct (b32_ofZ_exact 0 ltac:(lia)) as (F & E). split; [exact F|]. split; [exact F|]. split; [exact Hs|].
  rewrite E. split; [ring|]. split; [apply Grid_0|]. rewrite Rabs_R0. apply bpow_ge_0.
Qed.
Lemma Sc_addL {B} (f f' : B -> b32) l k s e m : (forall t, In t l -> Sc (f t) (f' t) k s e m) ->
  forall acc acc' n, Sc acc acc' k s e n -> (m <= n)%Z -> fits k e n -> (n + Z.of_nat (length l) < 128)%Z -> (n + Z.of_nat (length l) + k < 128)%Z ->
  Sc (addL (N := F32Num) f l acc) (addL (N := F32Num) f' l acc') k s e (n + Z.of_nat (length l)).
Proof.
  intros Hf. induction l as [|a l IH]; intros acc acc' n Ha Hn Hfit H1 H2.
  - cbn [length] in *. change (Z.of_nat 0) with 0%Z. rewrite Z.add_0_r. exact Ha.
  - cbn [length] in *. rewrite Nat2Z.inj_succ in *. unfold addL. cbn [fold_left]. fold (@addL F32Num B).
    replace (n + Z.succ (Z.of_nat (length l)))%Z with (n + 1 + Z.of_nat (length l))%Z by lia.
    apply IH; [intros t Ht; apply Hf; now right| |lia| |lia|lia].
    + apply Sc_plus; [exact Ha|apply (Sc_le _ _ _ _ e m); [apply Hf; now left|lia|lia]|]. unfold fits in *. lia.
    + unfold fits in *. lia.
Qed.
