(** EqualSpacing in binary64. *)
From Coq Require Import ZArith Reals Bool Lia Lra Psatz.
From Flocq Require Import Core IEEE754.BinarySingleNaN.
From Verif Require Import Base Num ModelB64 ModelSpacing ProofBase ProofB64.
Local Open Scope R_scope.

Lemma two_u : 2 * u = pow2 (-52).
Proof. change (-52)%Z with (1 + -53)%Z. rewrite bpow_plus. reflexivity. Qed.

Lemma rnd_tie2 : rnd (2 + 2 * u) = 2.
Proof.
  generalize (binary_normalize_correct prec64 emax64 _ _ mode_NE (2 ^ 53 + 1) (-52) false).
  cbv zeta. change (round_mode mode_NE) with ZnearestE.
  assert (E : F2R (Float radix2 (2 ^ 53 + 1) (-52)) = 2 + 2 * u).
  { unfold F2R. cbn [Fnum Fexp]. rewrite plus_IZR, u_val. cbn -[Rmult Rinv]. lra. }
  rewrite E. rewrite Rlt_bool_true.
  - intros [H _]. rewrite <- H. rewrite <- SF2R_B2SF.
    vm_compute (B2SF _). cbn -[Rmult Rinv]. unfold F2R. cbn -[Rmult Rinv]. lra.
  - apply Rle_lt_trans with (pow2 2); [|apply bpow_lt; reflexivity].
    apply rnd_abs_pow2; [lia|]. rewrite u_val, Rabs_pos_eq by lra. cbn. lra.
Qed.

(** Between 1 and 2 the doubles are the multiples of 2^-52. *)
Lemma fmt_12 y : fmt y -> 1 <= y < 2 -> exists m, y = IZR m * pow2 (-52).
Proof.
  intros F [H1 H2]. exists (Ztrunc (scaled_mantissa radix2 fexp64 y)).
  assert (M : mag radix2 y = 1%Z :> Z).
  { apply mag_unique. rewrite Rabs_pos_eq by lra. cbn. lra. }
  rewrite F at 1. unfold F2R. cbn [Fnum Fexp]. f_equal. f_equal.
  unfold cexp. rewrite M. reflexivity.
Qed.

Section Equal.
Context (N : Z) (HN : (2 <= N <= INT_MAX)%Z).
Let n : R := IZR (N - 1).

Let n_ge : 1 <= n.
Proof. unfold n. change 1 with (IZR 1). apply IZR_le. lia. Qed.
Let n_le : n <= pow2 31.
Proof.
  unfold n. change (pow2 31) with (IZR (2 ^ 31)). apply IZR_le.
  unfold INT_MAX in HN. lia.
Qed.

Definition h64 : b64 := Bdiv mode_NE (b64_ofZ 2) (b64_ofZ (N - 1)).

Lemma equal_interval64 : equal_interval B64Num N = Ok h64.
Proof.
  unfold equal_interval. rewrite isub_ok by (unfold INT_MIN, INT_MAX in *; lia). reflexivity.
Qed.

Lemma h64_ok : is_finite h64 = true /\ B2R h64 = rnd (2 / n).
Proof.
  destruct (b64_ofZ_exact 2 ltac:(lia)) as [F2 E2].
  destruct (b64_ofZ_exact (N - 1)) as [Fn En]; [unfold INT_MAX in HN; lia|].
  fold n in En.
  destruct (B_div (b64_ofZ 2) (b64_ofZ (N - 1)) 1) as (F & E & _).
  - exact F2.
  - rewrite En. lra.
  - lia.
  - rewrite E2, En. rewrite Rabs_pos_eq.
    + change (pow2 1) with 2. apply Rle_trans with (2 / 1); [|lra].
      unfold Rdiv. apply Rmult_le_compat_l; [lra|]. apply Rinv_le; lra.
    + unfold Rdiv. apply Rmult_le_pos; [lra|]. left. apply Rinv_0_lt_compat. lra.
  - split; [exact F|]. unfold h64. rewrite E, E2, En. reflexivity.
Qed.

(** h = (2 / n) (1 + d). *)
Lemma h64_rel : exists d, Rabs d <= u /\ B2R h64 = 2 / n * (1 + d).
Proof.
  destruct h64_ok as [_ E]. rewrite E. apply rnd_rel.
  rewrite Rabs_pos_eq.
  - apply Rle_trans with (pow2 (-30)); [apply bpow_le; lia|].
    change (-30)%Z with (1 + -31)%Z. rewrite bpow_plus. change (pow2 1) with 2.
    unfold Rdiv. apply Rmult_le_compat_l; [lra|].
    rewrite (bpow_opp radix2 31 : pow2 (-31) = / pow2 31). apply Rinv_le; lra.
  - unfold Rdiv. apply Rmult_le_pos; [lra|]. left. apply Rinv_0_lt_compat. lra.
Qed.

Lemma last_product : 2 - 2 * u <= rnd (n * B2R h64) <= 2.
Proof.
  destruct h64_rel as (d & Hd & E). rewrite E.
  replace (n * (2 / n * (1 + d))) with (2 + 2 * d) by (field; lra).
  apply Rabs_le_inv in Hd.
  assert (F1 : fmt (2 - 2 * u)).
  { replace (2 - 2 * u) with (IZR (2 ^ 53 - 1) * pow2 (-52)).
    - apply fmt_int; lia.
    - rewrite u_val. cbn -[Rmult Rinv]. lra. }
  split.
  - rewrite <- (rnd_id _ F1) at 1. apply rnd_le. lra.
  - apply Rle_trans with (rnd (2 + 2 * u)); [apply rnd_le; lra|]. apply Req_le, rnd_tie2.
Qed.

Section Index.
Context (i : Z) (Hi : (0 <= i < N)%Z).
Definition y64 : b64 := Bmult mode_NE (b64_ofZ i) h64.
Definition x64 : b64 := Bplus mode_NE (b64_ofZ (-1)) y64.

Let i_ge : 0 <= IZR i.
Proof. change 0 with (IZR 0). apply IZR_le. lia. Qed.
Let i_le : IZR i <= n.
Proof. unfold n. apply IZR_le. lia. Qed.

Lemma h64_pos : 0 <= B2R h64.
Proof.
  destruct h64_ok as [_ E]. rewrite E, <- rnd_0. apply rnd_le.
  unfold Rdiv. apply Rmult_le_pos; [lra|]. left. apply Rinv_0_lt_compat. lra.
Qed.

Lemma y64_ok : is_finite y64 = true /\ B2R y64 = rnd (IZR i * B2R h64) /\ 0 <= B2R y64 <= 2.
Proof.
  pose proof h64_pos as Hp. destruct h64_rel as (d & Hd & Eh). destruct h64_ok as [Fh _].
  destruct (b64_ofZ_exact i) as [Fi Ei]; [unfold INT_MAX in HN; lia|].
  assert (Hb : IZR i * B2R h64 <= 3).
  { apply Rle_trans with (n * B2R h64); [apply Rmult_le_compat_r; lra|].
    rewrite Eh. replace (n * (2 / n * (1 + d))) with (2 + 2 * d) by (field; lra).
    apply Rabs_le_inv in Hd. rewrite u_val in Hd. lra. }
  destruct (B_mult (b64_ofZ i) h64 2 Fi Fh) as (F & E & _); [lia| |].
  { rewrite Ei, Rabs_pos_eq by now apply Rmult_le_pos. change (pow2 2) with 4. lra. }
  rewrite Ei in E. split; [exact F|]. split; [exact E|]. fold y64 in E. rewrite E. split.
  - rewrite <- rnd_0. apply rnd_le. now apply Rmult_le_pos.
  - apply Rle_trans with (2 := proj2 last_product). apply rnd_le.
    apply Rmult_le_compat_r; lra.
Qed.

Lemma x64_ok : is_finite x64 = true /\ B2R x64 = rnd (-1 + B2R y64) /\ -1 <= B2R x64 <= 1.
Proof.
  destruct y64_ok as (Fy & _ & B). destruct (b64_ofZ_exact (-1) ltac:(lia)) as [F1 E1].
  destruct (B_plus (b64_ofZ (-1)) y64 0 F1 Fy) as (F & E & L); [lia| |].
  { rewrite E1. change (pow2 0) with 1. apply Rabs_le. lra. }
  rewrite E1 in E. split; [exact F|]. split; [exact E|].
  apply Rabs_le_inv in L. change (pow2 0) with 1 in L. exact L.
Qed.

Lemma equal_coord64 : coord_ct B64Num EqualSpacing N i = Ok x64 /\ coord_rt B64Num EqualSpacing N i = Ok x64.
Proof.
  cbn [coord_ct coord_rt]. unfold equal_ct, equal_rt. rewrite equal_interval64. split; reflexivity.
Qed.

Lemma x64_close : Rabs (B2R x64 - (-1 + 2 * IZR i / n)) <= pow2 (-50).
Proof.
  destruct x64_ok as (_ & E & _). destruct y64_ok as (_ & Ey & By).
  destruct h64_rel as (d & Hd & Eh).
  pose proof u_pos as Up. assert (Us : u <= / 1000) by (rewrite u_val; lra).
  assert (Y : Rabs (B2R y64 - 2 * IZR i / n) <= 5 * u).
  { rewrite Ey, Eh. destruct (Z.eq_dec i 0) as [Hi0|Hi0].
    - rewrite Hi0, Rmult_0_l, rnd_0. replace (0 - 2 * 0 / n) with 0 by (field; lra).
      rewrite Rabs_R0. lra.
    - assert (I1 : 1 <= IZR i) by (change 1 with (IZR 1); apply IZR_le; lia).
      assert (Q : 0 <= 2 * IZR i / n <= 2).
      { split.
        - unfold Rdiv. apply Rmult_le_pos; [lra|]. left. apply Rinv_0_lt_compat. lra.
        - apply Rmult_le_reg_r with n; [lra|]. field_simplify; lra. }
      assert (Ql : pow2 (-30) <= 2 * IZR i / n).
      { change (-30)%Z with (1 + -31)%Z. rewrite bpow_plus. change (pow2 1) with 2.
        unfold Rdiv. rewrite (bpow_opp radix2 31 : pow2 (-31) = / pow2 31).
        apply Rmult_le_compat; [lra|left; apply Rinv_0_lt_compat, bpow_gt_0|lra|].
        apply Rinv_le; lra. }
      replace (IZR i * (2 / n * (1 + d))) with (2 * IZR i / n * (1 + d)) by (field; lra).
      set (q := 2 * IZR i / n) in *.
      apply Rabs_le_inv in Hd.
      destruct (rnd_rel (q * (1 + d))) as (d2 & Hd2 & E2).
      { rewrite Rabs_pos_eq by nra. apply Rle_trans with (pow2 (-31)); [apply bpow_le; lia|].
        change (-31)%Z with (-1 + -30)%Z. rewrite bpow_plus. change (pow2 (-1)) with (/ 2). nra. }
      rewrite E2. apply Rabs_le_inv in Hd2.
      replace (q * (1 + d) * (1 + d2) - q) with (q * (d + d2 + d * d2)) by ring.
      rewrite Rabs_mult, (Rabs_pos_eq q) by lra.
      apply Rle_trans with (2 * (5 / 2 * u)); [|lra].
      apply Rmult_le_compat; [lra|apply Rabs_pos|lra|]. apply Rabs_le. nra. }
  rewrite E. destruct (rnd_mixed (-1 + B2R y64)) as (e & r & He & Hr & _ & Er).
  rewrite Er.
  assert (R1 : pow2 (-1075) <= u) by (apply bpow_le; lia).
  assert (U8 : pow2 (-50) = 8 * u).
  { change (-50)%Z with (3 + -53)%Z. rewrite bpow_plus. reflexivity. }
  rewrite U8. apply Rabs_le_inv in He. apply Rabs_le_inv in Hr. apply Rabs_le_inv in Y.
  set (v := -1 + B2R y64) in *. assert (V : -1 <= v <= 1) by (unfold v; lra).
  assert (VE : - u <= v * e <= u) by nra.
  apply Rabs_le. unfold v in VE. unfold v. lra.
Qed.
End Index.

Lemma x64_first : B2R (x64 0) = -1.
Proof.
  destruct (x64_ok 0) as (_ & E & _); [lia|]. destruct (y64_ok 0) as (_ & Ey & _); [lia|].
  rewrite E, Ey, Rmult_0_l, rnd_0, Rplus_0_r.
  apply rnd_id. replace (-1) with (IZR (-1) * pow2 0) by (cbn; ring). apply fmt_int; lia.
Qed.

Lemma x64_last : B2R (x64 (N - 1)) = 1 \/ B2R (x64 (N - 1)) = 1 - pow2 (-52).
Proof.
  destruct (x64_ok (N - 1)) as (_ & E & _); [lia|].
  destruct (y64_ok (N - 1)) as (_ & Ey & _); [lia|].
  rewrite E. set (y := B2R (y64 (N - 1))) in *.
  assert (Hy : 2 - 2 * u <= y <= 2) by (rewrite Ey; apply last_product).
  assert (Fy : fmt y) by (rewrite Ey; apply rnd_fmt).
  pose proof two_u as U. pose proof u_pos.
  destruct (Rle_lt_or_eq_dec y 2 (proj2 Hy)) as [Hlt|Heq].
  - right. destruct (fmt_12 y Fy) as [m Em]; [rewrite u_val in Hy; lra|].
    assert (Hm : m = (2 ^ 53 - 1)%Z).
    { assert (P : pow2 (-52) = / 4503599627370496) by reflexivity.
      rewrite Em, <- U, u_val in *.
      assert (A : IZR (2 ^ 53 - 1) <= IZR m) by (cbn -[Rle]; lra).
      assert (B : IZR m < IZR (2 ^ 53)) by (cbn -[Rlt]; lra).
      apply le_IZR in A. apply lt_IZR in B. lia. }
    rewrite Em, Hm.
    replace (-1 + IZR (2 ^ 53 - 1) * pow2 (-52)) with (1 - pow2 (-52)) by (cbn -[Rmult Rinv]; lra).
    apply rnd_id. replace (1 - pow2 (-52)) with (IZR (2 ^ 52 - 1) * pow2 (-52)).
    + apply fmt_int; lia.
    + cbn -[Rmult Rinv]. lra.
  - left. rewrite Heq. replace (-1 + 2) with 1 by ring. apply rnd_id.
    replace 1 with (IZR 1 * pow2 0) by (cbn; ring). apply fmt_int; lia.
Qed.

(** Neighbouring points stay well apart. *)
Lemma x64_gap i : (0 <= i)%Z -> (i + 1 < N)%Z ->
  B2R (x64 i) + (2 / n - pow2 (-49)) <= B2R (x64 (i + 1)).
Proof.
  intros H0 H1. pose proof (x64_close i ltac:(lia)) as A.
  pose proof (x64_close (i + 1) ltac:(lia)) as B.
  apply Rabs_le_inv in A. apply Rabs_le_inv in B.
  assert (U : pow2 (-49) = 2 * pow2 (-50)).
  { change (-49)%Z with (1 + -50)%Z. rewrite bpow_plus. reflexivity. }
  rewrite plus_IZR in B. rewrite U.
  replace (2 * (IZR i + 1) / n) with (2 * IZR i / n + 2 / n) in B by (field; lra). lra.
Qed.

Lemma x64_sep i j : (0 <= i)%Z -> (i < j)%Z -> (j < N)%Z ->
  B2R (x64 i) + (2 / n - pow2 (-49)) <= B2R (x64 j).
Proof.
  intros H0 H1 H2.
  pose proof (x64_close i ltac:(lia)) as A.
  pose proof (x64_close j ltac:(lia)) as B.
  apply Rabs_le_inv in A. apply Rabs_le_inv in B.
  assert (U : pow2 (-49) = 2 * pow2 (-50)).
  { change (-49)%Z with (1 + -50)%Z. rewrite bpow_plus. reflexivity. }
  rewrite U.
  assert (D : 2 * IZR i / n + 2 / n <= 2 * IZR j / n).
  { replace (2 * IZR i / n + 2 / n) with (2 * (IZR i + 1) / n) by (field; lra).
    unfold Rdiv. apply Rmult_le_compat_r; [left; apply Rinv_0_lt_compat; lra|].
    assert (IZR i + 1 <= IZR j) by (rewrite <- plus_IZR; apply IZR_le; lia). lra. }
  lra.
Qed.

Lemma gap_pos : pow2 (-31) <= 2 / n - pow2 (-49).
Proof.
  assert (pow2 (-30) <= 2 / n).
  { change (-30)%Z with (1 + -31)%Z. rewrite bpow_plus. change (pow2 1) with 2.
    unfold Rdiv. apply Rmult_le_compat_l; [lra|].
    rewrite (bpow_opp radix2 31 : pow2 (-31) = / pow2 31). apply Rinv_le; lra. }
  assert (pow2 (-49) <= pow2 (-31)) by (apply bpow_le; lia).
  assert (pow2 (-30) = 2 * pow2 (-31)).
  { change (-30)%Z with (1 + -31)%Z. rewrite bpow_plus. reflexivity. }
  lra.
Qed.
End Equal.
