(** EqualSpacing in binary32. *)
From Coq Require Import ZArith Reals Bool Lia Lra Psatz.
From Flocq Require Import Core IEEE754.BinarySingleNaN.
Require Import Flocq.Prop.Double_rounding.
From Verif Require Import Base Num ModelB64 ModelF32 ModelSpacing ProofBase ProofF32.
Local Open Scope R_scope.

Lemma two_u : 2 * u = pow2 (-23).
Proof. change (-23)%Z with (1 + -24)%Z. rewrite bpow_plus. reflexivity. Qed.

Lemma rnd_tie2 : rnd (2 + 2 * u) = 2.
Proof.
  generalize (binary_normalize_correct prec32 emax32 _ _ mode_NE (2 ^ 24 + 1) (-23) false).
  cbv zeta. change (round_mode mode_NE) with ZnearestE.
  assert (E : F2R (Float radix2 (2 ^ 24 + 1) (-23)) = 2 + 2 * u).
  { unfold F2R. cbn [Fnum Fexp]. rewrite plus_IZR, u_val. cbn -[Rmult Rinv]. lra. }
  rewrite E. rewrite Rlt_bool_true.
  - intros [H _]. rewrite <- H. rewrite <- SF2R_B2SF.
    vm_compute (B2SF _). cbn -[Rmult Rinv]. unfold F2R. cbn -[Rmult Rinv]. lra.
  - apply Rle_lt_trans with (pow2 2); [|apply bpow_lt; reflexivity].
    apply rnd_abs_pow2; [lia|]. rewrite u_val, Rabs_pos_eq by lra. cbn. lra.
Qed.

(** Between 1 and 2 the doubles are the multiples of 2^-23. *)
Lemma fmt_12 y : fmt y -> 1 <= y < 2 -> exists m, y = IZR m * pow2 (-23).
Proof.
  intros F [H1 H2]. exists (Ztrunc (scaled_mantissa radix2 fexp32 y)).
  assert (M : mag radix2 y = 1%Z :> Z).
  { apply mag_unique. rewrite Rabs_pos_eq by lra. cbn. lra. }
  rewrite F at 1. unfold F2R. cbn [Fnum Fexp]. f_equal. f_equal.
  unfold cexp. rewrite M. reflexivity.
Qed.

(** Signs. *)
Lemma sign_pos {p e} (x : binary_float p e) : is_finite x = true -> 0 < B2R x -> Bsign x = false.
Proof.
  destruct x as [s|s| |s m ex H]; intros F P; try discriminate F; cbn [B2R] in P; [lra|].
  destruct s; [|reflexivity]. exfalso. revert P. apply Rle_not_lt. apply F2R_le_0. discriminate.
Qed.
Lemma sign_neg {p e} (x : binary_float p e) : is_finite x = true -> B2R x < 0 -> Bsign x = true.
Proof.
  destruct x as [s|s| |s m ex H]; intros F P; try discriminate F; cbn [B2R] in P; [lra|].
  destruct s; [reflexivity|]. exfalso. revert P. apply Rle_not_lt. apply F2R_ge_0. discriminate.
Qed.

(** -1 + y for a float y, in float or in double and then rounded. *)
Lemma minus_one_plus (y : b32) : is_finite y = true -> Rabs (B2R y) <= pow2 32 ->
  let a := Bplus mode_NE (b32_ofZ (-1)) y in
  let b := narrow (Bplus mode_NE (b64_ofZ (-1)) (widen y)) in
  a = b /\ is_finite a = true /\ B2R a = rnd (-1 + B2R y).
Proof.
  intros Fy By a b.
  destruct (b32_ofZ_exact (-1) ltac:(lia)) as [F1 E1].
  destruct (ProofB64.b64_ofZ_exact (-1) ltac:(lia)) as [G1 H1].
  destruct (widen_ok y Fy) as [Fw Ew].
  assert (Bd : Rabs (-1 + B2R y) <= pow2 33).
  { apply Rle_trans with (1 := Rabs_triang _ _). replace (Rabs (-1)) with 1 by (rewrite Rabs_left; lra).
    change 33%Z with (1 + 32)%Z. rewrite bpow_plus. change (pow2 1) with 2.
    pose proof (bpow_le radix2 0 32 ltac:(lia)) as P. change (bpow radix2 0) with 1 in P. lra. }
  destruct (B_plus (b32_ofZ (-1)) y 33 F1 Fy) as (Fa & Ea & Ba); [lia|rewrite E1; exact Bd|].
  destruct (ProofB64.B_plus (b64_ofZ (-1)) (widen y) 33 G1 Fw) as (Fs & Es & Bs); [lia|rewrite H1, Ew; exact Bd|].
  destruct (narrow_ok _ 33 Fs ltac:(lia) Bs) as (Fb & Eb & _).
  fold a in Fa, Ea. fold b in Fb, Eb. rewrite E1 in Ea. rewrite H1, Ew in Es.
  assert (V : B2R b = rnd (-1 + B2R y)).
  { rewrite Eb, Es.
    apply (@round_round_plus_FLT radix2 (-149) 24 (-1074) 53 (eq_refl : Prec_gt_0 24) (eq_refl : Prec_gt_0 53)
             (fun t => negb (Z.even t)) (fun t => negb (Z.even t))).
    - lia. - lia.
    - apply FLT_format_generic; [reflexivity|]. rewrite <- E1. apply fmt_B.
    - apply FLT_format_generic; [reflexivity|]. apply fmt_B. }
  split; [|split; [exact Fa|exact Ea]].
  apply B2R_Bsign_inj; [exact Fa|exact Fb|congruence|].
  destruct (Rtotal_order (-1 + B2R y) 0) as [L|[Q|G]].
  - (* negative *)
    assert (Na : B2R a < 0).
    { rewrite Ea. destruct (Rle_or_lt 0 (rnd (-1 + B2R y))) as [C|C]; [|exact C]. exfalso.
      assert (Z0 : rnd (-1 + B2R y) = 0).
      { apply Rle_antisym; [|exact C]. rewrite <- rnd_0. apply rnd_le. lra. }
      assert (M : fmt (-1 + B2R y) \/ (-1 + B2R y <= - pow2 (-149))).
      { destruct (Rle_or_lt (-1 + B2R y) (- pow2 (-149))) as [|K]; [right; assumption|left].
        exfalso. 
        assert (S : -1 + B2R y = 0); [|lra].
        assert (G149 : exists m, -1 + B2R y = IZR m * pow2 (-149)).
        { destruct y as [sy|sy| |sy my ey Hy]; try discriminate Fy.
          - exists (- 2 ^ 149)%Z. cbn [B2R]. rewrite opp_IZR. change (IZR (2 ^ 149)) with (pow2 149).
            rewrite Ropp_mult_distr_l_reverse, <- bpow_plus. cbn. lra.
          - assert (Ey : (-149 <= ey)%Z).
            { pose proof Hy as Hc. unfold SpecFloat.bounded in Hc. apply andb_prop in Hc. destruct Hc as [Hc _].
              unfold SpecFloat.canonical_mantissa in Hc. apply Zeq_bool_eq in Hc.
              unfold SpecFloat.fexp, SpecFloat.emin, emax32, prec32 in Hc. lia. }
            exists (- 2 ^ 149 + SpecFloat.cond_Zopp sy (Zpos my) * 2 ^ (ey + 149))%Z. cbn [B2R]. unfold F2R. cbn [Fnum Fexp].
            rewrite plus_IZR, opp_IZR, mult_IZR. change (IZR (2 ^ 149)) with (pow2 149).
            change (2 ^ (ey + 149))%Z with (Zpower radix2 (ey + 149)). rewrite IZR_Zpower by lia.
            rewrite Rmult_plus_distr_r, Ropp_mult_distr_l_reverse, <- bpow_plus, Rmult_assoc, <- bpow_plus.
            replace (ey + 149 + -149)%Z with ey by lia. cbn. lra. }
        destruct G149 as [m Em]. rewrite Em in *. pose proof (bpow_gt_0 radix2 (-149)) as P.
        assert (-1 < IZR m < 0) as [M1 M2] by (split; nra).
        apply (lt_IZR (-1)) in M1. apply (lt_IZR m 0) in M2. lia. }
      destruct M as [M|M].
      + rewrite (rnd_id _ M) in Z0. lra.
      + apply rnd_le in M. rewrite rnd_opp, (rnd_id _ (fmt_pow2 (-149) ltac:(lia))) in M.
        pose proof (bpow_gt_0 radix2 (-149)). lra. }
    rewrite (sign_neg a Fa Na). symmetry. apply sign_neg; [exact Fb|]. rewrite V, <- Ea. exact Na.
  - (* zero *)
    assert (Y1 : B2R y = 1) by lra.
    assert (Sy : Bsign y = false) by (apply sign_pos; [exact Fy|lra]).
    assert (Sw : Bsign (widen y) = false) by (apply sign_pos; [exact Fw|lra]).
    assert (Sa : Bsign a = false).
    { generalize (Bplus_correct prec32 emax32 _ _ mode_NE (b32_ofZ (-1)) y F1 Fy).
      rewrite E1, Q. change (round_mode mode_NE) with ZnearestE. rewrite rnd_0, Rabs_R0, Rlt_bool_true by apply bpow_gt_0.
      intros (_ & _ & S). fold a in S. rewrite S, Rcompare_Eq by reflexivity. rewrite Sy. apply andb_false_r. }
    assert (Ss : Bplus mode_NE (b64_ofZ (-1)) (widen y) = B754_zero false).
    { apply B2R_Bsign_inj; [exact Fs|reflexivity| |].
      - rewrite Es, Q. cbn [B2R]. apply round_0. typeclasses eauto.
      - generalize (Bplus_correct prec64 emax64 _ _ mode_NE (b64_ofZ (-1)) (widen y) G1 Fw).
        rewrite H1, Ew, Q. change (round_mode mode_NE) with ZnearestE.
        rewrite round_0 by typeclasses eauto. rewrite Rabs_R0, Rlt_bool_true by apply bpow_gt_0.
        intros (_ & _ & S). rewrite S, Rcompare_Eq by reflexivity. rewrite Sw. apply andb_false_r. }
    unfold b. rewrite Ss. exact Sa.
  - (* positive *)
    assert (Pa : 0 < B2R a).
    { rewrite Ea. apply Rlt_le_trans with (pow2 (-24)); [apply bpow_gt_0|].
      rewrite <- (rnd_id _ (fmt_pow2 (-24) ltac:(lia))). apply rnd_le.
      destruct (Rle_or_lt (pow2 (-24)) (-1 + B2R y)) as [|K]; [assumption|]. exfalso.
      destruct (fmt_12 (B2R y) (fmt_B y)) as [m Em]; [pose proof u_val; lra|].
      assert (P : pow2 (-23) = / 8388608) by reflexivity. rewrite Em, P in G, K. pose proof u_val as U. rewrite U in K.
      assert (IZR (2 ^ 23) < IZR m) by (cbn -[Rlt]; lra).
      assert (IZR m < IZR (2 ^ 23 + 1)) by (cbn -[Rlt]; lra).
      apply lt_IZR in H. apply lt_IZR in H0. lia. }
    rewrite (sign_pos a Fa Pa). symmetry. apply sign_pos; [exact Fb|]. rewrite V, <- Ea. exact Pa.
Qed.

Section Equal.
Context (N : Z) (HN : (2 <= N <= 2 ^ 20)%Z).
Let n : R := IZR (N - 1).

Let n_ge : 1 <= n.
Proof. unfold n. change 1 with (IZR 1). apply IZR_le. lia. Qed.
Let n_le : n <= pow2 31.
Proof.
  unfold n. change (pow2 31) with (IZR (2 ^ 31)). apply IZR_le. lia.
Qed.

Definition h32 : b32 := narrow (Bdiv mode_NE (b64_ofZ 2) (b64_ofZ (N - 1))).

Lemma equal_interval32_ok : equal_interval32 N = Ok h32.
Proof.
  unfold equal_interval32. rewrite isub_ok by (unfold INT_MIN, INT_MAX in *; lia). reflexivity.
Qed.

Lemma h32_ok : is_finite h32 = true /\ B2R h32 = rnd (2 / n).
Proof.
  destruct (ProofB64.b64_ofZ_exact 2 ltac:(lia)) as [F2 E2].
  destruct (ProofB64.b64_ofZ_exact (N - 1)) as [Fn En]; [lia|].
  fold n in En.
  destruct (ProofB64.B_div (b64_ofZ 2) (b64_ofZ (N - 1)) 1) as (F & E & B).
  - exact F2.
  - rewrite En. lra.
  - lia.
  - rewrite E2, En. rewrite Rabs_pos_eq.
    + change (pow2 1) with 2. apply Rle_trans with (2 / 1); [|lra].
      unfold Rdiv. apply Rmult_le_compat_l; [lra|]. apply Rinv_le; lra.
    + unfold Rdiv. apply Rmult_le_pos; [lra|]. left. apply Rinv_0_lt_compat. lra.
  - destruct (narrow_ok _ 1 F ltac:(lia) B) as (Fh & Eh & _). split; [exact Fh|]. unfold h32. rewrite Eh, E, E2, En.
    apply (@round_round_div_FLT radix2 (-149) 24 (-1074) 53 (eq_refl : Prec_gt_0 24) (eq_refl : Prec_gt_0 53)
             (fun t => negb (Z.even t)) (fun t => negb (Z.even t))).
    + exists 1%Z. reflexivity.
    + lia.
    + lia.
    + lra.
    + apply FLT_format_generic; [reflexivity|]. replace 2 with (IZR 2 * pow2 0) by (cbn; ring). apply fmt_int; lia.
    + apply FLT_format_generic; [reflexivity|]. unfold n. replace (IZR (N - 1)) with (IZR (N - 1) * pow2 0) by (cbn; ring). apply fmt_int; lia.
Qed.

(** h = (2 / n) (1 + d). *)
Lemma h32_rel : exists d, Rabs d <= u /\ B2R h32 = 2 / n * (1 + d).
Proof.
  destruct h32_ok as [_ E]. rewrite E. apply rnd_rel.
  rewrite Rabs_pos_eq.
  - apply Rle_trans with (pow2 (-30)); [apply bpow_le; lia|].
    change (-30)%Z with (1 + -31)%Z. rewrite bpow_plus. change (pow2 1) with 2.
    unfold Rdiv. apply Rmult_le_compat_l; [lra|].
    rewrite (bpow_opp radix2 31 : pow2 (-31) = / pow2 31). apply Rinv_le; lra.
  - unfold Rdiv. apply Rmult_le_pos; [lra|]. left. apply Rinv_0_lt_compat. lra.
Qed.

Lemma last_product : 2 - 2 * u <= rnd (n * B2R h32) <= 2.
Proof.
  destruct h32_rel as (d & Hd & E). rewrite E.
  replace (n * (2 / n * (1 + d))) with (2 + 2 * d) by (field; lra).
  apply Rabs_le_inv in Hd.
  assert (F1 : fmt (2 - 2 * u)).
  { replace (2 - 2 * u) with (IZR (2 ^ 24 - 1) * pow2 (-23)).
    - apply fmt_int; lia.
    - rewrite u_val. cbn -[Rmult Rinv]. lra. }
  split.
  - rewrite <- (rnd_id _ F1) at 1. apply rnd_le. lra.
  - apply Rle_trans with (rnd (2 + 2 * u)); [apply rnd_le; lra|]. apply Req_le, rnd_tie2.
Qed.

Section Index.
Context (i : Z) (Hi : (0 <= i < N)%Z).
Definition y32 : b32 := Bmult mode_NE (b32_ofZ i) h32.
Definition x32 : b32 := Bplus mode_NE (b32_ofZ (-1)) y32.

Let i_ge : 0 <= IZR i.
Proof. change 0 with (IZR 0). apply IZR_le. lia. Qed.
Let i_le : IZR i <= n.
Proof. unfold n. apply IZR_le. lia. Qed.

Lemma h32_pos : 0 <= B2R h32.
Proof.
  destruct h32_ok as [_ E]. rewrite E, <- rnd_0. apply rnd_le.
  unfold Rdiv. apply Rmult_le_pos; [lra|]. left. apply Rinv_0_lt_compat. lra.
Qed.

Lemma y32_ok : is_finite y32 = true /\ B2R y32 = rnd (IZR i * B2R h32) /\ 0 <= B2R y32 <= 2.
Proof.
  pose proof h32_pos as Hp. destruct h32_rel as (d & Hd & Eh). destruct h32_ok as [Fh _].
  destruct (b32_ofZ_exact i) as [Fi Ei]; [lia|].
  assert (Hb : IZR i * B2R h32 <= 3).
  { apply Rle_trans with (n * B2R h32); [apply Rmult_le_compat_r; lra|].
    rewrite Eh. replace (n * (2 / n * (1 + d))) with (2 + 2 * d) by (field; lra).
    apply Rabs_le_inv in Hd. rewrite u_val in Hd. lra. }
  destruct (B_mult (b32_ofZ i) h32 2 Fi Fh) as (F & E & _); [lia| |].
  { rewrite Ei, Rabs_pos_eq by now apply Rmult_le_pos. change (pow2 2) with 4. lra. }
  rewrite Ei in E. split; [exact F|]. split; [exact E|]. fold y32 in E. rewrite E. split.
  - rewrite <- rnd_0. apply rnd_le. now apply Rmult_le_pos.
  - apply Rle_trans with (2 := proj2 last_product). apply rnd_le.
    apply Rmult_le_compat_r; lra.
Qed.

Lemma x32_ok : is_finite x32 = true /\ B2R x32 = rnd (-1 + B2R y32) /\ -1 <= B2R x32 <= 1.
Proof.
  destruct y32_ok as (Fy & _ & B). destruct (b32_ofZ_exact (-1) ltac:(lia)) as [F1 E1].
  destruct (B_plus (b32_ofZ (-1)) y32 0 F1 Fy) as (F & E & L); [lia| |].
  { rewrite E1. change (pow2 0) with 1. apply Rabs_le. lra. }
  rewrite E1 in E. split; [exact F|]. split; [exact E|].
  apply Rabs_le_inv in L. change (pow2 0) with 1 in L. exact L.
Qed.

Lemma equal_coord32 : coord_ct32 EqualSpacing N i = Ok x32 /\ coord_rt32 EqualSpacing N i = Ok x32.
Proof.
  destruct y32_ok as (Fy & _ & B).
  assert (By : Rabs (B2R y32) <= pow2 32).
  { rewrite Rabs_pos_eq by lra. apply Rle_trans with (pow2 1); [change (pow2 1) with 2; lra|apply bpow_le; lia]. }
  destruct (minus_one_plus y32 Fy By) as (E & _ & _).
  cbn [coord_ct32 coord_rt32]. unfold equal_ct32, equal_rt32. rewrite equal_interval32_ok. cbn [bind].
  fold y32. split; [rewrite <- E|]; reflexivity.
Qed.

Lemma x32_close : Rabs (B2R x32 - (-1 + 2 * IZR i / n)) <= pow2 (-21).
Proof.
  destruct x32_ok as (_ & E & _). destruct y32_ok as (_ & Ey & By).
  destruct h32_rel as (d & Hd & Eh).
  pose proof u_pos as Up. assert (Us : u <= / 1000) by (rewrite u_val; lra).
  assert (Y : Rabs (B2R y32 - 2 * IZR i / n) <= 5 * u).
  { rewrite Ey, Eh. destruct (Z.eq_dec i 0) as [Hi0|Hi0].
    - rewrite Hi0, Rmult_0_l, rnd_0. replace (0 - 2 * 0 / n) with 0 by (field; lra).
      rewrite Rabs_R0. lra.
    - assert (I1 : 1 <= IZR i) by (change 1 with (IZR 1); apply IZR_le; lia).
      assert (Q : 0 <= 2 * IZR i / n <= 2).
      { split.
        - unfold Rdiv. apply Rmult_le_pos; [lra|]. left. apply Rinv_0_lt_compat. lra.
        - apply Rmult_le_reg_r with n; [lra|]. field_simplify; lra. }
      assert (Ql : pow2 (-30) <= 2 * IZR i / n).
      { change (-30)%Z with (1 + -31)%Z. rewrite bpow_plus. change (pow2 1) with 2.
        unfold Rdiv. rewrite (bpow_opp radix2 31 : pow2 (-31) = / pow2 31).
        apply Rmult_le_compat; [lra|left; apply Rinv_0_lt_compat, bpow_gt_0|lra|].
        apply Rinv_le; lra. }
      replace (IZR i * (2 / n * (1 + d))) with (2 * IZR i / n * (1 + d)) by (field; lra).
      set (q := 2 * IZR i / n) in *.
      apply Rabs_le_inv in Hd.
      destruct (rnd_rel (q * (1 + d))) as (d2 & Hd2 & E2).
      { rewrite Rabs_pos_eq by nra. apply Rle_trans with (pow2 (-31)); [apply bpow_le; lia|].
        change (-31)%Z with (-1 + -30)%Z. rewrite bpow_plus. change (pow2 (-1)) with (/ 2). nra. }
      rewrite E2. apply Rabs_le_inv in Hd2.
      replace (q * (1 + d) * (1 + d2) - q) with (q * (d + d2 + d * d2)) by ring.
      rewrite Rabs_mult, (Rabs_pos_eq q) by lra.
      apply Rle_trans with (2 * (5 / 2 * u)); [|lra].
      apply Rmult_le_compat; [lra|apply Rabs_pos|lra|]. apply Rabs_le. nra. }
  rewrite E. destruct (rnd_mixed (-1 + B2R y32)) as (e & r & He & Hr & _ & Er).
  rewrite Er.
  assert (R1 : pow2 (-150) <= u) by (apply bpow_le; lia).
  assert (U8 : pow2 (-21) = 8 * u).
  { change (-21)%Z with (3 + -24)%Z. rewrite bpow_plus. reflexivity. }
  rewrite U8. apply Rabs_le_inv in He. apply Rabs_le_inv in Hr. apply Rabs_le_inv in Y.
  set (v := -1 + B2R y32) in *. assert (V : -1 <= v <= 1) by (unfold v; lra).
  assert (VE : - u <= v * e <= u) by nra.
  apply Rabs_le. unfold v in VE. unfold v. lra.
Qed.
End Index.

Lemma x32_first : B2R (x32 0) = -1.
Proof.
  destruct (x32_ok 0) as (_ & E & _); [lia|]. destruct (y32_ok 0) as (_ & Ey & _); [lia|].
  rewrite E, Ey, Rmult_0_l, rnd_0, Rplus_0_r.
  apply rnd_id. replace (-1) with (IZR (-1) * pow2 0) by (cbn; ring). apply fmt_int; lia.
Qed.

Lemma x32_last : B2R (x32 (N - 1)) = 1 \/ B2R (x32 (N - 1)) = 1 - pow2 (-23).
Proof.
  destruct (x32_ok (N - 1)) as (_ & E & _); [lia|].
  destruct (y32_ok (N - 1)) as (_ & Ey & _); [lia|].
  rewrite E. set (y := B2R (y32 (N - 1))) in *.
  assert (Hy : 2 - 2 * u <= y <= 2) by (rewrite Ey; apply last_product).
  assert (Fy : fmt y) by (rewrite Ey; apply rnd_fmt).
  pose proof two_u as U. pose proof u_pos.
  destruct (Rle_lt_or_eq_dec y 2 (proj2 Hy)) as [Hlt|Heq].
  - right. destruct (fmt_12 y Fy) as [m Em]; [rewrite u_val in Hy; lra|].
    assert (Hm : m = (2 ^ 24 - 1)%Z).
    { assert (P : pow2 (-23) = / 8388608) by reflexivity.
      rewrite Em, <- U, u_val in *.
      assert (A : IZR (2 ^ 24 - 1) <= IZR m) by (cbn -[Rle]; lra).
      assert (B : IZR m < IZR (2 ^ 24)) by (cbn -[Rlt]; lra).
      apply le_IZR in A. apply lt_IZR in B. lia. }
    rewrite Em, Hm.
    replace (-1 + IZR (2 ^ 24 - 1) * pow2 (-23)) with (1 - pow2 (-23)) by (cbn -[Rmult Rinv]; lra).
    apply rnd_id. replace (1 - pow2 (-23)) with (IZR (2 ^ 23 - 1) * pow2 (-23)).
    + apply fmt_int; lia.
    + cbn -[Rmult Rinv]. lra.
  - left. rewrite Heq. replace (-1 + 2) with 1 by ring. apply rnd_id.
    replace 1 with (IZR 1 * pow2 0) by (cbn; ring). apply fmt_int; lia.
Qed.

(** Neighbouring points stay well apart. *)
Lemma x32_gap i : (0 <= i)%Z -> (i + 1 < N)%Z ->
  B2R (x32 i) + (2 / n - pow2 (-20)) <= B2R (x32 (i + 1)).
Proof.
  intros H0 H1. pose proof (x32_close i ltac:(lia)) as A.
  pose proof (x32_close (i + 1) ltac:(lia)) as B.
  apply Rabs_le_inv in A. apply Rabs_le_inv in B.
  assert (U : pow2 (-20) = 2 * pow2 (-21)).
  { change (-20)%Z with (1 + -21)%Z. rewrite bpow_plus. reflexivity. }
  rewrite plus_IZR in B. rewrite U.
  replace (2 * (IZR i + 1) / n) with (2 * IZR i / n + 2 / n) in B by (field; lra). lra.
Qed.

Lemma x32_sep i j : (0 <= i)%Z -> (i < j)%Z -> (j < N)%Z ->
  B2R (x32 i) + (2 / n - pow2 (-20)) <= B2R (x32 j).
Proof.
  intros H0 H1 H2.
  pose proof (x32_close i ltac:(lia)) as A.
  pose proof (x32_close j ltac:(lia)) as B.
  apply Rabs_le_inv in A. apply Rabs_le_inv in B.
  assert (U : pow2 (-20) = 2 * pow2 (-21)).
  { change (-20)%Z with (1 + -21)%Z. rewrite bpow_plus. reflexivity. }
  rewrite U.
  assert (D : 2 * IZR i / n + 2 / n <= 2 * IZR j / n).
  { replace (2 * IZR i / n + 2 / n) with (2 * (IZR i + 1) / n) by (field; lra).
    unfold Rdiv. apply Rmult_le_compat_r; [left; apply Rinv_0_lt_compat; lra|].
    assert (IZR i + 1 <= IZR j) by (rewrite <- plus_IZR; apply IZR_le; lia). lra. }
  lra.
Qed.

Lemma gap_pos : pow2 (-20) <= 2 / n - pow2 (-20).
Proof.
  assert (n <= pow2 20).
  { unfold n. change (pow2 20) with (IZR (2 ^ 20)). apply IZR_le. lia. }
  assert (pow2 (-19) <= 2 / n).
  { change (-19)%Z with (1 + -20)%Z. rewrite bpow_plus. change (pow2 1) with 2.
    unfold Rdiv. apply Rmult_le_compat_l; [lra|].
    rewrite (bpow_opp radix2 20 : pow2 (-20) = / pow2 20). apply Rinv_le; lra. }
  assert (pow2 (-19) = 2 * pow2 (-20)).
  { change (-19)%Z with (1 + -20)%Z. rewrite bpow_plus. reflexivity. }
  lra.
Qed.
End Equal.

(** For any number of points the two accessors give the same float. *)
Lemma equal_accessors32 N i : (2 <= N <= INT_MAX)%Z -> (0 <= i < N)%Z ->
  exists x, coord_rt32 EqualSpacing N i = Ok x /\ coord_ct32 EqualSpacing N i = Ok x.
Proof.
  intros HN Hi. cbn [coord_ct32 coord_rt32]. unfold equal_ct32, equal_rt32, equal_interval32.
  rewrite isub_ok by (unfold INT_MIN, INT_MAX in *; lia). cbn [bind].
  set (h := narrow _). set (y := Bmult mode_NE (b32_ofZ i) h).
  assert (N1 : 1 <= IZR (N - 1)) by (apply (IZR_le 1); lia).
  assert (Fh : is_finite h = true /\ Rabs (B2R h) <= pow2 1).
  { destruct (ProofB64.b64_ofZ_exact 2 ltac:(lia)) as [F2 E2].
    destruct (ProofB64.b64_ofZ_exact (N - 1)) as [Fn En]; [unfold INT_MAX in HN; lia|].
    destruct (ProofB64.B_div (b64_ofZ 2) (b64_ofZ (N - 1)) 1) as (F & E & B).
    - exact F2.
    - rewrite En. lra.
    - lia.
    - rewrite E2, En. rewrite Rabs_pos_eq.
      + change (pow2 1) with 2. apply Rle_trans with (2 / 1); [|lra].
        unfold Rdiv. apply Rmult_le_compat_l; [lra|]. apply Rinv_le; lra.
      + unfold Rdiv. apply Rmult_le_pos; [lra|]. left. apply Rinv_0_lt_compat. lra.
    - destruct (narrow_ok _ 1 F ltac:(lia) B) as (Fh & _ & Bh). split; assumption. }
  destruct Fh as [Fh Bh].
  assert (Fi : is_finite (b32_ofZ i) = true /\ Rabs (B2R (b32_ofZ i)) <= pow2 31).
  { assert (E : F2R (Float radix2 i 0) = IZR i) by (unfold F2R; cbn; ring).
    assert (Hr : Rabs (rnd (IZR i)) <= pow2 31).
    { apply rnd_abs_pow2; [lia|]. rewrite <- abs_IZR. change (pow2 31) with (IZR (2 ^ 31)). apply IZR_le.
      unfold INT_MAX in HN. lia. }
    generalize (binary_normalize_correct prec32 emax32 _ _ mode_NE i 0 false).
    cbv zeta. rewrite E. change (round_mode mode_NE) with ZnearestE. rewrite Rlt_bool_true.
    - intros (E1 & F1 & _). split; [exact F1|]. unfold b32_ofZ. rewrite E1. exact Hr.
    - eapply Rle_lt_trans; [exact Hr|]. apply bpow_lt. reflexivity. }
  destruct Fi as [Fi Bi].
  destruct (B_mult (b32_ofZ i) h 32 Fi Fh) as (Fy & _ & By); [lia| |].
  { rewrite Rabs_mult. change 32%Z with (31 + 1)%Z. rewrite bpow_plus.
    apply Rmult_le_compat; try apply Rabs_pos; assumption. }
  destruct (minus_one_plus y Fy By) as (E & _ & _).
  eexists. split; [reflexivity|]. rewrite E. reflexivity.
Qed.
