(** A quotient of floats computed in double and rounded to float is the float quotient, also
    for zeros, subnormal numbers, infinities and NaN. *)
From Coq Require Import ZArith Reals Bool Lia Lra Psatz.
From Flocq Require Import Core IEEE754.BinarySingleNaN.
Require Import Flocq.Prop.Relative Flocq.Prop.Double_rounding.
From Verif Require Import Base Num ModelB64 ModelF32 ProofF32.
Require Verif.ProofB64.
Local Open Scope R_scope.

Lemma F2R_finite s m e : F2R (Float radix2 (SpecFloat.cond_Zopp s (Zpos m)) e) <> 0 /\
  Rcompare (F2R (Float radix2 (SpecFloat.cond_Zopp s (Zpos m)) e)) 0 = (if s then Lt else Gt) /\
  Rlt_bool (F2R (Float radix2 (SpecFloat.cond_Zopp s (Zpos m)) e)) 0 = s.
Proof.
  destruct s; cbn [SpecFloat.cond_Zopp].
  - assert (H : F2R (Float radix2 (- Zpos m) e) < 0) by (apply F2R_lt_0; reflexivity).
    split; [lra|]. split; [now apply Rcompare_Lt|now apply Rlt_bool_true].
  - assert (H : 0 < F2R (Float radix2 (Zpos m) e)) by (apply F2R_gt_0; reflexivity).
    split; [lra|]. split; [now apply Rcompare_Gt|apply Rlt_bool_false; lra].
Qed.
Lemma widen_finite s m e H : exists s' m' e' H', widen (B754_finite s m e H) = B754_finite s' m' e' H' /\ s' = s /\
  B2R (widen (B754_finite s m e H)) = B2R (B754_finite s m e H).
Proof.
  destruct (widen_ok (B754_finite s m e H) eq_refl) as [F E].
  destruct (F2R_finite s m e) as (NZ & C & _).
  assert (S : Bsign (widen (B754_finite s m e H)) = s).
  { pose proof (fmt_32_64 _ (fmt_B (B754_finite s m e H))) as G. pose proof (B_lt_max (B754_finite s m e H)) as L.
    cbn [widen]. generalize (binary_normalize_correct prec64 emax64 _ _ mode_NE (SpecFloat.cond_Zopp s (Zpos m)) e s).
    cbv zeta. change (round_mode mode_NE) with ZnearestE. cbn [B2R] in G, L.
    rewrite round_generic; [|typeclasses eauto|exact G]. rewrite Rlt_bool_true.
    - intros (_ & _ & X). rewrite C in X. rewrite X. destruct s; reflexivity.
    - eapply Rlt_trans; [exact L|]. apply bpow_lt. reflexivity. }
  destruct (widen (B754_finite s m e H)) as [t|t| |t m' e' H'] eqn:W; try discriminate F.
  - exfalso. apply NZ. exact (eq_sym E).
  - exists t, m', e', H'. split; [reflexivity|]. split; [exact S|exact E].
Qed.
Lemma B2R_finite_bounds s m e (H : SpecFloat.bounded prec32 emax32 m e = true) :
  pow2 (-149) <= Rabs (B2R (B754_finite s m e H)) <= pow2 128.
Proof.
  split; [|apply Rlt_le, B_lt_max]. apply (@abs_B2R_ge_emin prec32 emax32). reflexivity.
Qed.

Lemma fdiv_exact (x y : b32) : fdiv x y = Bdiv mode_NE x y.
Proof.
  unfold fdiv. destruct x as [sx|sx| |sx mx ex Hx]; [| | reflexivity|].
  - destruct y as [sy|sy| |sy my ey Hy]; try reflexivity.
    destruct (widen_finite sy my ey Hy) as (s' & m' & e' & H' & -> & -> & _). reflexivity.
  - destruct y as [sy|sy| |sy my ey Hy]; try reflexivity.
    destruct (widen_finite sy my ey Hy) as (s' & m' & e' & H' & -> & -> & _). reflexivity.
  - destruct (widen_finite sx mx ex Hx) as (s' & m' & e' & H' & E & -> & V).
    destruct y as [sy|sy| |sy my ey Hy]; [rewrite E; reflexivity..|].
    destruct (widen_finite sy my ey Hy) as (t & n & f & K & E2 & -> & V2).
    set (x := B754_finite sx mx ex Hx) in *. set (y := B754_finite sy my ey Hy) in *.
    destruct (F2R_finite sx mx ex) as (NX & _). destruct (F2R_finite sy my ey) as (NY & _).
    change (B2R x <> 0) in NX. change (B2R y <> 0) in NY.
    pose proof (B2R_finite_bounds sx mx ex Hx) as [LX UX]. pose proof (B2R_finite_bounds sy my ey Hy) as [LY UY].
    change (B754_finite sx mx ex Hx) with x in LX, UX. change (B754_finite sy my ey Hy) with y in LY, UY.
    assert (Q1 : pow2 (-277) <= Rabs (B2R x / B2R y) <= pow2 277).
    { unfold Rdiv. rewrite Rabs_mult, Rabs_inv. pose proof (bpow_gt_0 radix2 (-149)) as Z. split.
      - change (-277)%Z with (-149 + -128)%Z. rewrite bpow_plus. apply Rmult_le_compat; try apply bpow_ge_0; [exact LX|].
        change (-128)%Z with (- (128))%Z. rewrite bpow_opp. apply Rinv_le; [lra|exact UY].
      - change 277%Z with (128 + 149)%Z. rewrite bpow_plus. apply Rmult_le_compat; [apply Rabs_pos| |exact UX|].
        + apply Rlt_le, Rinv_0_lt_compat. lra.
        + change 149%Z with (- (-149))%Z. rewrite bpow_opp. apply Rinv_le; [exact Z|exact LY]. }
    set (q := B2R x / B2R y) in *.
    assert (NB : forall r, pow2 (-1074) <= Rabs r -> rnd64 r <> 0).
    { intros r Hr Z. assert (A : pow2 (-1074) <= Rabs (rnd64 r)).
      { apply abs_round_ge_generic; [typeclasses eauto|typeclasses eauto| |exact Hr]. apply ProofB64.fmt_pow2. lia. }
      rewrite Z, Rabs_R0 in A. pose proof (bpow_gt_0 radix2 (-1074)). lra. }
    assert (DR : rnd (rnd64 q) = rnd q).
    { apply (@round_round_div_FLT radix2 (-149) 24 (-1074) 53 (eq_refl : Prec_gt_0 24) (eq_refl : Prec_gt_0 53)
             (fun t => negb (Z.even t)) (fun t => negb (Z.even t))).
      - exists 1%Z. reflexivity.
      - lia.
      - lia.
      - exact NY.
      - apply FLT_format_generic; [reflexivity|]. apply fmt_B.
      - apply FLT_format_generic; [reflexivity|]. apply fmt_B. }
    (* the double quotient *)
    generalize (Bdiv_correct prec64 emax64 _ _ mode_NE (widen x) (widen y)). rewrite V, V2. fold q. intros D.
    specialize (D NY). change (round_mode mode_NE) with ZnearestE in D. rewrite Rlt_bool_true in D.
    2: { apply Rle_lt_trans with (pow2 277); [|apply bpow_lt; reflexivity]. apply ProofB64.rnd_abs_pow2; [lia|apply Q1]. }
    destruct D as (D1 & D2 & D3). rewrite E in D2. cbn [is_finite] in D2. rewrite <- E in D2.
    rewrite E, E2 in D3. cbn [Bsign] in D3. rewrite <- E, <- E2 in D3.
    assert (NQ : rnd64 q <> 0).
    { apply NB. eapply Rle_trans; [|apply Q1]. apply bpow_le. lia. }
    destruct (Bdiv mode_NE (widen x) (widen y)) as [w|w| |w mw ew Hw]; try discriminate D2.
    { exfalso. apply NQ. rewrite <- D1. reflexivity. }
    specialize (D3 eq_refl). cbn [Bsign] in D3. subst w. cbn [narrow].
    destruct (F2R_finite (xorb sx sy) mw ew) as (_ & WC & WL).
    cbn [B2R] in D1.
    generalize (binary_normalize_correct prec32 emax32 _ _ mode_NE (SpecFloat.cond_Zopp (xorb sx sy) (Zpos mw)) ew (xorb sx sy)).
    cbv zeta. change (round_mode mode_NE) with ZnearestE. rewrite WC, WL, D1, DR.
    generalize (Bdiv_correct prec32 emax32 _ _ mode_NE x y NY). change (round_mode mode_NE) with ZnearestE. fold q.
    destruct (Rlt_bool (Rabs (rnd q)) (pow2 emax32)).
    + intros (A1 & A2 & A3) (B1 & B2 & B3). cbn [is_finite x] in A2. apply B2R_Bsign_inj; [exact B2|exact A2|congruence|].
      rewrite A3 by (destruct (Bdiv mode_NE x y); [reflexivity..|discriminate A2|reflexivity]). rewrite B3.
      cbn [Bsign x y]. destruct (xorb sx sy); reflexivity.
    + intros A B. apply B2SF_inj. rewrite A, B. reflexivity.
Qed.
