(** Facts about binary64 arithmetic used by the proofs about Shiva in doubles. *)
From Coq Require Import ZArith Reals Bool Lia Lra Psatz.
From Flocq Require Import Core IEEE754.BinarySingleNaN.
Require Import Flocq.Prop.Relative.
From Verif Require Import Base Num ModelB64.

Notation fexp64 := (SpecFloat.fexp prec64 emax64).
Notation rnd := (round radix2 fexp64 ZnearestE).
Notation fmt := (generic_format radix2 fexp64).
Notation pow2 := (bpow radix2).
Local Open Scope R_scope.

Global Instance fexp64_valid : Valid_exp fexp64 := fexp_correct prec64 emax64 _.

Lemma fmt_pow2 e : (-1074 <= e)%Z -> fmt (pow2 e).
Proof.
  intros H. apply generic_format_bpow.
  change (Z.max (e + 1 - 53) (-1074) <= e)%Z. lia.
Qed.
Lemma fmt_int m e : (Z.abs m < 2 ^ 53)%Z -> (-1074 <= e)%Z -> fmt (IZR m * pow2 e).
Proof.
  intros Hm He. apply (generic_format_FLT radix2 (-1074) 53).
  exists (Float radix2 m e); [reflexivity|exact Hm|exact He].
Qed.
Lemma fmt_B (x : b64) : fmt (B2R x).
Proof. apply generic_format_B2R. Qed.
Lemma B_lt_max (x : b64) : Rabs (B2R x) < pow2 1024.
Proof. apply abs_B2R_lt_emax. Qed.
Lemma rnd_fmt x : fmt (rnd x).
Proof. apply generic_format_round; typeclasses eauto. Qed.
Lemma rnd_id x : fmt x -> rnd x = x.
Proof. intros H. apply round_generic; [typeclasses eauto|exact H]. Qed.
Lemma rnd_le x y : x <= y -> rnd x <= rnd y.
Proof. intros H. apply round_le; [typeclasses eauto..|exact H]. Qed.
Lemma rnd_lt_inv x y : rnd x < rnd y -> x < y.
Proof.
  intros H. destruct (Rlt_or_le x y) as [|Hle]; [assumption|].
  apply rnd_le in Hle. lra.
Qed.
Lemma rnd_0 : rnd 0 = 0.
Proof. apply round_0; typeclasses eauto. Qed.
Lemma rnd_opp x : rnd (- x) = - rnd x.
Proof. apply round_NE_opp. Qed.
Lemma rnd_abs x : rnd (Rabs x) = Rabs (rnd x).
Proof. apply round_NE_abs; typeclasses eauto. Qed.
Lemma rnd_abs_le x m : fmt m -> Rabs x <= m -> Rabs (rnd x) <= m.
Proof.
  intros Hm H. rewrite <- rnd_abs. rewrite <- (rnd_id m Hm). apply rnd_le. exact H.
Qed.
Lemma rnd_abs_pow2 x e : (-1074 <= e)%Z -> Rabs x <= pow2 e -> Rabs (rnd x) <= pow2 e.
Proof. intros He H. apply rnd_abs_le; [now apply fmt_pow2|exact H]. Qed.
Lemma pow2_lt_max e : (e < 1024)%Z -> pow2 e < pow2 1024.
Proof. apply bpow_lt. Qed.

(** One operation at a time: finite operands and a bound on the exact result. *)
Section Ops.
Context (x y : b64) (e : Z).

Lemma B_minus :
  is_finite x = true -> is_finite y = true ->
  (-1074 <= e < 1024)%Z -> Rabs (B2R x - B2R y) <= pow2 e ->
  is_finite (Bminus mode_NE x y) = true /\
  B2R (Bminus mode_NE x y) = rnd (B2R x - B2R y) /\
  Rabs (B2R (Bminus mode_NE x y)) <= pow2 e.
Proof.
  intros Fx Fy [He1 He2] H.
  assert (Hr : Rabs (rnd (B2R x - B2R y)) <= pow2 e) by now apply rnd_abs_pow2.
  generalize (Bminus_correct prec64 emax64 _ _ mode_NE x y Fx Fy).
  rewrite Rlt_bool_true.
  - intros (E & Fin & _). split; [exact Fin|]. split; [exact E|].
    rewrite E. exact Hr.
  - eapply Rle_lt_trans; [exact Hr|]. now apply pow2_lt_max.
Qed.

Lemma B_plus :
  is_finite x = true -> is_finite y = true ->
  (-1074 <= e < 1024)%Z -> Rabs (B2R x + B2R y) <= pow2 e ->
  is_finite (Bplus mode_NE x y) = true /\
  B2R (Bplus mode_NE x y) = rnd (B2R x + B2R y) /\
  Rabs (B2R (Bplus mode_NE x y)) <= pow2 e.
Proof.
  intros Fx Fy [He1 He2] H.
  assert (Hr : Rabs (rnd (B2R x + B2R y)) <= pow2 e) by now apply rnd_abs_pow2.
  generalize (Bplus_correct prec64 emax64 _ _ mode_NE x y Fx Fy).
  rewrite Rlt_bool_true.
  - intros (E & Fin & _). split; [exact Fin|]. split; [exact E|].
    rewrite E. exact Hr.
  - eapply Rle_lt_trans; [exact Hr|]. now apply pow2_lt_max.
Qed.

Lemma B_mult :
  is_finite x = true -> is_finite y = true ->
  (-1074 <= e < 1024)%Z -> Rabs (B2R x * B2R y) <= pow2 e ->
  is_finite (Bmult mode_NE x y) = true /\
  B2R (Bmult mode_NE x y) = rnd (B2R x * B2R y) /\
  Rabs (B2R (Bmult mode_NE x y)) <= pow2 e.
Proof.
  intros Fx Fy [He1 He2] H.
  assert (Hr : Rabs (rnd (B2R x * B2R y)) <= pow2 e) by now apply rnd_abs_pow2.
  generalize (Bmult_correct prec64 emax64 _ _ mode_NE x y).
  rewrite Rlt_bool_true.
  - intros (E & Fin & _). rewrite Fx, Fy in Fin. split; [exact Fin|].
    split; [exact E|]. rewrite E. exact Hr.
  - eapply Rle_lt_trans; [exact Hr|]. now apply pow2_lt_max.
Qed.

Lemma B_div :
  is_finite x = true -> B2R y <> 0 ->
  (-1074 <= e < 1024)%Z -> Rabs (B2R x / B2R y) <= pow2 e ->
  is_finite (Bdiv mode_NE x y) = true /\
  B2R (Bdiv mode_NE x y) = rnd (B2R x / B2R y) /\
  Rabs (B2R (Bdiv mode_NE x y)) <= pow2 e.
Proof.
  intros Fx Fy [He1 He2] H.
  assert (Hr : Rabs (rnd (B2R x / B2R y)) <= pow2 e) by now apply rnd_abs_pow2.
  generalize (Bdiv_correct prec64 emax64 _ _ mode_NE x y Fy).
  rewrite Rlt_bool_true.
  - intros (E & Fin & _). rewrite Fx in Fin. split; [exact Fin|].
    split; [exact E|]. rewrite E. exact Hr.
  - eapply Rle_lt_trans; [exact Hr|]. now apply pow2_lt_max.
Qed.
End Ops.

(** Small integers convert exactly. *)
Lemma b64_ofZ_exact z : (Z.abs z < 2 ^ 53)%Z ->
  is_finite (b64_ofZ z) = true /\ B2R (b64_ofZ z) = IZR z.
Proof.
  intros Hz.
  assert (E : F2R (Float radix2 z 0) = IZR z) by (unfold F2R; cbn; ring).
  assert (Hr : rnd (IZR z) = IZR z).
  { apply rnd_id. replace (IZR z) with (IZR z * pow2 0) by (cbn; ring).
    apply fmt_int; [exact Hz|lia]. }
  generalize (binary_normalize_correct prec64 emax64 _ _ mode_NE z 0 false).
  cbv zeta. rewrite E. change (round_mode mode_NE) with ZnearestE. rewrite Hr.
  rewrite Rlt_bool_true.
  - intros (E1 & F1 & _). split; [exact F1|exact E1].
  - rewrite <- abs_IZR. apply Rlt_trans with (IZR (2 ^ 53)); [now apply IZR_lt|].
    change (IZR (2 ^ 53)) with (IZR (Zpower radix2 53)).
    rewrite IZR_Zpower by lia. apply bpow_lt. reflexivity.
Qed.

(** The value of a double compared with zero. *)
Lemma b64_nis0 (x : b64) : is_finite x = true ->
  nis0 B64Num x = true <-> B2R x = 0.
Proof.
  intros Fx. cbn [nis0 B64Num]. rewrite Beqb_correct by (exact Fx || reflexivity).
  cbn [B2R b64_zero]. destruct (Req_bool_spec (B2R x) 0); split; intros; try easy.
Qed.

(** The unit roundoff. *)
Notation u := (pow2 (-53)).
Lemma u_val : u = / 9007199254740992.
Proof. reflexivity. Qed.
Lemma u_pos : 0 < u.
Proof. apply bpow_gt_0. Qed.

(** Relative error of one rounding of a normal number. *)
Lemma rnd_rel x : pow2 (-1022) <= Rabs x ->
  exists d, Rabs d <= u /\ rnd x = x * (1 + d).
Proof.
  intros H.
  destruct (relative_error_N_FLT_ex radix2 (-1074) 53 eq_refl (fun x => negb (Z.even x)) x H)
    as [d [Hd E]].
  exists d. split; [|exact E].
  eapply Rle_trans; [exact Hd|].
  replace u with (/ 2 * pow2 (-53 + 1)); [apply Rle_refl|].
  cbn -[Rmult Rinv]. lra.
Qed.

(** ... and of any number: relative error [u] or absolute error 2^-1075. *)
Lemma rnd_mixed x :
  exists d r, Rabs d <= u /\ Rabs r <= pow2 (-1075) /\ d * r = 0 /\ rnd x = x * (1 + d) + r.
Proof.
  destruct (error_N_FLT radix2 (-1074) 53 eq_refl (fun x => negb (Z.even x)) x)
    as (d & r & Hd & Hr & Hz & E).
  exists d, r. split; [|split; [|split; [exact Hz|exact E]]].
  - eapply Rle_trans; [exact Hd|].
    replace u with (/ 2 * pow2 (-53 + 1)); [apply Rle_refl|].
    cbn -[Rmult Rinv]. lra.
  - eapply Rle_trans; [exact Hr|].
    change (-1075)%Z with (-1 + -1074)%Z. rewrite bpow_plus. apply Rle_refl.
Qed.

(** 1 + u is half-way between 1 and 1 + 2u: the even neighbour is 1. *)
Lemma rnd_tie : rnd (1 + u) = 1.
Proof.
  generalize (binary_normalize_correct prec64 emax64 _ _ mode_NE (2 ^ 53 + 1) (-53) false).
  cbv zeta. change (round_mode mode_NE) with ZnearestE.
  assert (E : F2R (Float radix2 (2 ^ 53 + 1) (-53)) = 1 + u).
  { unfold F2R. cbn [Fnum Fexp]. rewrite plus_IZR, u_val. cbn -[Rmult Rinv]. lra. }
  rewrite E. rewrite Rlt_bool_true.
  - intros [H _]. rewrite <- H. rewrite <- SF2R_B2SF.
    vm_compute (B2SF _). cbn -[Rmult Rinv]. unfold F2R. cbn -[Rmult Rinv]. lra.
  - apply Rle_lt_trans with (pow2 1); [|apply bpow_lt; reflexivity].
    apply rnd_abs_pow2; [lia|]. rewrite u_val, Rabs_pos_eq by lra. cbn. lra.
Qed.

(** s * (1 / s) rounded twice is in [1 - u, 1]: both roundings are to nearest and the
    number above 1 is twice as far as the number below. *)
Lemma rnd_recip s : pow2 (-1022) <= Rabs s <= pow2 1022 ->
  1 - u <= rnd (s * rnd (1 / s)) <= 1.
Proof.
  intros [H1 H2].
  assert (Hs : s <> 0).
  { intros ->. rewrite Rabs_R0 in H1. pose proof (bpow_gt_0 radix2 (-1022)). lra. }
  destruct (rnd_rel (1 / s)) as (d & Hd & E).
  { unfold Rdiv. rewrite Rmult_1_l, Rabs_inv.
    rewrite (bpow_opp radix2 1022 : pow2 (-1022) = / pow2 1022).
    apply Rinv_le; [|exact H2]. apply Rabs_pos_lt. exact Hs. }
  rewrite E. replace (s * (1 / s * (1 + d))) with (1 + d) by (field; exact Hs).
  apply Rabs_le_inv in Hd. 
  assert (F1 : fmt (1 - u)).
  { replace (1 - u) with (IZR (2 ^ 53 - 1) * pow2 (-53)).
    - apply fmt_int; lia.
    - rewrite u_val. cbn -[Rmult Rinv]. lra. }
  split.
  - rewrite <- (rnd_id (1 - u) F1). apply rnd_le. lra.
  - apply Rle_trans with (rnd (1 + u)); [apply rnd_le; lra|].
    apply Req_le. exact rnd_tie.
Qed.
