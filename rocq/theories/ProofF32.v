(** Facts about binary32 arithmetic used by the proofs about Shiva in floats. *)
From Coq Require Import ZArith Reals Bool Lia Lra Psatz.
From Flocq Require Import Core IEEE754.BinarySingleNaN.
Require Import Flocq.Prop.Relative Flocq.Prop.Double_rounding.
From Verif Require Import Base Num ModelB64 ModelF32.
Require Verif.ProofB64.

Notation fexp32 := (SpecFloat.fexp prec32 emax32).
Notation rnd := (round radix2 fexp32 ZnearestE).
Notation fmt := (generic_format radix2 fexp32).
Notation pow2 := (bpow radix2).
Local Open Scope R_scope.

Global Instance fexp32_valid : Valid_exp fexp32 := fexp_correct prec32 emax32 _.

Lemma fmt_pow2 e : (-149 <= e)%Z -> fmt (pow2 e).
Proof.
  intros H. apply generic_format_bpow.
  change (Z.max (e + 1 - 24) (-149) <= e)%Z. lia.
Qed.
Lemma fmt_int m e : (Z.abs m < 2 ^ 24)%Z -> (-149 <= e)%Z -> fmt (IZR m * pow2 e).
Proof.
  intros Hm He. apply (generic_format_FLT radix2 (-149) 24).
  exists (Float radix2 m e); [reflexivity|exact Hm|exact He].
Qed.
Lemma fmt_B (x : b32) : fmt (B2R x).
Proof. apply generic_format_B2R. Qed.
Lemma B_lt_max (x : b32) : Rabs (B2R x) < pow2 128.
Proof. apply abs_B2R_lt_emax. Qed.
Lemma rnd_fmt x : fmt (rnd x).
Proof. apply generic_format_round; typeclasses eauto. Qed.
Lemma rnd_id x : fmt x -> rnd x = x.
Proof. intros H. apply round_generic; [typeclasses eauto|exact H]. Qed.
Lemma rnd_le x y : x <= y -> rnd x <= rnd y.
Proof. intros H. apply round_le; [typeclasses eauto..|exact H]. Qed.
Lemma rnd_lt_inv x y : rnd x < rnd y -> x < y.
Proof.
  intros H. destruct (Rlt_or_le x y) as [|Hle]; [assumption|].
  apply rnd_le in Hle. lra.
Qed.
Lemma rnd_0 : rnd 0 = 0.
Proof. apply round_0; typeclasses eauto. Qed.
Lemma rnd_opp x : rnd (- x) = - rnd x.
Proof. apply round_NE_opp. Qed.
Lemma rnd_abs x : rnd (Rabs x) = Rabs (rnd x).
Proof. apply round_NE_abs; typeclasses eauto. Qed.
Lemma rnd_abs_le x m : fmt m -> Rabs x <= m -> Rabs (rnd x) <= m.
Proof.
  intros Hm H. rewrite <- rnd_abs. rewrite <- (rnd_id m Hm). apply rnd_le. exact H.
Qed.
Lemma rnd_abs_pow2 x e : (-149 <= e)%Z -> Rabs x <= pow2 e -> Rabs (rnd x) <= pow2 e.
Proof. intros He H. apply rnd_abs_le; [now apply fmt_pow2|exact H]. Qed.
Lemma pow2_lt_max e : (e < 128)%Z -> pow2 e < pow2 128.
Proof. apply bpow_lt. Qed.

(** One operation at a time: finite operands and a bound on the exact result. *)
Section Ops.
Context (x y : b32) (e : Z).

Lemma B_minus :
  is_finite x = true -> is_finite y = true ->
  (-149 <= e < 128)%Z -> Rabs (B2R x - B2R y) <= pow2 e ->
  is_finite (Bminus mode_NE x y) = true /\
  B2R (Bminus mode_NE x y) = rnd (B2R x - B2R y) /\
  Rabs (B2R (Bminus mode_NE x y)) <= pow2 e.
Proof.
  intros Fx Fy [He1 He2] H.
  assert (Hr : Rabs (rnd (B2R x - B2R y)) <= pow2 e) by now apply rnd_abs_pow2.
  generalize (Bminus_correct prec32 emax32 _ _ mode_NE x y Fx Fy).
  rewrite Rlt_bool_true.
  - intros (E & Fin & _). split; [exact Fin|]. split; [exact E|].
    rewrite E. exact Hr.
  - eapply Rle_lt_trans; [exact Hr|]. now apply pow2_lt_max.
Qed.

Lemma B_plus :
  is_finite x = true -> is_finite y = true ->
  (-149 <= e < 128)%Z -> Rabs (B2R x + B2R y) <= pow2 e ->
  is_finite (Bplus mode_NE x y) = true /\
  B2R (Bplus mode_NE x y) = rnd (B2R x + B2R y) /\
  Rabs (B2R (Bplus mode_NE x y)) <= pow2 e.
Proof.
  intros Fx Fy [He1 He2] H.
  assert (Hr : Rabs (rnd (B2R x + B2R y)) <= pow2 e) by now apply rnd_abs_pow2.
  generalize (Bplus_correct prec32 emax32 _ _ mode_NE x y Fx Fy).
  rewrite Rlt_bool_true.
  - intros (E & Fin & _). split; [exact Fin|]. split; [exact E|].
    rewrite E. exact Hr.
  - eapply Rle_lt_trans; [exact Hr|]. now apply pow2_lt_max.
Qed.

Lemma B_mult :
  is_finite x = true -> is_finite y = true ->
  (-149 <= e < 128)%Z -> Rabs (B2R x * B2R y) <= pow2 e ->
  is_finite (Bmult mode_NE x y) = true /\
  B2R (Bmult mode_NE x y) = rnd (B2R x * B2R y) /\
  Rabs (B2R (Bmult mode_NE x y)) <= pow2 e.
Proof.
  intros Fx Fy [He1 He2] H.
  assert (Hr : Rabs (rnd (B2R x * B2R y)) <= pow2 e) by now apply rnd_abs_pow2.
  generalize (Bmult_correct prec32 emax32 _ _ mode_NE x y).
  rewrite Rlt_bool_true.
  - intros (E & Fin & _). rewrite Fx, Fy in Fin. split; [exact Fin|].
    split; [exact E|]. rewrite E. exact Hr.
  - eapply Rle_lt_trans; [exact Hr|]. now apply pow2_lt_max.
Qed.
End Ops.

(** Conversions between float and double. *)
Notation rnd64 := (round radix2 (SpecFloat.fexp prec64 emax64) ZnearestE).
Lemma fmt_32_64 x : fmt x -> generic_format radix2 (SpecFloat.fexp prec64 emax64) x.
Proof.
  intros H. apply (generic_inclusion_mag radix2 fexp32); [|exact H]. intros _.
  change (Z.max (mag radix2 x - 53) (-1074) <= Z.max (mag radix2 x - 24) (-149))%Z. lia.
Qed.
Lemma widen_ok (x : b32) : is_finite x = true -> is_finite (widen x) = true /\ B2R (widen x) = B2R x.
Proof.
  intros F. destruct x as [s|s| |s m e H]; try discriminate F; [split; reflexivity|].
  pose proof (fmt_32_64 _ (fmt_B (B754_finite s m e H))) as G.
  pose proof (B_lt_max (B754_finite s m e H)) as L.
  cbn [widen]. generalize (binary_normalize_correct prec64 emax64 _ _ mode_NE (SpecFloat.cond_Zopp s (Zpos m)) e s).
  cbv zeta. change (round_mode mode_NE) with ZnearestE. cbn [B2R] in G, L.
  rewrite round_generic; [|typeclasses eauto|exact G].
  rewrite Rlt_bool_true.
  - intros (E & Fn & _). split; [exact Fn|exact E].
  - eapply Rlt_trans; [exact L|]. apply bpow_lt. reflexivity.
Qed.
Lemma narrow_ok (x : b64) e : is_finite x = true -> (-149 <= e < 128)%Z -> Rabs (B2R x) <= pow2 e ->
  is_finite (narrow x) = true /\ B2R (narrow x) = rnd (B2R x) /\ Rabs (B2R (narrow x)) <= pow2 e.
Proof.
  intros F [He1 He2] H.
  assert (Hr : Rabs (rnd (B2R x)) <= pow2 e) by now apply rnd_abs_pow2.
  destruct x as [s|s| |s m e' H']; try discriminate F.
  - cbn [narrow B2R is_finite]. rewrite rnd_0. split; [reflexivity|]. split; [reflexivity|]. exact H.
  - cbn [narrow]. generalize (binary_normalize_correct prec32 emax32 _ _ mode_NE (SpecFloat.cond_Zopp s (Zpos m)) e' s).
    cbv zeta. change (round_mode mode_NE) with ZnearestE. cbn [B2R] in Hr |- *.
    rewrite Rlt_bool_true.
    + intros (E & Fn & _). split; [exact Fn|]. split; [exact E|]. rewrite E. exact Hr.
    + eapply Rle_lt_trans; [exact Hr|]. now apply pow2_lt_max.
Qed.
Lemma narrow_widen_id (x : b32) : is_finite x = true -> B2R (narrow (widen x)) = B2R x.
Proof.
  intros F. destruct (widen_ok x F) as [Fw Ew].
  destruct x as [s|s| |s m e H]; try discriminate F; [reflexivity|].
  set (y := B754_finite s m e H) in *.
  pose proof (B_lt_max y) as L.
  destruct (widen y) as [s'|s'| |s' m' e' H'] eqn:W; try discriminate Fw.
  - cbn [narrow]. rewrite <- Ew. reflexivity.
  - cbn [narrow]. generalize (binary_normalize_correct prec32 emax32 _ _ mode_NE (SpecFloat.cond_Zopp s' (Zpos m')) e' s').
    cbv zeta. change (round_mode mode_NE) with ZnearestE. cbn [B2R] in Ew.
    rewrite Ew, (rnd_id _ (fmt_B y)). rewrite Rlt_bool_true by exact L. intros (E & _). exact E.
Qed.

(** A double division rounded to float is the float division (double rounding is innocuous). *)
Definition fdiv (x y : b32) : b32 := narrow (Bdiv mode_NE (widen x) (widen y)).
Lemma B_div (x y : b32) e :
  is_finite x = true -> is_finite y = true -> B2R y <> 0 ->
  (-149 <= e < 128)%Z -> Rabs (B2R x / B2R y) <= pow2 e ->
  is_finite (fdiv x y) = true /\
  B2R (fdiv x y) = rnd (B2R x / B2R y) /\
  Rabs (B2R (fdiv x y)) <= pow2 e.
Proof.
  intros Fx Fy Hy He H. destruct (widen_ok x Fx) as [Wx Ex]. destruct (widen_ok y Fy) as [Wy Ey].
  destruct (ProofB64.B_div (widen x) (widen y) e Wx) as (F & E & B).
  - rewrite Ey. exact Hy.
  - lia.
  - rewrite Ex, Ey. exact H.
  - destruct (narrow_ok _ e F He B) as (Fn & En & Bn). fold (fdiv x y) in Fn, En, Bn.
    split; [exact Fn|]. split; [|exact Bn]. rewrite En, E, Ex, Ey.
    apply (@round_round_div_FLT radix2 (-149) 24 (-1074) 53 (eq_refl : Prec_gt_0 24) (eq_refl : Prec_gt_0 53)
             (fun t => negb (Z.even t)) (fun t => negb (Z.even t))).
    + exists 1%Z. reflexivity.
    + lia.
    + lia.
    + exact Hy.
    + apply FLT_format_generic; [reflexivity|]. apply fmt_B.
    + apply FLT_format_generic; [reflexivity|]. apply fmt_B.
Qed.

(** Small integers convert exactly. *)
Lemma b32_ofZ_exact z : (Z.abs z < 2 ^ 24)%Z ->
  is_finite (b32_ofZ z) = true /\ B2R (b32_ofZ z) = IZR z.
Proof.
  intros Hz.
  assert (E : F2R (Float radix2 z 0) = IZR z) by (unfold F2R; cbn; ring).
  assert (Hr : rnd (IZR z) = IZR z).
  { apply rnd_id. replace (IZR z) with (IZR z * pow2 0) by (cbn; ring).
    apply fmt_int; [exact Hz|lia]. }
  generalize (binary_normalize_correct prec32 emax32 _ _ mode_NE z 0 false).
  cbv zeta. rewrite E. change (round_mode mode_NE) with ZnearestE. rewrite Hr.
  rewrite Rlt_bool_true.
  - intros (E1 & F1 & _). split; [exact F1|exact E1].
  - rewrite <- abs_IZR. apply Rlt_trans with (IZR (2 ^ 24)); [now apply IZR_lt|].
    change (IZR (2 ^ 24)) with (IZR (Zpower radix2 24)).
    rewrite IZR_Zpower by lia. apply bpow_lt. reflexivity.
Qed.

(** The value of a double compared with zero. *)
Lemma b32_nis0 (x : b32) : is_finite x = true ->
  nis0 F32Num x = true <-> B2R x = 0.
Proof.
  intros Fx. cbn [nis0 F32Num]. rewrite Beqb_correct by (exact Fx || reflexivity).
  cbn [B2R b32_zero]. destruct (Req_bool_spec (B2R x) 0); split; intros; try easy.
Qed.

(** The unit roundoff. *)
Notation u := (pow2 (-24)).
Lemma u_val : u = / 16777216.
Proof. reflexivity. Qed.
Lemma u_pos : 0 < u.
Proof. apply bpow_gt_0. Qed.

(** Relative error of one rounding of a normal number. *)
Lemma rnd_rel x : pow2 (-126) <= Rabs x ->
  exists d, Rabs d <= u /\ rnd x = x * (1 + d).
Proof.
  intros H.
  destruct (relative_error_N_FLT_ex radix2 (-149) 24 eq_refl (fun x => negb (Z.even x)) x H)
    as [d [Hd E]].
  exists d. split; [|exact E].
  eapply Rle_trans; [exact Hd|].
  replace u with (/ 2 * pow2 (-24 + 1)); [apply Rle_refl|].
  cbn -[Rmult Rinv]. lra.
Qed.

(** ... and of any number: relative error [u] or absolute error 2^-150. *)
Lemma rnd_mixed x :
  exists d r, Rabs d <= u /\ Rabs r <= pow2 (-150) /\ d * r = 0 /\ rnd x = x * (1 + d) + r.
Proof.
  destruct (error_N_FLT radix2 (-149) 24 eq_refl (fun x => negb (Z.even x)) x)
    as (d & r & Hd & Hr & Hz & E).
  exists d, r. split; [|split; [|split; [exact Hz|exact E]]].
  - eapply Rle_trans; [exact Hd|].
    replace u with (/ 2 * pow2 (-24 + 1)); [apply Rle_refl|].
    cbn -[Rmult Rinv]. lra.
  - eapply Rle_trans; [exact Hr|].
    change (-150)%Z with (-1 + -149)%Z. rewrite bpow_plus. apply Rle_refl.
Qed.

(** 1 + u is half-way between 1 and 1 + 2u: the even neighbour is 1. *)
Lemma rnd_tie : rnd (1 + u) = 1.
Proof.
  generalize (binary_normalize_correct prec32 emax32 _ _ mode_NE (2 ^ 24 + 1) (-24) false).
  cbv zeta. change (round_mode mode_NE) with ZnearestE.
  assert (E : F2R (Float radix2 (2 ^ 24 + 1) (-24)) = 1 + u).
  { unfold F2R. cbn [Fnum Fexp]. rewrite plus_IZR, u_val. cbn -[Rmult Rinv]. lra. }
  rewrite E. rewrite Rlt_bool_true.
  - intros [H _]. rewrite <- H. rewrite <- SF2R_B2SF.
    vm_compute (B2SF _). cbn -[Rmult Rinv]. unfold F2R. cbn -[Rmult Rinv]. lra.
  - apply Rle_lt_trans with (pow2 1); [|apply bpow_lt; reflexivity].
    apply rnd_abs_pow2; [lia|]. rewrite u_val, Rabs_pos_eq by lra. cbn. lra.
Qed.

(** s * (1 / s) rounded twice is in [1 - u, 1]: both roundings are to nearest and the
    number above 1 is twice as far as the number below. *)
Lemma rnd_recip s : pow2 (-126) <= Rabs s <= pow2 126 ->
  1 - u <= rnd (s * rnd (1 / s)) <= 1.
Proof.
  intros [H1 H2].
  assert (Hs : s <> 0).
  { intros ->. rewrite Rabs_R0 in H1. pose proof (bpow_gt_0 radix2 (-126)). lra. }
  destruct (rnd_rel (1 / s)) as (d & Hd & E).
  { unfold Rdiv. rewrite Rmult_1_l, Rabs_inv.
    rewrite (bpow_opp radix2 126 : pow2 (-126) = / pow2 126).
    apply Rinv_le; [|exact H2]. apply Rabs_pos_lt. exact Hs. }
  rewrite E. replace (s * (1 / s * (1 + d))) with (1 + d) by (field; exact Hs).
  apply Rabs_le_inv in Hd. 
  assert (F1 : fmt (1 - u)).
  { replace (1 - u) with (IZR (2 ^ 24 - 1) * pow2 (-24)).
    - apply fmt_int; lia.
    - rewrite u_val. cbn -[Rmult Rinv]. lra. }
  split.
  - rewrite <- (rnd_id (1 - u) F1). apply rnd_le. lra.
  - apply Rle_trans with (rnd (1 + u)); [apply rnd_le; lra|].
    apply Req_le. exact rnd_tie.
Qed.
