(** Cells for which a change of unit is not exact. *)
From Coq Require Import ZArith Reals Bool List Lia Lra.
From Flocq Require Import Core IEEE754.BinarySingleNaN.
From Verif Require Import Base ProofBase Num ModelB64 ModelF32 ModelAssert ModelSpacing ModelLagrange ModelTransforms SpecB64 SpecF32 SpecShape SpecScale SpecIndex ModelCArray SpecCArray ProofBox ProofRep.
From Verif Require ProofB64 ProofF32 ProofPositive64 ProofPositive32.
Import ListNotations.
Local Open Scope R_scope.
Notation pow2 := (bpow radix2).

Definition d64 (p : Z * Z) : b64 := binary_normalize prec64 emax64 eq_refl eq_refl mode_NE (fst p) (snd p) false.
Definition d32 (p : Z * Z) : b32 := binary_normalize prec32 emax32 eq_refl eq_refl mode_NE (fst p) (snd p) false.
Lemma d64_exact m e : (Z.abs m < 2 ^ 53)%Z -> (-1074 <= e <= 900)%Z -> is_finite (d64 (m, e)) = true /\ B2R (d64 (m, e)) = IZR m * pow2 e.
Proof.
  intros Hm He. pose proof (ProofB64.fmt_int m e Hm ltac:(lia)) as F.
  pose proof (binary_normalize_correct prec64 emax64 eq_refl eq_refl mode_NE m e false) as C. cbv zeta in C.
  assert (E : F2R (Float radix2 m e) = IZR m * pow2 e) by reflexivity. rewrite E in C.
  change (round radix2 (SpecFloat.fexp prec64 emax64) (round_mode mode_NE) (IZR m * pow2 e)) with (ProofB64.rnd (IZR m * pow2 e)) in C.
  rewrite ProofB64.rnd_id in C by exact F. rewrite Rlt_bool_true in C; [split; [apply C|apply C]|].
  rewrite Rabs_mult, (Rabs_pos_eq (pow2 e)) by apply bpow_ge_0. apply Rlt_le_trans with (pow2 53 * pow2 e).
  - apply Rmult_lt_compat_r; [apply bpow_gt_0|]. rewrite <- abs_IZR. change (pow2 53) with (IZR (2 ^ 53)). now apply IZR_lt.
  - rewrite <- bpow_plus. apply bpow_le. unfold emax64. lia.
Qed.
Lemma d32_exact m e : (Z.abs m < 2 ^ 24)%Z -> (-149 <= e <= 100)%Z -> is_finite (d32 (m, e)) = true /\ B2R (d32 (m, e)) = IZR m * pow2 e.
Proof.
  intros Hm He. pose proof (ProofF32.fmt_int m e Hm ltac:(lia)) as F.
  pose proof (binary_normalize_correct prec32 emax32 eq_refl eq_refl mode_NE m e false) as C. cbv zeta in C.
  assert (E : F2R (Float radix2 m e) = IZR m * pow2 e) by reflexivity. rewrite E in C.
  change (round radix2 (SpecFloat.fexp prec32 emax32) (round_mode mode_NE) (IZR m * pow2 e)) with (ProofF32.rnd (IZR m * pow2 e)) in C.
  rewrite ProofF32.rnd_id in C by exact F. rewrite Rlt_bool_true in C; [split; [apply C|apply C]|].
  rewrite Rabs_mult, (Rabs_pos_eq (pow2 e)) by apply bpow_ge_0. apply Rlt_le_trans with (pow2 24 * pow2 e).
  - apply Rmult_lt_compat_r; [apply bpow_gt_0|]. rewrite <- abs_IZR. change (pow2 24) with (IZR (2 ^ 24)). now apply IZR_lt.
  - rewrite <- bpow_plus. apply bpow_le. unfold emax32. lia.
Qed.
(** If [y] is exactly [q x], so is the computed product. *)
Lemma product_same64 (q x y : b64) : is_finite q = true -> is_finite x = true -> is_finite y = true -> Beqb (Bmult mode_NE q x) y = false -> B2R y <> B2R q * B2R x.
Proof.
  intros Fq Fx Fy H E.
  pose proof (Bmult_correct prec64 emax64 _ _ mode_NE q x) as C.
  change (round radix2 (SpecFloat.fexp prec64 emax64) (round_mode mode_NE) (B2R q * B2R x)) with (ProofB64.rnd (B2R q * B2R x)) in C.
  rewrite <- E in C. rewrite ProofB64.rnd_id in C by apply ProofB64.fmt_B. rewrite Rlt_bool_true in C by apply abs_B2R_lt_emax.
  destruct C as (C & F & _). rewrite Fq, Fx in F. cbn [andb] in F. rewrite Beqb_correct in H by assumption.
  rewrite Req_bool_true in H by exact C. discriminate H.
Qed.
Lemma product_same32 (q x y : b32) : is_finite q = true -> is_finite x = true -> is_finite y = true -> Beqb (Bmult mode_NE q x) y = false -> B2R y <> B2R q * B2R x.
Proof.
  intros Fq Fx Fy H E.
  pose proof (Bmult_correct prec32 emax32 _ _ mode_NE q x) as C.
  change (round radix2 (SpecFloat.fexp prec32 emax32) (round_mode mode_NE) (B2R q * B2R x)) with (ProofF32.rnd (B2R q * B2R x)) in C.
  rewrite <- E in C. rewrite ProofF32.rnd_id in C by apply ProofF32.fmt_B. rewrite Rlt_bool_true in C by apply abs_B2R_lt_emax.
  destruct C as (C & F & _). rewrite Fq, Fx in F. cbn [andb] in F. rewrite Beqb_correct in H by assumption.
  rewrite Req_bool_true in H by exact C. discriminate H.
Qed.

(** The cube with edges [h 2^e]. *)
Definition boxd (h e : Z) : list (Z * Z) := [(0,0);(0,0);(0,0); (0,0);(0,0);(h,e); (0,0);(h,e);(0,0); (0,0);(h,e);(h,e);
  (h,e);(0,0);(0,0); (h,e);(0,0);(h,e); (h,e);(h,e);(0,0); (h,e);(h,e);(h,e)]%Z.
Definition lin64 : list (basis B64Num) := map (fun s => LagrangeBasis B64Num 1 s) [EqualSpacing; EqualSpacing; EqualSpacing].
Definition centre : list b64 := map d64 [(0, 0); (0, 0); (0, 0)]%Z.

Lemma two_boxes (q : R) h e h' e' B : (Z.abs h < 2 ^ 53)%Z -> (Z.abs h' < 2 ^ 53)%Z -> (-1074 <= e <= 900)%Z -> (-1074 <= e' <= 900)%Z -> IZR h' * pow2 e' = q * (IZR h * pow2 e) ->
  (IZR h * pow2 e <> 0 -> pow2 (- B) <= Rabs (IZR h * pow2 e) <= pow2 B) ->
  Forall2 (fun x x' => Moderate B x /\ Scaled q x x') (map d64 (boxd h e)) (map d64 (boxd h' e')).
Proof.
  intros Hh Hh' He He' Eq HB.
  destruct (d64_exact 0 0 ltac:(lia) ltac:(lia)) as (F0 & E0). destruct (d64_exact h e Hh He) as (F & E). destruct (d64_exact h' e' Hh' He') as (F' & E').
  assert (P0 : Moderate B (d64 (0, 0)%Z) /\ Scaled q (d64 (0, 0)%Z) (d64 (0, 0)%Z)).
  { split; [split; [exact F0|left; rewrite E0; ring]|split; [exact F0|split; [exact F0|rewrite E0; ring]]]. }
  assert (P : Moderate B (d64 (h, e)) /\ Scaled q (d64 (h, e)) (d64 (h', e'))).
  { split; [split; [exact F|]|split; [exact F|split; [exact F'|now rewrite E', E]]].
    rewrite E. destruct (Req_dec (IZR h * pow2 e) 0) as [Z|N]; [now left|right; now apply HB]. }
  unfold boxd. cbn [map]. repeat (constructor; [assumption|]). constructor.
Qed.
Lemma centre_ok : Forall InReference centre /\ length centre = 3%nat.
Proof.
  split; [|reflexivity]. unfold centre. cbn [map].
  assert (P : InReference (d64 (0, 0)%Z)) by (destruct (d64_exact 0 0 ltac:(lia) ltac:(lia)) as (F & E); split; [exact F|rewrite E, Rmult_0_l, Rabs_R0; lra]).
  repeat (constructor; [exact P|]). constructor.
Qed.

(** Three times as large. *)
Lemma factor_three_lemma : exists cx xi mem mem' d d' invJ invJ', Forall InReference xi /\ length xi = 3%nat /\ length mem = 24%nat /\
  Forall2 (fun x x' => Moderate 60 x /\ Scaled 3 x x') mem mem' /\
  inverseJacobian_wrapper B64Num cx 3 lin64 mem xi = Ok (d, invJ) /\ inverseJacobian_wrapper B64Num cx 3 lin64 mem' xi = Ok (d', invJ') /\
  is_finite d = true /\ is_finite d' = true /\ B2R d' <> 3 * 3 * 3 * B2R d.
Proof.
  destruct (ProofPositive64.holds2_ok (inverseJacobian_wrapper B64Num (host_runtime true) 3 lin64 (map d64 (boxd 67108869 0)) centre)
    (inverseJacobian_wrapper B64Num (host_runtime true) 3 lin64 (map d64 (boxd 201326607 0)) centre)
    (fun r r' => is_finite (fst r) && is_finite (fst r') && negb (Beqb (Bmult mode_NE (d64 (27, 0)%Z) (fst r)) (fst r')))) as ([d invJ] & [d' invJ'] & E & E' & H).
  { vm_compute. reflexivity. }
  cbn [fst] in H. apply andb_prop in H as [H N]. apply andb_prop in H as [F F']. apply negb_true_iff in N.
  destruct centre_ok as [R L]. exists (host_runtime true), centre, (map d64 (boxd 67108869 0)), (map d64 (boxd 201326607 0)), d, d', invJ, invJ'.
  split; [exact R|]. split; [exact L|]. split; [reflexivity|]. split.
  { apply two_boxes; try lia; [change (pow2 0) with 1; lra|]. intros _. rewrite Rabs_pos_eq; change (pow2 0) with 1; [|lra].
    split; [apply Rle_trans with (pow2 0); [apply bpow_le; lia|change (pow2 0) with 1; lra]|].
    apply Rle_trans with (pow2 60); [change (pow2 60) with (IZR (2 ^ 60)); rewrite Rmult_1_r; apply IZR_le; lia|lra]. }
  split; [exact E|]. split; [exact E'|]. split; [exact F|]. split; [exact F'|].
  destruct (d64_exact 27 0 ltac:(lia) ltac:(lia)) as (F27 & E27).
  pose proof (product_same64 _ _ _ F27 F F' N) as X. rewrite E27 in X. change (pow2 0) with 1 in X. intros Y. apply X. rewrite Y. ring.
Qed.

(** A cell of edge 2^-360. *)
Lemma tiny_cell_lemma : exists cx xi mem mem' d d' invJ invJ', Forall InReference xi /\ length xi = 3%nat /\ length mem = 24%nat /\
  Forall2 (fun x x' => Moderate 360 x /\ Scaled (pow2 60) x x') mem mem' /\
  inverseJacobian_wrapper B64Num cx 3 lin64 mem xi = Ok (d, invJ) /\ inverseJacobian_wrapper B64Num cx 3 lin64 mem' xi = Ok (d', invJ') /\
  is_finite d = true /\ is_finite d' = true /\ B2R d = 0 /\ 0 < B2R d'.
Proof.
  destruct (ProofPositive64.holds2_ok (inverseJacobian_wrapper B64Num (host_runtime true) 3 lin64 (map d64 (boxd 1 (-360))) centre)
    (inverseJacobian_wrapper B64Num (host_runtime true) 3 lin64 (map d64 (boxd 1 (-300))) centre)
    (fun r r' => is_finite (fst r) && is_finite (fst r') && Beqb (fst r) (b64_ofZ 0) && Bltb (b64_ofZ 0) (fst r'))) as ([d invJ] & [d' invJ'] & E & E' & H).
  { vm_compute. reflexivity. }
  cbn [fst] in H. apply andb_prop in H as [H P]. apply andb_prop in H as [H Z]. apply andb_prop in H as [F F'].
  destruct centre_ok as [R L]. exists (host_runtime true), centre, (map d64 (boxd 1 (-360))), (map d64 (boxd 1 (-300))), d, d', invJ, invJ'.
  split; [exact R|]. split; [exact L|]. split; [reflexivity|]. split.
  { apply two_boxes; try lia.
    - rewrite !Rmult_1_l, <- bpow_plus. reflexivity.
    - intros _. rewrite Rmult_1_l, Rabs_pos_eq by apply bpow_ge_0. split; [apply bpow_le; lia|apply bpow_le; lia]. }
  split; [exact E|]. split; [exact E'|]. split; [exact F|]. split; [exact F'|].
  destruct (ProofB64.b64_ofZ_exact 0 ltac:(lia)) as (F0 & E0).
  rewrite Beqb_correct in Z by assumption. destruct (Req_bool_spec (B2R d) (B2R (b64_ofZ 0))) as [Zd|]; [|discriminate Z].
  rewrite Bltb_correct in P by assumption. destruct (Rlt_bool_spec (B2R (b64_ofZ 0)) (B2R d')) as [Pd|]; [|discriminate P].
  rewrite E0 in *. split; [exact Zd|exact Pd].
Qed.

(** A cell for which the inverse in floats is not scaled exactly. *)
Definition cell (k : Z) : list (Z * Z) := map (fun p => (fst p, (snd p + k)%Z))
  [(0,0);(0,0);(0,0); (0,0);(0,0);(1,0); (0,0);(1,0);(0,0); (0,0);(1,0);(1,0);
   (1,0);(0,0);(0,0); (1,0);(0,0);(1,0); (1,0);(1,0);(8388611,-37); (8404989,-23);(1,0);(1,0)]%Z.
Definition lin32 : list (basis F32Num) := map (fun s => LagrangeBasis32 1 s) [EqualSpacing; EqualSpacing; EqualSpacing].
Definition corner : list b32 := map d32 [(-16777215, -24); (-16777215, -24); (-1, 0)]%Z.
Lemma float_inverse_lemma : exists cx xi mem mem' d d' invJ invJ', Forall InReference32 xi /\ length xi = 3%nat /\ length mem = 24%nat /\
  Forall2 (fun x x' => Moderate 14 x /\ Scaled (pow2 (-14)) x x') mem mem' /\
  inverseJacobian_wrapper F32Num cx 3 lin32 mem xi = Ok (d, invJ) /\ inverseJacobian_wrapper F32Num cx 3 lin32 mem' xi = Ok (d', invJ') /\
  is_finite d = true /\ B2R d <> 0 /\ exists y y', nth_error invJ 1 = Some y /\ nth_error invJ' 1 = Some y' /\
    is_finite y = true /\ is_finite y' = true /\ B2R y' <> pow2 14 * B2R y.
Proof.
  destruct (ProofPositive32.holds2_ok (inverseJacobian_wrapper F32Num (host_runtime true) 3 lin32 (map d32 (cell 0)) corner)
    (inverseJacobian_wrapper F32Num (host_runtime true) 3 lin32 (map d32 (cell (-14))) corner)
    (fun r r' => is_finite (fst r) && Bltb (d32 (0, 0)%Z) (fst r) &&
      match nth_error (snd r) 1, nth_error (snd r') 1 with
      | Some y, Some y' => is_finite y && is_finite y' && negb (Beqb (Bmult mode_NE (d32 (1, 14)%Z) y) y')
      | _, _ => false
      end)) as ([d invJ] & [d' invJ'] & E & E' & H).
  { vm_compute. reflexivity. }
  cbn [fst snd] in H. apply andb_prop in H as [H K]. apply andb_prop in H as [F P].
  assert (K2 : exists y y', nth_error invJ 1 = Some y /\ nth_error invJ' 1 = Some y' /\
    is_finite y && is_finite y' && negb (Beqb (Bmult mode_NE (d32 (1, 14)%Z) y) y') = true).
  { revert K. case (nth_error invJ 1); [intros y|discriminate]. case (nth_error invJ' 1); [intros y' Q|discriminate].
    exists y, y'. split; [reflexivity|]. split; [reflexivity|exact Q]. }
  destruct K2 as (y & y' & N1 & N2 & Q). apply andb_prop in Q as [Q N]. apply andb_prop in Q as [Fy Fy']. apply negb_true_iff in N.
  exists (host_runtime true), corner, (map d32 (cell 0)), (map d32 (cell (-14))), d, d', invJ, invJ'. split.
  { unfold corner. cbn [map].
    assert (R : forall m e, (Z.abs m < 2 ^ 24)%Z -> (-149 <= e <= 100)%Z -> Rabs (IZR m * pow2 e) <= 1 -> InReference32 (d32 (m, e))).
    { intros m e Hm He HR. destruct (d32_exact m e Hm He) as (Fm & Em). split; [exact Fm|now rewrite Em]. }
    assert (R1 : InReference32 (d32 (-16777215, -24)%Z)).
    { apply R; [lia|lia|]. rewrite Rabs_mult, (Rabs_pos_eq (pow2 (-24))) by apply bpow_ge_0. rewrite <- abs_IZR.
      change (Z.abs (-16777215)) with 16777215%Z. apply Rle_trans with (pow2 24 * pow2 (-24)).
      - apply Rmult_le_compat_r; [apply bpow_ge_0|]. change (pow2 24) with (IZR (2 ^ 24)). apply IZR_le. lia.
      - rewrite <- bpow_plus. apply Rle_refl. }
    assert (R2 : InReference32 (d32 (-1, 0)%Z)).
    { apply R; [lia|lia|]. change (pow2 0) with 1. rewrite Rmult_1_r. unfold Rabs. destruct (Rcase_abs (-1)); lra. }
    constructor; [exact R1|]. constructor; [exact R1|]. constructor; [exact R2|constructor]. }
  split; [reflexivity|]. split; [reflexivity|]. split.
  { assert (P2 : forall m e, (m = 0 \/ 2 ^ (-14 - e) <= m <= 2 ^ (14 - e))%Z -> (0 <= m < 2 ^ 24)%Z -> (-100 <= e <= 0)%Z -> (e <= -14 \/ e = 0)%Z ->
      (m <> 0 -> (-14 - e < 0 -> 1 <= m))%Z ->
      Moderate 14 (d32 (m, e)) /\ Scaled (pow2 (-14)) (d32 (m, e)) (d32 (m, e + -14)%Z)).
    { intros m e Hm H24 He _ Hm0. destruct (d32_exact m e ltac:(lia) ltac:(lia)) as (F1 & E1). destruct (d32_exact m (e + -14) ltac:(lia) ltac:(lia)) as (F2 & E2).
      split; [split; [exact F1|]|split; [exact F1|split; [exact F2|rewrite E1, E2, bpow_plus; ring]]].
      rewrite E1. destruct (Z.eq_dec m 0) as [->|Nz]; [left; ring|right].
      destruct Hm as [Hm|[Lo Hi]]; [contradiction|]. rewrite Rabs_pos_eq by (apply Rmult_le_pos; [apply IZR_le; lia|apply bpow_ge_0]).
      assert (Z1 : pow2 (- (14)) = pow2 (-14 - e) * pow2 e) by (rewrite <- bpow_plus; f_equal; lia).
      assert (Z2 : pow2 14 = pow2 (14 - e) * pow2 e) by (rewrite <- bpow_plus; f_equal; lia).
      rewrite Z1, Z2. split; (apply Rmult_le_compat_r; [apply bpow_ge_0|]).
      - destruct (Z.lt_ge_cases (-14 - e) 0) as [C|C].
        + apply Rle_trans with 1; [apply (bpow_le radix2 _ 0); lia|apply IZR_le; now apply Hm0].
        + rewrite <- IZR_Zpower by lia. apply IZR_le. exact Lo.
      - rewrite <- IZR_Zpower by lia. apply IZR_le. exact Hi. }
    assert (Q0 : Moderate 14 (d32 (0, 0 + 0)%Z) /\ Scaled (pow2 (-14)) (d32 (0, 0 + 0)%Z) (d32 (0, 0 + -14)%Z)) by (apply (P2 0 0)%Z; lia).
    assert (Q1 : Moderate 14 (d32 (1, 0 + 0)%Z) /\ Scaled (pow2 (-14)) (d32 (1, 0 + 0)%Z) (d32 (1, 0 + -14)%Z)) by (apply (P2 1 0)%Z; lia).
    assert (Q2 : Moderate 14 (d32 (8388611, -37 + 0)%Z) /\ Scaled (pow2 (-14)) (d32 (8388611, -37 + 0)%Z) (d32 (8388611, -37 + -14)%Z)) by (apply (P2 8388611 (-37))%Z; lia).
    assert (Q3 : Moderate 14 (d32 (8404989, -23 + 0)%Z) /\ Scaled (pow2 (-14)) (d32 (8404989, -23 + 0)%Z) (d32 (8404989, -23 + -14)%Z)) by (apply (P2 8404989 (-23))%Z; lia).
    unfold cell. cbn [map fst snd]. repeat (constructor; [assumption|]). constructor. }
  split; [exact E|]. split; [exact E'|]. split; [exact F|].
  destruct (d32_exact 0 0 ltac:(lia) ltac:(lia)) as (F0 & E0). destruct (d32_exact 1 14 ltac:(lia) ltac:(lia)) as (F14 & E14).
  rewrite Bltb_correct in P by assumption. destruct (Rlt_bool_spec (B2R (d32 (0, 0)%Z)) (B2R d)) as [Pd|]; [|discriminate P].
  split; [rewrite E0 in Pd; lra|]. exists y, y'. split; [exact N1|]. split; [exact N2|]. split; [exact Fy|]. split; [exact Fy'|].
  pose proof (product_same32 _ _ _ F14 Fy Fy' N) as X. rewrite E14, Rmult_1_l in X. exact X.
Qed.

(** The cube [0,2]^3 and the box [0,4] x [-2,0] x [0,1]: the hypotheses are met. *)
Definition cube_a : list (Z * Z) := boxd 1 1.
Definition cube_b : list (Z * Z) := [(0,0);(0,0);(0,0); (0,0);(0,0);(1,0); (0,0);(-1,1);(0,0); (0,0);(-1,1);(1,0);
  (1,2);(0,0);(0,0); (1,2);(0,0);(1,0); (1,2);(-1,1);(0,0); (1,2);(-1,1);(1,0)]%Z.
Definition factor (i : Z) : R := match i with 0%Z => 2 | 1%Z => -1 | _ => / 2 end.
Lemma factor_power i : (0 <= i < 3)%Z -> PowerOfTwo 60 (factor i).
Proof.
  intros Hi. assert (C : (i = 0 \/ i = 1 \/ i = 2)%Z) by lia. destruct C as [->|[->| ->]].
  - exists 1%Z. split; [lia|left; reflexivity].
  - exists 0%Z. split; [lia|right; reflexivity].
  - exists (-1)%Z. split; [lia|left; reflexivity].
Qed.
Lemma cubes_witness : exists X X', Holds (owning [2; 2; 2; 3]%Z) (map d64 cube_a) X /\ Holds (owning [2; 2; 2; 3]%Z) (map d64 cube_b) X' /\
  forall s i, InRange [2; 2; 2]%Z s -> (0 <= i < 3)%Z -> Moderate 60 (X (s ++ [i])) /\ Scaled (factor i) (X (s ++ [i])) (X' (s ++ [i])).
Proof.
  assert (V : forall l, length l = 24%nat -> view_ok (buflen (map d64 l)) (owning [2; 2; 2; 3]%Z)).
  { intros l Hl. unfold view_ok, pos_dims, buflen. rewrite map_length, Hl. cbn [dims owning base].
    split; [split; [discriminate|split; [repeat constructor|vm_compute; discriminate]]|split; vm_compute; discriminate]. }
  destruct (Holds_exists (owning [2; 2; 2; 3]%Z) (map d64 cube_a) (V cube_a eq_refl)) as (X & HX).
  destruct (Holds_exists (owning [2; 2; 2; 3]%Z) (map d64 cube_b) (V cube_b eq_refl)) as (X' & HX').
  exists X, X'. split; [exact HX|]. split; [exact HX'|]. intros s i Hs Hi.
  assert (P : forall k m e m' e', (Z.abs m <= 1)%Z -> (0 <= e <= 2)%Z -> (Z.abs m' <= 1)%Z -> (0 <= e' <= 2)%Z -> IZR m' * pow2 e' = factor k * (IZR m * pow2 e) ->
    Moderate 60 (d64 (m, e)) /\ Scaled (factor k) (d64 (m, e)) (d64 (m', e'))).
  { intros k m e m' e' Hm He Hm' He' Q. destruct (d64_exact m e ltac:(lia) ltac:(lia)) as (F & E). destruct (d64_exact m' e' ltac:(lia) ltac:(lia)) as (F' & E').
    split; [split; [exact F|]|split; [exact F|split; [exact F'|now rewrite E', E]]]. rewrite E.
    destruct (Z.eq_dec m 0) as [->|N]; [left; ring|right]. rewrite Rabs_mult, (Rabs_pos_eq (pow2 e)) by apply bpow_ge_0.
    rewrite <- abs_IZR. replace (Z.abs m) with 1%Z by lia. rewrite Rmult_1_l. split; apply bpow_le; lia. }
  assert (G : forall (l : list (Z * Z)) Y t, Holds (owning [2; 2; 2; 3]%Z) (map d64 l) Y -> InRange [2; 2; 2; 3]%Z t ->
    option_map d64 (nth_error l (Z.to_nat (0 + rowmajor [2; 2; 2; 3]%Z t))) = Some (Y t)).
  { intros l Y t HY Ht. apply Holds_iff in HY as [_ R]. specialize (R t Ht). rewrite <- nth_error_map. exact R. }
  assert (K : forall a b d j, (0 <= a < 2)%Z -> (0 <= b < 2)%Z -> (0 <= d < 2)%Z -> (0 <= j < 3)%Z ->
    Moderate 60 (X [a; b; d; j]) /\ Scaled (factor j) (X [a; b; d; j]) (X' [a; b; d; j])).
  { intros a b d j Ha Hb Hd Hj.
    assert (Hr : InRange [2; 2; 2; 3]%Z [a; b; d; j]).
    { apply InRange_cons. exists a, [b; d; j]. split; [reflexivity|]. split; [exact Ha|].
      apply InRange_cons. exists b, [d; j]. split; [reflexivity|]. split; [exact Hb|].
      apply InRange_cons. exists d, [j]. split; [reflexivity|]. split; [exact Hd|].
      apply InRange_cons. exists j, []. split; [reflexivity|]. split; [exact Hj|]. now apply InRange_nil. }
    pose proof (G cube_a X _ HX Hr) as A. pose proof (G cube_b X' _ HX' Hr) as B. clear - A B P Ha Hb Hd Hj.
    assert (Ca : (a = 0 \/ a = 1)%Z) by lia. assert (Cb : (b = 0 \/ b = 1)%Z) by lia. assert (Cd : (d = 0 \/ d = 1)%Z) by lia.
    assert (Cj : (j = 0 \/ j = 1 \/ j = 2)%Z) by lia. clear Ha Hb Hd Hj.
    set (n := Z.to_nat (0 + rowmajor [2; 2; 2; 3]%Z [a; b; d; j])) in *.
    assert (C : exists m e m' e', nth_error cube_a n = Some (m, e) /\ nth_error cube_b n = Some (m', e') /\
      (Z.abs m <= 1)%Z /\ (0 <= e <= 2)%Z /\ (Z.abs m' <= 1)%Z /\ (0 <= e' <= 2)%Z /\ IZR m' * pow2 e' = factor j * (IZR m * pow2 e)).
    { unfold n. destruct Ca as [-> | ->], Cb as [-> | ->], Cd as [-> | ->], Cj as [->|[->| ->]];
        (do 4 eexists; split; [reflexivity|]; split; [reflexivity|]; repeat (split; [lia|]); cbn; lra). }
    destruct C as (m & e & m' & e' & N1 & N2 & B1 & B2 & B3 & B4 & Q). rewrite N1 in A. rewrite N2 in B. cbn [option_map] in A, B.
    injection A as <-. injection B as <-. now apply P. }
  apply InRange_cons in Hs as (a & t & -> & Ha & Hs). apply InRange_cons in Hs as (b & t' & -> & Hb & Hs).
  apply InRange_cons in Hs as (d & t'' & -> & Hd & Hs). apply InRange_nil in Hs as ->. cbn [app]. now apply K.
Qed.
