(** Exact arithmetic on floats that are small multiples of a power of two. *)
From Coq Require Import ZArith Reals Bool Lia Lra Psatz.
From Flocq Require Import Core IEEE754.BinarySingleNaN.
From Verif Require Import Base ProofBase Num ModelB64 ModelF32 ModelMath SpecMath SpecAccuracy SpecAccuracy32 ProofMath ProofF32 ProofErr32 ProofInverse32.
Local Open Scope R_scope.

(** [x] is the number m 2^e, m an integer of size at most [b]. *)
Definition Fx (x : b32) (e b : Z) (r : R) : Prop :=
  is_finite x = true /\ B2R x = r /\ exists m, (Z.abs m <= b)%Z /\ r = IZR m * pow2 e.

Lemma fx_size m e : (Z.abs m < 2 ^ 24)%Z -> Rabs (IZR m * pow2 e) <= pow2 (24 + e).
Proof.
  intros H. rewrite Rabs_mult, (Rabs_pos_eq (pow2 e)) by apply bpow_ge_0. rewrite bpow_plus.
  apply Rmult_le_compat_r; [apply bpow_ge_0|]. rewrite <- abs_IZR. change (pow2 24) with (IZR (2 ^ 24)). apply IZR_le. lia.
Qed.
Lemma fx_mult x y e f b c r s : Fx x e b r -> Fx y f c s -> (0 <= b)%Z -> (b * c < 2 ^ 24)%Z -> (-149 <= e + f <= 100)%Z ->
  Fx (Bmult mode_NE x y) (e + f) (b * c) (r * s).
Proof.
  intros (Fx & Ex & m & Hm & Er) (Fy & Ey & n & Hn & Es) Hb Hc He.
  assert (Hmn : (Z.abs (m * n) <= b * c)%Z) by (rewrite Z.abs_mul; nia).
  assert (E : r * s = IZR (m * n) * pow2 (e + f)) by (rewrite Er, Es, mult_IZR, bpow_plus; ring).
  destruct (B_mult x y (24 + (e + f)) Fx Fy ltac:(lia)) as (F & E' & _).
  { rewrite Ex, Ey, E. apply fx_size. lia. }
  split; [exact F|]. split; [|eauto]. rewrite E', Ex, Ey, E. apply rnd_id. apply fmt_int; lia.
Qed.
Lemma fx_plus x y e b c r s : Fx x e b r -> Fx y e c s -> (b + c < 2 ^ 24)%Z -> (-149 <= e <= 100)%Z ->
  Fx (Bplus mode_NE x y) e (b + c) (r + s).
Proof.
  intros (Fx & Ex & m & Hm & Er) (Fy & Ey & n & Hn & Es) Hc He.
  assert (E : r + s = IZR (m + n) * pow2 e) by (rewrite Er, Es, plus_IZR; ring).
  destruct (B_plus x y (24 + e) Fx Fy ltac:(lia)) as (F & E' & _).
  { rewrite Ex, Ey, E. apply fx_size. lia. }
  split; [exact F|]. split; [|exists (m + n)%Z; split; [lia|exact E]]. rewrite E', Ex, Ey, E. apply rnd_id. apply fmt_int; lia.
Qed.
Lemma fx_minus x y e b c r s : Fx x e b r -> Fx y e c s -> (b + c < 2 ^ 24)%Z -> (-149 <= e <= 100)%Z ->
  Fx (Bminus mode_NE x y) e (b + c) (r - s).
Proof.
  intros (Fx & Ex & m & Hm & Er) (Fy & Ey & n & Hn & Es) Hc He.
  assert (E : r - s = IZR (m - n) * pow2 e) by (rewrite Er, Es, minus_IZR; ring).
  destruct (B_minus x y (24 + e) Fx Fy ltac:(lia)) as (F & E' & _).
  { rewrite Ex, Ey, E. apply fx_size. lia. }
  split; [exact F|]. split; [|exists (m - n)%Z; split; [lia|exact E]]. rewrite E', Ex, Ey, E. apply rnd_id. apply fmt_int; lia.
Qed.

Section Exact.
Context (f : Z -> Z -> b32) (e b : Z) (He : (-30 <= e <= 30)%Z) (Hb : (0 <= b <= 2 ^ 7)%Z)
  (Hf : forall i j, (0 <= i <= 2)%Z -> (0 <= j <= 2)%Z -> Fx (f i j) e b (B2R (f i j))).
Let a : matrix := real_matrix32 f.

Lemma fx_cof2 p q r s P Q R S : Fx p e b P -> Fx q e b Q -> Fx r e b R -> Fx s e b S ->
  Fx (Bminus mode_NE (Bmult mode_NE p q) (Bmult mode_NE r s)) (e + e) (b * b + b * b) (P * Q - R * S).
Proof.
  intros Hp Hq Hr Hs. apply fx_minus; [apply fx_mult|apply fx_mult| |]; try assumption; try nia.
Qed.
Lemma fx_cof i j : (0 <= i <= 2)%Z -> (0 <= j <= 2)%Z -> Fx (cof F32Num f i j) (e + e) (b * b + b * b) (cof RNum a i j).
Proof.
  intros Hi Hj. assert (Ci : i = 0%Z \/ i = 1%Z \/ i = 2%Z) by lia. assert (Cj : j = 0%Z \/ j = 1%Z \/ j = 2%Z) by lia.
  destruct Ci as [->|[->| ->]]; destruct Cj as [->|[->| ->]]; cbn [cof minor0]; (apply fx_cof2; apply Hf; lia).
Qed.
Lemma fx_det : Fx (det3 F32Num f) (e + (e + e)) (b * (b * b + b * b) + b * (b * b + b * b) + b * (b * b + b * b)) (det3 RNum a).
Proof.
  assert (T : forall i, (0 <= i <= 2)%Z -> Fx (Bmult mode_NE (f i 0%Z) (cof F32Num f 0 i)) (e + (e + e)) (b * (b * b + b * b))
    (a i 0%Z * cof RNum a 0 i)).
  { intros i Hi. apply fx_mult; [apply Hf; lia|apply fx_cof; lia|lia|nia|lia]. }
  pose proof (T 0%Z ltac:(lia)). pose proof (T 1%Z ltac:(lia)). pose proof (T 2%Z ltac:(lia)).
  apply (fx_plus (Bplus mode_NE (Bmult mode_NE (f 0%Z 0%Z) (cof F32Num f 0 0)) (Bmult mode_NE (f 1%Z 0%Z) (cof F32Num f 0 1)))
    (Bmult mode_NE (f 2%Z 0%Z) (cof F32Num f 0 2))); [apply fx_plus| | |]; try assumption; try nia.
Qed.
End Exact.

Lemma exact_det32 A e : (-30 <= e <= 30)%Z ->
  (forall i j, (0 <= i < 3)%Z -> (0 <= j < 3)%Z -> is_finite (A i j) = true /\
     exists m, (Z.abs m <= 2 ^ 7)%Z /\ B2R (A i j) = IZR m * pow2 e) ->
  exists X d, inverse_c F32Num (rows_of A) = Ok (rows_of X, d) /\ is_finite d = true /\ B2R d = det 3 (real_matrix32 A).
Proof.
  intros He HA.
  assert (Hf : forall i j, (0 <= i <= 2)%Z -> (0 <= j <= 2)%Z -> Fx (A i j) e (2 ^ 7) (B2R (A i j))).
  { intros i j Hi Hj. destruct (HA i j ltac:(lia) ltac:(lia)) as (F & m & Hm & E). split; [exact F|]. eauto. }
  destruct (fx_det A e (2 ^ 7) He ltac:(lia) Hf) as (F & E & _).
  exists (inv3 F32Num A (fdiv (b32_ofZ 1) (det3 F32Num A))), (det3 F32Num A).
  split; [exact (inverse_c_any F32Num A _ eq_refl)|]. split; [exact F|]. rewrite E. apply det3_det.
Qed.

(** A determinant that is a power of two: the inverse is exact too. *)
Lemma exact_inverse32 A e k : (-30 <= e <= 30)%Z -> Rabs (det 3 (real_matrix32 A)) = pow2 k ->
  (forall i j, (0 <= i < 3)%Z -> (0 <= j < 3)%Z -> is_finite (A i j) = true /\
     exists m, (Z.abs m <= 2 ^ 7)%Z /\ B2R (A i j) = IZR m * pow2 e) ->
  exists X d, inverse_c F32Num (rows_of A) = Ok (rows_of X, d) /\
    (forall i j, (0 <= i < 3)%Z -> (0 <= j < 3)%Z -> is_finite (X i j) = true) /\
    Inverse 3 (real_matrix32 A) (real_matrix32 X).
Proof.
  intros He Hk HA.
  assert (Hf : forall i j, (0 <= i <= 2)%Z -> (0 <= j <= 2)%Z -> Fx (A i j) e (2 ^ 7) (B2R (A i j))).
  { intros i j Hi Hj. destruct (HA i j ltac:(lia) ltac:(lia)) as (F & m & Hm & E). split; [exact F|]. eauto. }
  destruct (fx_det A e (2 ^ 7) He ltac:(lia) Hf) as (F & E & m & Hm & Em).
  rewrite <- det3_det in Hk.
  assert (KE : (e + (e + e) <= k <= 24 + (e + (e + e)))%Z).
  { rewrite Em, Rabs_mult, (Rabs_pos_eq (pow2 _)) in Hk by apply bpow_ge_0.
    assert (m <> 0)%Z.
    { intros ->. rewrite Rabs_R0, Rmult_0_l in Hk. pose proof (bpow_gt_0 radix2 k). lra. }
    split.
    - apply (le_bpow radix2). rewrite <- Hk. rewrite <- (Rmult_1_l (pow2 (e + (e + e)))) at 1.
      apply Rmult_le_compat_r; [apply bpow_ge_0|]. rewrite <- abs_IZR. apply IZR_le. lia.
    - apply (le_bpow radix2). rewrite <- Hk, (bpow_plus radix2 24). apply Rmult_le_compat_r; [apply bpow_ge_0|].
      rewrite <- abs_IZR. change (pow2 24) with (IZR (2 ^ 24)). apply IZR_le. lia. }
  assert (V : Fx (fdiv (b32_ofZ 1) (det3 F32Num A)) (- k) 1 (/ det3 RNum (real_matrix32 A))).
  { assert (DN : det3 RNum (real_matrix32 A) <> 0).
    { intros Z. rewrite Z, Rabs_R0 in Hk. pose proof (bpow_gt_0 radix2 k). lra. }
    destruct (b32_ofZ_exact 1 ltac:(lia)) as [F1 E1].
    assert (I : / det3 RNum (real_matrix32 A) = pow2 (- k) \/ / det3 RNum (real_matrix32 A) = - pow2 (- k)).
    { rewrite bpow_opp, <- Hk. destruct (Rcase_abs (det3 RNum (real_matrix32 A))) as [N|N].
      - right. rewrite Rabs_left by exact N. field. exact DN.
      - left. rewrite Rabs_right by exact N. reflexivity. }
    assert (I' : exists n, (Z.abs n <= 1)%Z /\ / det3 RNum (real_matrix32 A) = IZR n * pow2 (- k)).
    { destruct I as [I|I]; [exists 1%Z|exists (-1)%Z]; (split; [lia|]); rewrite I; ring. }
    destruct (B_div (b32_ofZ 1) (det3 F32Num A) (- k) F1 F) as (F2 & E2 & _).
    - rewrite E. exact DN.
    - lia.
    - rewrite E1, E. unfold Rdiv. rewrite Rmult_1_l. destruct I as [-> | ->]; rewrite ?Rabs_Ropp, Rabs_pos_eq by apply bpow_ge_0; apply Rle_refl.
    - split; [exact F2|]. split; [|exact I']. rewrite E2, E1, E. unfold Rdiv. rewrite Rmult_1_l.
      destruct I' as (n & Hn & ->). apply rnd_id, fmt_int; lia. }
  exists (inv3 F32Num A (fdiv (b32_ofZ 1) (det3 F32Num A))), (det3 F32Num A).
  split; [exact (inverse_c_any F32Num A _ eq_refl)|].
  assert (X : forall i j, (0 <= i < 3)%Z -> (0 <= j < 3)%Z ->
    is_finite (inv3 F32Num A (fdiv (b32_ofZ 1) (det3 F32Num A)) i j) = true /\
    B2R (inv3 F32Num A (fdiv (b32_ofZ 1) (det3 F32Num A)) i j) = inv3 RNum (real_matrix32 A) (/ det3 RNum (real_matrix32 A)) i j).
  { intros i j Hi Hj. assert (E3 : in3 i j = true) by (unfold in3; lia). unfold inv3. rewrite E3.
    pose proof (fx_cof A e (2 ^ 7) He ltac:(lia) Hf i j ltac:(lia) ltac:(lia)) as C.
    destruct (fx_mult _ _ _ _ _ _ _ _ C V ltac:(lia) ltac:(lia) ltac:(lia)) as (FX & EX & _). split; [exact FX|exact EX]. }
  split; [intros i j Hi Hj; apply X; assumption|].
  assert (I : Inverse 3 (real_matrix32 A) (inv3 RNum (real_matrix32 A) (/ det3 RNum (real_matrix32 A)))).
  { apply inv3_Inverse. rewrite <- det3_det. apply Rinv_l. intros Z. rewrite Z, Rabs_R0 in Hk. pose proof (bpow_gt_0 radix2 k). lra. }
  intros i j Hi Hj. destruct (I i j Hi Hj) as [I1 I2]. simpl in Hi, Hj.
  assert (Y : forall i j, (0 <= i < 3)%Z -> (0 <= j < 3)%Z ->
     real_matrix32 (inv3 F32Num A (fdiv (b32_ofZ 1) (det3 F32Num A))) i j = inv3 RNum (real_matrix32 A) (/ det3 RNum (real_matrix32 A)) i j)
    by (intros; apply X; assumption).
  unfold matmul in *. change (zseq 3) with [0; 1; 2]%Z in *. cbn [map] in *. rewrite !Y by lia. split; [exact I1|exact I2].
Qed.

(** ** Where floats fail *)
Definition of_rows32 (l : list (list Z)) : Z -> Z -> b32 :=
  fun i j => b32_ofZ (nth (Z.to_nat j) (nth (Z.to_nat i) l []) 0%Z).
Lemma of_rows32_real l : (forall i j, Z.abs (nth j (nth i l []) 0) < 2 ^ 24)%Z ->
  forall i j, is_finite (of_rows32 l i j) = true /\ real_matrix32 (of_rows32 l) i j = IZR (nth (Z.to_nat j) (nth (Z.to_nat i) l []) 0%Z).
Proof. intros H i j. apply b32_ofZ_exact, H. Qed.
Lemma det_of_rows32 l (R : forall i j, is_finite (of_rows32 l i j) = true /\
    real_matrix32 (of_rows32 l) i j = IZR (nth (Z.to_nat j) (nth (Z.to_nat i) l []) 0%Z)) :
  let z i j := nth j (nth i l []) 0%Z in
  det 3 (real_matrix32 (of_rows32 l)) =
  IZR (z 0%nat 0%nat * (z 1%nat 1%nat * z 2%nat 2%nat - z 1%nat 2%nat * z 2%nat 1%nat)
     + z 1%nat 0%nat * (z 0%nat 2%nat * z 2%nat 1%nat - z 0%nat 1%nat * z 2%nat 2%nat)
     + z 2%nat 0%nat * (z 0%nat 1%nat * z 1%nat 2%nat - z 0%nat 2%nat * z 1%nat 1%nat)).
Proof.
  cbv zeta. rewrite <- det3_det. unfold det3, minor0. cbn [nmul nadd nsub RNum].
  rewrite !plus_IZR, !mult_IZR, !minus_IZR, !mult_IZR.
  rewrite (proj2 (R 0 0)%Z), (proj2 (R 0 1)%Z), (proj2 (R 0 2)%Z), (proj2 (R 1 0)%Z), (proj2 (R 1 1)%Z), (proj2 (R 1 2)%Z),
    (proj2 (R 2 0)%Z), (proj2 (R 2 1)%Z), (proj2 (R 2 2)%Z). reflexivity.
Qed.
Definition small_rows (l : list (list Z)) : bool := forallb (forallb (fun z => Z.abs z <? 2 ^ 24)%Z) l.
Lemma small_rows_spec l : small_rows l = true -> forall i j, (Z.abs (nth j (nth i l []) 0) < 2 ^ 24)%Z.
Proof.
  intros H i j. unfold small_rows in H. rewrite forallb_forall in H.
  assert (N : (Z.abs 0 < 2 ^ 24)%Z) by reflexivity.
  destruct (le_lt_dec (length l) i) as [L|L]; [rewrite (nth_overflow l [] L); destruct j; exact N|].
  pose proof (H _ (nth_In l [] L)) as Hr. rewrite forallb_forall in Hr.
  destruct (le_lt_dec (length (nth i l [])) j) as [L'|L']; [rewrite (nth_overflow _ _ L'); exact N|].
  pose proof (Hr _ (nth_In _ 0%Z L')). lia.
Qed.

Definition near_singular32 := [[4097; 4098; 0]; [4096; 4097; 0]; [0; 0; 1]]%Z.
Lemma invertible_refuted32 : exists A X d, Entries32 A /\ det 3 (real_matrix32 A) = 1 /\
  inverse_c F32Num (rows_of A) = Ok (rows_of X, d) /\ B2R d = 0 /\ is_finite (X 0%Z 0%Z) = false.
Proof.
  assert (S : forall i j, (Z.abs (nth j (nth i near_singular32 []) 0) < 2 ^ 24)%Z) by (apply small_rows_spec; reflexivity).
  pose proof (of_rows32_real _ S) as R.
  exists (of_rows32 near_singular32). eexists. eexists. split; [|split; [|split]].
  - intros i j _ _. destruct (R i j) as [F E]. split; [exact F|]. change (B2R (of_rows32 near_singular32 i j)) with (real_matrix32 (of_rows32 near_singular32) i j).
    rewrite E, <- abs_IZR. apply Rle_trans with (IZR (2 ^ 24)); [apply IZR_le; specialize (S (Z.to_nat i) (Z.to_nat j)); lia|].
    change (IZR (2 ^ 24)) with (pow2 24). apply bpow_le. lia.
  - rewrite (det_of_rows32 _ R). apply f_equal. vm_compute. reflexivity.
  - exact (inverse_c_any F32Num _ _ eq_refl).
  - assert (D : B2SF (det3 F32Num (of_rows32 near_singular32)) = SpecFloat.S754_zero false) by (vm_compute; reflexivity).
    split.
    + rewrite <- SF2R_B2SF, D. reflexivity.
    + assert (X : is_finite_SF (B2SF (inv3 F32Num (of_rows32 near_singular32) (fdiv (b32_ofZ 1) (det3 F32Num (of_rows32 near_singular32))) 0 0)) = false)
        by (vm_compute; reflexivity).
      rewrite is_finite_SF_B2SF in X. exact X.
Qed.

Definition singular_rows32 := [[987; 1828; 3073]; [218; 2261; 1008]; [2961; 5484; 9219]]%Z.
Lemma singular_refuted32 : exists A X d, Entries32 A /\ det 3 (real_matrix32 A) = 0 /\
  inverse_c F32Num (rows_of A) = Ok (rows_of X, d) /\ B2R d = 1024 /\
  forall i j, (0 <= i < 3)%Z -> (0 <= j < 3)%Z -> is_finite (X i j) = true.
Proof.
  assert (S : forall i j, (Z.abs (nth j (nth i singular_rows32 []) 0) < 2 ^ 24)%Z) by (apply small_rows_spec; reflexivity).
  pose proof (of_rows32_real _ S) as R.
  exists (of_rows32 singular_rows32). eexists. eexists. split; [|split; [|split]].
  - intros i j _ _. destruct (R i j) as [F E]. split; [exact F|]. change (B2R (of_rows32 singular_rows32 i j)) with (real_matrix32 (of_rows32 singular_rows32) i j).
    rewrite E, <- abs_IZR. apply Rle_trans with (IZR (2 ^ 24)); [apply IZR_le; specialize (S (Z.to_nat i) (Z.to_nat j)); lia|].
    change (IZR (2 ^ 24)) with (pow2 24). apply bpow_le. lia.
  - rewrite (det_of_rows32 _ R). apply f_equal. vm_compute. reflexivity.
  - exact (inverse_c_any F32Num _ _ eq_refl).
  - split.
    + assert (D : B2SF (det3 F32Num (of_rows32 singular_rows32)) = SpecFloat.S754_finite false 8388608 (-13)) by (vm_compute; reflexivity).
      rewrite <- SF2R_B2SF, D. unfold SF2R, F2R. cbn. lra.
    + assert (X : forallb (fun i => forallb (fun j => is_finite (inv3 F32Num (of_rows32 singular_rows32)
          (fdiv (b32_ofZ 1) (det3 F32Num (of_rows32 singular_rows32))) i j)) [0; 1; 2]%Z) [0; 1; 2]%Z = true) by (vm_compute; reflexivity).
      intros i j Hi Hj. rewrite forallb_forall in X.
      assert (Ii : In i [0; 1; 2]%Z) by (simpl; lia). assert (Ij : In j [0; 1; 2]%Z) by (simpl; lia).
      specialize (X i Ii). rewrite forallb_forall in X. exact (X j Ij).
Qed.

(** ** Examples *)
Definition good_rows32 := [[2; -1; 0]; [1; 3; 1]; [0; 1; 3]]%Z.
Lemma good_matrix32 : exists A, Entries32 A /\ det 3 (real_matrix32 A) = 19 /\ perm 3 (absm (real_matrix32 A)) = 23 /\
  pow2 (-40) <= Rabs (det 3 (real_matrix32 A)) /\
  14 * pow2 (-24) * perm 3 (absm (real_matrix32 A)) <= Rabs (det 3 (real_matrix32 A)).
Proof.
  assert (S : forall i j, (Z.abs (nth j (nth i good_rows32 []) 0) < 2 ^ 24)%Z) by (apply small_rows_spec; reflexivity).
  pose proof (of_rows32_real _ S) as R. exists (of_rows32 good_rows32).
  assert (E : det 3 (real_matrix32 (of_rows32 good_rows32)) = 19) by (rewrite (det_of_rows32 _ R); apply f_equal; reflexivity).
  assert (P : perm 3 (absm (real_matrix32 (of_rows32 good_rows32))) = 23).
  { transitivity (IZR (2 * (9 + 1) + 1 * (3 + 0) + 0 * 1)); [|apply f_equal; reflexivity].
    rewrite <- aperm_perm. unfold aperm, acof, R2.
    change (fun i j => B2R (of_rows32 good_rows32 i j)) with (real_matrix32 (of_rows32 good_rows32)) in *.
    repeat match goal with |- context [B2R (of_rows32 good_rows32 ?i ?j)] =>
      change (B2R (of_rows32 good_rows32 i j)) with (real_matrix32 (of_rows32 good_rows32) i j); rewrite (proj2 (R i j)) end.
    rewrite <- !abs_IZR. rewrite <- !mult_IZR, <- !plus_IZR, <- !mult_IZR, <- !plus_IZR. apply f_equal. vm_compute. reflexivity. }
  split; [|split; [exact E|split; [exact P|]]].
  - intros i j _ _. destruct (R i j) as [F E']. split; [exact F|]. change (B2R (of_rows32 good_rows32 i j)) with (real_matrix32 (of_rows32 good_rows32) i j).
    rewrite E', <- abs_IZR. apply Rle_trans with (IZR (2 ^ 24)); [apply IZR_le; specialize (S (Z.to_nat i) (Z.to_nat j)); lia|].
    change (IZR (2 ^ 24)) with (pow2 24). apply bpow_le. lia.
  - rewrite E, P, Rabs_pos_eq by lra. split.
    + apply Rle_trans with (pow2 0); [apply bpow_le; lia|]. cbn. lra.
    + change (pow2 (-24)) with (/ 16777216). lra.
Qed.
