(** Linear elements under a change of unit by powers of two, in binary64. *)
From Coq Require Import ZArith Reals Bool List Lia Lra.
From Flocq Require Import Core IEEE754.BinarySingleNaN.
From Verif Require Import Base ProofBase Num ModelB64 SpecIndex ProofBox ModelSequence ModelAssert ModelCArray SpecCArray ProofRep ModelSpacing ModelLagrange ModelBasisProduct ModelMath
  ModelTransforms SpecB64 SpecScale ProofB64 ProofTensor ProofGeneric ProofMath ProofNodes64 ProofLinear64 ProofPositive64 ProofScale64.
Local Open Scope R_scope.

Notation Fac v := (Sc v v 0 1 (-54) 0).
Lemma Fac_intro (v : b64) : is_finite v = true -> Grid (-54) (B2R v) -> Rabs (B2R v) <= 1 -> Fac v.
Proof.
  intros F G B. split; [exact F|]. split; [exact F|]. split; [now left|]. split; [change (pow2 0) with 1; ring|]. split; [exact G|exact B].
Qed.
Definition LinL (l : local b64) : Prop := ln l = 2%Z /\ forall i, (0 <= i < 2)%Z -> Fac (lv l i) /\ Fac (lg l i).

Lemma grain_near_one y : InReference y -> Grid (-53) (rnd (1 - B2R y)) /\ Grid (-53) (rnd (1 + B2R y)).
Proof.
  assert (K : forall z, fmt z -> Rabs z <= 1 -> Grid (-53) (rnd (1 - z))).
  { intros z Fz Hz. destruct (Rle_or_lt (pow2 (-1)) (Rabs z)) as [H|H].
    - destruct (fmt_grain z (-1) Fz ltac:(lia) H) as (m & E). apply Grid_rnd; [lia|]. apply Grid_minus; [|now exists m].
      exists (2 ^ 53)%Z. change (IZR (2 ^ 53)) with (pow2 53). rewrite <- bpow_plus. reflexivity.
    - assert (H1 : pow2 (-1) <= Rabs (rnd (1 - z))).
      { rewrite <- rnd_abs, <- (rnd_id (pow2 (-1))) by (apply fmt_pow2; lia). apply rnd_le. change (pow2 (-1)) with (/ 2) in *.
        apply Rabs_lt_inv in H. rewrite Rabs_pos_eq; lra. }
      destruct (fmt_grain _ (-1) (rnd_fmt (1 - z)) ltac:(lia) H1) as (m & E). now exists m. }
  intros (F & B). split; [apply K; [apply fmt_B|exact B]|].
  replace (1 + B2R y) with (1 - - B2R y) by ring. apply K; [apply generic_format_opp, fmt_B|rewrite Rabs_Ropp; exact B].
Qed.
Lemma linear_lin s y : at_ends s -> InReference y -> exists l, LocalAt B64Num (linear s) y l /\ LinL l.
Proof.
  intros Hs Hy. destruct (linear_values s Hs y Hy) as (v0 & v1 & g0 & g1 & E0 & E1 & G0 & G1 & (Fv0 & V0) & (Fv1 & V1) & (Fg0 & W0) & (Fg1 & W1)).
  exists {| ln := 2; lv := fun i => if (i =? 0)%Z then v0 else v1; lg := fun i => if (i =? 0)%Z then g0 else g1 |}.
  split; [split; [reflexivity|split; [reflexivity|]]|split; [reflexivity|]]; cbn [ln lv lg].
  - intros i Hi. assert (C : (i = 0 \/ i = 1)%Z) by lia. destruct C as [->| ->]; cbn [Z.eqb]; now split.
  - intros i _. destruct (grain_near_one y Hy) as [A0 A1]. destruct Hy as (Fy & By). apply Rabs_le_inv in By.
    assert (R0 : forall z, 0 <= z <= 2 -> 0 <= rnd z <= 2).
    { intros z [L U]. apply rnd_le in L. apply rnd_le in U. rewrite rnd_0 in L. change 2 with (pow2 1) in U at 1.
      rewrite (rnd_id (pow2 1)) in U by (apply fmt_pow2; lia). split; [exact L|exact U]. }
    pose proof (R0 (1 - B2R y) ltac:(lra)) as B0. pose proof (R0 (1 + B2R y) ltac:(lra)) as B1.
    assert (D : forall z, Grid (-53) z -> Grid (-54) (z / 2)).
    { intros z (m & ->). exists m. replace (-54)%Z with (-53 + -1)%Z by lia. rewrite bpow_plus. change (pow2 (-1)) with (/ 2). unfold Rdiv. ring. }
    assert (H1 : Grid (-54) (/ 2)).
    { exists (2 ^ 53)%Z. change (IZR (2 ^ 53)) with (pow2 53). rewrite <- bpow_plus. reflexivity. }
    split; destruct (i =? 0)%Z; apply Fac_intro; try assumption.
    + rewrite V0. now apply D.
    + rewrite V0, Rabs_pos_eq; lra.
    + rewrite V1. now apply D.
    + rewrite V1, Rabs_pos_eq; lra.
    + rewrite W0. replace (- / 2) with (0 - / 2) by ring. apply Grid_minus; [apply Grid_0|exact H1].
    + rewrite W0, Rabs_Ropp, Rabs_pos_eq; lra.
    + rewrite W1. exact H1.
    + rewrite W1, Rabs_pos_eq; lra.
Qed.
Lemma linear_lins ss : forall xi, Forall at_ends ss -> Forall InReference xi -> (length ss <= length xi)%nat ->
  exists ls, LocalsAt B64Num (map linear ss) xi ls /\ lcounts ls = map (fun _ => 2%Z) ss /\ Forall LinL ls.
Proof.
  induction ss as [|s ss IH]; intros xi Hs Hx Hl.
  - exists []. split; [constructor|]. split; [reflexivity|constructor].
  - destruct xi as [|y xi]; [cbn in Hl; lia|]. inversion_clear Hs. inversion_clear Hx.
    destruct (linear_lin s y) as (l & L & U); [assumption|assumption|].
    destruct (IH xi) as (ls & LS & C & F); [assumption|assumption|cbn in Hl; lia|].
    exists (l :: ls). split; [now constructor|]. split; [exact (f_equal2 (@cons Z) (proj1 U) C)|now constructor].
Qed.
Lemma lin_factors G ls : Forall LinL ls -> forall off idx, InRange (lcounts ls) idx ->
  Forall (fun v => Fac v) (factors G off ls idx) /\ length (factors G off ls idx) = length ls.
Proof.
  induction 1 as [|l ls Hu _ IH]; intros off idx Hi; [split; [constructor|reflexivity]|].
  change (lcounts (l :: ls)) with (ln l :: lcounts ls) in Hi. apply InRange_cons in Hi as (i & t & -> & Hi & Ht). cbn [factors length].
  destruct Hu as (E2 & Hu). rewrite E2 in Hi. destruct (Hu i Hi) as [P Q]. destruct (IH (off + 1)%Z t Ht) as [R S].
  split; [constructor; [destruct (G =? off)%Z; assumption|exact R]|now rewrite S].
Qed.
Lemma Fac_mulR (vs : list b64) : Forall (fun v => Fac v) vs -> vs <> [] -> (length vs <= 3)%nat ->
  Sc (mulR (N := B64Num) vs) (mulR (N := B64Num) vs) 0 1 (-162) 0.
Proof.
  intros H Hne Hl. destruct H as [|a vs Ha H]; [congruence|]. destruct H as [|b vs Hb H].
  - cbn [mulR]. apply (Sc_le _ _ _ _ (-54) 0); [exact Ha|lia|lia].
  - destruct H as [|d vs Hd H].
    + cbn [mulR]. pose proof (Sc_mult _ _ _ _ _ _ _ _ _ _ _ _ Ha Hb ltac:(unfold fits; lia)) as P. rewrite Rmult_1_l in P.
      apply (Sc_le _ _ _ _ (-54 + -54) 0); [exact P|lia|lia].
    + destruct vs as [|x vs]; [|cbn in Hl; lia]. cbn [mulR].
      pose proof (Sc_mult _ _ _ _ _ _ _ _ _ _ _ _ Hb Hd ltac:(unfold fits; lia)) as P. rewrite Rmult_1_l in P.
      pose proof (Sc_mult _ _ _ _ _ _ _ _ _ _ _ _ Ha P ltac:(unfold fits; lia)) as Q. rewrite Rmult_1_l in Q. exact Q.
Qed.
Lemma lin_tensor G ls idx : Forall LinL ls -> ls <> [] -> (length ls <= 3)%nat -> InRange (lcounts ls) idx ->
  Sc (mulR (N := B64Num) (factors G 0 ls idx)) (mulR (N := B64Num) (factors G 0 ls idx)) 0 1 (-162) 0.
Proof.
  intros H Hne Hl Hi. destruct (lin_factors G ls H 0%Z idx Hi) as [F L]. apply Fac_mulR; [exact F| |now rewrite L].
  intros E. rewrite E in L. destruct ls; [congruence|discriminate].
Qed.

(** Data. *)
Lemma moderate_Sc B k s (x x' : b64) c : (0 <= B <= 900)%Z -> Moderate B x -> Scaled c x x' -> s = 1 \/ s = -1 -> c = s * pow2 k ->
  Sc x x' k s (- B - 52) B.
Proof.
  intros HB (_ & M) (F & F' & E) Hs Ec. split; [exact F|]. split; [exact F'|]. split; [exact Hs|]. split; [now rewrite E, Ec|].
  destruct M as [M | [L U]].
  - rewrite M. split; [apply Grid_0|]. rewrite Rabs_R0. apply bpow_ge_0.
  - split; [|exact U]. apply (fmt_grain (B2R x) (- B)); [apply fmt_B|lia|exact L].
Qed.
Lemma power_sign K c : PowerOfTwo K c -> exists k s, (- K <= k <= K)%Z /\ (s = 1 \/ s = -1) /\ c = s * pow2 k.
Proof.
  intros (k & Hk & [-> | ->]).
  - exists k, 1. split; [exact Hk|]. split; [now left|ring].
  - exists k, (-1). split; [exact Hk|]. split; [now right|ring].
Qed.
Lemma Sc_Scaled a a' k s e m c : Sc a a' k s e m -> c = s * pow2 k -> Scaled c a a'.
Proof. intros (F & F' & _ & E & _) ->. split; [exact F|]. split; [exact F'|exact E]. Qed.

Lemma box_size ss : (length ss <= 3)%nat -> (length (zbox (map (fun _ : spacing => 2%Z) ss)) <= 8)%nat.
Proof. intros H. destruct ss as [|? [|? [|? [|? ?]]]]; cbn [length] in H; try lia; vm_compute; lia. Qed.

(** Sums of tensor products with scaled data. *)
Lemma scaled_sum G ls (w w' : list Z -> b64) (ss : list spacing) B k s : lcounts ls = map (fun _ => 2%Z) ss -> Forall LinL ls -> ls <> [] -> (length ss <= 3)%nat ->
  (forall t, InRange (lcounts ls) t -> Sc (w t) (w' t) k s (- B - 52) B) -> s = 1 \/ s = -1 ->
  (0 <= B)%Z -> (- B - 214 + k >= -1022)%Z -> (- B - 214 >= -1022)%Z -> (B + 8 < 1024)%Z -> (B + 8 + k < 1024)%Z ->
  Sc (addL (N := B64Num) (fun t => Bmult mode_NE (mulR (N := B64Num) (factors G 0 ls t)) (w t)) (zbox (lcounts ls)) (b64_ofZ 0))
     (addL (N := B64Num) (fun t => Bmult mode_NE (mulR (N := B64Num) (factors G 0 ls t)) (w' t)) (zbox (lcounts ls)) (b64_ofZ 0))
     k s (- B - 214) (B + 8).
Proof.
  intros C L Hne Hd Hw Hs H1 H2 H3 H4 H5.
  assert (Len : length ls = length ss) by (apply (f_equal (@length Z)) in C; unfold lcounts in C; now rewrite !map_length in C).
  pose proof (box_size ss Hd) as Z8. rewrite <- C in Z8.
  apply (Sc_le _ _ _ _ (- B - 214) (B + Z.of_nat (length (zbox (lcounts ls))))); [|lia|lia].
  apply Sc_addL with (m := B); [|now apply Sc_zero|lia|unfold fits; lia|lia|lia].
  intros t Ht. apply in_zbox in Ht.
  pose proof (lin_tensor G ls t L Hne ltac:(lia) Ht) as P.
  pose proof (Sc_mult _ _ _ _ _ _ _ _ _ _ _ _ P (Hw t Ht) ltac:(unfold fits; lia)) as Q.
  rewrite Rmult_1_l in Q. replace (-162 + (- B - 52))%Z with (- B - 214)%Z in Q by lia. exact Q.
Qed.

(** Interpolated values and gradients. *)
Section Field.
Context (ss : list spacing) (Hne : ss <> []) (Hd : (length ss <= 3)%nat) (Hs : Forall at_ends ss).
Context (xi : list b64) (Hx : Forall InReference xi) (Hl : (length ss <= length xi)%nat).
Context (B K : Z) (HB : (0 <= B)%Z) (HK : (0 <= K)%Z) (HBK : (B + K <= 800)%Z) (c : R) (Hc : PowerOfTwo K c) (var var' : list Z -> outcome b64) (w w' : list Z -> b64).
Context (Hw : forall t, InRange (map (fun _ => 2%Z) ss) t ->
  var t = Ok (w t) /\ var' t = Ok (w' t) /\ Moderate B (w t) /\ Scaled c (w t) (w' t)).
Lemma scaled_field_lemma (cx : ctx) :
  exists v v' g g', parent_value B64Num (Z.of_nat (length ss)) (map linear ss) var xi = Ok v /\
    parent_value B64Num (Z.of_nat (length ss)) (map linear ss) var' xi = Ok v' /\
    parent_gradient B64Num cx (Z.of_nat (length ss)) (map linear ss) var xi = Ok g /\
    parent_gradient B64Num cx (Z.of_nat (length ss)) (map linear ss) var' xi = Ok g' /\
    Scaled c v v' /\ length g = length ss /\ length g' = length ss /\
    forall j, (j < length ss)%nat -> Scaled c (nth j g (b64_ofZ 0)) (nth j g' (b64_ofZ 0)).
Proof using All.
  destruct (linear_lins ss xi Hs Hx Hl) as (ls & LS & C & U). destruct (locals_ne ss ls Hne C) as [Lne Len].
  destruct (power_sign K c Hc) as (k & s & Hk & Hsg & Ec).
  assert (HW : forall t, InRange (lcounts ls) t -> Sc (w t) (w' t) k s (- B - 52) B).
  { intros t Ht. rewrite C in Ht. destruct (Hw t Ht) as (_ & _ & M & S). apply (moderate_Sc B k s _ _ c); [lia|exact M|exact S|exact Hsg|exact Ec]. }
  assert (V : forall t, InRange (lcounts ls) t -> var t = Ok (w t)) by (intros t Ht; rewrite C in Ht; apply (Hw t Ht)).
  assert (V' : forall t, InRange (lcounts ls) t -> var' t = Ok (w' t)) by (intros t Ht; rewrite C in Ht; apply (Hw t Ht)).
  pose proof (parent_valueL B64Num (map linear ss) ls var w xi LS Lne V) as EV.
  pose proof (parent_valueL B64Num (map linear ss) ls var' w' xi LS Lne V') as EV'.
  assert (LM : (Z.of_nat (@length (local b64) ls) <= INT_MAX)%Z) by (unfold INT_MAX; lia).
  destruct (parent_gradientL B64Num cx (map linear ss) ls var w xi LS Lne LM V) as (g & EG & LG & NG).
  destruct (parent_gradientL B64Num cx (map linear ss) ls var' w' xi LS Lne LM V') as (g' & EG' & LG' & NG').
  change (@length (local (T B64Num)) ls) with (@length (local b64) ls) in *. rewrite Len in *.
  eexists. eexists. exists g, g'. split; [exact EV|]. split; [exact EV'|]. split; [exact EG|]. split; [exact EG'|].
  assert (SUM : forall G, Scaled c
     (addL (N := B64Num) (fun t => Bmult mode_NE (mulR (N := B64Num) (factors G 0 ls t)) (w t)) (zbox (lcounts ls)) (b64_ofZ 0))
     (addL (N := B64Num) (fun t => Bmult mode_NE (mulR (N := B64Num) (factors G 0 ls t)) (w' t)) (zbox (lcounts ls)) (b64_ofZ 0))).
  { intros G. eapply Sc_Scaled; [apply (scaled_sum G ls w w' ss B k s C U Lne Hd HW Hsg); lia|exact Ec]. }
  split; [exact (SUM (-1)%Z)|]. split; [exact LG|]. split; [exact LG'|].
  intros j Hj. pose proof (NG j Hj) as E1. pose proof (NG' j Hj) as E2.
  change (nofZ B64Num 0) with (b64_ofZ 0) in E1, E2. 
  exact (eq_ind_r (fun a => Scaled c a _) (eq_ind_r (fun b => Scaled c _ b) (SUM (Z.of_nat j)) E2) E1).
Qed.
End Field.

(** Cells. *)
Lemma Sc_cast a a' k s e m k' s' e' m' : Sc a a' k s e m -> k = k' -> s = s' -> e = e' -> m = m' -> Sc a a' k' s' e' m'.
Proof. intros H -> -> -> ->. exact H. Qed.
Lemma Sc_inv d d' k s e m : Sc d d' k s e m -> B2R d <> 0 -> (-1022 <= e)%Z -> (-1022 <= e + k)%Z -> (e <= 1022)%Z -> (e + k <= 1022)%Z -> (-1022 <= m <= 1022)%Z -> (-1022 <= m + k <= 1022)%Z ->
  Sc (Bdiv mode_NE (b64_ofZ 1) d) (Bdiv mode_NE (b64_ofZ 1) d') (- k) s (- m - 52) (- e).
Proof.
  intros (F & F' & Hs & E & G & B) Hd H1 H2 H3 H4 H5 H6. destruct (b64_ofZ_exact 1 ltac:(lia)) as (F1 & E1).
  set (x := B2R d) in *. pose proof (Grid_abs e x G Hd) as L.
  pose proof (bpow_gt_0 radix2 e) as Pe. pose proof (bpow_gt_0 radix2 m) as Pm. pose proof (bpow_gt_0 radix2 k) as Pk.
  assert (U : Rabs (/ x) <= pow2 (- e)).
  { rewrite Rabs_inv, bpow_opp. apply Rinv_le; assumption. }
  assert (W : pow2 (- m) <= Rabs (/ x)).
  { rewrite Rabs_inv, bpow_opp. apply Rinv_le; [eapply Rlt_le_trans; [exact Pe|exact L]|exact B]. }
  assert (Hd' : B2R d' <> 0).
  { rewrite E. destruct Hs as [-> | ->]; apply Rmult_integral_contrapositive_currified; try exact Hd; lra. }
  assert (Ei : / B2R d' = s * pow2 (- k) * / x).
  { rewrite E, bpow_opp. destruct Hs as [-> | ->]; field; split; lra || exact Hd. }
  destruct (B_div (b64_ofZ 1) d (- e) F1 Hd ltac:(lia)) as (FD & ED & BD).
  { rewrite E1. unfold Rdiv. rewrite Rmult_1_l. exact U. }
  destruct (B_div (b64_ofZ 1) d' (- e + - k) F1 Hd' ltac:(lia)) as (FD' & ED' & _).
  { rewrite E1. unfold Rdiv. rewrite Rmult_1_l, Ei. now apply abs_scaled. }
  rewrite E1 in ED, ED'. unfold Rdiv in ED, ED'. rewrite Rmult_1_l in ED, ED'. fold x in ED.
  split; [exact FD|]. split; [exact FD'|]. split; [exact Hs|].
  assert (R : rnd (/ x * pow2 (- k)) = rnd (/ x) * pow2 (- k)).
  { apply rnd_pow2.
    - eapply Rle_trans; [|exact W]. apply bpow_le. lia.
    - rewrite Rabs_mult, (Rabs_pos_eq (pow2 (- k))) by apply bpow_ge_0.
      apply Rle_trans with (pow2 (- m + - k)); [apply bpow_le; lia|]. rewrite bpow_plus.
      apply Rmult_le_compat_r; [apply bpow_ge_0|exact W]. }
  split.
  - rewrite ED', ED, Ei. destruct Hs as [-> | ->].
    + replace (1 * pow2 (- k) * / x) with (/ x * pow2 (- k)) by ring. rewrite R. ring.
    + replace (-1 * pow2 (- k) * / x) with (- (/ x * pow2 (- k))) by ring. rewrite rnd_opp, R. ring.
  - split; [|exact BD]. rewrite ED.
    assert (W2 : pow2 (- m) <= Rabs (rnd (/ x))).
    { rewrite <- rnd_abs, <- (rnd_id (pow2 (- m))) by (apply fmt_pow2; lia). now apply rnd_le. }
    apply (fmt_grain _ (- m)); [apply rnd_fmt|lia|exact W2].
Qed.

Section Matrix.
Context (f f' : Z -> Z -> b64) (k : Z -> Z) (s : Z -> R).
Context (Hk : forall i, (-60 <= k i <= 60)%Z) (Hs : forall i, s i = 1 \/ s i = -1).
Context (Hf : forall i j, (0 <= i < 3)%Z -> (0 <= j < 3)%Z -> Sc (f i j) (f' i j) (k i) (s i) (-274) 68).

Lemma minor_Sc p q a b a' b' : (0 <= p < 3)%Z -> (0 <= q < 3)%Z -> (0 <= a < 3)%Z -> (0 <= b < 3)%Z -> (0 <= a' < 3)%Z -> (0 <= b' < 3)%Z ->
  Sc (Bminus mode_NE (Bmult mode_NE (f p a) (f q b)) (Bmult mode_NE (f p a') (f q b')))
     (Bminus mode_NE (Bmult mode_NE (f' p a) (f' q b)) (Bmult mode_NE (f' p a') (f' q b'))) (k p + k q) (s p * s q) (-548) 137.
Proof using All.
  intros Hp Hq Ha Hb Ha' Hb'. pose proof (Hk p). pose proof (Hk q).
  assert (P : forall x y, (0 <= x < 3)%Z -> (0 <= y < 3)%Z ->
    Sc (Bmult mode_NE (f p x) (f q y)) (Bmult mode_NE (f' p x) (f' q y)) (k p + k q) (s p * s q) (-548) 136).
  { intros x y Hx Hy. exact (Sc_mult _ _ _ _ _ _ _ _ _ _ _ _ (Hf p x Hp Hx) (Hf q y Hq Hy) ltac:(unfold fits; lia)). }
  exact (Sc_minus _ _ _ _ _ _ _ _ (P a b Ha Hb) (P a' b' Ha' Hb') ltac:(unfold fits; lia)).
Qed.
Definition others (j : Z) : Z * Z := match j with 0 => (1, 2) | 1 => (0, 2) | _ => (0, 1) end%Z.
Lemma cof_Sc i j : (0 <= i < 3)%Z -> (0 <= j < 3)%Z ->
  Sc (cof B64Num f i j) (cof B64Num f' i j) (k (fst (others j)) + k (snd (others j))) (s (fst (others j)) * s (snd (others j))) (-548) 137.
Proof using All.
  intros Hi Hj. assert (Ci : (i = 0 \/ i = 1 \/ i = 2)%Z) by lia. assert (Cj : (j = 0 \/ j = 1 \/ j = 2)%Z) by lia.
  destruct Ci as [->|[->| ->]]; destruct Cj as [->|[->| ->]].
  - exact (minor_Sc 1 2 1 2 2 1 ltac:(lia) ltac:(lia) ltac:(lia) ltac:(lia) ltac:(lia) ltac:(lia)).
  - exact (minor_Sc 0 2 2 1 1 2 ltac:(lia) ltac:(lia) ltac:(lia) ltac:(lia) ltac:(lia) ltac:(lia)).
  - exact (minor_Sc 0 1 1 2 2 1 ltac:(lia) ltac:(lia) ltac:(lia) ltac:(lia) ltac:(lia) ltac:(lia)).
  - exact (minor_Sc 1 2 2 0 0 2 ltac:(lia) ltac:(lia) ltac:(lia) ltac:(lia) ltac:(lia) ltac:(lia)).
  - exact (minor_Sc 0 2 0 2 2 0 ltac:(lia) ltac:(lia) ltac:(lia) ltac:(lia) ltac:(lia) ltac:(lia)).
  - exact (minor_Sc 0 1 2 0 0 2 ltac:(lia) ltac:(lia) ltac:(lia) ltac:(lia) ltac:(lia) ltac:(lia)).
  - exact (minor_Sc 1 2 0 1 1 0 ltac:(lia) ltac:(lia) ltac:(lia) ltac:(lia) ltac:(lia) ltac:(lia)).
  - exact (minor_Sc 0 2 1 0 0 1 ltac:(lia) ltac:(lia) ltac:(lia) ltac:(lia) ltac:(lia) ltac:(lia)).
  - exact (minor_Sc 0 1 0 1 1 0 ltac:(lia) ltac:(lia) ltac:(lia) ltac:(lia) ltac:(lia) ltac:(lia)).
Qed.
Let kd := (k 0 + k 1 + k 2)%Z.
Let sd := s 0 * s 1 * s 2.
Lemma det_Sc : Sc (det3 B64Num f) (det3 B64Num f') kd sd (-822) 207.
Proof using All.
  pose proof (Hk 0). pose proof (Hk 1). pose proof (Hk 2). pose proof (cof_Sc 0 0 ltac:(lia) ltac:(lia)) as M0.
  pose proof (cof_Sc 0 1 ltac:(lia) ltac:(lia)) as M1. pose proof (cof_Sc 0 2 ltac:(lia) ltac:(lia)) as M2.
  cbn [others fst snd] in M0, M1, M2.
  assert (P0 := Sc_mult _ _ _ _ _ _ _ _ _ _ _ _ (Hf 0 0 ltac:(lia) ltac:(lia)) M0 ltac:(unfold fits; lia)).
  assert (P1 := Sc_mult _ _ _ _ _ _ _ _ _ _ _ _ (Hf 1 0 ltac:(lia) ltac:(lia)) M1 ltac:(unfold fits; lia)).
  assert (P2 := Sc_mult _ _ _ _ _ _ _ _ _ _ _ _ (Hf 2 0 ltac:(lia) ltac:(lia)) M2 ltac:(unfold fits; lia)).
  apply (Sc_cast _ _ _ _ _ _ kd sd (-822) 205) in P0; [|unfold kd; lia|unfold sd; ring|reflexivity|reflexivity].
  apply (Sc_cast _ _ _ _ _ _ kd sd (-822) 205) in P1; [|unfold kd; lia|unfold sd; ring|reflexivity|reflexivity].
  apply (Sc_cast _ _ _ _ _ _ kd sd (-822) 205) in P2; [|unfold kd; lia|unfold sd; ring|reflexivity|reflexivity].
  assert (Q := Sc_plus _ _ _ _ _ _ _ _ P0 P1 ltac:(unfold fits, kd; lia)).
  apply (Sc_le _ _ _ _ (-822) 205 (-822) 206) in P2; [|lia|lia].
  exact (Sc_plus _ _ _ _ _ _ _ _ Q P2 ltac:(unfold fits, kd; lia)).
Qed.
Lemma inv_Sc i j : B2R (det3 B64Num f) <> 0 -> (0 <= i < 3)%Z -> (0 <= j < 3)%Z ->
  Sc (inv3 B64Num f (Bdiv mode_NE (b64_ofZ 1) (det3 B64Num f)) i j) (inv3 B64Num f' (Bdiv mode_NE (b64_ofZ 1) (det3 B64Num f')) i j)
     (- k j) (s j) (-807) 959.
Proof using All.
  intros Hd Hi Hj. pose proof (Hk 0). pose proof (Hk 1). pose proof (Hk 2).
  assert (D := Sc_inv _ _ _ _ _ _ det_Sc Hd ltac:(lia) ltac:(unfold kd; lia) ltac:(lia) ltac:(unfold kd; lia) ltac:(lia) ltac:(unfold kd; lia)).
  assert (I : in3 i j = true) by (unfold in3; lia). unfold inv3. rewrite I.
  assert (C := cof_Sc i j Hi Hj).
  assert (X : (k (fst (others j)) + k (snd (others j)) + - kd = - k j)%Z /\ s (fst (others j)) * s (snd (others j)) * sd = s j).
  { assert (Q : forall z, s z * s z = 1) by (intros z; destruct (Hs z) as [-> | ->]; ring).
    pose proof (Q 0%Z). pose proof (Q 1%Z). pose proof (Q 2%Z).
    assert (Cj : (j = 0 \/ j = 1 \/ j = 2)%Z) by lia. unfold kd, sd. destruct Cj as [->|[->| ->]]; cbn [others fst snd]; split; try lia.
    - replace (s 1%Z * s 2%Z * (s 0%Z * s 1%Z * s 2%Z)) with (s 0%Z * (s 1%Z * s 1%Z) * (s 2%Z * s 2%Z)) by ring. rewrite !Q. ring.
    - replace (s 0%Z * s 2%Z * (s 0%Z * s 1%Z * s 2%Z)) with (s 1%Z * (s 0%Z * s 0%Z) * (s 2%Z * s 2%Z)) by ring. rewrite !Q. ring.
    - replace (s 0%Z * s 1%Z * (s 0%Z * s 1%Z * s 2%Z)) with (s 2%Z * (s 0%Z * s 0%Z) * (s 1%Z * s 1%Z)) by ring. rewrite !Q. ring. }
  destruct X as [X1 X2]. pose proof (Hk j).
  assert (P := Sc_mult _ _ _ _ _ _ _ _ _ _ _ _ C D ltac:(unfold fits; lia)).
  apply (Sc_cast _ _ _ _ _ _ (- k j) (s j) (-807) 959) in P; [exact P|exact X1|exact X2|reflexivity|reflexivity].
Qed.
End Matrix.

Lemma cell_jacobian (cx : ctx) ss xi mem X : length ss = 3%nat -> Forall at_ends ss -> Forall InReference xi -> length xi = 3%nat ->
  Holds (owning [2; 2; 2; 3]%Z) mem X ->
  forall ls : list (local b64), LocalsAt B64Num (map linear ss) xi ls -> lcounts ls = [2; 2; 2]%Z ->
  let Jm := fun t => addL (N := B64Num) (fun sp => contribL (N := B64Num) ls X sp t) (zbox (lcounts ls)) (b64_ofZ 0) in
  let D := det3 B64Num (fun i j => Jm [i; j]) in
  exists J invJ, jacobian_wrapper B64Num cx 3 (map linear ss) mem xi = Ok J /\ Holds (owning [3; 3]%Z) J Jm /\
    inverseJacobian_wrapper B64Num cx 3 (map linear ss) mem xi = Ok (D, invJ) /\
    Holds (owning [3; 3]%Z) invJ (fun t => inv3 B64Num (fun i j => Jm [i; j]) (Bdiv mode_NE (b64_ofZ 1) D) (nth 0 t 0%Z) (nth 1 t 0%Z)).
Proof.
  intros Hl Hs Hx Hx3 HX ls LS C Jm D.
  assert (Len : length ls = 3%nat) by (apply (f_equal (@length Z)) in C; unfold lcounts in C; now rewrite map_length in C).
  assert (Hne : ls <> []) by (intros E; rewrite E in Len; discriminate).
  destruct (jacobian_wrapperL B64Num cx (map linear ss) ls mem X xi LS Hne Hx3) as (J & EJ & _ & HJ).
  { assert (EC : @lcounts (T B64Num) ls ++ [Z.of_nat (@length (local (T B64Num)) ls)] = [2; 2; 2; 3]%Z)
      by exact (f_equal2 (fun a n => a ++ [Z.of_nat n]) C Len). rewrite EC. exact HX. }
  change (@length (local (T B64Num)) ls) with (@length (local b64) ls) in EJ, HJ. rewrite Len in EJ, HJ. change (Z.of_nat 3) with 3%Z in EJ, HJ.
  destruct (inverse_a_any B64Num cx (owning [3; 3]%Z) 3 3 J _ (Bdiv mode_NE (b64_ofZ 1) D) eq_refl ltac:(lia) ltac:(lia) eq_refl HJ eq_refl) as (invJ & EI & HI & _).
  exists J, invJ. split; [exact EJ|]. split; [exact HJ|]. split; [|exact HI].
  unfold inverseJacobian_wrapper. unfold jacobian_wrapper in EJ.
  assert (Hx' : @length (Num.T B64Num) xi = 3%nat) by exact Hx3. rewrite Hx'. rewrite Hx' in EJ. cbn [Nat.eqb] in *.
  apply bind_Ok in EJ. destruct EJ as (J0 & E0 & EJ). rewrite E0. cbn [bind]. unfold inverseJacobian_point. rewrite EJ. cbn [bind].
  assert (EA : jacobian_array B64Num (map linear ss) = owning [3%Z; 3%Z]) by (unfold jacobian_array, numDims; rewrite map_length, Hl; reflexivity).
  rewrite EA, EI. reflexivity.
Qed.

Lemma scaled_cell_lemma (cx : ctx) ss xi c mem mem' X X' : length ss = 3%nat -> Forall at_ends ss -> Forall InReference xi -> length xi = 3%nat ->
  (forall i, (0 <= i < 3)%Z -> PowerOfTwo 60 (c i)) ->
  Holds (owning [2; 2; 2; 3]%Z) mem X -> Holds (owning [2; 2; 2; 3]%Z) mem' X' ->
  (forall s i, InRange [2; 2; 2]%Z s -> (0 <= i < 3)%Z -> Moderate 60 (X (s ++ [i])) /\ Scaled (c i) (X (s ++ [i])) (X' (s ++ [i]))) ->
  exists J J' A A' d d' invJ invJ' Y Y',
    jacobian_wrapper B64Num cx 3 (map linear ss) mem xi = Ok J /\ jacobian_wrapper B64Num cx 3 (map linear ss) mem' xi = Ok J' /\
    Holds (owning [3; 3]%Z) J A /\ Holds (owning [3; 3]%Z) J' A' /\
    inverseJacobian_wrapper B64Num cx 3 (map linear ss) mem xi = Ok (d, invJ) /\
    inverseJacobian_wrapper B64Num cx 3 (map linear ss) mem' xi = Ok (d', invJ') /\
    Holds (owning [3; 3]%Z) invJ Y /\ Holds (owning [3; 3]%Z) invJ' Y' /\
    (forall i j, (0 <= i < 3)%Z -> (0 <= j < 3)%Z -> Scaled (c i) (A [i; j]) (A' [i; j])) /\
    Scaled (c 0%Z * c 1%Z * c 2%Z) d d' /\
    (B2R d <> 0 -> forall i j, (0 <= i < 3)%Z -> (0 <= j < 3)%Z -> Scaled (/ c j) (Y [i; j]) (Y' [i; j])).
Proof.
  intros Hl Hs Hx Hx3 Hc HX HX' HD.
  destruct (linear_lins ss xi Hs Hx ltac:(rewrite Hl, Hx3; lia)) as (ls & LS & C & U).
  assert (C2 : lcounts ls = [2; 2; 2]%Z) by (rewrite C; destruct ss as [|? [|? [|? [|? ?]]]]; try discriminate; reflexivity).
  assert (Hne : ls <> []) by (intros ->; discriminate C2).
  destruct (cell_jacobian cx ss xi mem X Hl Hs Hx Hx3 HX ls LS C2) as (J & invJ & E1 & H1 & E2 & H2).
  destruct (cell_jacobian cx ss xi mem' X' Hl Hs Hx Hx3 HX' ls LS C2) as (J' & invJ' & E1' & H1' & E2' & H2').
  set (A := fun t => addL (N := B64Num) (fun sp => contribL (N := B64Num) ls X sp t) (zbox (lcounts ls)) (b64_ofZ 0)) in *.
  set (A' := fun t => addL (N := B64Num) (fun sp => contribL (N := B64Num) ls X' sp t) (zbox (lcounts ls)) (b64_ofZ 0)) in *.
  cbv zeta in *. set (f := fun i j => A [i; j]) in *. set (f' := fun i j => A' [i; j]) in *.
  destruct (power_sign 60 _ (Hc 0%Z ltac:(lia))) as (k0 & s0 & K0 & S0 & C0).
  destruct (power_sign 60 _ (Hc 1%Z ltac:(lia))) as (k1 & s1 & K1 & S1 & C1).
  destruct (power_sign 60 _ (Hc 2%Z ltac:(lia))) as (k2 & s2 & K2 & S2 & C3).
  set (k := fun i : Z => match i with 0 => k0 | 1 => k1 | _ => k2 end%Z).
  set (s := fun i : Z => match i with 0 => s0 | 1 => s1 | _ => s2 end%Z).
  assert (Hk : forall i, (-60 <= k i <= 60)%Z) by (intros [|[| |]|]; cbn [k]; assumption).
  assert (Hsg : forall i, s i = 1 \/ s i = -1) by (intros [|[| |]|]; cbn [s]; assumption).
  assert (Ec : forall i, (0 <= i < 3)%Z -> c i = s i * pow2 (k i)).
  { intros i Hi. assert (Ci : (i = 0 \/ i = 1 \/ i = 2)%Z) by lia. destruct Ci as [->|[->| ->]]; assumption. }
  assert (Hf : forall i j, (0 <= i < 3)%Z -> (0 <= j < 3)%Z -> Sc (f i j) (f' i j) (k i) (s i) (-274) 68).
  { intros i j Hi Hj. pose proof (Hk i).
    apply (scaled_sum (Z.of_nat (Z.to_nat j)) ls (fun sp => X (sp ++ [i])) (fun sp => X' (sp ++ [i])) ss 60 (k i) (s i) C U Hne); try lia; [|apply Hsg].
    intros t Ht. pose proof (eq_ind _ (fun l => InRange l t) Ht _ C2) as Ht2. destruct (HD t i Ht2 Hi) as [M S].
    apply (moderate_Sc 60 (k i) (s i) _ _ (c i)); [lia|exact M|exact S|apply Hsg|now apply Ec]. }
  exists J, J', A, A'. eexists. eexists. exists invJ, invJ'. eexists. eexists.
  split; [exact E1|]. split; [exact E1'|]. split; [exact H1|]. split; [exact H1'|]. split; [exact E2|]. split; [exact E2'|].
  split; [exact H2|]. split; [exact H2'|]. split.
  - intros i j Hi Hj. eapply Sc_Scaled; [exact (Hf i j Hi Hj)|now apply Ec].
  - split.
    + eapply Sc_Scaled; [exact (det_Sc f f' k s Hk Hsg Hf)|]. rewrite !Ec by lia. rewrite !bpow_plus. ring.
    + intros Hd i j Hi Hj. eapply Sc_Scaled; [exact (inv_Sc f f' k s Hk Hsg Hf i j Hd Hi Hj)|].
      rewrite Ec by exact Hj. rewrite bpow_opp. pose proof (bpow_gt_0 radix2 (k j)).
      destruct (Hsg j) as [-> | ->]; field; lra.
Qed.
