(** Linear elements under a change of unit by powers of two, in binary32. *)
From Coq Require Import ZArith Reals Bool List Lia Lra.
From Flocq Require Import Core IEEE754.BinarySingleNaN.
From Verif Require Import Base ProofBase Num ModelF32 SpecIndex ProofBox ModelSequence ModelAssert ModelCArray SpecCArray ProofRep ModelSpacing ModelLagrange ModelBasisProduct ModelMath
  ModelTransforms SpecF32 SpecScale ProofF32 ProofTensor ProofGeneric ProofMath ProofNodes32 ProofLinear32 ProofPositive32 ProofScale32.
Local Open Scope R_scope.

Notation Fac v := (Sc v v 0 1 (-25) 0).
Lemma Fac_intro (v : b32) : is_finite v = true -> Grid (-25) (B2R v) -> Rabs (B2R v) <= 1 -> Fac v.
Proof.
  intros F G B. split; [exact F|]. split; [exact F|]. split; [now left|]. split; [change (pow2 0) with 1; ring|]. split; [exact G|exact B].
Qed.
Definition LinL (l : local b32) : Prop := ln l = 2%Z /\ forall i, (0 <= i < 2)%Z -> Fac (lv l i) /\ Fac (lg l i).

Lemma grain_near_one y : InReference32 y -> Grid (-24) (rnd (1 - B2R y)) /\ Grid (-24) (rnd (1 + B2R y)).
Proof.
  assert (K : forall z, fmt z -> Rabs z <= 1 -> Grid (-24) (rnd (1 - z))).
  { intros z Fz Hz. destruct (Rle_or_lt (pow2 (-1)) (Rabs z)) as [H|H].
    - destruct (fmt_grain z (-1) Fz ltac:(lia) H) as (m & E). apply Grid_rnd; [lia|]. apply Grid_minus; [|now exists m].
      exists (2 ^ 24)%Z. change (IZR (2 ^ 24)) with (pow2 24). rewrite <- bpow_plus. reflexivity.
    - assert (H1 : pow2 (-1) <= Rabs (rnd (1 - z))).
      { rewrite <- rnd_abs, <- (rnd_id (pow2 (-1))) by (apply fmt_pow2; lia). apply rnd_le. change (pow2 (-1)) with (/ 2) in *.
        apply Rabs_lt_inv in H. rewrite Rabs_pos_eq; lra. }
      destruct (fmt_grain _ (-1) (rnd_fmt (1 - z)) ltac:(lia) H1) as (m & E). now exists m. }
  intros (F & B). split; [apply K; [apply fmt_B|exact B]|].
  replace (1 + B2R y) with (1 - - B2R y) by ring. apply K; [apply generic_format_opp, fmt_B|rewrite Rabs_Ropp; exact B].
Qed.
Lemma linear_lin s y : at_ends s -> InReference32 y -> exists l, LocalAt F32Num (linear s) y l /\ LinL l.
Proof.
  intros Hs Hy. destruct (linear_values s Hs y Hy) as (v0 & v1 & g0 & g1 & E0 & E1 & G0 & G1 & (Fv0 & V0) & (Fv1 & V1) & (Fg0 & W0) & (Fg1 & W1)).
  exists {| ln := 2; lv := fun i => if (i =? 0)%Z then v0 else v1; lg := fun i => if (i =? 0)%Z then g0 else g1 |}.
  split; [split; [reflexivity|split; [reflexivity|]]|split; [reflexivity|]]; cbn [ln lv lg].
  - intros i Hi. assert (C : (i = 0 \/ i = 1)%Z) by lia. destruct C as [->| ->]; cbn [Z.eqb]; now split.
  - intros i _. destruct (grain_near_one y Hy) as [A0 A1]. destruct Hy as (Fy & By). apply Rabs_le_inv in By.
    assert (R0 : forall z, 0 <= z <= 2 -> 0 <= rnd z <= 2).
    { intros z [L U]. apply rnd_le in L. apply rnd_le in U. rewrite rnd_0 in L. change 2 with (pow2 1) in U at 1.
      rewrite (rnd_id (pow2 1)) in U by (apply fmt_pow2; lia). split; [exact L|exact U]. }
    pose proof (R0 (1 - B2R y) ltac:(lra)) as B0. pose proof (R0 (1 + B2R y) ltac:(lra)) as B1.
    assert (D : forall z, Grid (-24) z -> Grid (-25) (z / 2)).
    { intros z (m & ->). exists m. replace (-25)%Z with (-24 + -1)%Z by lia. rewrite bpow_plus. change (pow2 (-1)) with (/ 2). unfold Rdiv. ring. }
    assert (H1 : Grid (-25) (/ 2)).
    { exists (2 ^ 24)%Z. change (IZR (2 ^ 24)) with (pow2 24). rewrite <- bpow_plus. reflexivity. }
    split; destruct (i =? 0)%Z; apply Fac_intro; try assumption.
    + rewrite V0. now apply D.
    + rewrite V0, Rabs_pos_eq; lra.
    + rewrite V1. now apply D.
    + rewrite V1, Rabs_pos_eq; lra.
    + rewrite W0. replace (- / 2) with (0 - / 2) by ring. apply Grid_minus; [apply Grid_0|exact H1].
    + rewrite W0, Rabs_Ropp, Rabs_pos_eq; lra.
    + rewrite W1. exact H1.
    + rewrite W1, Rabs_pos_eq; lra.
Qed.
Lemma linear_lins ss : forall xi, Forall at_ends ss -> Forall InReference32 xi -> (length ss <= length xi)%nat ->
  exists ls, LocalsAt F32Num (map linear ss) xi ls /\ lcounts ls = map (fun _ => 2%Z) ss /\ Forall LinL ls.
Proof.
  induction ss as [|s ss IH]; intros xi Hs Hx Hl.
  - exists []. split; [constructor|]. split; [reflexivity|constructor].
  - destruct xi as [|y xi]; [cbn in Hl; lia|]. inversion_clear Hs. inversion_clear Hx.
    destruct (linear_lin s y) as (l & L & U); [assumption|assumption|].
    destruct (IH xi) as (ls & LS & C & F); [assumption|assumption|cbn in Hl; lia|].
    exists (l :: ls). split; [now constructor|]. split; [exact (f_equal2 (@cons Z) (proj1 U) C)|now constructor].
Qed.
Lemma lin_factors G ls : Forall LinL ls -> forall off idx, InRange (lcounts ls) idx ->
  Forall (fun v => Fac v) (factors G off ls idx) /\ length (factors G off ls idx) = length ls.
Proof.
  induction 1 as [|l ls Hu _ IH]; intros off idx Hi; [split; [constructor|reflexivity]|].
  change (lcounts (l :: ls)) with (ln l :: lcounts ls) in Hi. apply InRange_cons in Hi as (i & t & -> & Hi & Ht). cbn [factors length].
  destruct Hu as (E2 & Hu). rewrite E2 in Hi. destruct (Hu i Hi) as [P Q]. destruct (IH (off + 1)%Z t Ht) as [R S].
  split; [constructor; [destruct (G =? off)%Z; assumption|exact R]|now rewrite S].
Qed.
Lemma Fac_mulR (vs : list b32) : Forall (fun v => Fac v) vs -> vs <> [] -> (length vs <= 3)%nat ->
  Sc (mulR (N := F32Num) vs) (mulR (N := F32Num) vs) 0 1 (-75) 0.
Proof.
  intros H Hne Hl. destruct H as [|a vs Ha H]; [congruence|]. destruct H as [|b vs Hb H].
  - cbn [mulR]. apply (Sc_le _ _ _ _ (-25) 0); [exact Ha|lia|lia].
  - destruct H as [|d vs Hd H].
    + cbn [mulR]. pose proof (Sc_mult _ _ _ _ _ _ _ _ _ _ _ _ Ha Hb ltac:(unfold fits; lia)) as P. rewrite Rmult_1_l in P.
      apply (Sc_le _ _ _ _ (-25 + -25) 0); [exact P|lia|lia].
    + destruct vs as [|x vs]; [|cbn in Hl; lia]. cbn [mulR].
      pose proof (Sc_mult _ _ _ _ _ _ _ _ _ _ _ _ Hb Hd ltac:(unfold fits; lia)) as P. rewrite Rmult_1_l in P.
      pose proof (Sc_mult _ _ _ _ _ _ _ _ _ _ _ _ Ha P ltac:(unfold fits; lia)) as Q. rewrite Rmult_1_l in Q. exact Q.
Qed.
Lemma lin_tensor G ls idx : Forall LinL ls -> ls <> [] -> (length ls <= 3)%nat -> InRange (lcounts ls) idx ->
  Sc (mulR (N := F32Num) (factors G 0 ls idx)) (mulR (N := F32Num) (factors G 0 ls idx)) 0 1 (-75) 0.
Proof.
  intros H Hne Hl Hi. destruct (lin_factors G ls H 0%Z idx Hi) as [F L]. apply Fac_mulR; [exact F| |now rewrite L].
  intros E. rewrite E in L. destruct ls; [congruence|discriminate].
Qed.

(** Data. *)
Lemma moderate_Sc B k s (x x' : b32) c : (0 <= B <= 100)%Z -> Moderate B x -> Scaled c x x' -> s = 1 \/ s = -1 -> c = s * pow2 k ->
  Sc x x' k s (- B - 23) B.
Proof.
  intros HB (_ & M) (F & F' & E) Hs Ec. split; [exact F|]. split; [exact F'|]. split; [exact Hs|]. split; [now rewrite E, Ec|].
  destruct M as [M | [L U]].
  - rewrite M. split; [apply Grid_0|]. rewrite Rabs_R0. apply bpow_ge_0.
  - split; [|exact U]. apply (fmt_grain (B2R x) (- B)); [apply fmt_B|lia|exact L].
Qed.
Lemma power_sign K c : PowerOfTwo K c -> exists k s, (- K <= k <= K)%Z /\ (s = 1 \/ s = -1) /\ c = s * pow2 k.
Proof.
  intros (k & Hk & [-> | ->]).
  - exists k, 1. split; [exact Hk|]. split; [now left|ring].
  - exists k, (-1). split; [exact Hk|]. split; [now right|ring].
Qed.
Lemma Sc_Scaled a a' k s e m c : Sc a a' k s e m -> c = s * pow2 k -> Scaled c a a'.
Proof. intros (F & F' & _ & E & _) ->. split; [exact F|]. split; [exact F'|exact E]. Qed.

Lemma box_size ss : (length ss <= 3)%nat -> (length (zbox (map (fun _ : spacing => 2%Z) ss)) <= 8)%nat.
Proof. intros H. destruct ss as [|? [|? [|? [|? ?]]]]; cbn [length] in H; try lia; vm_compute; lia. Qed.

(** Sums of tensor products with scaled data. *)
Lemma scaled_sum G ls (w w' : list Z -> b32) (ss : list spacing) B k s : lcounts ls = map (fun _ => 2%Z) ss -> Forall LinL ls -> ls <> [] -> (length ss <= 3)%nat ->
  (forall t, InRange (lcounts ls) t -> Sc (w t) (w' t) k s (- B - 23) B) -> s = 1 \/ s = -1 ->
  (0 <= B)%Z -> (- B - 98 + k >= -126)%Z -> (- B - 98 >= -126)%Z -> (B + 8 < 128)%Z -> (B + 8 + k < 128)%Z ->
  Sc (addL (N := F32Num) (fun t => Bmult mode_NE (mulR (N := F32Num) (factors G 0 ls t)) (w t)) (zbox (lcounts ls)) (b32_ofZ 0))
     (addL (N := F32Num) (fun t => Bmult mode_NE (mulR (N := F32Num) (factors G 0 ls t)) (w' t)) (zbox (lcounts ls)) (b32_ofZ 0))
     k s (- B - 98) (B + 8).
Proof.
  intros C L Hne Hd Hw Hs H1 H2 H3 H4 H5.
  assert (Len : length ls = length ss) by (apply (f_equal (@length Z)) in C; unfold lcounts in C; now rewrite !map_length in C).
  pose proof (box_size ss Hd) as Z8. rewrite <- C in Z8.
  apply (Sc_le _ _ _ _ (- B - 98) (B + Z.of_nat (length (zbox (lcounts ls))))); [|lia|lia].
  apply Sc_addL with (m := B); [|now apply Sc_zero|lia|unfold fits; lia|lia|lia].
  intros t Ht. apply in_zbox in Ht.
  pose proof (lin_tensor G ls t L Hne ltac:(lia) Ht) as P.
  pose proof (Sc_mult _ _ _ _ _ _ _ _ _ _ _ _ P (Hw t Ht) ltac:(unfold fits; lia)) as Q.
  rewrite Rmult_1_l in Q. replace (-75 + (- B - 23))%Z with (- B - 98)%Z in Q by lia. exact Q.
Qed.

(** Interpolated values and gradients. *)
Section Field.
Context (ss : list spacing) (Hne : ss <> []) (Hd : (length ss <= 3)%nat) (Hs : Forall at_ends ss).
Context (xi : list b32) (Hx : Forall InReference32 xi) (Hl : (length ss <= length xi)%nat).
Context (B K : Z) (HB : (0 <= B)%Z) (HK : (0 <= K)%Z) (HBK : (B + K <= 28)%Z) (c : R) (Hc : PowerOfTwo K c) (var var' : list Z -> outcome b32) (w w' : list Z -> b32).
Context (Hw : forall t, InRange (map (fun _ => 2%Z) ss) t ->
  var t = Ok (w t) /\ var' t = Ok (w' t) /\ Moderate B (w t) /\ Scaled c (w t) (w' t)).
Lemma scaled_field_lemma (cx : ctx) :
  exists v v' g g', parent_value F32Num (Z.of_nat (length ss)) (map linear ss) var xi = Ok v /\
    parent_value F32Num (Z.of_nat (length ss)) (map linear ss) var' xi = Ok v' /\
    parent_gradient F32Num cx (Z.of_nat (length ss)) (map linear ss) var xi = Ok g /\
    parent_gradient F32Num cx (Z.of_nat (length ss)) (map linear ss) var' xi = Ok g' /\
    Scaled c v v' /\ length g = length ss /\ length g' = length ss /\
    forall j, (j < length ss)%nat -> Scaled c (nth j g (b32_ofZ 0)) (nth j g' (b32_ofZ 0)).
Proof using All.
  destruct (linear_lins ss xi Hs Hx Hl) as (ls & LS & C & U). destruct (locals_ne ss ls Hne C) as [Lne Len].
  destruct (power_sign K c Hc) as (k & s & Hk & Hsg & Ec).
  assert (HW : forall t, InRange (lcounts ls) t -> Sc (w t) (w' t) k s (- B - 23) B).
  { intros t Ht. rewrite C in Ht. destruct (Hw t Ht) as (_ & _ & M & S). apply (moderate_Sc B k s _ _ c); [lia|exact M|exact S|exact Hsg|exact Ec]. }
  assert (V : forall t, InRange (lcounts ls) t -> var t = Ok (w t)) by (intros t Ht; rewrite C in Ht; apply (Hw t Ht)).
  assert (V' : forall t, InRange (lcounts ls) t -> var' t = Ok (w' t)) by (intros t Ht; rewrite C in Ht; apply (Hw t Ht)).
  pose proof (parent_valueL F32Num (map linear ss) ls var w xi LS Lne V) as EV.
  pose proof (parent_valueL F32Num (map linear ss) ls var' w' xi LS Lne V') as EV'.
  assert (LM : (Z.of_nat (@length (local b32) ls) <= INT_MAX)%Z) by (unfold INT_MAX; lia).
  destruct (parent_gradientL F32Num cx (map linear ss) ls var w xi LS Lne LM V) as (g & EG & LG & NG).
  destruct (parent_gradientL F32Num cx (map linear ss) ls var' w' xi LS Lne LM V') as (g' & EG' & LG' & NG').
  change (@length (local (T F32Num)) ls) with (@length (local b32) ls) in *. rewrite Len in *.
  eexists. eexists. exists g, g'. split; [exact EV|]. split; [exact EV'|]. split; [exact EG|]. split; [exact EG'|].
  assert (SUM : forall G, Scaled c
     (addL (N := F32Num) (fun t => Bmult mode_NE (mulR (N := F32Num) (factors G 0 ls t)) (w t)) (zbox (lcounts ls)) (b32_ofZ 0))
     (addL (N := F32Num) (fun t => Bmult mode_NE (mulR (N := F32Num) (factors G 0 ls t)) (w' t)) (zbox (lcounts ls)) (b32_ofZ 0))).
  { intros G. eapply Sc_Scaled; [apply (scaled_sum G ls w w' ss B k s C U Lne Hd HW Hsg); lia|exact Ec]. }
  split; [exact (SUM (-1)%Z)|]. split; [exact LG|]. split; [exact LG'|].
  intros j Hj. pose proof (NG j Hj) as E1. pose proof (NG' j Hj) as E2.
  change (nofZ F32Num 0) with (b32_ofZ 0) in E1, E2. 
  exact (eq_ind_r (fun a => Scaled c a _) (eq_ind_r (fun b => Scaled c _ b) (SUM (Z.of_nat j)) E2) E1).
Qed.
End Field.

(** Jacobian matrices of cells. *)
Lemma scaled_jacobian_lemma (cx : ctx) ss xi B K c mem mem' X X' : length ss = 3%nat -> Forall at_ends ss -> Forall InReference32 xi -> length xi = 3%nat ->
  (0 <= B)%Z -> (0 <= K)%Z -> (B + K <= 28)%Z -> (forall i, (0 <= i < 3)%Z -> PowerOfTwo K (c i)) ->
  Holds (owning [2; 2; 2; 3]%Z) mem X -> Holds (owning [2; 2; 2; 3]%Z) mem' X' ->
  (forall s i, InRange [2; 2; 2]%Z s -> (0 <= i < 3)%Z -> Moderate B (X (s ++ [i])) /\ Scaled (c i) (X (s ++ [i])) (X' (s ++ [i]))) ->
  exists J J' A A',
    jacobian_wrapper F32Num cx 3 (map linear ss) mem xi = Ok J /\ jacobian_wrapper F32Num cx 3 (map linear ss) mem' xi = Ok J' /\
    Holds (owning [3; 3]%Z) J A /\ Holds (owning [3; 3]%Z) J' A' /\
    (forall i j, (0 <= i < 3)%Z -> (0 <= j < 3)%Z -> Scaled (c i) (A [i; j]) (A' [i; j])).
Proof.
  intros Hl Hs Hx Hx3 HB HK HBK Hc HX HX' HD.
  destruct (linear_lins ss xi Hs Hx ltac:(rewrite Hl, Hx3; lia)) as (ls & LS & C & U).
  assert (C2 : lcounts ls = [2; 2; 2]%Z) by (rewrite C; destruct ss as [|? [|? [|? [|? ?]]]]; try discriminate; reflexivity).
  assert (Hne : ls <> []) by (intros ->; discriminate C2).
  assert (Len : length ls = 3%nat) by (apply (f_equal (@length Z)) in C2; unfold lcounts in C2; now rewrite map_length in C2).
  assert (EC : @lcounts (T F32Num) ls ++ [Z.of_nat (@length (local (T F32Num)) ls)] = [2; 2; 2; 3]%Z)
    by exact (f_equal2 (fun a n => a ++ [Z.of_nat n]) C2 Len).
  pose proof (jacobian_wrapperL F32Num cx (map linear ss) ls mem X xi LS Hne Hx3) as W.
  pose proof (jacobian_wrapperL F32Num cx (map linear ss) ls mem' X' xi LS Hne Hx3) as W'.
  rewrite EC in W, W'. destruct (W HX) as (J & EJ & _ & HJ). destruct (W' HX') as (J' & EJ' & _ & HJ').
  assert (L3 : Z.of_nat (@length (local (T F32Num)) ls) = 3%Z) by exact (f_equal Z.of_nat Len). rewrite L3 in EJ, HJ, EJ', HJ'. exists J, J'. eexists. eexists. split; [exact EJ|]. split; [exact EJ'|]. split; [exact HJ|]. split; [exact HJ'|].
  intros i j Hi Hj. destruct (power_sign K _ (Hc i Hi)) as (k & s & Hk & Hsg & Ec).
  eapply Sc_Scaled; [|exact Ec].
  apply (scaled_sum (Z.of_nat (Z.to_nat j)) ls (fun sp => X (sp ++ [i])) (fun sp => X' (sp ++ [i])) ss B k s C U Hne); try lia; [|exact Hsg].
  intros t Ht. pose proof (eq_ind _ (fun l => InRange l t) Ht _ C2) as Ht2. destruct (HD t i Ht2 Hi) as [M S].
  apply (moderate_Sc B k s _ _ (c i)); [lia|exact M|exact S|exact Hsg|exact Ec].
Qed.
