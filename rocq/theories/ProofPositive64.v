(** Linear elements in binary64: values of the shape functions and of nonnegative fields. *)
From Coq Require Import ZArith Reals Bool List Lia Lra.
From Flocq Require Import Core IEEE754.BinarySingleNaN.
From Verif Require Import Base ProofBase Num ModelB64 SpecIndex ProofBox ModelSequence ModelSpacing ModelLagrange ModelBasisProduct SpecB64 SpecShape
  ProofB64 ProofTensor ProofGeneric ProofNodes64 ProofLinear64.
Local Open Scope R_scope.

Definition Nn (a : b64) (e : Z) : Prop := is_finite a = true /\ 0 <= B2R a <= pow2 e.
Lemma Nn_mult a b e : Nn a 0 -> Nn b e -> (-1074 <= e < 1024)%Z -> Nn (Bmult mode_NE a b) e.
Proof.
  intros (Fa & La & Ua) (Fb & Lb & Ub) He. change (pow2 0) with 1 in Ua.
  assert (H : 0 <= B2R a * B2R b <= pow2 e) by (split; nra).
  destruct (B_mult a b e Fa Fb He) as (F & E & _); [rewrite Rabs_pos_eq; lra|].
  split; [exact F|]. rewrite E. destruct H as [L U]. apply rnd_le in L. apply rnd_le in U. rewrite rnd_0 in L.
  rewrite (rnd_id (pow2 e)) in U by (apply fmt_pow2; lia). now split.
Qed.
Lemma Nn_plus a b e : Nn a e -> Nn b e -> (-1074 <= e + 1 < 1024)%Z -> Nn (Bplus mode_NE a b) (e + 1).
Proof.
  intros (Fa & La & Ua) (Fb & Lb & Ub) He.
  assert (H : 0 <= B2R a + B2R b <= pow2 (e + 1)) by (rewrite bpow_plus; change (pow2 1) with 2; lra).
  destruct (B_plus a b (e + 1) Fa Fb He) as (F & E & _); [rewrite Rabs_pos_eq; lra|].
  split; [exact F|]. rewrite E. destruct H as [L U]. apply rnd_le in L. apply rnd_le in U. rewrite rnd_0 in L.
  rewrite (rnd_id (pow2 (e + 1))) in U by (apply fmt_pow2; lia). now split.
Qed.
Lemma Nn_le a e f : Nn a e -> (e <= f)%Z -> Nn a f.
Proof. intros (F & L & U) H. split; [exact F|]. split; [exact L|]. eapply Rle_trans; [exact U|]. now apply bpow_le. Qed.
Lemma Nn_zero e : Nn (b64_ofZ 0) e.
Proof. destruct (b64_ofZ_exact 0 ltac:(lia)) as (F & E). split; [exact F|]. rewrite E. split; [lra|apply bpow_ge_0]. Qed.
Lemma Nn_one : Nn (b64_ofZ 1) 0.
Proof. destruct (b64_ofZ_exact 1 ltac:(lia)) as (F & E). split; [exact F|]. rewrite E. change (pow2 0) with 1. lra. Qed.

Lemma Nn_mulR vs : Forall (fun v => Nn v 0) vs -> Nn (mulR (N := B64Num) vs) 0.
Proof.
  induction 1 as [|a vs Ha Hvs IH]; [exact Nn_one|]. cbn [mulR]. destruct vs; [exact Ha|]. now apply Nn_mult.
Qed.
Lemma Nn_addL {B} (f : B -> b64) l : forall acc e, Nn acc e -> (forall t, In t l -> Nn (f t) e) ->
  (0 <= e)%Z -> (e + Z.of_nat (length l) < 1024)%Z -> Nn (addL (N := B64Num) f l acc) (e + Z.of_nat (length l)).
Proof.
  induction l as [|a l IH]; intros acc e Ha Hf He Hl.
  - cbn [length] in *. change (Nn acc (e + 0)). now rewrite Z.add_0_r.
  - cbn [length] in *. replace (e + Z.of_nat (S (length l)))%Z with ((e + 1) + Z.of_nat (length l))%Z by lia.
    change (addL (N := B64Num) f (a :: l) acc) with (addL (N := B64Num) f l (Bplus mode_NE acc (f a))).
    apply IH; [|intros t Ht; apply Nn_le with e; [apply Hf; now right|lia]|lia|lia].
    apply Nn_plus; [exact Ha|apply Hf; now left|lia].
Qed.

(** One basis of order one per direction. *)
Notation linear := (fun s => LagrangeBasis B64Num 1 s).
Definition Unit (l : local b64) : Prop := forall i, (0 <= i < 2)%Z -> Nn (lv l i) 0.

Lemma linear_local s y : at_ends s -> InReference y ->
  exists l, LocalAt B64Num (linear s) y l /\ ln l = 2%Z /\ Unit l /\
    IsNum (Bplus mode_NE (lv l 0%Z) (lv l 1%Z)) 1.
Proof.
  intros Hs Hy. destruct (linear_lemma s y Hs Hy) as (v0 & v1 & g0 & g1 & E0 & E1 & G0 & G1 & F0 & I0 & F1 & I1 & S & _).
  exists {| ln := 2; lv := fun i => if (i =? 0)%Z then v0 else v1; lg := fun i => if (i =? 0)%Z then g0 else g1 |}.
  cbn [ln lv lg]. split; [split; [reflexivity|split; [reflexivity|]]|split; [reflexivity|split; [|exact S]]]; cbn [ln lv lg].
  - intros i Hi. assert (C : (i = 0 \/ i = 1)%Z) by lia. destruct C as [->| ->]; cbn [Z.eqb]; now split.
  - intros i Hi. cbn [lv]. change (pow2 0) with 1 in *. destruct (i =? 0)%Z; split; assumption.
Qed.
Lemma linear_locals ss : forall xi, Forall at_ends ss -> Forall InReference xi -> (length ss <= length xi)%nat ->
  exists ls, LocalsAt B64Num (map linear ss) xi ls /\ lcounts ls = map (fun _ => 2%Z) ss /\ Forall Unit ls.
Proof.
  induction ss as [|s ss IH]; intros xi Hs Hx Hl.
  - exists []. split; [constructor|]. split; [reflexivity|constructor].
  - destruct xi as [|y xi]; [cbn in Hl; lia|]. inversion_clear Hs. inversion_clear Hx.
    destruct (linear_local s y) as (l & L & N2 & U & _); [assumption|assumption|].
    destruct (IH xi) as (ls & LS & C & F); [assumption|assumption|cbn in Hl; lia|].
    exists (l :: ls). split; [now constructor|]. split; [exact (f_equal2 (@cons Z) N2 C)|now constructor].
Qed.
Lemma units_factors ls : Forall Unit ls -> forall off idx, (0 <= off)%Z -> Forall (fun l => ln l = 2%Z) ls -> InRange (lcounts ls) idx ->
  Forall (fun v => Nn v 0) (factors (-1) off ls idx).
Proof.
  induction 1 as [|l ls Hu _ IH]; intros off idx Ho H2 Hi; [constructor|]. inversion_clear H2.
  change (lcounts (l :: ls)) with (ln l :: lcounts ls) in Hi. apply InRange_cons in Hi as (i & t & -> & Hi & Ht). cbn [factors].
  replace (-1 =? off)%Z with false by (symmetry; apply Z.eqb_neq; lia). constructor; [apply Hu; lia|apply IH; [lia|assumption|assumption]].
Qed.
Lemma twos ss : forall ls : list (local b64), lcounts ls = map (fun _ : spacing => 2%Z) ss -> Forall (fun l => ln l = 2%Z) ls.
Proof. induction ss as [|s ss IH]; intros [|l ls] E; try discriminate; constructor; cbn in E; injection E as E1 E2; [exact E1|now apply IH]. Qed.
Lemma locals_ne ss (ls : list (local b64)) : ss <> [] -> lcounts ls = map (fun _ : spacing => 2%Z) ss -> ls <> [] /\ length ls = length ss.
Proof.
  intros Hne E. assert (L : length ls = length ss) by (apply (f_equal (@length Z)) in E; unfold lcounts in E; now rewrite !map_length in E).
  split; [|exact L]. intros ->. destruct ss; [congruence|discriminate].
Qed.

(** Every shape function of a linear element has its values in [0,1]. *)
Lemma unit_values_lemma ss xi t : ss <> [] -> Forall at_ends ss -> Forall InReference xi -> (length ss <= length xi)%nat ->
  InRange (map (fun _ => 2%Z) ss) t ->
  exists v, parent_value_at B64Num (Z.of_nat (length ss)) (map linear ss) t xi = Ok v /\ is_finite v = true /\ 0 <= B2R v <= 1.
Proof.
  intros Hne Hs Hx Hl Ht. destruct (linear_locals ss xi Hs Hx Hl) as (ls & LS & C & U).
  destruct (locals_ne ss ls Hne C) as [Lne Len]. pose proof Ht as Ht'. rewrite <- C in Ht'.
  pose proof (Nn_mulR _ (units_factors ls U 0 t ltac:(lia) (twos ss ls C) Ht')) as (F & B).
  exists (mulR (N := B64Num) (factors (-1) 0 ls t)). split; [|now split].
  unfold parent_value_at, parent_ok, numDims. rewrite map_length, Z.eqb_refl. cbn [bind].
  exact (product_valueL B64Num (map linear ss) ls t xi LS Lne Ht').
Qed.

(** Nonnegative data are interpolated to a nonnegative value. *)
Lemma positive_lemma ss xi var w : ss <> [] -> (length ss <= 3)%nat -> Forall at_ends ss -> Forall InReference xi -> (length ss <= length xi)%nat ->
  (forall t, InRange (map (fun _ => 2%Z) ss) t -> var t = Ok (w t) /\ is_finite (w t) = true /\ 0 <= B2R (w t) <= pow2 900) ->
  exists v, parent_value B64Num (Z.of_nat (length ss)) (map linear ss) var xi = Ok v /\ is_finite v = true /\ 0 <= B2R v.
Proof.
  intros Hne H3 Hs Hx Hl Hw. destruct (linear_locals ss xi Hs Hx Hl) as (ls & LS & C & U).
  destruct (locals_ne ss ls Hne C) as [Lne Len].
  pose proof (parent_valueL B64Num (map linear ss) ls var w xi LS Lne) as E.
  change (@length (local (T B64Num)) ls) with (@length (local b64) ls) in E. rewrite Len in E.
  assert (Hw' : forall t, InRange (lcounts ls) t -> var t = Ok (w t)) by (intros t Ht; rewrite C in Ht; now apply Hw).
  specialize (E Hw'). eexists. split; [exact E|].
  assert (L8 : (length (zbox (lcounts ls)) <= 8)%nat).
  { apply Nat2Z.inj_le. pose proof (zbox_length (lcounts ls)) as Z. rewrite Z.
    - rewrite C. destruct ss as [|? [|? [|? [|]]]]; cbn in H3; try lia; vm_compute; discriminate.
    - apply Forall_forall. intros d Hd. rewrite C in Hd. apply in_map_iff in Hd as (? & <- & _). lia. }
  destruct (Nn_addL (fun t => Bmult mode_NE (tval (N := B64Num) ls t) (w t)) (zbox (lcounts ls)) (b64_ofZ 0) 900) as (F & B & _).
  - apply Nn_zero.
  - intros t Ht. apply in_zbox in Ht. apply Nn_mult; [|rewrite C in Ht; now apply Hw|lia].
    apply (Nn_mulR _ (units_factors ls U 0 t ltac:(lia) (twos ss ls C) Ht)).
  - lia.
  - lia.
  - split; [exact F|exact B].
Qed.

(** In one direction the field that is one at both nodes is one everywhere. *)
Lemma times_one a : Nn a 0 -> B2R (Bmult mode_NE a (b64_ofZ 1)) = B2R a /\ is_finite (Bmult mode_NE a (b64_ofZ 1)) = true.
Proof.
  intros (Fa & La & Ua). destruct (b64_ofZ_exact 1 ltac:(lia)) as (F1 & E1).
  destruct (B_mult a (b64_ofZ 1) 0 Fa F1 ltac:(lia)) as (F & E & _); [rewrite E1, Rmult_1_r, Rabs_pos_eq; lra|].
  split; [|exact F]. rewrite E, E1, Rmult_1_r. apply rnd_id, fmt_B.
Qed.
Lemma one_lemma s y : at_ends s -> InReference y ->
  exists v, parent_value B64Num 1 [linear s] (fun _ => Ok (b64_ofZ 1)) [y] = Ok v /\ IsNum v 1.
Proof.
  intros Hs Hy. destruct (linear_local s y Hs Hy) as (l & L & N2 & U & (FS & S)).
  pose proof (parent_valueL B64Num [linear s] [l] (fun _ => Ok (b64_ofZ 1)) (fun _ => b64_ofZ 1) [y]
    (LA_cons _ _ _ _ _ _ _ L (LA_nil _ _)) ltac:(discriminate) ltac:(reflexivity)) as E.
  change (Z.of_nat (length [l])) with 1%Z in E.
  assert (LC : @lcounts (T B64Num) [l] = [2%Z]) by exact (f_equal (fun n => [n]) N2).
  rewrite LC in E. eexists. split; [exact E|]. change (zbox [2%Z]) with [[0%Z]; [1%Z]].
  change (IsNum (Bplus mode_NE (Bplus mode_NE (b64_ofZ 0) (Bmult mode_NE (lv l 0%Z) (b64_ofZ 1))) (Bmult mode_NE (lv l 1%Z) (b64_ofZ 1))) 1).
  pose proof (U 0%Z ltac:(lia)) as U0. pose proof (U 1%Z ltac:(lia)) as U1.
  destruct (times_one _ U0) as [V0 F0]. destruct (times_one _ U1) as [V1 F1].
  destruct (b64_ofZ_exact 0 ltac:(lia)) as (Fz & Ez).
  destruct U0 as (G0 & L0 & M0). destruct U1 as (G1 & L1 & M1). change (pow2 0) with 1 in *.
  destruct (B_plus (b64_ofZ 0) _ 0 Fz F0 ltac:(lia)) as (F & EE & _); [rewrite Ez, V0, Rplus_0_l; change (pow2 0) with 1; rewrite Rabs_pos_eq; lra|].
  rewrite Ez, V0, Rplus_0_l, (rnd_id _ (fmt_B _)) in EE.
  destruct (B_plus _ _ 1 F F1 ltac:(lia)) as (FF & EF & _); [rewrite EE, V1; change (pow2 1) with 2; rewrite Rabs_pos_eq; lra|].
  split; [exact FF|]. refine (eq_trans EF _). rewrite EE. refine (eq_trans (f_equal (fun z => rnd (B2R (lv l 0%Z) + z)) V1) _).
  destruct (B_plus (lv l 0%Z) (lv l 1%Z) 1 G0 G1 ltac:(lia)) as (_ & EG & _).
  { change (pow2 1) with 2. rewrite Rabs_pos_eq by exact (Rplus_le_le_0_compat _ _ L0 L1).
    replace 2 with (1 + 1) by ring. exact (Rplus_le_compat _ _ _ _ M0 M1). }
  exact (eq_trans (eq_sym EG) S).
Qed.

(** * What does not hold *)
Lemma holds_ok {A} (o : outcome A) p : holds o p = true -> exists x, o = Ok x /\ p x = true.
Proof. destruct o; try discriminate. intros H. now exists a. Qed.
Lemma holds2_ok {A B} (o : outcome A) (o' : outcome B) p : holds o (fun x => holds o' (p x)) = true ->
  exists x y, o = Ok x /\ o' = Ok y /\ p x y = true.
Proof. destruct o; try discriminate. destruct o'; try discriminate. intros H. now exists a, a0. Qed.
Definition reference (y : b64) : bool := is_finite y && Bleb (b64_ofZ (-1)) y && Bleb y (b64_ofZ 1).
Lemma Bleb_le (x y : b64) : is_finite x = true -> is_finite y = true -> Bleb x y = true -> B2R x <= B2R y.
Proof. intros Fx Fy H. rewrite Bleb_correct in H by assumption. destruct (Rle_bool_spec (B2R x) (B2R y)); [assumption|discriminate]. Qed.
Lemma Bltb_lt (x y : b64) : is_finite x = true -> is_finite y = true -> Bltb x y = true -> B2R x < B2R y.
Proof. intros Fx Fy H. rewrite Bltb_correct in H by assumption. destruct (Rlt_bool_spec (B2R x) (B2R y)); [assumption|discriminate]. Qed.
Lemma reference_ok y : reference y = true -> InReference y.
Proof.
  unfold reference. intros H. apply andb_prop in H as [H U]. apply andb_prop in H as [F L].
  destruct (b64_ofZ_exact 1 ltac:(lia)) as (F1 & E1). destruct (b64_ofZ_exact (-1) ltac:(lia)) as (Fm & Em).
  apply Bleb_le in L; [|assumption|assumption]. apply Bleb_le in U; [|assumption|assumption]. rewrite Em in L. rewrite E1 in U.
  split; [exact F|]. apply Rabs_le. lra.
Qed.
Definition below (c : Z) (v : b64) : bool := is_finite v && Bltb v (b64_ofZ c).
Definition above (c : Z) (v : b64) : bool := is_finite v && Bltb (b64_ofZ c) v.
Lemma below_ok c v : (Z.abs c <= 1000)%Z -> below c v = true -> B2R v < IZR c.
Proof.
  intros Hc H. apply andb_prop in H as [F L]. destruct (b64_ofZ_exact c ltac:(lia)) as (Fc & Ec).
  apply Bltb_lt in L; [|assumption|assumption]. now rewrite Ec in L.
Qed.
Lemma above_ok c v : (Z.abs c <= 1000)%Z -> above c v = true -> IZR c < B2R v.
Proof.
  intros Hc H. apply andb_prop in H as [F L]. destruct (b64_ofZ_exact c ltac:(lia)) as (Fc & Ec).
  apply Bltb_lt in L; [|assumption|assumption]. now rewrite Ec in L.
Qed.

(** The field that is one at all nodes: order two, Gauss-Legendre points, three directions. *)
Notation quadratic s := (LagrangeBasis B64Num 2 s).
Definition p20 : b64 := b64_lit (-95) 2.
Definition p_g : b64 := b64_lit 8125 4.
Definition p3d : list b64 := [b64_lit 625 4; b64_lit 3 1; b64_lit 8 1].
Lemma quadratic_one_lemma : exists y v, InReference y /\
  parent_value B64Num 1 [quadratic EqualSpacing] (fun _ => Ok (b64_ofZ 1)) [y] = Ok v /\ B2R v <> 1.
Proof.
  assert (R : reference p20 = true) by (vm_compute; reflexivity).
  destruct (holds_ok (parent_value B64Num 1 [quadratic EqualSpacing] (fun _ => Ok (b64_ofZ 1)) [p20]) (fun v => below 1 v || above 1 v)) as (v & E & H).
  { vm_compute. reflexivity. }
  exists p20, v. split; [now apply reference_ok|]. split; [exact E|].
  apply orb_prop in H as [H|H]; [apply below_ok in H; [lra|lia]|apply above_ok in H; [lra|lia]].
Qed.
Lemma legendre_one_lemma : exists y v, InReference y /\
  parent_value B64Num 1 [linear GaussLegendreSpacing] (fun _ => Ok (b64_ofZ 1)) [y] = Ok v /\ B2R v <> 1.
Proof.
  assert (R : reference p_g = true) by (vm_compute; reflexivity).
  destruct (holds_ok (parent_value B64Num 1 [linear GaussLegendreSpacing] (fun _ => Ok (b64_ofZ 1)) [p_g]) (fun v => below 1 v || above 1 v)) as (v & E & H).
  { vm_compute. reflexivity. }
  exists p_g, v. split; [now apply reference_ok|]. split; [exact E|].
  apply orb_prop in H as [H|H]; [apply below_ok in H; [lra|lia]|apply above_ok in H; [lra|lia]].
Qed.
Lemma brick_one_lemma : exists xi v, Forall InReference xi /\ length xi = 3%nat /\
  parent_value B64Num 3 [linear EqualSpacing; linear EqualSpacing; linear EqualSpacing] (fun _ => Ok (b64_ofZ 1)) xi = Ok v /\ 1 < B2R v.
Proof.
  assert (R : forallb reference p3d = true) by (vm_compute; reflexivity).
  destruct (holds_ok (parent_value B64Num 3 [linear EqualSpacing; linear EqualSpacing; linear EqualSpacing] (fun _ => Ok (b64_ofZ 1)) p3d) (above 1)) as (v & E & H).
  { vm_compute. reflexivity. }
  exists p3d, v. split; [|split; [reflexivity|split; [exact E|apply above_ok in H; [lra|lia]]]].
  apply Forall_forall. intros y Hy. rewrite forallb_forall in R. apply reference_ok. now apply R.
Qed.

(** A constant field other than one, in one direction. *)
Lemma overshoot_lemma : exists y v, InReference y /\
  parent_value B64Num 1 [linear EqualSpacing] (fun _ => Ok (b64_ofZ 3)) [y] = Ok v /\ 3 < B2R v.
Proof.
  assert (R : reference (b64_lit 35 2) = true) by (vm_compute; reflexivity).
  destruct (holds_ok (parent_value B64Num 1 [linear EqualSpacing] (fun _ => Ok (b64_ofZ 3)) [b64_lit 35 2]) (above 3)) as (v & E & H).
  { vm_compute. reflexivity. }
  exists (b64_lit 35 2), v. split; [now apply reference_ok|]. split; [exact E|]. apply above_ok in H; [exact H|lia].
Qed.

(** Reflection at order three. *)
Lemma cubic_reflection_lemma : exists i y v v', (0 <= i <= 3)%Z /\ InReference y /\
  bvalue (LagrangeBasis B64Num 3 GaussLobattoSpacing) i y = Ok v /\
  bvalue (LagrangeBasis B64Num 3 GaussLobattoSpacing) (3 - i) (Bopp y) = Ok v' /\ B2R v' <> B2R v.
Proof.
  assert (R : reference (b64_lit 984375 6) = true) by (vm_compute; reflexivity).
  destruct (holds2_ok (bvalue (LagrangeBasis B64Num 3 GaussLobattoSpacing) 1 (b64_lit 984375 6))
                      (bvalue (LagrangeBasis B64Num 3 GaussLobattoSpacing) 2 (Bopp (b64_lit 984375 6)))
     (fun a b => is_finite a && is_finite b && negb (Beqb b a))) as (v & v' & E1 & E2 & H).
  { vm_compute. reflexivity. }
  apply andb_prop in H as [H N]. apply andb_prop in H as [F F'].
  exists 1%Z, (b64_lit 984375 6), v, v'. split; [lia|]. split; [now apply reference_ok|]. split; [exact E1|]. split; [exact E2|].
  intros Q. rewrite Beqb_correct in N by assumption. rewrite Req_bool_true in N by exact Q. discriminate N.
Qed.
