(** Errors of physical gradients on cells given by their vertices. *)
From Coq Require Import ZArith QArith Reals Bool List Lia Lra.
From Verif Require Import Base ProofBase Num SpecIndex SpecMath ProofBox SpecCArray SpecNumeric SpecBasis SpecApprox SpecStability SpecGradError SpecCellError
  ModelAssert ModelCArray ModelSpacing ModelQuadrature ModelLagrange ModelBasisProduct ModelMath ModelTransforms ProofPoly ProofTensor ProofConst ProofGradError.
From Verif Require ProofTransform ProofMath.
Import ListNotations.
Open Scope R_scope.

Lemma deriv_linear c s d : derivable_pt_lim c s d -> forall e, 0 < e -> exists delta, 0 < delta /\
  forall h, Rabs h < delta -> Rabs (c (s + h) - c s - d * h) <= e * Rabs h.
Proof.
  intros H e He. destruct (H e He) as (delta & Hd). exists delta. split; [apply cond_pos|]. intros h Hh.
  destruct (Req_dec h 0) as [->|N].
  - rewrite Rplus_0_r. replace (c s - c s - d * 0) with 0 by ring. rewrite Rabs_R0. lra.
  - specialize (Hd h N Hh). replace (c (s + h) - c s - d * h) with (((c (s + h) - c s) / h - d) * h) by (field; exact N).
    rewrite Rabs_mult. apply Rmult_le_compat_r; [apply Rabs_pos|lra].
Qed.
Lemma linear_deriv c s d : (forall e, 0 < e -> exists delta, 0 < delta /\ forall h, Rabs h < delta -> Rabs (c (s + h) - c s - d * h) <= e * Rabs h) ->
  derivable_pt_lim c s d.
Proof.
  intros H e He. destruct (H (e / 2) ltac:(lra)) as (delta & Hp & Hd). exists (mkposreal delta Hp). intros h N Hh. specialize (Hd h Hh).
  replace ((c (s + h) - c s) / h - d) with ((c (s + h) - c s - d * h) * / h) by (field; exact N).
  rewrite Rabs_mult, Rabs_inv. assert (P : 0 < Rabs h) by now apply Rabs_pos_lt.
  apply Rle_lt_trans with (e / 2 * Rabs h * / Rabs h); [apply Rmult_le_compat_r; [left; now apply Rinv_0_lt_compat|exact Hd]|].
  rewrite Rmult_assoc, Rinv_r by lra. lra.
Qed.

Lemma chain F G c0 c1 c2 s d0 d1 d2 : GradientAt F [c0 s; c1 s; c2 s] G ->
  derivable_pt_lim c0 s d0 -> derivable_pt_lim c1 s d1 -> derivable_pt_lim c2 s d2 ->
  derivable_pt_lim (fun t => F [c0 t; c1 t; c2 t]) s (G 0%nat * d0 + G 1%nat * d1 + G 2%nat * d2).
Proof.
  intros HG H0 H1 H2. apply linear_deriv. intros e He.
  set (A := Rabs d0 + Rabs d1 + Rabs d2 + 3). set (Q := Rabs (G 0%nat) + Rabs (G 1%nat) + Rabs (G 2%nat) + 1).
  pose proof (Rabs_pos d0). pose proof (Rabs_pos d1). pose proof (Rabs_pos d2).
  pose proof (Rabs_pos (G 0%nat)) as G0. pose proof (Rabs_pos (G 1%nat)) as G1. pose proof (Rabs_pos (G 2%nat)) as G2.
  assert (HA : 3 <= A) by (unfold A; lra). assert (HQ : 1 <= Q) by (unfold Q; lra).
  assert (E1 : 0 < e / 2 / A) by (apply Rdiv_lt_0_compat; lra).
  assert (E2 : 0 < Rmin 1 (e / 2 / Q)) by (apply Rmin_pos; [lra|apply Rdiv_lt_0_compat; lra]).
  destruct (HG _ E1) as (delta & Dp & HD). set (e2 := Rmin 1 (e / 2 / Q)) in *.
  assert (e21 : e2 <= 1) by apply Rmin_l. assert (e22 : e2 * Q <= e / 2).
  { apply Rle_trans with (e / 2 / Q * Q); [apply Rmult_le_compat_r; [lra|apply Rmin_r]|]. apply Req_le. field. lra. }
  destruct (deriv_linear _ _ _ H0 e2 E2) as (a0 & P0 & L0). destruct (deriv_linear _ _ _ H1 e2 E2) as (a1 & P1 & L1). destruct (deriv_linear _ _ _ H2 e2 E2) as (a2 & P2 & L2).
  exists (Rmin (Rmin a0 a1) (Rmin a2 (delta / A))). split; [repeat apply Rmin_pos; try assumption; apply Rdiv_lt_0_compat; lra|].
  intros h Hh.
  assert (h0 : Rabs h < a0) by (eapply Rlt_le_trans; [exact Hh|]; eapply Rle_trans; apply Rmin_l).
  assert (h1 : Rabs h < a1) by (eapply Rlt_le_trans; [exact Hh|]; eapply Rle_trans; [apply Rmin_l|apply Rmin_r]).
  assert (h2 : Rabs h < a2) by (eapply Rlt_le_trans; [exact Hh|]; eapply Rle_trans; [apply Rmin_r|apply Rmin_l]).
  assert (h3 : Rabs h < delta / A) by (eapply Rlt_le_trans; [exact Hh|]; eapply Rle_trans; [apply Rmin_r|apply Rmin_r]).
  specialize (L0 h h0). specialize (L1 h h1). specialize (L2 h h2). pose proof (Rabs_pos h) as hp.
  set (x0 := c0 (s + h) - c0 s) in *. set (x1 := c1 (s + h) - c1 s) in *. set (x2 := c2 (s + h) - c2 s) in *.
  assert (W : forall x d, Rabs (x - d * h) <= e2 * Rabs h -> Rabs x <= (Rabs d + 1) * Rabs h).
  { intros x d Hx. replace x with ((x - d * h) + d * h) by ring. eapply Rle_trans; [apply Rabs_triang|]. rewrite Rabs_mult. nra. }
  pose proof (W _ _ L0) as W0. pose proof (W _ _ L1) as W1. pose proof (W _ _ L2) as W2.
  assert (hA : A * Rabs h < delta). { apply Rmult_lt_reg_r with (/ A); [apply Rinv_0_lt_compat; lra|]. rewrite Rmult_comm, <- Rmult_assoc, Rinv_l by lra. unfold Rdiv in h3. lra. }
  specialize (HD [c0 (s + h); c1 (s + h); c2 (s + h)] eq_refl).
  unfold sum3 in HD. cbn [nth] in HD. fold x0 x1 x2 in HD.
  assert (K : Rabs (F [c0 (s + h); c1 (s + h); c2 (s + h)] - F [c0 s; c1 s; c2 s] - (G 0%nat * x0 + G 1%nat * x1 + G 2%nat * x2)) <= e / 2 * Rabs h).
  { eapply Rle_trans; [apply HD|].
    - intros [|[|[|k]]] Hk; cbn [nth]; try lia; fold x0 x1 x2; eapply Rle_lt_trans; try (exact W0 || exact W1 || exact W2); unfold A in hA; nra.
    - apply Rle_trans with (e / 2 / A * (A * Rabs h)); [apply Rmult_le_compat_l; [lra|unfold A; lra]|]. apply Req_le. field. lra. }
  assert (T : forall g x d, Rabs (x - d * h) <= e2 * Rabs h -> Rabs (g * (x - d * h)) <= Rabs g * (e2 * Rabs h)).
  { intros g x d Hx. rewrite Rabs_mult. apply Rmult_le_compat_l; [apply Rabs_pos|exact Hx]. }
  pose proof (T (G 0%nat) _ _ L0) as T0. pose proof (T (G 1%nat) _ _ L1) as T1. pose proof (T (G 2%nat) _ _ L2) as T2.
  assert (S : (Rabs (G 0%nat) + Rabs (G 1%nat) + Rabs (G 2%nat)) * (e2 * Rabs h) <= e / 2 * Rabs h).
  { apply Rle_trans with (Q * (e2 * Rabs h)); [apply Rmult_le_compat_r; [nra|unfold Q; lra]|]. nra. }
  match goal with |- Rabs ?u <= _ => replace u with ((F [c0 (s + h); c1 (s + h); c2 (s + h)] - F [c0 s; c1 s; c2 s] - (G 0%nat * x0 + G 1%nat * x1 + G 2%nat * x2)) +
    (G 0%nat * (x0 - d0 * h) + G 1%nat * (x1 - d1 * h) + G 2%nat * (x2 - d2 * h))) by ring end.
  eapply Rle_trans; [apply Rabs_triang|]. eapply Rle_trans; [apply Rplus_le_compat_l; eapply Rle_trans; [apply Rabs_triang|apply Rplus_le_compat_r, Rabs_triang]|]. lra.
Qed.

Lemma cell_gradient_lemma specs : Forall ValidOrder specs -> length specs = 3%nat ->
  exists es, Forall2 GridR specs es /\
  forall ctx bases ds mem X d invJ B F G (g : nat -> list R -> R) (E : nat -> nat -> nat -> list R -> R) M var xi,
  Forall2 Evaluates bases ds -> Forall Differentiates ds -> length ds = 3%nat -> Holds (owning (counts ds ++ [3%Z])) mem X ->
  length xi = 3%nat -> InCube (-1) 1 xi ->
  inverseJacobian_wrapper RNum ctx 3 bases mem xi = Ok (d, invJ) -> Holds (owning [3; 3]%Z) invJ B ->
  (forall t, InRange (counts es) t -> var t = Ok (F (position ds X (gridpoint es t)))) -> GradientAt F (position ds X xi) G ->
  (forall j, (j < 3)%nat -> length (M j) = 3%nat) ->
  (forall j p, (j < 3)%nat -> length p = 3%nat -> InCube (-1) 1 p -> Partial (fun p => F (position ds X p)) j p (g j p)) ->
  (forall j k p, (j < 3)%nat -> (k < 3)%nat -> length p = 3%nat -> InCube (-1) 1 p -> E j k 0%nat p = g j p) ->
  (forall j k i e p, (j < 3)%nat -> nth_error es k = Some e -> (i < times j k e)%nat -> length p = 3%nat -> InCube (-1) 1 p ->
     Partial (E j k i) k p (E j k (S i) p)) ->
  (forall j k e p, (j < 3)%nat -> nth_error es k = Some e -> length p = 3%nat -> InCube (-1) 1 p -> Rabs (E j k (times j k e) p) <= nth k (M j) 0) ->
  exists v, parent_gradient RNum ctx 3 (map (fun so => LagrangeBasis RNum (snd so) (fst so)) specs) var xi = Ok v /\ length v = 3%nat /\
    forall k, (k < 3)%nat ->
      Rabs (G k - sum3 (fun j => nth j v 0 * B [Z.of_nat j; Z.of_nat k])) <=
        sum3 (fun j => gradient_error_bound j es (map Stability specs) (M j) xi * Rabs (B [Z.of_nat j; Z.of_nat k])).
Proof.
  intros HV L3. assert (Hne : specs <> []) by (intros ->; discriminate).
  destruct (gradient_error_lemma specs HV Hne ltac:(rewrite L3; unfold INT_MAX; lia)) as (es & HG & H). exists es. split; [exact HG|]. rewrite L3 in H.
  intros ctx bases ds mem X d invJ B F G g E M var xi HE HDf Ld HX Lx HC EI HB Hv HGr LM Hg HE0 HES HEM.
  assert (KJ : forall j, (j < 3)%nat -> exists v, parent_gradient RNum ctx 3 (map (fun so => LagrangeBasis RNum (snd so) (fst so)) specs) var xi = Ok v /\
    length v = 3%nat /\ Rabs (g j xi - nth j v 0) <= gradient_error_bound j es (map Stability specs) (M j) xi).
  { intros j Hj. apply (H ctx (E j) (fun p => F (position ds X p)) (g j) j (M j) var xi Hj Lx (LM j Hj) HC Hv).
    - intros p Lp Hp. now apply Hg.
    - intros k p Hk Lp Hp. now apply HE0.
    - intros k i e p Hk Hi Lp Hp. now apply (HES j k i e p Hj Hk Hi).
    - intros k e p Hk Lp Hp. now apply (HEM j k e p Hj Hk). }
  destruct (KJ 0%nat ltac:(lia)) as (v & Ev & Lv & B0). destruct (KJ 1%nat ltac:(lia)) as (v1 & Ev1 & _ & B1). destruct (KJ 2%nat ltac:(lia)) as (v2 & Ev2 & _ & B2).
  rewrite Ev in Ev1, Ev2. injection Ev1 as <-. injection Ev2 as <-. clear KJ.
  exists v. split; [exact Ev|]. split; [exact Lv|].
  destruct (ProofTransform.inverse_jacobian_lemma ctx bases ds mem X xi HE HDf Ld Lx HX) as (K & HK & K1 & K2).
  destruct (Req_dec (det 3 K) 0) as [Z0|NZ]; [rewrite (K2 Z0) in EI; discriminate|].
  destruct (K1 NZ) as (invJ' & B' & E' & HB' & HI). rewrite E' in EI. injection EI as _ <-.
  assert (BB : forall i j, (0 <= i < 3)%Z -> (0 <= j < 3)%Z -> B [i; j] = B' [i; j]).
  { intros i j Ii Ij. apply (Holds_same [3; 3]%Z invJ' B B' HB HB'). repeat (constructor; [lia|]); constructor. }
  assert (GK : forall j, (j < 3)%nat -> g j xi = G 0%nat * K 0%Z (Z.of_nat j) + G 1%nat * K 1%Z (Z.of_nat j) + G 2%nat * K 2%Z (Z.of_nat j)).
  { intros j Hj. apply (uniqueness_limite (fun t => F (position ds X (upd xi j t))) (nth j xi 0)); [exact (Hg j xi Hj Lx HC)|].
    set (cc := fun i t => BoxSum (counts ds) (fun tt => tensor ds tt (upd xi j t) * X (tt ++ [i]))).
    assert (UP : upd xi j (nth j xi 0) = xi).
    { destruct xi as [|a [|b [|c [|? ?]]]]; try discriminate Lx. destruct j as [|[|[|j]]]; reflexivity. }
    apply (chain F G (cc 0%Z) (cc 1%Z) (cc 2%Z)).
    - unfold cc. rewrite UP. exact HGr.
    - exact (HK 0%Z j ltac:(lia) Hj).
    - exact (HK 1%Z j ltac:(lia) Hj).
    - exact (HK 2%Z j ltac:(lia) Hj). }
  pose proof (GK 0%nat ltac:(lia)) as g0. pose proof (GK 1%nat ltac:(lia)) as g1. pose proof (GK 2%nat ltac:(lia)) as g2. clear GK.
  change (Z.of_nat 0) with 0%Z in *. change (Z.of_nat 1) with 1%Z in *. change (Z.of_nat 2) with 2%Z in *.
  intros k Hk. assert (Ik : (0 <= Z.of_nat k < 3)%Z) by lia.
  destruct (HI 0%Z (Z.of_nat k) ltac:(lia) Ik) as (D0 & _). destruct (HI 1%Z (Z.of_nat k) ltac:(lia) Ik) as (D1 & _). destruct (HI 2%Z (Z.of_nat k) ltac:(lia) Ik) as (D2 & _).
  unfold matmul in D0, D1, D2. rewrite ProofMath.Rsum3 in D0, D1, D2. rewrite <- !BB in D0, D1, D2 by lia.
  unfold sum3. change (Z.of_nat 0) with 0%Z. change (Z.of_nat 1) with 1%Z. change (Z.of_nat 2) with 2%Z.
  set (b0 := B [0%Z; Z.of_nat k]) in *. set (b1 := B [1%Z; Z.of_nat k]) in *. set (b2 := B [2%Z; Z.of_nat k]) in *.
  assert (EG : G k = g 0%nat xi * b0 + g 1%nat xi * b1 + g 2%nat xi * b2).
  { rewrite g0, g1, g2. transitivity (G 0%nat * delta 0 (Z.of_nat k) + G 1%nat * delta 1 (Z.of_nat k) + G 2%nat * delta 2 (Z.of_nat k)).
    - unfold delta. destruct k as [|[|[|k]]]; cbn [Z.of_nat Z.eqb Pos.eqb Pos.of_succ_nat Pos.succ]; try ring. lia.
    - rewrite <- D0, <- D1, <- D2. ring. }
  rewrite EG.
  replace (g 0%nat xi * b0 + g 1%nat xi * b1 + g 2%nat xi * b2 - (nth 0 v 0 * b0 + nth 1 v 0 * b1 + nth 2 v 0 * b2)) with
    ((g 0%nat xi - nth 0 v 0) * b0 + (g 1%nat xi - nth 1 v 0) * b1 + (g 2%nat xi - nth 2 v 0) * b2) by ring.
  eapply Rle_trans; [apply Rabs_triang|]. apply Rplus_le_compat; [eapply Rle_trans; [apply Rabs_triang|]; apply Rplus_le_compat|];
    rewrite Rabs_mult; (apply Rmult_le_compat_r; [apply Rabs_pos|assumption]).
Qed.

(** ** The square of a coordinate on any cell that is a parallelepiped *)
Lemma cell_error_example ds X o (A : nat -> R) xi : Forall Nodal ds -> Forall (fun d => (2 <= npts d)%Z) ds -> length ds = 3%nat ->
  (forall t, InRange (counts ds) t -> X (t ++ [0%Z]) = o + sum3 (fun k => A k * nth k (gridpoint ds t) 0)) -> length xi = 3%nat ->
  let F := fun y => nth 0 y 0 * nth 0 y 0 in let a := fun p => o + sum3 (fun k => A k * nth k p 0) in
  let g := fun j p => 2 * A j * a p in
  let E := fun j (k i : nat) p => match i with O => g j p | 1%nat => 2 * A j * A k | _ => 0 end in
  let M := fun j => map (fun k => if Nat.eqb k j then Rabs (2 * A j * A j) else 0) [0; 1; 2]%nat in
  GradientAt F (position ds X xi) (fun k => if Nat.eqb k 0 then 2 * a xi else 0) /\
  (forall j p, (j < 3)%nat -> length p = 3%nat -> Partial (fun p => F (position ds X p)) j p (g j p)) /\
  forall es, Forall2 GridR (repeat (EqualSpacing, 1%Z) 3) es ->
  (forall j k i e p, (j < 3)%nat -> nth_error es k = Some e -> (i < times j k e)%nat -> length p = 3%nat -> Partial (E j k i) k p (E j k (S i) p)) /\
  (forall j k e p, (j < 3)%nat -> nth_error es k = Some e -> length p = 3%nat -> Rabs (E j k (times j k e) p) <= nth k (M j) 0).
Proof.
  intros HN H2 Ld HX Lx F a g E M.
  assert (EA : forall p, a p = o + sumR (fun k => A k * nth k p 0) (seq 0 3)). { intros p. unfold a, sum3. cbn [seq]. rewrite !sumR_cons. cbn. ring. }
  assert (EP : forall p, length p = 3%nat -> nth 0 (position ds X p) 0 = a p).
  { intros p Lp. unfold position. cbn [map nth]. rewrite EA.
    pose proof (ProofTransform.interp_affine ds o A p HN H2 ltac:(rewrite Ld; apply Nat.eq_le_incl; symmetry; exact Lp)) as H. rewrite Ld in H. etransitivity; [|exact H].
    apply BoxSum_ext. intros t Ht. rewrite HX by exact Ht. f_equal. f_equal. unfold sum3. cbn [seq]. rewrite !sumR_cons. cbn. ring. }
  assert (PA : forall j p, (j < 3)%nat -> length p = 3%nat -> Partial a j p (A j)).
  { intros j p Hj Lp. pose proof (ProofTransform.affine_partial o A 3 j p Hj ltac:(apply Nat.eq_le_incl; symmetry; exact Lp)) as H.
    unfold Partial in *. eapply deriv_ext; [|exact H]. intros s. symmetry. apply EA. }
  split; [|split].
  - intros e He. exists e. split; [exact He|]. intros y Ly Hy. unfold F. rewrite EP by exact Lx. specialize (Hy 0%nat ltac:(lia)). rewrite EP in Hy by exact Lx.
    unfold sum3. cbn [Nat.eqb]. rewrite EP by exact Lx. set (u := nth 0 y 0) in *. set (v := a xi) in *.
    replace (u * u - v * v - (2 * v * (u - v) + 0 * (nth 1 y 0 - nth 1 (position ds X xi) 0) + 0 * (nth 2 y 0 - nth 2 (position ds X xi) 0))) with ((u - v) * (u - v)) by ring.
    rewrite Rabs_mult. pose proof (Rabs_pos (nth 1 y 0 - nth 1 (position ds X xi) 0)). pose proof (Rabs_pos (nth 2 y 0 - nth 2 (position ds X xi) 0)).
    pose proof (Rabs_pos (u - v)). nra.
  - intros j p Hj Lp. pose proof (PA j p Hj Lp) as H. unfold Partial in *.
    assert (UP : upd p j (nth j p 0) = p). { destruct p as [|x [|y [|z [|? ?]]]]; try discriminate Lp. destruct j as [|[|[|j]]]; reflexivity. }
    pose proof (derivable_pt_lim_mult _ _ _ _ _ H H) as HH. unfold mult_fct in HH. rewrite UP in HH.
    replace (g j p) with (A j * a p + a p * A j) by (unfold g; ring).
    eapply deriv_ext; [|exact HH]. intros s. cbv beta. unfold F. rewrite EP; [reflexivity|].
    destruct p as [|x [|y [|z [|? ?]]]]; try discriminate Lp. destruct j as [|[|[|j]]]; reflexivity.
  - intros es HG. cbn [repeat] in HG.
    inversion HG as [|? d0 ? ds1 (N0 & _) HG1]; subst. inversion HG1 as [|? d1 ? ds2 (N1 & _) HG2]; subst. inversion HG2 as [|? d2 ? ds3 (N2 & _) HG3]; subst. inversion HG3; subst.
    cbn in N0, N1, N2.
    assert (T : forall j k e, nth_error [d0; d1; d2] k = Some e -> (k < 3)%nat /\ times j k e = if Nat.eqb k j then 1%nat else 2%nat).
    { intros j k e Hk. unfold times. destruct k as [|[|[|k]]]; cbn in Hk; try (destruct k; discriminate); injection Hk as <-; rewrite ?N0, ?N1, ?N2;
        (split; [lia|]); match goal with |- context [Nat.eqb ?x ?y] => destruct (Nat.eqb x y); reflexivity end. }
    split.
    + intros j k i e p Hj Hk Hi Lp. destruct (T j k e Hk) as (K3 & Te). rewrite Te in Hi.
      destruct i as [|[|i]]; [| |destruct (Nat.eqb k j); lia].
      * unfold E, g. unfold Partial. apply (derivable_pt_lim_scal (fun t => a (upd p k t))). exact (PA k p K3 Lp).
      * unfold E, Partial. apply derivable_pt_lim_const.
    + intros j k e p Hj Hk Lp. destruct (T j k e Hk) as (K3 & ->). unfold M.
      destruct (Nat.eqb_spec k j) as [->|Hne].
      * unfold E. destruct j as [|[|[|j]]]; cbn [map nth Nat.eqb]; try lra. lia.
      * unfold E. rewrite Rabs_R0. destruct k as [|[|[|k]]]; cbn [map nth]; try lia;
          match goal with |- 0 <= (if ?b then _ else _) => destruct b; [apply Rabs_pos|lra] end.
Qed.
