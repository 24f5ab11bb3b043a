(** Errors of the tensor-product rules for smooth functions. *)
From Coq Require Import ZArith QArith Reals Bool List Lia Lra.
From Verif Require Import Base ProofBase Num SpecIndex ProofBox SpecNumeric SpecBasis SpecApprox SpecIntegral SpecStability SpecConvergence SpecQuadError ModelAssert ModelSpacing ModelQuadrature ModelTransforms
  ProofPoly ProofLagrange ProofSpacing ProofTensor ProofQuadrature ProofIntegral ProofApprox ProofConvergence.
From Verif Require ProofTransform.
Import ListNotations.
Open Scope R_scope.

(** ** Taylor polynomials *)
Fixpoint tay (a : nat -> R) (m : nat) (t : R) : R :=
  match m with O => 0 | S k => tay a k t + a k / INR (fact k) * t ^ k end.
Lemma fact_pos k : 0 < INR (fact k).
Proof. apply lt_0_INR, lt_O_fact. Qed.
Lemma fact_S_INR k : INR (fact (S k)) = INR (S k) * INR (fact k).
Proof. rewrite <- mult_INR. f_equal. Qed.
Lemma tay_deriv a m t : derivable_pt_lim (tay a (S m)) t (tay (fun k => a (S k)) m t).
Proof.
  induction m as [|m IH].
  - apply (derivable_pt_lim_ext (fct_cte (a 0%nat))); [|apply derivable_pt_lim_const].
    intros s. unfold fct_cte. cbn [tay Rpow_def.pow]. change (INR (fact 0)) with 1. field.
  - change (tay a (S (S m))) with (fun t => tay a (S m) t + a (S m) / INR (fact (S m)) * t ^ (S m)).
    change (tay (fun k => a (S k)) (S m) t) with (tay (fun k => a (S k)) m t + a (S m) / INR (fact m) * t ^ m).
    apply (derivable_pt_lim_plus (tay a (S m)) (fun t => a (S m) / INR (fact (S m)) * t ^ (S m))); [exact IH|].
    replace (a (S m) / INR (fact m) * t ^ m) with (a (S m) / INR (fact (S m)) * (INR (S m) * t ^ pred (S m))).
    + apply (derivable_pt_lim_scal (fun t => t ^ S m)). apply derivable_pt_lim_pow.
    + rewrite fact_S_INR. cbn [pred]. pose proof (fact_pos m). pose proof (pos_INR_nat_of_P 1). assert (0 < INR (S m)) by (apply lt_0_INR; lia). field. split; lra.
Qed.
Lemma tay_0 a m : tay a (S m) 0 = a 0%nat.
Proof.
  induction m as [|m IH]; [cbn [tay Rpow_def.pow]; change (INR (fact 0)) with 1; field|].
  change (tay a (S (S m)) 0) with (tay a (S m) 0 + a (S m) / INR (fact (S m)) * (0 * 0 ^ m)). rewrite IH. ring.
Qed.
Lemma taylor_right m : forall (F : nat -> R -> R) M, (forall k t, (k < m)%nat -> 0 <= t <= 1 -> derivable_pt_lim (F k) t (F (S k) t)) ->
  (forall t, 0 <= t <= 1 -> F m t <= M) -> forall t, 0 <= t <= 1 -> F 0%nat t - tay (fun k => F k 0) m t <= M * t ^ m / INR (fact m).
Proof.
  induction m as [|m IH]; intros F M HD HM t Ht.
  - cbn [tay Rpow_def.pow]. change (INR (fact 0)) with 1. specialize (HM t Ht). lra.
  - specialize (IH (fun k => F (S k)) M (fun k t Hk => HD (S k) t ltac:(lia)) HM).
    set (S0 := fun t => M * t ^ (S m) / INR (fact (S m)) - (F 0%nat t - tay (fun k => F k 0) (S m) t)).
    set (S1 := fun t => M * t ^ m / INR (fact m) - (F 1%nat t - tay (fun k => F (S k) 0) m t)).
    assert (HS : forall t, 0 <= t <= 1 -> derivable_pt_lim S0 t (S1 t)).
    { intros s Hs. unfold S0, S1.
      apply (derivable_pt_lim_minus (fun t => M * t ^ (S m) / INR (fact (S m))) (fun t => F 0%nat t - tay (fun k => F k 0) (S m) t)).
      - replace (M * s ^ m / INR (fact m)) with (M / INR (fact (S m)) * (INR (S m) * s ^ pred (S m))).
        + apply (derivable_pt_lim_ext (fun t => M / INR (fact (S m)) * t ^ S m)); [intros u; unfold Rdiv; ring|].
          apply (derivable_pt_lim_scal (fun t => t ^ S m)). apply derivable_pt_lim_pow.
        + rewrite fact_S_INR. cbn [pred]. pose proof (fact_pos m). assert (0 < INR (S m)) by (apply lt_0_INR; lia). field. split; lra.
      - apply (derivable_pt_lim_minus (F 0%nat)); [apply HD; [lia|exact Hs]|]. apply (tay_deriv (fun k => F k 0)). }
    assert (H0 : S0 0 = 0). { unfold S0. rewrite tay_0. cbn [Rpow_def.pow]. unfold Rdiv. ring. }
    assert (K : 0 <= S0 t).
    { destruct (Req_dec t 0) as [->|Hne]; [lra|]. destruct (MVT_cor2 S0 S1 0 t) as (u & Hu & Hb); [lra|intros u Hu; apply HS; lra|].
      rewrite H0 in Hu. specialize (IH u ltac:(lra)). cbn beta in IH. assert (0 <= S1 u) by (unfold S1; lra). nra. }
    unfold S0 in K. lra.
Qed.
Lemma tay_opp a m t : tay (fun k => - a k) m t = - tay a m t.
Proof. induction m as [|m IH]; cbn [tay]; [ring|]. rewrite IH. unfold Rdiv. ring. Qed.
Lemma tay_flip a m t : tay (fun k => (-1) ^ k * a k) m t = tay a m (- t).
Proof.
  induction m as [|m IH]; cbn [tay]; [ring|]. rewrite IH. replace ((- t) ^ m) with ((-1) ^ m * t ^ m) by (rewrite <- Rpow_mult_distr; f_equal; ring). unfold Rdiv. ring.
Qed.
Lemma taylor_half m (F : nat -> R -> R) M : (forall k t, (k < m)%nat -> 0 <= t <= 1 -> derivable_pt_lim (F k) t (F (S k) t)) ->
  (forall t, 0 <= t <= 1 -> Rabs (F m t) <= M) -> forall t, 0 <= t <= 1 -> Rabs (F 0%nat t - tay (fun k => F k 0) m t) <= M / INR (fact m).
Proof.
  intros HD HM t Ht.
  assert (HB : forall s, 0 <= s <= 1 -> - M <= F m s <= M). { intros s Hs. specialize (HM s Hs). apply Rabs_def2' in HM. lra. }
  pose proof (taylor_right m F M HD (fun s Hs => proj2 (HB s Hs)) t Ht) as H1.
  pose proof (taylor_right m (fun k t => - F k t) M) as H2. cbn beta in H2.
  specialize (H2 ltac:(intros k s Hk Hs; apply (derivable_pt_lim_opp (F k)); now apply HD) ltac:(intros s Hs; specialize (HB s Hs); lra) t Ht).
  rewrite (tay_opp (fun k => F k 0)) in H2.
  assert (M0 : 0 <= M) by (eapply Rle_trans; [apply Rabs_pos|apply (HM 0); lra]).
  assert (P1 : t ^ m <= 1) by (rewrite <- (pow1 m); apply pow_incr; lra). assert (P0 : 0 <= t ^ m) by (apply pow_le; lra).
  assert (HX : M * t ^ m / INR (fact m) <= M / INR (fact m)).
  { unfold Rdiv. apply Rmult_le_compat_r; [left; apply Rinv_0_lt_compat, fact_pos|]. nra. }
  apply Rabs_le. lra.
Qed.
Lemma taylor m (F : nat -> R -> R) M : (forall k t, (k < m)%nat -> -1 <= t <= 1 -> derivable_pt_lim (F k) t (F (S k) t)) ->
  (forall t, -1 <= t <= 1 -> Rabs (F m t) <= M) -> forall t, -1 <= t <= 1 -> Rabs (F 0%nat t - tay (fun k => F k 0) m t) <= M / INR (fact m).
Proof.
  intros HD HM t Ht. destruct (Rle_dec 0 t) as [H0|H0].
  - apply (taylor_half m F M); [intros k s Hk Hs; apply HD; [exact Hk|lra]|intros s Hs; apply HM; lra|lra].
  - pose proof (taylor_half m (fun k s => (-1) ^ k * F k (- s)) M) as H. cbn beta in H.
    specialize (H ltac:(intros k s Hk Hs;
       replace ((-1) ^ S k * F (S k) (- s)) with ((-1) ^ k * (F (S k) (- s) * -1)) by (cbn [Rpow_def.pow]; ring);
       apply (derivable_pt_lim_scal (fun s => F k (- s)));
       apply (derivable_pt_lim_comp (fun s => - s) (F k) s (-1)); [apply (derivable_pt_lim_opp id s 1), derivable_pt_lim_id|apply HD; [exact Hk|lra]])).
    specialize (H ltac:(intros s Hs; rewrite Rabs_mult, <- RPow_abs; replace (Rabs (-1)) with 1 by (rewrite Rabs_left; lra); rewrite pow1, Rmult_1_l; apply HM; lra) (- t) ltac:(lra)).
    cbn [Rpow_def.pow] in H. rewrite !Ropp_involutive, Rmult_1_l in H. rewrite Ropp_0, (tay_flip (fun k => F k 0)), Ropp_involutive in H. exact H.
Qed.

Fixpoint tpoly (a : nat -> R) (m : nat) : list R :=
  match m with O => [] | S k => tpoly a k ++ [a k / INR (fact k)] end.
Lemma tpoly_length a m : length (tpoly a m) = m.
Proof. induction m as [|m IH]; cbn [tpoly]; [reflexivity|]. rewrite app_length, IH. cbn. lia. Qed.
Lemma peval_app p c t : peval (p ++ [c]) t = peval p t + c * t ^ length p.
Proof. induction p as [|a p IH]; cbn [app peval length Rpow_def.pow]; [ring|]. rewrite IH. ring. Qed.
Lemma tpoly_eval a m t : peval (tpoly a m) t = tay a m t.
Proof. induction m as [|m IH]; cbn [tpoly tay]; [reflexivity|]. rewrite peval_app, tpoly_length, IH. reflexivity. Qed.
Lemma norm1_app p c : norm1 (p ++ [c]) = norm1 p + Rabs c.
Proof. unfold norm1. induction p as [|a p IH]; cbn [app map fold_right]; [ring|]. rewrite IH. ring. Qed.
Lemma tpoly_norm a b m : (forall k, (k < m)%nat -> Rabs (a k) <= b k) -> norm1 (tpoly a m) <= series b m.
Proof.
  induction m as [|m IH]; intros H; cbn [tpoly series]; [unfold norm1; cbn; lra|]. rewrite norm1_app.
  apply Rplus_le_compat; [apply IH; intros k Hk; apply H; lia|]. unfold Rdiv. rewrite Rabs_mult, Rabs_inv, (Rabs_right (INR _)) by (left; apply fact_pos).
  apply Rmult_le_compat_r; [left; apply Rinv_0_lt_compat, fact_pos|]. apply H. lia.
Qed.

(** ** One direction *)
(** A rule with positive weights and points of [-1,1], exact to [eps]. *)
Definition Good (eps : R) (r : rule * Z) (w x : Z -> R) : Prop :=
  (forall i, (0 <= i < snd r)%Z -> 0 < w i /\ -1 <= x i <= 1) /\ Zsum (snd r) w <= 2 + eps /\
  forall p P, (length p <= smoothness r)%nat -> (forall t, derivable_pt_lim P t (peval p t)) ->
    Rabs (Zsum (snd r) (fun i => w i * peval p (x i)) - (P 1 - P (-1))) <= eps * norm1 p.
Inductive Goods (eps : R) : list (rule * Z) -> list (Z -> R) -> list (Z -> R) -> Prop :=
| good_nil : Goods eps [] [] []
| good_cons r w x rs ws xs : Good eps r w x -> Goods eps rs ws xs -> Goods eps (r :: rs) (w :: ws) (x :: xs).
Lemma rule_facts eps r w x : supported r -> Rule r w x -> tenth (digits r) <= eps -> Good eps r w x.
Proof.
  unfold Good. destruct r as [q N]. unfold supported, Rule, digits, smoothness, degree. cbn [fst snd]. intros HN (Hw & Hx) He.
  destruct (weights_lemma q N HN) as (w' & Hw' & Hpos & Hsum & _).
  assert (Ew : forall i, (0 <= i < N)%Z -> w i = w' i).
  { intros i Hi. pose proof (Hw i Hi) as A1. rewrite (Hw' i Hi) in A1. injection A1 as A1. symmetry. exact A1. }
  split; [|split].
  - intros i Hi. split; [rewrite (Ew i Hi); apply Hpos, Hi|]. destruct q; cbn [rule_spacing] in Hx.
    + destruct (legendre_roots_lemma N HN) as (z & _ & Hz & _ & _ & _ & Hb & _).
      pose proof (Hx i Hi) as A1. rewrite (Hz i Hi) in A1. injection A1 as A1. rewrite <- A1. specialize (Hb i Hi). lra.
    + destruct (lobatto_roots_lemma N HN) as (z & _ & Hz & Hinc & _ & Z0 & Z1 & _).
      pose proof (Hx i Hi) as A1. rewrite (Hz i Hi) in A1. injection A1 as A1. rewrite <- A1. split.
      * destruct (Z.eq_dec i 0) as [->|Hne]; [lra|]. pose proof (Hinc 0%Z i ltac:(lia) ltac:(lia)). lra.
      * destruct (Z.eq_dec i (N - 1)) as [->|Hne]; [lra|]. pose proof (Hinc i (N - 1)%Z ltac:(lia) ltac:(lia)). lra.
  - rewrite (Zsum_ext _ _ w') by exact Ew. apply Rabs_def2' in Hsum. lra.
  - intros p P Hp HP. assert (Hp' : (Z.of_nat (length p) <= match q with QuadratureGaussLegendre => 2 * N | QuadratureGaussLobatto => 2 * N - 2 end)%Z)
      by (destruct q; lia).
    destruct (exactness_lemma q N p P HN Hp' HP) as (v & y & Hv & Hy & HE).
    rewrite (Zsum_ext _ _ (fun i => v i * peval p (y i))).
    + eapply Rle_trans; [exact HE|]. apply Rmult_le_compat_r; [|exact He]. unfold norm1. clear. induction p as [|a p IH]; cbn; [lra|].
      pose proof (Rabs_pos a). lra.
    + intros i Hi. pose proof (Hw i Hi) as A1. rewrite (Hv i Hi) in A1. injection A1 as A1.
      pose proof (Hx i Hi) as A2. rewrite (Hy i Hi) in A2. injection A2 as A2. now rewrite A1, A2.
Qed.

Lemma weighted_diff eps r w x f g delta : Good eps r w x ->
  (forall t, -1 <= t <= 1 -> Rabs (f t - g t) <= delta) ->
  Rabs (Zsum (snd r) (fun i => w i * f (x i)) - Zsum (snd r) (fun i => w i * g (x i))) <= (2 + eps) * delta.
Proof.
  intros HR Hd. destruct HR as (Hp & Hsum & _).
  assert (D0 : 0 <= delta) by (eapply Rle_trans; [apply Rabs_pos|apply (Hd 0); lra]).
  rewrite !Zsum_sumR in *. rewrite <- sumR_minus. eapply Rle_trans; [apply sumR_abs|].
  apply Rle_trans with (sumR (fun i => w i * delta) (zseq (Z.to_nat (snd r)))).
  - apply sumR_le. intros i Hi. apply in_zseq in Hi. destruct (Hp i ltac:(lia)) as (W & X).
    replace (w i * f (x i) - w i * g (x i)) with (w i * (f (x i) - g (x i))) by ring.
    rewrite Rabs_mult, (Rabs_right (w i)) by lra. apply Rmult_le_compat_l; [lra|]. now apply Hd.
  - rewrite sumR_scal_r. now apply Rmult_le_compat_r.
Qed.

Lemma line_error eps r w x (F : nat -> R -> R) b g H E : Good eps r w x -> 0 <= eps ->
  (forall k t, (k < smoothness r)%nat -> -1 <= t <= 1 -> derivable_pt_lim (F k) t (F (S k) t)) ->
  (forall k t, (k <= smoothness r)%nat -> -1 <= t <= 1 -> Rabs (F k t) <= b k) ->
  (forall t, -1 <= t <= 1 -> derivable_pt_lim H t (g t)) -> (forall t, -1 <= t <= 1 -> Rabs (F 0%nat t - g t) <= E) ->
  Rabs (Zsum (snd r) (fun i => w i * F 0%nat (x i)) - (H 1 - H (-1))) <=
    2 * E + ((4 + eps) * (b (smoothness r) / INR (fact (smoothness r))) + eps * series b (smoothness r)).
Proof.
  intros HR e0 HD HB HH HE. destruct (HR) as (Hp & Hsum & Hex). set (m := smoothness r) in *.
  pose proof (taylor m F (b m) HD (fun t Ht => HB m t (le_n _) Ht)) as HT. set (d := b m / INR (fact m)) in *.
  set (p := tpoly (fun k => F k 0) m). assert (Ep : forall t, peval p t = tay (fun k => F k 0) m t) by (intros t; apply tpoly_eval).
  destruct (antiderivative_exists p) as (Q & HQ).
  specialize (Hex p Q ltac:(unfold p; rewrite tpoly_length; lia) HQ).
  assert (Hn : norm1 p <= series b m). { apply tpoly_norm. intros k Hk. apply HB; [lia|lra]. }
  assert (B1 : Rabs (Zsum (snd r) (fun i => w i * F 0%nat (x i)) - Zsum (snd r) (fun i => w i * peval p (x i))) <= (2 + eps) * d).
  { apply (weighted_diff eps r w x (F 0%nat) (peval p) d HR). intros t Ht. rewrite Ep. now apply HT. }
  assert (B2 : Rabs ((H 1 - H (-1)) - (Q 1 - Q (-1))) <= 2 * (E + d)).
  { destruct (MVT_cor2 (fun t => H t - Q t) (fun t => g t - peval p t) (-1) 1) as (c & Hc & Hb); [lra| |].
    - intros c Hc. apply (derivable_pt_lim_minus H Q); [apply HH, Hc|apply HQ].
    - replace (H 1 - H (-1) - (Q 1 - Q (-1))) with ((H 1 - Q 1) - (H (-1) - Q (-1))) by ring. rewrite Hc. rewrite Rabs_mult.
      rewrite (Rabs_right (1 - -1)) by lra. specialize (HT c ltac:(lra)). specialize (HE c ltac:(lra)). rewrite <- Ep in HT.
      apply Rabs_def2' in HT. apply Rabs_def2' in HE. assert (Rabs (g c - peval p c) <= E + d) by (apply Rabs_le; lra). lra. }
  assert (B3 : eps * norm1 p <= eps * series b m) by now apply Rmult_le_compat_l.
  apply Rabs_def2' in B1. apply Rabs_def2' in B2. apply Rabs_def2' in Hex. apply Rabs_le. lra.
Qed.

(** ** All directions *)
Lemma quadrature_abs eps rs ws xs : Goods eps rs ws xs -> forall u C, (forall p, length p = length rs -> InCube (-1) 1 p -> Rabs (u p) <= C) ->
  Rabs (quadrature rs ws xs u) <= (2 + eps) ^ length rs * C.
Proof.
  intros HR. induction HR as [|r w x rs ws' xs' H1 H2 IH]; intros u C HU.
  - unfold quadrature. cbn [map BoxSum length Rpow_def.pow weights_at point_at]. rewrite !Rmult_1_l. apply HU; [reflexivity|constructor].
  - rewrite quadrature_cons. cbn [length Rpow_def.pow].
    pose proof (weighted_diff eps r w x (fun t => quadrature rs ws' xs' (fun p => u (t :: p))) (fun _ => 0) ((2 + eps) ^ length rs * C) H1) as K.
    rewrite (Zsum_ext _ (fun i => w i * 0) (fun i => 0 * 0)) in K by (intros; ring). rewrite Zsum_scal, Rmult_0_l in K.
    rewrite Rminus_0_r in K. rewrite Rmult_assoc. apply K. intros t Ht. rewrite Rminus_0_r. apply IH.
    intros p Hl Hc. apply HU; [cbn; lia|]. constructor; assumption.
Qed.
Lemma sumR_deriv {A} (f : A -> R -> R) f' l t : (forall a, In a l -> derivable_pt_lim (f a) t (f' a)) ->
  derivable_pt_lim (fun s => sumR (fun a => f a s) l) t (sumR f' l).
Proof.
  induction l as [|a l IH]; intros H.
  - apply (derivable_pt_lim_const 0).
  - rewrite sumR_cons. apply (derivable_pt_lim_ext (fun s => f a s + sumR (fun a => f a s) l)); [intros s; reflexivity|].
    apply (derivable_pt_lim_plus (f a)); [apply H; now left|]. apply IH. intros b Hb. apply H. now right.
Qed.
Lemma quadrature_deriv eps rs ws xs : Goods eps rs ws xs -> forall (u : R -> list R -> R) u' t,
  (forall p, length p = length rs -> InCube (-1) 1 p -> derivable_pt_lim (fun s => u s p) t (u' p)) ->
  derivable_pt_lim (fun s => quadrature rs ws xs (u s)) t (quadrature rs ws xs u').
Proof.
  intros HR. induction HR as [|r w x rs ws' xs' H1 H2 IH]; intros u u' t HU.
  - unfold quadrature. cbn [map BoxSum weights_at point_at]. apply (derivable_pt_lim_scal (fun s => u s [])). apply HU; [reflexivity|constructor].
  - destruct H1 as (Hp & _).
    rewrite quadrature_cons, Zsum_sumR.
    apply (derivable_pt_lim_ext (fun s => sumR (fun i => w i * quadrature rs ws' xs' (fun p => u s (x i :: p))) (zseq (Z.to_nat (snd r))))).
    { intros s. rewrite quadrature_cons, Zsum_sumR. reflexivity. }
    apply (sumR_deriv (fun i s => w i * quadrature rs ws' xs' (fun p => u s (x i :: p)))). intros i Hi. apply in_zseq in Hi.
    apply (derivable_pt_lim_scal (fun s => quadrature rs ws' xs' (fun p => u s (x i :: p)))).
    apply (IH (fun s p => u s (x i :: p)) (fun p => u' (x i :: p)) t). intros p Hl Hc. apply HU; [cbn; lia|]. constructor; [apply Hp; lia|exact Hc].
Qed.

Lemma jacobian_pos h : Forall (fun l => 0 < l) h -> 0 < jacobian h.
Proof. induction 1 as [|l h Hl _ IH]; cbn [jacobian fold_right]; [lra|]. fold (jacobian h). nra. Qed.
Lemma series_scal w b b' m : (forall k, (k < m)%nat -> b' k = w * b k) -> series b' m = w * series b m.
Proof. induction m as [|m IH]; intros H; cbn [series]; [ring|]. rewrite IH by (intros; apply H; lia). rewrite H by lia. unfold Rdiv. ring. Qed.
Lemma partial_first F x t D : Partial F 0 (x :: t) D -> derivable_pt_lim (fun s => F (s :: t)) x D.
Proof. intros H. exact H. Qed.
Lemma direction_nonneg eps r b l : 0 <= eps -> 0 < l -> (forall k, (k <= smoothness r)%nat -> 0 <= b k) -> 0 <= direction_error eps r b l.
Proof.
  intros He Hl Hb. unfold direction_error.
  assert (P : forall k, 0 <= (l / 2) ^ k) by (intros k; apply pow_le; lra).
  assert (S0 : forall m, (m <= smoothness r)%nat -> 0 <= series (fun k => (l / 2) ^ k * b k) m).
  { induction m as [|m IH]; intros Hm; cbn [series]; [lra|]. specialize (IH ltac:(lia)).
    assert (0 <= (l / 2) ^ m * b m / INR (fact m)); [|lra]. unfold Rdiv at 1. apply Rmult_le_pos; [|left; apply Rinv_0_lt_compat, fact_pos].
    apply Rmult_le_pos; [apply P|apply Hb; lia]. }
  apply Rplus_le_le_0_compat; apply Rmult_le_pos; try lra; [|now apply S0].
  unfold Rdiv at 1. apply Rmult_le_pos; [|left; apply Rinv_0_lt_compat, fact_pos]. apply Rmult_le_pos; [apply P|now apply Hb].
Qed.

Lemma box_nonempty c : forall h, length h = length c -> Forall (fun l => 0 < l) h -> InBox c h c.
Proof.
  induction c as [|a c IH]; intros [|l h] H1 HP; try discriminate; [exact I|]. inversion HP; subst. cbn [InBox]. split; [lra|]. apply IH; [now injection H1|assumption].
Qed.
Lemma goods_points eps rs ws xs : Goods eps rs ws xs -> forall i, InRange (map snd rs) i -> length (point_at xs i) = length rs /\ InCube (-1) 1 (point_at xs i).
Proof.
  induction 1 as [|r w x rs ws xs (Hp & _) _ IH]; intros i Hi.
  - destruct i; (split; [reflexivity|constructor]).
  - cbn [map] in Hi. apply InRange_cons in Hi as (i0 & t0 & -> & Hi0 & Hi). destruct (IH t0 Hi) as (I1 & I2). cbn [point_at length]. split; [now f_equal|]. constructor; [now apply Hp|exact I2].
Qed.
Lemma box_error eps rs ws xs : Goods eps rs ws xs -> 0 <= eps ->
  forall (D : nat -> nat -> list R -> R) f B c h V,
  length B = length rs -> length c = length rs -> length h = length rs -> Forall (fun l => 0 < l) h ->
  (forall k p, (k < length rs)%nat -> InBox c h p -> D k 0%nat p = f p) ->
  (forall k i r p, nth_error rs k = Some r -> (i < smoothness r)%nat -> InBox c h p -> Partial (D k i) k p (D k (S i) p)) ->
  (forall k i r p, nth_error rs k = Some r -> (i <= smoothness r)%nat -> InBox c h p -> Rabs (D k i p) <= nth k B (fun _ => 0) i) ->
  BoxIntegral c h f V ->
  Rabs (jacobian h * quadrature rs ws xs (fun xi => f (place c h xi)) - V) <= jacobian h * (2 + eps) ^ (length rs - 1) * directions_error eps rs B h /\
  0 <= directions_error eps rs B h.
Proof.
  intros HR. induction HR as [|r w x rs ws' xs' H1 H2 IH]; intros e0 D f B c h V LB Lc Lh HP H0 HD HB HV.
  - destruct c; [|discriminate]. destruct h; [|discriminate]. cbn [BoxIntegral] in HV. subst V. unfold quadrature. cbn [map BoxSum directions_error].
    cbn [weights_at point_at place jacobian fold_right]. rewrite !Rmult_1_l. unfold Rminus. rewrite Rplus_opp_r, Rabs_R0. lra.
  - destruct B as [|b B]; [discriminate|]. destruct c as [|a c]; [discriminate|]. destruct h as [|l h]; [discriminate|].
    injection LB as LB. injection Lc as Lc. injection Lh as Lh. inversion HP as [|? ? Hl HP']; subst.
    destruct HV as (g & G & Hg & HG & ->). set (vol := jacobian h). pose proof (jacobian_pos h HP') as Hvol. fold vol in Hvol.
    change (jacobian (l :: h)) with (l / 2 * vol).
    assert (IN : forall t, -1 <= t <= 1 -> a - l / 2 <= a + l / 2 * t <= a + l / 2) by (intros t Ht; split; nra).
    set (q := fun y => vol * quadrature rs ws' xs' (fun xi => f (y :: place c h xi))).
    set (E := vol * (2 + eps) ^ (length rs - 1) * directions_error eps rs B h).
    assert (HE : (forall y, a - l / 2 <= y <= a + l / 2 -> Rabs (q y - g y) <= E) /\ 0 <= directions_error eps rs B h).
    { assert (K : forall y, a - l / 2 <= y <= a + l / 2 -> Rabs (q y - g y) <= E /\ 0 <= directions_error eps rs B h).
      { intros y Hy. apply (IH e0 (fun k i p => D (S k) i (y :: p)) (fun p => f (y :: p)) B c h (g y) LB Lc Lh HP').
        - intros k p Hk Hp. apply H0; [cbn; lia|]. split; assumption.
        - intros k i r0 p Hn Hi Hp. exact (HD (S k) i r0 (y :: p) Hn Hi (conj Hy Hp)).
        - intros k i r0 p Hn Hi Hp. exact (HB (S k) i r0 (y :: p) Hn Hi (conj Hy Hp)).
        - now apply Hg. }
      split; [intros y Hy; apply K, Hy|]. apply (K a). lra. }
    destruct HE as (HE & E0).
    assert (BX : forall t p, -1 <= t <= 1 -> length p = length rs -> InCube (-1) 1 p -> InBox (a :: c) (l :: h) ((a + l / 2 * t) :: place c h p)).
    { intros t p Ht Hl' Hc. split; [now apply IN|]. apply place_box; try assumption; congruence. }
    set (u := fun k t p => (l / 2) ^ k * D 0%nat k ((a + l / 2 * t) :: place c h p)).
    set (F := fun k t => l / 2 * vol * quadrature rs ws' xs' (u k t)).
    assert (HF0 : forall t, -1 <= t <= 1 -> F 0%nat t = l / 2 * q (a + l / 2 * t)).
    { intros t Ht. unfold F, q. rewrite Rmult_assoc. f_equal. f_equal. apply quadrature_ext. intros i Hi.
      unfold u. cbn [Rpow_def.pow]. rewrite Rmult_1_l. apply H0; [cbn; lia|]. apply BX; [exact Ht| |].
      - exact (proj1 (goods_points _ _ _ _ H2 i Hi)).
      - exact (proj2 (goods_points _ _ _ _ H2 i Hi)). }
    assert (HFD : forall k t, (k < smoothness r)%nat -> -1 <= t <= 1 -> derivable_pt_lim (F k) t (F (S k) t)).
    { intros k t Hk Ht. unfold F. apply (derivable_pt_lim_scal (fun t => quadrature rs ws' xs' (u k t))).
      apply (quadrature_deriv eps rs ws' xs' H2 (u k) (u (S k) t) t). intros p Hl' Hc. unfold u.
      replace ((l / 2) ^ S k * D 0%nat (S k) ((a + l / 2 * t) :: place c h p)) with
        ((l / 2) ^ k * (D 0%nat (S k) ((a + l / 2 * t) :: place c h p) * (l / 2))) by (cbn [Rpow_def.pow]; ring).
      apply (derivable_pt_lim_scal (fun s => D 0%nat k ((a + l / 2 * s) :: place c h p))).
      apply (derivable_pt_lim_comp (fun s => a + l / 2 * s) (fun y => D 0%nat k (y :: place c h p)) t (l / 2)).
      - pose proof (derivable_pt_lim_plus (fct_cte a) (fun t => l / 2 * t) t 0 (l / 2 * 1) (derivable_pt_lim_const _ _)
          (derivable_pt_lim_scal id (l / 2) _ _ (derivable_pt_lim_id _))) as H. replace (0 + l / 2 * 1) with (l / 2) in H by ring. exact H.
      - apply partial_first. apply (HD 0%nat k r); [reflexivity|exact Hk|]. now apply BX. }
    set (W := l / 2 * vol * (2 + eps) ^ length rs).
    assert (HFB : forall k t, (k <= smoothness r)%nat -> -1 <= t <= 1 -> Rabs (F k t) <= W * ((l / 2) ^ k * b k)).
    { intros k t Hk Ht. unfold F, W. rewrite Rabs_mult, (Rabs_right (l / 2 * vol)) by nra. rewrite (Rmult_assoc (l / 2 * vol)). apply Rmult_le_compat_l; [nra|].
      apply (quadrature_abs eps rs ws' xs' H2). intros p Hl' Hc. unfold u.
      assert (P : 0 <= (l / 2) ^ k) by (apply pow_le; lra). rewrite Rabs_mult, (Rabs_right ((l / 2) ^ k)) by lra. apply Rmult_le_compat_l; [exact P|].
      apply (HB 0%nat k r); [reflexivity|exact Hk|]. now apply BX. }
    pose proof (line_error eps r w x F (fun k => W * ((l / 2) ^ k * b k)) (fun t => l / 2 * g (a + l / 2 * t)) (fun t => G (a + l / 2 * t)) (l / 2 * E) H1 e0 HFD HFB) as K.
    specialize (K ltac:(intros t Ht; cbn beta; rewrite Rmult_comm; apply (derivable_pt_lim_comp (fun s => a + l / 2 * s) G t (l / 2));
      [pose proof (derivable_pt_lim_plus (fct_cte a) (fun t => l / 2 * t) t 0 (l / 2 * 1) (derivable_pt_lim_const _ _)
          (derivable_pt_lim_scal id (l / 2) _ _ (derivable_pt_lim_id _))) as H; replace (0 + l / 2 * 1) with (l / 2) in H by ring; exact H
      |apply HG, IN, Ht])).
    specialize (K ltac:(intros t Ht; cbn beta; rewrite HF0 by exact Ht;
      replace (l / 2 * q (a + l / 2 * t) - l / 2 * g (a + l / 2 * t)) with (l / 2 * (q (a + l / 2 * t) - g (a + l / 2 * t))) by ring;
      rewrite Rabs_mult, (Rabs_right (l / 2)) by lra; apply Rmult_le_compat_l; [lra|apply HE, IN, Ht])).
    cbn beta in K. rewrite (series_scal W (fun k => (l / 2) ^ k * b k) _ (smoothness r)) in K by reflexivity.
    replace (a + l / 2 * 1) with (a + l / 2) in K by ring. replace (a + l / 2 * -1) with (a - l / 2) in K by ring.
    destruct H1 as (Hp & _).
    assert (EQ : Zsum (snd r) (fun i => w i * F 0%nat (x i)) = l / 2 * vol * quadrature (r :: rs) (w :: ws') (x :: xs') (fun xi => f (place (a :: c) (l :: h) xi))).
    { rewrite quadrature_cons, <- Zsum_scal. apply Zsum_ext. intros i Hi. rewrite HF0 by (apply Hp, Hi). unfold q. cbn [place]. ring. }
    rewrite EQ in K. clear EQ.
    assert (R0 : 0 <= direction_error eps r b l).
    { apply direction_nonneg; [exact e0|exact Hl|]. intros k Hk. eapply Rle_trans; [apply Rabs_pos|apply (HB 0%nat k r (a :: c)); [reflexivity|exact Hk|]].
      apply (box_nonempty (a :: c) (l :: h)); [cbn; lia|exact HP]. }
    cbn [directions_error]. split; [|lra]. eapply Rle_trans; [exact K|].
    replace (length (r :: rs) - 1)%nat with (length rs) by (cbn; lia). fold W. rewrite Rmult_plus_distr_l, Rplus_comm.
    apply Rplus_le_compat.
    + unfold direction_error. apply Req_le. unfold Rdiv. ring.
    + unfold E, W. destruct rs as [|r' rs'].
      * cbn [directions_error]. replace (directions_error eps [] B h) with 0 by reflexivity. lra.
      * replace (length (r' :: rs') - 1)%nat with (length rs') by (cbn; lia). cbn [length Rpow_def.pow].
        set (Z := directions_error eps (r' :: rs') B h) in *. assert (0 < (2 + eps) ^ length rs') by (apply pow_lt; lra).
        replace (2 * (l / 2 * (vol * (2 + eps) ^ length rs' * Z))) with (2 * (l / 2 * vol * (2 + eps) ^ length rs' * Z)) by ring.
        replace (l / 2 * vol * ((2 + eps) * (2 + eps) ^ length rs') * Z) with ((2 + eps) * (l / 2 * vol * (2 + eps) ^ length rs' * Z)) by ring.
        apply Rmult_le_compat_r; [|lra]. apply Rmult_le_pos; [|exact E0]. assert (0 < l / 2 * vol) by nra. nra.
Qed.

Lemma box_quadrature_lemma rs ws xs (D : nat -> nat -> list R -> R) f B c h V n :
  Forall supported rs -> Rules rs ws xs -> Forall (fun r => (n <= digits r)%nat) rs ->
  length B = length rs -> length c = length rs -> length h = length rs -> Forall (fun l => 0 < l) h ->
  (forall k p, (k < length rs)%nat -> InBox c h p -> D k 0%nat p = f p) ->
  (forall k i r p, nth_error rs k = Some r -> (i < smoothness r)%nat -> InBox c h p -> Partial (D k i) k p (D k (S i) p)) ->
  (forall k i r p, nth_error rs k = Some r -> (i <= smoothness r)%nat -> InBox c h p -> Rabs (D k i p) <= nth k B (fun _ => 0) i) ->
  BoxIntegral c h f V ->
  Rabs (jacobian h * quadrature rs ws xs (fun xi => f (place c h xi)) - V) <=
    jacobian h * (2 + tenth n) ^ (length rs - 1) * directions_error (tenth n) rs B h.
Proof.
  intros Hs HR Hn L1 L2 L3 HP H0 HD HB HV. pose proof (tenth_pos n).
  assert (G : Goods (tenth n) rs ws xs).
  { clear -Hs HR Hn. revert ws xs HR. induction Hs as [|r rs Hr _ IH]; intros ws xs HR.
    - destruct HR as (L1 & L2 & _). destruct ws; [|discriminate]. destruct xs; [|discriminate]. constructor.
    - apply Rules_inv in HR. destruct HR as (w & ws' & x & xs' & -> & -> & H1 & H2). inversion Hn; subst. constructor; [apply rule_facts; [exact Hr|exact H1|now apply tenth_le]|now apply IH]. }
  refine (proj1 (box_error (tenth n) rs ws xs G _ D f B c h V L1 L2 L3 HP H0 HD HB HV)). lra.
Qed.

(** ** An example that is no polynomial *)
Lemma exp_example a b l m : 0 < l -> 0 < m ->
  let f := fun p => exp (nth 0 p 0 + nth 1 p 0) in let D := fun (k i : nat) => f in
  let B := [fun _ : nat => exp (a + l / 2 + (b + m / 2)); fun _ : nat => exp (a + l / 2 + (b + m / 2))] in
  (forall k i p, (k < 2)%nat -> InBox [a; b] [l; m] p -> Partial (D k i) k p (D k (S i) p)) /\
  (forall k i p, (k < 2)%nat -> InBox [a; b] [l; m] p -> Rabs (D k i p) <= nth k B (fun _ => 0) i) /\
  exists V, BoxIntegral [a; b] [l; m] f V.
Proof.
  intros Hl Hm f D B.
  assert (HD : forall c y, derivable_pt_lim (fun s => exp (c + s)) y (exp (c + y))).
  { intros c y. assert (HA : derivable_pt_lim (fun s => c + s) y (0 + 1)) by (apply (derivable_pt_lim_plus (fct_cte c) id); [apply derivable_pt_lim_const|apply derivable_pt_lim_id]).
    rewrite Rplus_0_l in HA. pose proof (derivable_pt_lim_comp (fun s => c + s) exp y 1 (exp (c + y)) HA (derivable_pt_lim_exp _)) as H. rewrite Rmult_1_r in H. exact H. }
  repeat split.
  - intros k i p Hk Hp. destruct p as [|x [|y [|z p]]]; try (exfalso; exact Hp || (destruct Hp as (_ & Hp); exact Hp) || (destruct Hp as (_ & _ & Hp); exact Hp)).
    unfold Partial, D, f. destruct k as [|[|k]]; [| |lia]; cbn [upd nth].
    + apply (derivable_pt_lim_ext (fun s => exp (y + s))); [intros s; f_equal; ring|]. rewrite Rplus_comm. apply HD.
    + apply HD.
  - intros k i p Hk Hp. destruct p as [|x [|y [|z p]]]; try (exfalso; exact Hp || (destruct Hp as (_ & Hp); exact Hp) || (destruct Hp as (_ & _ & Hp); exact Hp)).
    destruct Hp as (H1 & H2 & _). unfold D, f, B. cbn [nth]. rewrite Rabs_right by (left; apply exp_pos).
    assert (H : exp (x + y) <= exp (a + l / 2 + (b + m / 2))).
    { destruct (Rle_lt_or_eq_dec (x + y) (a + l / 2 + (b + m / 2)) ltac:(lra)) as [H|H]; [left; now apply exp_increasing|right; now rewrite H]. }
    destruct k as [|[|k]]; [exact H|exact H|lia].
  - eexists. cbn [BoxIntegral].
    exists (fun x => exp (x + (b + m / 2)) - exp (x + (b - m / 2))), (fun x => exp (x + (b + m / 2)) - exp (x + (b - m / 2))). repeat split.
    + intros x _. exists (fun y => exp (x + y)), (fun y => exp (x + y)). repeat split. intros y _. apply HD.
    + intros x _. apply (derivable_pt_lim_minus (fun x => exp (x + (b + m / 2))) (fun x => exp (x + (b - m / 2)))).
      * apply (derivable_pt_lim_ext (fun s => exp (b + m / 2 + s))); [intros s; f_equal; ring|]. rewrite (Rplus_comm x). apply HD.
      * apply (derivable_pt_lim_ext (fun s => exp (b - m / 2 + s))); [intros s; f_equal; ring|]. rewrite (Rplus_comm x). apply HD.
Qed.

Lemma cell_quadrature_lemma rs ws xs ctx (D : nat -> nat -> list R -> R) f B c h0 h1 h2 V n :
  Forall supported rs -> length rs = 3%nat -> Rules rs ws xs -> Forall (fun r => (n <= digits r)%nat) rs ->
  length B = 3%nat -> length c = 3%nat -> 0 < h0 -> 0 < h1 -> 0 < h2 ->
  (forall k p, (k < 3)%nat -> InBox c [h0; h1; h2] p -> D k 0%nat p = f p) ->
  (forall k i r p, nth_error rs k = Some r -> (i < smoothness r)%nat -> InBox c [h0; h1; h2] p -> Partial (D k i) k p (D k (S i) p)) ->
  (forall k i r p, nth_error rs k = Some r -> (i <= smoothness r)%nat -> InBox c [h0; h1; h2] p -> Rabs (D k i p) <= nth k B (fun _ => 0) i) ->
  BoxIntegral c [h0; h1; h2] f V ->
  exists detJ invJ, scaling_inverseJacobian_wrapper RNum ctx [h0; h1; h2] = Ok (detJ, invJ) /\
    Rabs (quadrature rs ws xs (fun xi => detJ * f (place c [h0; h1; h2] xi)) - V) <=
      detJ * (2 + tenth n) ^ 2 * directions_error (tenth n) rs B [h0; h1; h2].
Proof.
  intros Hs L3 HR Hn LB Lc P0 P1 P2 H0 HD HB HV.
  destruct (ProofTransform.scaling_lemma ctx h0 h1 h2) as (_ & Hinv & _). specialize (Hinv ltac:(lra) ltac:(lra) ltac:(lra)).
  do 2 eexists. split; [exact Hinv|].
  pose proof (box_quadrature_lemma rs ws xs D f B c [h0; h1; h2] V n Hs HR Hn ltac:(lia) ltac:(lia) (eq_sym L3) ltac:(repeat constructor; assumption)
    ltac:(rewrite L3; exact H0) HD HB HV) as K. rewrite L3 in K. change (3 - 1)%nat with 2%nat in K.
  rewrite quadrature_scal. replace (h0 / 2 * (h1 / 2) * (h2 / 2)) with (jacobian [h0; h1; h2]) by (unfold jacobian; cbn [fold_right]; ring). exact K.
Qed.
