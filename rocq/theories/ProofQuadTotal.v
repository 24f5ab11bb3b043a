(** Quadrature of smooth functions on box cells with the weights, points and determinants of doubles and floats. *)
From Coq Require Import ZArith QArith Reals Bool List Lia Lra.
From Flocq Require Import Core IEEE754.BinarySingleNaN.
From Verif Require Import Base ProofBase Num SpecIndex ProofBox SpecNumeric SpecBasis SpecApprox SpecIntegral SpecStability SpecConvergence SpecQuadError ModelAssert ModelB64 ModelF32 SpecB64 SpecF32
  ModelSpacing ModelQuadrature ModelTransforms ModelTransforms32 SpecVolume SpecQuadTotal SpecAccuracy SpecAccuracy32
  ProofPoly ProofLagrange ProofSpacing ProofTensor ProofQuadrature ProofIntegral ProofApprox ProofConvergence ProofQuadError.
From Verif Require ProofQuad64 ProofQuad32 ProofNodes64 ProofNodes32 ProofVolume64 ProofVolume32 ProofScaling64 ProofScaling32.
Import ListNotations.
Open Scope R_scope.

Lemma goods_weights eps rs ws xs : Goods eps rs ws xs -> forall q, InRange (map snd rs) q -> 0 <= weights_at ws q.
Proof.
  induction 1 as [|r w x rs ws xs (Hp & _) _ IH]; intros q Hq; [destruct q; cbn; lra|].
  cbn [map] in Hq. apply InRange_cons in Hq as (i & t & -> & Hi & Hq). cbn [weights_at]. apply Rmult_le_pos; [left; now apply Hp|now apply IH].
Qed.
Lemma goods_data eps rs ws xs (u : list R -> R) F C : Goods eps rs ws xs -> 0 <= C -> (forall q, InRange (map snd rs) q -> Rabs (F q - u (point_at xs q)) <= C) ->
  Rabs (BoxSum (map snd rs) (fun q => weights_at ws q * F q) - quadrature rs ws xs u) <= (2 + eps) ^ length rs * C.
Proof.
  intros HG HC HF. pose proof (quadrature_abs eps rs ws xs HG (fun _ => C) C ltac:(intros; rewrite Rabs_pos_eq; lra)) as K.
  eapply Rle_trans; [|exact K]. eapply Rle_trans; [|apply Rle_abs]. unfold quadrature. rewrite !BoxSum_sumR, <- sumR_minus. eapply Rle_trans; [apply sumR_abs|].
  apply sumR_le. intros q Hq. apply in_zbox in Hq. rewrite <- Rmult_minus_distr_l, Rabs_mult, (Rabs_pos_eq (weights_at ws q)) by now apply (goods_weights eps rs ws xs HG).
  apply Rmult_le_compat_l; [now apply (goods_weights eps rs ws xs HG)|now apply HF].
Qed.
Lemma goods_total eps rs ws xs (D : nat -> nat -> list R -> R) f B c h V F eta : Goods eps rs ws xs -> 0 <= eps -> 0 <= eta ->
  length B = length rs -> length c = length rs -> length h = length rs -> Forall (fun l => 0 < l) h ->
  (forall k p, (k < length rs)%nat -> InBox c h p -> D k 0%nat p = f p) ->
  (forall k i r p, nth_error rs k = Some r -> (i < smoothness r)%nat -> InBox c h p -> Partial (D k i) k p (D k (S i) p)) ->
  (forall k i r p, nth_error rs k = Some r -> (i <= smoothness r)%nat -> InBox c h p -> Rabs (D k i p) <= nth k B (fun _ => 0) i) ->
  (forall q, InRange (map snd rs) q -> Rabs (F q - f (place c h (point_at xs q))) <= eta) ->
  BoxIntegral c h f V ->
  Rabs (jacobian h * BoxSum (map snd rs) (fun q => weights_at ws q * F q) - V) <=
    jacobian h * ((2 + eps) ^ (length rs - 1) * directions_error eps rs B h + (2 + eps) ^ length rs * eta).
Proof.
  intros HG e0 He LB Lc Lh HP H0 HD HB HF HV. destruct (box_error eps rs ws xs HG e0 D f B c h V LB Lc Lh HP H0 HD HB HV) as (K1 & _).
  pose proof (goods_data eps rs ws xs (fun xi => f (place c h xi)) F eta HG He HF) as K2. pose proof (jacobian_pos h HP) as HJ.
  set (S1 := BoxSum _ _) in *. set (S2 := quadrature rs ws xs _) in *.
  replace (jacobian h * S1 - V) with (jacobian h * (S1 - S2) + (jacobian h * S2 - V)) by ring. eapply Rle_trans; [apply Rabs_triang|].
  rewrite Rabs_mult, (Rabs_pos_eq (jacobian h)) by lra. pose proof (Rmult_le_compat_l _ _ _ (Rlt_le _ _ HJ) K2). lra.
Qed.
Lemma goods_cell eps u rs ws xs (D : nat -> nat -> list R -> R) f B c h V F eta m d : Goods eps rs ws xs -> 0 <= eps -> 0 <= eta -> 0 <= u ->
  length B = length rs -> length c = length rs -> length h = length rs -> Forall (fun l => 0 < l) h ->
  (forall k p, (k < length rs)%nat -> InBox c h p -> D k 0%nat p = f p) ->
  (forall k i r p, nth_error rs k = Some r -> (i < smoothness r)%nat -> InBox c h p -> Partial (D k i) k p (D k (S i) p)) ->
  (forall k i r p, nth_error rs k = Some r -> (i <= smoothness r)%nat -> InBox c h p -> Rabs (D k i p) <= nth k B (fun _ => 0) i) ->
  (forall q, InRange (map snd rs) q -> Rabs (F q - f (place c h (point_at xs q))) <= eta) ->
  (forall p, InBox c h p -> Rabs (f p) <= m) -> Rabs (d - jacobian h) <= u * jacobian h ->
  BoxIntegral c h f V ->
  Rabs (d * BoxSum (map snd rs) (fun q => weights_at ws q * F q) - V) <=
    jacobian h * ((2 + eps) ^ (length rs - 1) * directions_error eps rs B h + (2 + eps) ^ length rs * (eta + u * (m + eta))).
Proof.
  intros HG e0 He Hu LB Lc Lh HP H0 HD HB HF Hm Hd HV. pose proof (goods_total eps rs ws xs D f B c h V F eta HG e0 He LB Lc Lh HP H0 HD HB HF HV) as K.
  pose proof (jacobian_pos h HP) as HJ.
  assert (M0 : 0 <= m). { eapply Rle_trans; [apply Rabs_pos|apply (Hm c)]. apply box_nonempty; [congruence|exact HP]. }
  assert (S0 : Rabs (BoxSum (map snd rs) (fun q => weights_at ws q * F q)) <= (2 + eps) ^ length rs * (m + eta)).
  { pose proof (goods_data eps rs ws xs (fun _ => 0) F (m + eta) HG ltac:(lra)) as K2. rewrite (quadrature_ext rs ws xs (fun _ => 0) (fun _ => 0 * 0)) in K2 by (intros; ring).
    rewrite quadrature_scal, Rmult_0_l, Rminus_0_r in K2. apply K2. intros q Hq. rewrite Rminus_0_r. pose proof (HF q Hq) as A.
    destruct (goods_points eps rs ws xs HG q Hq) as (L & C). pose proof (Hm (place c h (point_at xs q)) ltac:(apply place_box; try assumption; congruence)) as A2.
    apply Rabs_def2' in A. apply Rabs_def2' in A2. apply Rabs_le. lra. }
  set (S1 := BoxSum _ _) in *. set (P := (2 + eps) ^ length rs) in *. set (Z := (2 + eps) ^ (length rs - 1) * directions_error eps rs B h) in *.
  replace (d * S1 - V) with ((jacobian h * S1 - V) + (d - jacobian h) * S1) by ring. eapply Rle_trans; [apply Rabs_triang|].
  assert (T : Rabs ((d - jacobian h) * S1) <= (u * jacobian h) * (P * (m + eta))) by (rewrite Rabs_mult; apply Rmult_le_compat; try apply Rabs_pos; assumption).
  replace (jacobian h * (Z + P * (eta + u * (m + eta)))) with (jacobian h * (Z + P * eta) + (u * jacobian h) * (P * (m + eta))) by ring. lra.
Qed.

Lemma good64 q N w x eps : supported (q, N) -> Points64 (weight_ct B64Num q N) N w -> Points64 (coord_ct B64Num (rule_spacing q) N) N x -> bpow radix2 (- (if (N <=? 5)%Z then 53 else 45)) <= eps ->
  Good eps (q, N) (fun i => B2R (w i)) (fun i => B2R (x i)).
Proof.
  unfold supported. cbn [fst snd]. intros HN Pw Px He. destruct (ProofQuad64.quad64_lemma q N HN) as (w' & x' & Fw & Fx & HB & HS & HE).
  assert (Ew : forall i, (0 <= i < N)%Z -> w i = w' i) by (intros i Hi; pose proof (Pw i Hi); pose proof (Fw i Hi); congruence).
  assert (Ex : forall i, (0 <= i < N)%Z -> x i = x' i) by (intros i Hi; pose proof (Px i Hi); pose proof (Fx i Hi); congruence).
  split; [|split]; cbn [snd].
  - intros i Hi. split; [rewrite Ew by exact Hi; apply HB, Hi|].
    destruct (ProofNodes64.bundled_nodes64 (rule_spacing q) (N - 1)) as (q4 & y & _ & _ & _ & _ & Py & (R & _)).
    { destruct q; cbn; lia. }
    rewrite Z.sub_add in Py, R. replace (x i) with (y i); [|pose proof (Px i Hi); pose proof (Py i Hi); congruence]. destruct (R i Hi) as (_ & A). apply Rabs_def2' in A. lra.
  - rewrite (Zsum_ext _ _ (fun i => B2R (w' i))) by (intros i Hi; now rewrite Ew). apply Rabs_def2' in HS. lra.
  - intros p P Hp HP. rewrite (Zsum_ext _ _ (fun i => B2R (w' i) * peval p (B2R (x' i)))) by (intros i Hi; rewrite Ew, Ex by exact Hi; reflexivity).
    eapply Rle_trans; [apply (HE p P); [unfold smoothness, degree in Hp; cbn [fst snd] in Hp; destruct q; lia|exact HP]|]. apply Rmult_le_compat_r; [|exact He].
    unfold norm1. clear. induction p as [|a p IH]; cbn; [lra|]. pose proof (Rabs_pos a). lra.
Qed.
Lemma goods64 rs ws xs : Rules64 rs ws xs -> forall eps, Forall supported rs -> bpow radix2 (- (if forallb (fun r => (snd r <=? 5)%Z) rs then 53 else 45)) <= eps ->
  Goods eps rs (ProofVolume64.reals ws) (ProofVolume64.reals xs).
Proof.
  induction 1 as [|q N w x rs ws xs Pw Px H IH]; intros eps HS He; [constructor|]. inversion HS as [|? ? S1 S2]; subst. 
  assert (E : bpow radix2 (- (if (N <=? 5)%Z then 53 else 45)) <= eps /\ bpow radix2 (- (if forallb (fun r => (snd r <=? 5)%Z) rs then 53 else 45)) <= eps).
  { revert He. cbn [forallb snd]. assert (L : bpow radix2 (- (53)) <= bpow radix2 (- (45))) by (apply bpow_le; lia).
    destruct (N <=? 5)%Z, (forallb _ rs); cbn [andb]; intros; split; lra. }
  destruct E as (E1 & E2).
  unfold ProofVolume64.reals. cbn [map]. constructor; [now apply good64|now apply IH].
Qed.
Lemma quadrature_total64 rs ws xs (D : nat -> nat -> list R -> R) f B c h V F eta : Rules64 rs ws xs -> Forall supported rs -> 0 <= eta ->
  length B = length rs -> length c = length rs -> length h = length rs -> Forall (fun l => 0 < l) h ->
  (forall k p, (k < length rs)%nat -> InBox c h p -> D k 0%nat p = f p) ->
  (forall k i r p, nth_error rs k = Some r -> (i < smoothness r)%nat -> InBox c h p -> Partial (D k i) k p (D k (S i) p)) ->
  (forall k i r p, nth_error rs k = Some r -> (i <= smoothness r)%nat -> InBox c h p -> Rabs (D k i p) <= nth k B (fun _ => 0) i) ->
  (forall q, InRange (map snd rs) q -> Rabs (F q - f (place c h (map B2R (pick xs q)))) <= eta) ->
  BoxIntegral c h f V ->
  Rabs (jacobian h * BoxSum (map snd rs) (fun q => product (map B2R (pick ws q)) * F q) - V) <=
    jacobian h * ((2 + (table64 rs)) ^ (length rs - 1) * directions_error (table64 rs) rs B h + (2 + (table64 rs)) ^ length rs * eta).
Proof.
  intros HR HS He LB Lc Lh HP H0 HD HB HF HV.
  rewrite (BoxSum_ext _ _ (fun q => weights_at (ProofVolume64.reals ws) q * F q)) by (intros q Hq; rewrite ProofVolume64.pick_product; reflexivity).
  apply (goods_total (table64 rs) rs (ProofVolume64.reals ws) (ProofVolume64.reals xs) D f B c h V F eta); try assumption.
  - apply goods64; [exact HR|exact HS|apply Rle_refl].
  - apply bpow_ge_0.
  - intros q Hq. rewrite <- ProofVolume64.pick_point. now apply HF.
Qed.
Lemma cell_total64 ctx rs ws xs (D : nat -> nat -> list R -> R) f B c (h0 h1 h2 : b64) V F eta m : Rules64 rs ws xs -> Forall supported rs -> length rs = 3%nat -> 0 <= eta ->
  (forall h, In h [h0; h1; h2] -> is_finite h = true /\ bpow radix2 (- 300) <= B2R h <= bpow radix2 300) ->
  length B = 3%nat -> length c = 3%nat ->
  (forall k p, (k < 3)%nat -> InBox c [B2R h0; B2R h1; B2R h2] p -> D k 0%nat p = f p) ->
  (forall k i r p, nth_error rs k = Some r -> (i < smoothness r)%nat -> InBox c [B2R h0; B2R h1; B2R h2] p -> Partial (D k i) k p (D k (S i) p)) ->
  (forall k i r p, nth_error rs k = Some r -> (i <= smoothness r)%nat -> InBox c [B2R h0; B2R h1; B2R h2] p -> Rabs (D k i p) <= nth k B (fun _ => 0) i) ->
  (forall q, InRange (map snd rs) q -> Rabs (F q - f (place c [B2R h0; B2R h1; B2R h2] (map B2R (pick xs q)))) <= eta) ->
  (forall p, InBox c [B2R h0; B2R h1; B2R h2] p -> Rabs (f p) <= m) ->
  BoxIntegral c [B2R h0; B2R h1; B2R h2] f V ->
  exists d invJ, scaling_inverseJacobian_wrapper B64Num ctx [h0; h1; h2] = Ok (d, invJ) /\ is_finite d = true /\
    Rabs (B2R d * BoxSum (map snd rs) (fun q => product (map B2R (pick ws q)) * F q) - V) <=
      B2R h0 / 2 * (B2R h1 / 2) * (B2R h2 / 2) *
        ((2 + (table64 rs)) ^ 2 * directions_error (table64 rs) rs B [B2R h0; B2R h1; B2R h2] + (2 + (table64 rs)) ^ 3 * (eta + (3 * bpow radix2 (-53)) * (m + eta))).
Proof.
  intros HR HS L3 He Hh LB Lc H0 HD HB HF Hm HV.
  assert (Hp : forall h, In h [h0; h1; h2] -> 0 < B2R h) by (intros h Hin; destruct (Hh h Hin) as (_ & A & _); pose proof (bpow_gt_0 radix2 (- 300)); lra).
  destruct (ProofScaling64.scaling64_lemma ctx h0 h1 h2) as (_ & d & q0 & q1 & q2 & Ed & _ & Fd & Bd).
  { intros h Hin. destruct (Hh h Hin) as (A & A2). split; [exact A|]. rewrite Rabs_pos_eq by (left; now apply Hp). exact A2. }
  exists d, [q0; q1; q2]. split; [exact Ed|]. split; [exact Fd|].
  pose proof (Hp h0 ltac:(cbn; auto)) as P0. pose proof (Hp h1 ltac:(cbn; auto)) as P1. pose proof (Hp h2 ltac:(cbn; auto)) as P2.
  assert (EJ : B2R h0 / 2 * (B2R h1 / 2) * (B2R h2 / 2) = jacobian [B2R h0; B2R h1; B2R h2]) by (unfold jacobian; cbn [fold_right]; ring).
  assert (HPs : Forall (fun l => 0 < l) [B2R h0; B2R h1; B2R h2]) by (repeat constructor; assumption).
  rewrite EJ in *. rewrite (Rabs_pos_eq (jacobian _)) in Bd by (left; now apply jacobian_pos).
  rewrite (BoxSum_ext _ _ (fun q => weights_at (ProofVolume64.reals ws) q * F q)) by (intros q Hq; rewrite ProofVolume64.pick_product; reflexivity).
  pose proof (goods_cell (table64 rs) (3 * bpow radix2 (-53)) rs (ProofVolume64.reals ws) (ProofVolume64.reals xs) D f B c [B2R h0; B2R h1; B2R h2] V F eta m (B2R d)
    ltac:(apply goods64; [exact HR|exact HS|apply Rle_refl]) (bpow_ge_0 _ _) He ltac:(pose proof (bpow_ge_0 radix2 (-53)); lra) ltac:(lia) ltac:(lia) (eq_sym L3) HPs) as K.
  rewrite L3 in K. apply K; try assumption. intros q Hq. rewrite <- ProofVolume64.pick_point. now apply HF.
Qed.

Lemma good32 q N w x eps : supported (q, N) -> Points32 (weight_ct32 q N) N w -> Points32 (coord_ct32 (rule_spacing q) N) N x -> bpow radix2 (-23) <= eps ->
  Good eps (q, N) (fun i => B2R (w i)) (fun i => B2R (x i)).
Proof.
  unfold supported. cbn [fst snd]. intros HN Pw Px He. destruct (ProofQuad32.quad32_lemma q N HN) as (w' & x' & Fw & Fx & HB & HS & HE).
  assert (Ew : forall i, (0 <= i < N)%Z -> w i = w' i) by (intros i Hi; pose proof (Pw i Hi); pose proof (Fw i Hi); congruence).
  assert (Ex : forall i, (0 <= i < N)%Z -> x i = x' i) by (intros i Hi; pose proof (Px i Hi); pose proof (Fx i Hi); congruence).
  split; [|split]; cbn [snd].
  - intros i Hi. split; [rewrite Ew by exact Hi; apply HB, Hi|].
    destruct (ProofNodes32.bundled_nodes32 (rule_spacing q) (N - 1)) as (y & _ & Py & (R & _)).
    { destruct q; cbn; lia. }
    rewrite Z.sub_add in Py, R. replace (x i) with (y i); [|pose proof (Px i Hi); pose proof (Py i Hi); congruence]. destruct (R i Hi) as (_ & A). apply Rabs_def2' in A. lra.
  - rewrite (Zsum_ext _ _ (fun i => B2R (w' i))) by (intros i Hi; now rewrite Ew). apply Rabs_def2' in HS. lra.
  - intros p P Hp HP. rewrite (Zsum_ext _ _ (fun i => B2R (w' i) * peval p (B2R (x' i)))) by (intros i Hi; rewrite Ew, Ex by exact Hi; reflexivity).
    eapply Rle_trans; [apply (HE p P); [unfold smoothness, degree in Hp; cbn [fst snd] in Hp; destruct q; lia|exact HP]|]. apply Rmult_le_compat_r; [|exact He].
    unfold norm1. clear. induction p as [|a p IH]; cbn; [lra|]. pose proof (Rabs_pos a). lra.
Qed.
Lemma goods32 rs ws xs : Rules32 rs ws xs -> forall eps, Forall supported rs -> bpow radix2 (-23) <= eps ->
  Goods eps rs (ProofVolume32.reals ws) (ProofVolume32.reals xs).
Proof.
  induction 1 as [|q N w x rs ws xs Pw Px H IH]; intros eps HS He; [constructor|]. inversion HS as [|? ? S1 S2]; subst. 
  unfold ProofVolume32.reals. cbn [map]. constructor; [now apply good32|now apply IH].
Qed.
Lemma quadrature_total32 rs ws xs (D : nat -> nat -> list R -> R) f B c h V F eta : Rules32 rs ws xs -> Forall supported rs -> 0 <= eta ->
  length B = length rs -> length c = length rs -> length h = length rs -> Forall (fun l => 0 < l) h ->
  (forall k p, (k < length rs)%nat -> InBox c h p -> D k 0%nat p = f p) ->
  (forall k i r p, nth_error rs k = Some r -> (i < smoothness r)%nat -> InBox c h p -> Partial (D k i) k p (D k (S i) p)) ->
  (forall k i r p, nth_error rs k = Some r -> (i <= smoothness r)%nat -> InBox c h p -> Rabs (D k i p) <= nth k B (fun _ => 0) i) ->
  (forall q, InRange (map snd rs) q -> Rabs (F q - f (place c h (map B2R (pick xs q)))) <= eta) ->
  BoxIntegral c h f V ->
  Rabs (jacobian h * BoxSum (map snd rs) (fun q => product (map B2R (pick ws q)) * F q) - V) <=
    jacobian h * ((2 + (bpow radix2 (-23))) ^ (length rs - 1) * directions_error (bpow radix2 (-23)) rs B h + (2 + (bpow radix2 (-23))) ^ length rs * eta).
Proof.
  intros HR HS He LB Lc Lh HP H0 HD HB HF HV.
  rewrite (BoxSum_ext _ _ (fun q => weights_at (ProofVolume32.reals ws) q * F q)) by (intros q Hq; rewrite ProofVolume32.pick_product; reflexivity).
  apply (goods_total (bpow radix2 (-23)) rs (ProofVolume32.reals ws) (ProofVolume32.reals xs) D f B c h V F eta); try assumption.
  - apply goods32; [exact HR|exact HS|apply Rle_refl].
  - apply bpow_ge_0.
  - intros q Hq. rewrite <- ProofVolume32.pick_point. now apply HF.
Qed.
Lemma cell_total32 ctx rs ws xs (D : nat -> nat -> list R -> R) f B c (h0 h1 h2 : b32) V F eta m : Rules32 rs ws xs -> Forall supported rs -> length rs = 3%nat -> 0 <= eta ->
  (forall h, In h [h0; h1; h2] -> is_finite h = true /\ bpow radix2 (- 40) <= B2R h <= bpow radix2 40) ->
  length B = 3%nat -> length c = 3%nat ->
  (forall k p, (k < 3)%nat -> InBox c [B2R h0; B2R h1; B2R h2] p -> D k 0%nat p = f p) ->
  (forall k i r p, nth_error rs k = Some r -> (i < smoothness r)%nat -> InBox c [B2R h0; B2R h1; B2R h2] p -> Partial (D k i) k p (D k (S i) p)) ->
  (forall k i r p, nth_error rs k = Some r -> (i <= smoothness r)%nat -> InBox c [B2R h0; B2R h1; B2R h2] p -> Rabs (D k i p) <= nth k B (fun _ => 0) i) ->
  (forall q, InRange (map snd rs) q -> Rabs (F q - f (place c [B2R h0; B2R h1; B2R h2] (map B2R (pick xs q)))) <= eta) ->
  (forall p, InBox c [B2R h0; B2R h1; B2R h2] p -> Rabs (f p) <= m) ->
  BoxIntegral c [B2R h0; B2R h1; B2R h2] f V ->
  exists d invJ, scaling_inverseJacobian_wrapper32 ctx [h0; h1; h2] = Ok (d, invJ) /\ is_finite d = true /\
    Rabs (B2R d * BoxSum (map snd rs) (fun q => product (map B2R (pick ws q)) * F q) - V) <=
      B2R h0 / 2 * (B2R h1 / 2) * (B2R h2 / 2) *
        ((2 + (bpow radix2 (-23))) ^ 2 * directions_error (bpow radix2 (-23)) rs B [B2R h0; B2R h1; B2R h2] + (2 + (bpow radix2 (-23))) ^ 3 * (eta + (bpow radix2 (-24) + bpow radix2 (-52)) * (m + eta))).
Proof.
  intros HR HS L3 He Hh LB Lc H0 HD HB HF Hm HV.
  assert (Hp : forall h, In h [h0; h1; h2] -> 0 < B2R h) by (intros h Hin; destruct (Hh h Hin) as (_ & A & _); pose proof (bpow_gt_0 radix2 (- 40)); lra).
  destruct (ProofScaling32.scaling32_lemma ctx h0 h1 h2) as (_ & d & q0 & q1 & q2 & Ed & _ & Fd & Bd).
  { intros h Hin. destruct (Hh h Hin) as (A & A2). split; [exact A|]. rewrite Rabs_pos_eq by (left; now apply Hp). exact A2. }
  exists d, [q0; q1; q2]. split; [exact Ed|]. split; [exact Fd|].
  pose proof (Hp h0 ltac:(cbn; auto)) as P0. pose proof (Hp h1 ltac:(cbn; auto)) as P1. pose proof (Hp h2 ltac:(cbn; auto)) as P2.
  assert (EJ : B2R h0 / 2 * (B2R h1 / 2) * (B2R h2 / 2) = jacobian [B2R h0; B2R h1; B2R h2]) by (unfold jacobian; cbn [fold_right]; ring).
  assert (HPs : Forall (fun l => 0 < l) [B2R h0; B2R h1; B2R h2]) by (repeat constructor; assumption).
  rewrite EJ in *. rewrite (Rabs_pos_eq (jacobian _)) in Bd by (left; now apply jacobian_pos).
  rewrite (BoxSum_ext _ _ (fun q => weights_at (ProofVolume32.reals ws) q * F q)) by (intros q Hq; rewrite ProofVolume32.pick_product; reflexivity).
  pose proof (goods_cell (bpow radix2 (-23)) (bpow radix2 (-24) + bpow radix2 (-52)) rs (ProofVolume32.reals ws) (ProofVolume32.reals xs) D f B c [B2R h0; B2R h1; B2R h2] V F eta m (B2R d)
    ltac:(apply goods32; [exact HR|exact HS|apply Rle_refl]) (bpow_ge_0 _ _) He ltac:(pose proof (bpow_ge_0 radix2 (-24)); pose proof (bpow_ge_0 radix2 (-52)); lra) ltac:(lia) ltac:(lia) (eq_sym L3) HPs) as K.
  rewrite L3 in K. apply K; try assumption. intros q Hq. rewrite <- ProofVolume32.pick_point. now apply HF.
Qed.

(** exp x on any box. *)
Lemma exp_box_example a b e l m n : 0 < l -> 0 < m -> 0 < n ->
  let f := fun p : list R => exp (nth 0 p 0) in
  let D := fun (k i : nat) (p : list R) => match k, i with O, _ => f p | _, O => f p | _, _ => 0 end in
  let B := [fun _ : nat => exp (a + l / 2); fun _ : nat => exp (a + l / 2); fun _ : nat => exp (a + l / 2)] in
  (forall k p, (k < 3)%nat -> InBox [a; b; e] [l; m; n] p -> D k 0%nat p = f p) /\
  (forall k i p, (k < 3)%nat -> InBox [a; b; e] [l; m; n] p -> Partial (D k i) k p (D k (S i) p)) /\
  (forall k i p, (k < 3)%nat -> InBox [a; b; e] [l; m; n] p -> Rabs (D k i p) <= nth k B (fun _ => 0) i) /\
  (forall p, InBox [a; b; e] [l; m; n] p -> Rabs (f p) <= exp (a + l / 2)) /\
  BoxIntegral [a; b; e] [l; m; n] f (n * m * exp (a + l / 2) - n * m * exp (a - l / 2)).
Proof.
  intros Hl Hm Hn f D B.
  assert (BX : forall p, InBox [a; b; e] [l; m; n] p -> exists x y z, p = [x; y; z] /\ a - l / 2 <= x <= a + l / 2).
  { intros p Hp. destruct p as [|x [|y [|z [|t p]]]]; try (exfalso; cbn in Hp; tauto). exists x, y, z. split; [reflexivity|]. cbn in Hp. tauto. }
  assert (HB : forall p, InBox [a; b; e] [l; m; n] p -> Rabs (f p) <= exp (a + l / 2)).
  { intros p Hp. destruct (BX p Hp) as (x & y & z & -> & Hx). unfold f. cbn [nth]. rewrite Rabs_pos_eq by (left; apply exp_pos).
    destruct (Rle_lt_or_eq_dec x (a + l / 2) ltac:(lra)) as [H|H]; [left; now apply exp_increasing|right; now rewrite H]. }
  split; [|split; [|split; [|split]]].
  - intros k p Hk Hp. destruct k; reflexivity.
  - intros k i p Hk Hp. destruct (BX p Hp) as (x & y & z & -> & Hx). unfold Partial, D, f. destruct k as [|[|[|k]]]; [| | |lia]; cbn [upd nth].
    + apply derivable_pt_lim_exp.
    + destruct i; apply (derivable_pt_lim_const _ y).
    + destruct i; apply (derivable_pt_lim_const _ z).
  - intros k i p Hk Hp. assert (E0 : 0 < exp (a + l / 2)) by apply exp_pos. pose proof (HB p Hp) as H. unfold D, B. destruct k as [|[|[|k]]]; [| | |lia]; cbn [nth]; try exact H; destruct i; try exact H; rewrite Rabs_R0; lra.
  - exact HB.
  - assert (L : forall k y, derivable_pt_lim (fun t => k * t) y k).
    { intros k y. pose proof (derivable_pt_lim_scal id k y 1 (derivable_pt_lim_id y)) as H. rewrite Rmult_1_r in H. exact H. }
    cbn [BoxIntegral]. exists (fun x => n * m * exp x), (fun x => n * m * exp x). split; [|split; [|reflexivity]].
    + intros x _. exists (fun _ => n * exp x), (fun y => n * exp x * y). split; [|split; [intros; apply L|field]].
      intros y _. exists (fun _ => exp x), (fun z => exp x * z). split; [intros z _; reflexivity|]. split; [intros; apply L|field].
    + intros x _. apply (derivable_pt_lim_scal exp). apply derivable_pt_lim_exp.
Qed.
