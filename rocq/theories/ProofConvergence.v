(** Interpolation errors on box cells. *)
From Coq Require Import ZArith QArith Reals Bool List Lia Lra.
From Verif Require Import Base ProofBase Num SpecIndex ProofBox SpecNumeric SpecBasis SpecApprox SpecStability SpecGradError SpecConvergence ModelAssert ModelSpacing ModelQuadrature
  ModelLagrange ModelBasisProduct ModelMath ModelTransforms ProofPoly ProofLagrange ProofSpacing ProofTensor ProofQuadrature ProofRemainder ProofConform ProofApprox ProofEnergy ProofStability ProofGradError.
From Verif Require ProofTransform.
Import ListNotations.
Open Scope R_scope.

Lemma place_length c : forall h xi, length h = length c -> length xi = length c -> length (place c h xi) = length c.
Proof. induction c as [|a c IH]; intros [|l h] [|x xi] H1 H2; try discriminate; [reflexivity|]. cbn [place length]. f_equal. apply IH; [now injection H1|now injection H2]. Qed.
Lemma place_box c : forall h xi, length h = length c -> length xi = length c -> Forall (fun l => 0 < l) h -> InCube (-1) 1 xi -> InBox c h (place c h xi).
Proof.
  induction c as [|a c IH]; intros [|l h] [|x xi] H1 H2 HP HC; try discriminate; [exact I|]. inversion HP; subst. inversion HC; subst. cbn [place InBox].
  split; [|apply IH; try assumption; [now injection H1|now injection H2]]. split; nra.
Qed.
Lemma place_upd c : forall h xi k t, length h = length c -> length xi = length c -> (k < length c)%nat ->
  place c h (upd xi k t) = upd (place c h xi) k (nth k c 0 + nth k h 0 / 2 * t).
Proof.
  induction c as [|a c IH]; intros [|l h] [|x xi] k t H1 H2 Hk; try discriminate; [cbn in Hk; lia|]. injection H1 as H1. injection H2 as H2.
  destruct k as [|k]; cbn [upd place nth]; [reflexivity|]. f_equal. apply IH; try assumption. cbn in Hk. lia.
Qed.
Lemma place_nth c : forall h xi k, length h = length c -> length xi = length c -> (k < length c)%nat ->
  nth k (place c h xi) 0 = nth k c 0 + nth k h 0 / 2 * nth k xi 0.
Proof.
  induction c as [|a c IH]; intros [|l h] [|x xi] k H1 H2 Hk; try discriminate; [cbn in Hk; lia|]. injection H1 as H1. injection H2 as H2.
  destruct k as [|k]; cbn [place nth]; [reflexivity|]. apply IH; try assumption. cbn in Hk. lia.
Qed.
Lemma partial_place F c h p k D : length h = length c -> length p = length c -> (k < length c)%nat -> Partial F k (place c h p) D ->
  Partial (fun p => F (place c h p)) k p (nth k h 0 / 2 * D).
Proof.
  intros H1 H2 Hk HP. unfold Partial in *. rewrite place_nth in HP by assumption.
  eapply deriv_ext; [intros s; rewrite place_upd by assumption; reflexivity|].
  set (A := nth k c 0) in *. set (B := nth k h 0 / 2) in *.
  assert (HA : derivable_pt_lim (fun t => A + B * t) (nth k p 0) B).
  { pose proof (derivable_pt_lim_plus (fct_cte A) (fun t => B * t) (nth k p 0) 0 (B * 1) (derivable_pt_lim_const _ _)
      (derivable_pt_lim_scal id B _ _ (derivable_pt_lim_id _))) as H. replace (0 + B * 1) with B in H by ring. exact H. }
  pose proof (derivable_pt_lim_comp (fun t => A + B * t) (fun s => F (upd (place c h p) k s)) (nth k p 0) B D HA HP) as H. unfold comp in H. rewrite Rmult_comm in H. exact H.
Qed.
Lemma partial_scal F k p w D : Partial F k p D -> Partial (fun p => w * F p) k p (w * D).
Proof. intros H. unfold Partial in *. apply (derivable_pt_lim_scal (fun t => F (upd p k t))). exact H. Qed.

(** Directions with the right number of points, whatever the points are. *)
Definition Sized (so : spacing * Z) (d : direction) : Prop := npts d = (snd so + 1)%Z /\ Nodal d.
Lemma grids_sized specs ds : Forall2 GridR specs ds -> Forall2 Sized specs ds.
Proof. induction 1 as [|so d specs ds (Hn & _ & HN) _ IH]; constructor; [split; assumption|exact IH]. Qed.
(** The bounds on the reference cell. *)
Fixpoint scalv (w : R) (specs : list (spacing * Z)) (M h : list R) : list R :=
  match specs, M, h with
  | so :: specs', m :: M', l :: h' => w * ((l / 2) ^ Z.to_nat (snd so + 1) * m) :: scalv w specs' M' h'
  | _, _, _ => []
  end.
Fixpoint scalg (j : nat) (w : R) (specs : list (spacing * Z)) (M h : list R) : list R :=
  match specs, M, h with
  | so :: specs', m :: M', l :: h' =>
      match j with
      | O => w * ((l / 2) ^ Z.to_nat (snd so) * m) :: scalv w specs' M' h'
      | S j' => w * ((l / 2) ^ Z.to_nat (snd so + 1) * m) :: scalg j' w specs' M' h'
      end
  | _, _, _ => []
  end.
Lemma scalv_length w specs : forall M h, length M = length specs -> length h = length specs -> length (scalv w specs M h) = length specs.
Proof. induction specs as [|so specs IH]; intros [|m M] [|l h] H1 H2; try discriminate; [reflexivity|]. cbn [scalv length]. f_equal. apply IH; [now injection H1|now injection H2]. Qed.
Lemma scalg_length j w : forall specs M h, length M = length specs -> length h = length specs -> length (scalg j w specs M h) = length specs.
Proof.
  induction j as [|j IH]; intros [|so specs] [|m M] [|l h] H1 H2; try discriminate; try reflexivity; cbn [scalg length]; f_equal; injection H1 as H1; injection H2 as H2.
  - now apply scalv_length.
  - now apply IH.
Qed.
Lemma scalv_nth w specs ds : Forall2 Sized specs ds -> forall M h k d, length M = length specs -> length h = length specs -> nth_error ds k = Some d ->
  nth k (scalv w specs M h) 0 = w * ((nth k h 0 / 2) ^ Z.to_nat (npts d) * nth k M 0).
Proof.
  induction 1 as [|so e specs ds (Hn & _) _ IH]; intros [|m M] [|l h] k d H1 H2 Hd; try discriminate; [destruct k; discriminate|].
  injection H1 as H1. injection H2 as H2. destruct k as [|k]; cbn in Hd; cbn [scalv nth]; [injection Hd as <-; rewrite Hn; reflexivity|now apply IH].
Qed.
Lemma scalg_nth w j : forall specs ds M h k d, Forall2 Sized specs ds -> length M = length specs -> length h = length specs -> nth_error ds k = Some d ->
  nth k (scalg j w specs M h) 0 = w * ((nth k h 0 / 2) ^ times j k d * nth k M 0).
Proof.
  induction j as [|j IH]; intros specs ds [|m M] [|l h] k d HG H1 H2 Hd; inversion HG as [|so e specs' ds' (Hn & H12) HG']; subst; try discriminate;
    try (destruct k; discriminate); injection H1 as H1; injection H2 as H2; destruct k as [|k]; cbn in Hd; cbn [scalg nth]; unfold times; cbn [Nat.eqb].
  - injection Hd as <-. rewrite Hn. replace (snd so + 1 - 1)%Z with (snd so) by lia. reflexivity.
  - now apply (scalv_nth w specs' ds').
  - injection Hd as <-. rewrite Hn. reflexivity.
  - change (Z.to_nat (if Nat.eqb k j then npts d - 1 else npts d)%Z) with (times j k d). now apply (IH specs' ds').
Qed.

Lemma prod_two n (f : Z -> R) : (forall i, (0 <= i < n)%Z -> 0 <= f i <= 2) -> 0 <= Zprod n f <= 2 ^ Z.to_nat n.
Proof.
  intros H. rewrite Zprod_prodR. destruct (prodR_le f (fun _ => 2) (zseq (Z.to_nat n))) as (A & B); [intros i Hi; apply H; apply in_zseq in Hi; lia|].
  split; [exact A|]. eapply Rle_trans; [exact B|]. right. clear. induction (Z.to_nat n) as [|k IH]; [reflexivity|].
  rewrite zseq_S. rewrite prodR_app, IH, prodR_cons. cbn. ring.
Qed.
Lemma half_power l n m z : 0 <= m -> 0 < l -> 0 <= z <= 2 ^ n -> (l / 2) ^ n * m / INR (fact n) * z <= m * l ^ n / INR (fact n).
Proof.
  intros Hm Hl Hz. assert (Hf : 0 < / INR (fact n)) by (apply Rinv_0_lt_compat, INR_fact_lt_0).
  assert (E : (l / 2) ^ n * 2 ^ n = l ^ n) by (rewrite <- Rpow_mult_distr; f_equal; field).
  assert (P : 0 <= (l / 2) ^ n) by (apply pow_le; lra). unfold Rdiv.
  apply Rle_trans with ((l / 2) ^ n * m * / INR (fact n) * 2 ^ n).
  - apply Rmult_le_compat_l; [|apply Hz]. apply Rmult_le_pos; [apply Rmult_le_pos; assumption|lra].
  - right. transitivity (m * ((l / 2) ^ n * 2 ^ n) * / INR (fact n)); [ring|]. rewrite E. reflexivity.
Qed.
Lemma stability_nonneg so : ValidOrder so -> 0 <= Stability so.
Proof.
  intros H. unfold Stability. destruct so as [[] o]; cbn [fst snd]; try lra. destruct (o <=? 15)%Z; apply pow_le; lra.
Qed.
Lemma value_bound w specs ds : 0 <= w -> Forall ValidOrder specs -> Forall2 Sized specs ds -> PointsIn (-1) 1 ds -> forall M h xi, length M = length specs -> length h = length specs ->
  length xi = length specs -> Forall (fun m => 0 <= m) M -> Forall (fun l => 0 < l) h -> InCube (-1) 1 xi ->
  error_bound ds (map Stability specs) (scalv w specs M h) xi <= w * value_convergence specs M h.
Proof.
  intros Hw HV HG. induction HG as [|so d specs ds (Hn & _) HG IH]; intros HP [|m M] [|l h] [|x xi] H1 H2 H3 HM Hh HC; try discriminate; [cbn; lra|].
  inversion HV as [|? ? V1 V2]; subst. inversion HP as [|? ? P1 P2]; subst. inversion HM as [|? ? M1 M2]; subst. inversion Hh as [|? ? L1 L2]; subst. inversion HC as [|? ? X1 X2]; subst.
  injection H1 as H1. injection H2 as H2. injection H3 as H3. specialize (IH V2 P2 M h xi H1 H2 H3 M2 L2 X2). cbn [map error_bound scalv value_convergence].
  rewrite <- Hn. set (n := Z.to_nat (npts d)). rewrite Rmult_plus_distr_l. apply Rplus_le_compat.
  - pose proof (prod_two (npts d) (fun i => Rabs (x - pt d i))) as Z2. fold n in Z2.
    pose proof (half_power l n m _ M1 L1 (Z2 ltac:(intros i Hi; split; [apply Rabs_pos|apply Rabs_le; pose proof (P1 i Hi); lra]))) as B.
    apply Rle_trans with (w * ((l / 2) ^ n * m / INR (fact n) * Zprod (npts d) (fun i => Rabs (x - pt d i)))); [right; unfold Rdiv; ring|]. now apply Rmult_le_compat_l.
  - apply Rle_trans with (Stability so * (w * value_convergence specs M h)); [|right; ring]. apply Rmult_le_compat_l; [now apply stability_nonneg|exact IH].
Qed.
Lemma gradient_bound w j : forall specs ds, 0 <= w -> Forall ValidOrder specs -> Forall2 Sized specs ds -> PointsIn (-1) 1 ds -> forall M h xi, length M = length specs -> length h = length specs ->
  length xi = length specs -> Forall (fun m => 0 <= m) M -> Forall (fun l => 0 < l) h -> InCube (-1) 1 xi ->
  gradient_error_bound j ds (map Stability specs) (scalg j w specs M h) xi <= w * gradient_convergence j specs M h.
Proof.
  induction j as [|j IH]; intros specs ds Hw HV HG HP M h xi H1 H2 H3 HM Hh HC; destruct HG as [|so d specs ds G HG]; try (cbn; lra); destruct G as (Hn & G2);
    (destruct M as [|m M]; [discriminate|]); (destruct h as [|l h]; [discriminate|]); (destruct xi as [|x xi]; [discriminate|]);
    inversion HV as [|? ? V1 V2]; subst; inversion HP as [|? ? P1 P2]; subst; inversion HM as [|? ? M1 M2]; subst; inversion Hh as [|? ? L1 L2]; subst; inversion HC as [|? ? X1 X2]; subst;
    injection H1 as H1; injection H2 as H2; injection H3 as H3; cbn [map gradient_error_bound scalg gradient_convergence]; rewrite Rmult_plus_distr_l; apply Rplus_le_compat.
  - replace (snd so) with (npts d - 1)%Z by lia. set (n := Z.to_nat (npts d - 1)). fold (ElementStability specs).
    assert (S0 : 0 <= ElementStability specs). { unfold ElementStability. clear -V2. induction V2 as [|so l V _ IH]; cbn [map fold_right]; [lra|]. apply Rmult_le_pos; [now apply stability_nonneg|exact IH]. }
    rewrite <- (Rmult_assoc w (m * l ^ n / INR (fact n)) (ElementStability specs)). apply Rmult_le_compat_r; [exact S0|].
    assert (Z2 : 0 <= gap_distances d x <= 2 ^ n).
    { apply prod_two. intros i Hi. split; [eapply Rle_trans; [apply Rabs_pos|apply Rmax_l]|].
      apply Rmax_lub; apply Rabs_le; [pose proof (P1 i ltac:(lia))|pose proof (P1 (i + 1)%Z ltac:(lia))]; lra. }
    pose proof (half_power l n m _ M1 L1 Z2) as B.
    apply Rle_trans with (w * ((l / 2) ^ n * m / INR (fact n) * gap_distances d x)); [right; unfold Rdiv; ring|]. now apply Rmult_le_compat_l.
  - now apply value_bound.
  - rewrite <- Hn. set (n := Z.to_nat (npts d)). pose proof (prod_two (npts d) (fun i => Rabs (x - pt d i))) as Z2. fold n in Z2.
    pose proof (half_power l n m _ M1 L1 (Z2 ltac:(intros i Hi; split; [apply Rabs_pos|apply Rabs_le; pose proof (P1 i Hi); lra]))) as B.
    apply Rle_trans with (w * ((l / 2) ^ n * m / INR (fact n) * Zprod (npts d) (fun i => Rabs (x - pt d i)))); [right; unfold Rdiv; ring|]. now apply Rmult_le_compat_l.
  - apply Rle_trans with (Stability so * (w * gradient_convergence j specs M h)); [|right; ring]. apply Rmult_le_compat_l; [now apply stability_nonneg|]. now apply IH.
Qed.

Lemma bounds_nonneg {A} (ds : list A) (M : list R) (G : nat -> A -> R) : length M = length ds -> (forall k d, nth_error ds k = Some d -> Rabs (G k d) <= nth k M 0) -> Forall (fun m => 0 <= m) M.
Proof.
  intros HL H. apply Forall_forall. intros m Hm. apply (In_nth _ _ 0) in Hm. destruct Hm as (k & Hk & <-).
  destruct (nth_error ds k) as [d|] eqn:E; [|apply nth_error_None in E; lia]. eapply Rle_trans; [apply Rabs_pos|exact (H k d E)].
Qed.
Lemma value_convergence_lemma specs : Forall ValidOrder specs -> specs <> [] ->
  exists ds, Forall2 GridR specs ds /\
  forall (D : nat -> nat -> list R -> R) f M c h var xi,
  length xi = length specs -> length M = length specs -> length c = length specs -> length h = length specs ->
  Forall (fun l => 0 < l) h -> InCube (-1) 1 xi ->
  (forall t, InRange (counts ds) t -> var t = Ok (f (place c h (gridpoint ds t)))) ->
  (forall k p, (k < length specs)%nat -> InBox c h p -> D k 0%nat p = f p) ->
  (forall k i d p, nth_error ds k = Some d -> (i < Z.to_nat (npts d))%nat -> InBox c h p -> Partial (D k i) k p (D k (S i) p)) ->
  (forall k d p, nth_error ds k = Some d -> InBox c h p -> Rabs (D k (Z.to_nat (npts d)) p) <= nth k M 0) ->
  exists v, parent_value RNum (Z.of_nat (length specs)) (map (fun so => LagrangeBasis RNum (snd so) (fst so)) specs) var xi = Ok v /\
    Rabs (f (place c h xi) - v) <= value_convergence specs M h.
Proof.
  intros HV Hne. destruct (grids_exist specs HV) as (ds & HE & HG). exists ds. split; [exact HG|].
  destruct (grids_facts specs ds HV HG) as (Ld & HN & Hc & HP & HA). intros D f M c h var xi Hl HM Lc Lh Hh HC Hv D0 DS DM.
  assert (Hds : ds <> []) by (intros ->; destruct specs; [congruence|discriminate]).
  assert (Lhc : length h = length c) by congruence.
  assert (Lp : forall p : list R, length p = length ds -> length p = length c) by (intros p Hp; congruence).
  assert (Hk : forall k d, nth_error ds k = Some d -> (k < length c)%nat). { intros k d Hd. rewrite Lc, <- Ld. apply nth_error_Some. congruence. }
  assert (Hb : forall p, length p = length ds -> InCube (-1) 1 p -> InBox c h (place c h p)) by (intros p Hp Hpc; apply place_box; auto).
  assert (Hl' : length xi = length ds) by (etransitivity; [exact Hl|symmetry; exact Ld]).
  assert (M0 : Forall (fun m => 0 <= m) M).
  { apply (bounds_nonneg ds M (fun k d => D k (Z.to_nat (npts d)) (place c h xi))); [congruence|]. intros k d Hd. apply DM; auto. }
  rewrite <- Ld.
  destruct (parent_error (-1) 1 _ ds (fun k i p => (nth k h 0 / 2) ^ i * D k i (place c h p)) (fun p => f (place c h p)) (map Stability specs) (scalv 1 specs M h) var xi HE HN Hds HP) as (v & Ev & B).
  - exact Hl'.
  - rewrite scalv_length by assumption. symmetry. exact Ld.
  - exact HC.
  - now apply HA.
  - exact Hv.
  - intros k p Hkd Hp Hpc. cbn [Rpow_def.pow]. rewrite Rmult_1_l. apply D0; [now rewrite <- Ld|now apply Hb].
  - intros k i d p Hd Hi Hp Hpc. cbn [Rpow_def.pow]. replace (nth k h 0 / 2 * (nth k h 0 / 2) ^ i * D k (S i) (place c h p)) with ((nth k h 0 / 2) ^ i * (nth k h 0 / 2 * D k (S i) (place c h p))) by ring.
    apply partial_scal. apply partial_place; [exact Lhc|now apply Lp|now apply (Hk k d)|]. apply (DS k i d); auto.
  - intros k d p Hd Hp Hpc. rewrite (scalv_nth 1 specs ds (grids_sized _ _ HG) M h k d HM Lh Hd), Rmult_1_l, Rabs_mult.
    assert (Hpos : 0 <= (nth k h 0 / 2) ^ Z.to_nat (npts d)).
    { apply pow_le. assert (Hin : In (nth k h 0) h) by (apply nth_In; rewrite Lhc; now apply (Hk k d)). pose proof (proj1 (Forall_forall _ _) Hh _ Hin). cbn beta in *. lra. }
    rewrite (Rabs_pos_eq _ Hpos). apply Rmult_le_compat_l; [exact Hpos|]. apply DM; auto.
  - exists v. split; [exact Ev|]. eapply Rle_trans; [exact B|]. rewrite <- (Rmult_1_l (value_convergence specs M h)). pose proof (grids_sized _ _ HG). apply (value_bound 1 specs ds); try assumption. lra.
Qed.
Lemma gradient_convergence_lemma specs : Forall ValidOrder specs -> specs <> [] -> (Z.of_nat (length specs) <= INT_MAX)%Z ->
  exists ds, Forall2 GridR specs ds /\
  forall ctx (E : nat -> nat -> list R -> R) f g j M c h var xi,
  (j < length specs)%nat -> length xi = length specs -> length M = length specs -> length c = length specs -> length h = length specs ->
  Forall (fun l => 0 < l) h -> InCube (-1) 1 xi ->
  (forall t, InRange (counts ds) t -> var t = Ok (f (place c h (gridpoint ds t)))) ->
  (forall p, InBox c h p -> Partial f j p (g p)) ->
  (forall k p, (k < length specs)%nat -> InBox c h p -> E k 0%nat p = g p) ->
  (forall k i d p, nth_error ds k = Some d -> (i < times j k d)%nat -> InBox c h p -> Partial (E k i) k p (E k (S i) p)) ->
  (forall k d p, nth_error ds k = Some d -> InBox c h p -> Rabs (E k (times j k d) p) <= nth k M 0) ->
  exists v, parent_gradient RNum ctx (Z.of_nat (length specs)) (map (fun so => LagrangeBasis RNum (snd so) (fst so)) specs) var xi = Ok v /\
    length v = length specs /\ Rabs (g (place c h xi) - / (nth j h 0 / 2) * nth j v 0) <= gradient_convergence j specs M h.
Proof.
  intros HV Hne HI. destruct (gradient_error_lemma specs HV Hne HI) as (ds & HG & H). exists ds. split; [exact HG|].
  destruct (grids_facts specs ds HV HG) as (Ld & HN & Hc & HP & HA). intros ctx E f g j M c h var xi Hj Hl HM Lc Lh Hh HC Hv Hg E0 ES EM.
  assert (Lhc : length h = length c) by congruence.
  assert (Lp : forall p : list R, length p = length specs -> length p = length c) by (intros p Hp; congruence).
  assert (Hk : forall k d, nth_error ds k = Some d -> (k < length c)%nat). { intros k d Hd. rewrite Lc, <- Ld. apply nth_error_Some. congruence. }
  assert (Hb : forall p, length p = length specs -> InCube (-1) 1 p -> InBox c h (place c h p)) by (intros p Hp Hpc; apply place_box; auto).
  assert (Hhp : forall k, (k < length c)%nat -> 0 < nth k h 0 / 2).
  { intros k Hkc. assert (Hin : In (nth k h 0) h) by (apply nth_In; now rewrite Lhc). pose proof (proj1 (Forall_forall _ _) Hh _ Hin). cbn beta in *. lra. }
  assert (Hjc : (j < length c)%nat) by (now rewrite Lc).
  set (w := nth j h 0 / 2). assert (W : 0 < w) by (now apply Hhp).
  assert (M0 : Forall (fun m => 0 <= m) M).
  { apply (bounds_nonneg ds M (fun k d => E k (times j k d) (place c h xi))); [congruence|]. intros k d Hd. apply EM; auto. }
  destruct (H ctx (fun k i p => w * ((nth k h 0 / 2) ^ i * E k i (place c h p))) (fun p => f (place c h p)) (fun p => w * g (place c h p)) j (scalg j w specs M h) var xi) as (v & Ev & Lv & B).
  - exact Hj.
  - exact Hl.
  - now apply scalg_length.
  - exact HC.
  - exact Hv.
  - intros p Hp Hpc. apply partial_place; auto.
  - intros k p Hks Hp Hpc. cbn [Rpow_def.pow]. rewrite Rmult_1_l, E0 by auto. reflexivity.
  - intros k i d p Hd Hi Hp Hpc. cbn [Rpow_def.pow]. apply partial_scal.
    replace (nth k h 0 / 2 * (nth k h 0 / 2) ^ i * E k (S i) (place c h p)) with ((nth k h 0 / 2) ^ i * (nth k h 0 / 2 * E k (S i) (place c h p))) by ring.
    apply partial_scal. apply partial_place; [exact Lhc|now apply Lp|now apply (Hk k d)|]. apply (ES k i d); auto.
  - intros k d p Hd Hp Hpc. rewrite (scalg_nth w j specs ds M h k d (grids_sized _ _ HG) HM Lh Hd), Rabs_mult, (Rabs_pos_eq w) by lra. apply Rmult_le_compat_l; [lra|]. rewrite Rabs_mult.
    assert (Hpos : 0 <= (nth k h 0 / 2) ^ times j k d) by (apply pow_le, Rlt_le, Hhp; now apply (Hk k d)).
    rewrite (Rabs_pos_eq _ Hpos). apply Rmult_le_compat_l; [exact Hpos|]. apply EM; auto.
  - exists v. split; [exact Ev|]. split; [exact Lv|].
    pose proof (gradient_bound w j specs ds (Rlt_le _ _ W) HV (grids_sized _ _ HG) HP M h xi HM Lh Hl M0 Hh HC) as GB.
    apply Rmult_le_reg_l with w; [exact W|]. eapply Rle_trans; [|exact GB]. eapply Rle_trans; [|exact B].
    rewrite <- (Rabs_pos_eq w) at 1 by lra. rewrite <- Rabs_mult. right. f_equal. field. lra.
Qed.

Lemma gradient_convergence_cell specs : Forall ValidOrder specs -> length specs = 3%nat ->
  exists ds, Forall2 GridR specs ds /\
  forall ctx (E : nat -> nat -> list R -> R) f g j M c h0 h1 h2 var xi,
  (j < 3)%nat -> length xi = 3%nat -> length M = 3%nat -> length c = 3%nat -> 0 < h0 -> 0 < h1 -> 0 < h2 -> InCube (-1) 1 xi ->
  (forall t, InRange (counts ds) t -> var t = Ok (f (place c [h0; h1; h2] (gridpoint ds t)))) ->
  (forall p, InBox c [h0; h1; h2] p -> Partial f j p (g p)) ->
  (forall k p, (k < 3)%nat -> InBox c [h0; h1; h2] p -> E k 0%nat p = g p) ->
  (forall k i d p, nth_error ds k = Some d -> (i < times j k d)%nat -> InBox c [h0; h1; h2] p -> Partial (E k i) k p (E k (S i) p)) ->
  (forall k d p, nth_error ds k = Some d -> InBox c [h0; h1; h2] p -> Rabs (E k (times j k d) p) <= nth k M 0) ->
  exists v detJ invJ, parent_gradient RNum ctx 3 (map (fun so => LagrangeBasis RNum (snd so) (fst so)) specs) var xi = Ok v /\
    scaling_inverseJacobian_wrapper RNum ctx [h0; h1; h2] = Ok (detJ, invJ) /\ length v = 3%nat /\ length invJ = 3%nat /\
    Rabs (g (place c [h0; h1; h2] xi) - nth j invJ 0 * nth j v 0) <= gradient_convergence j specs M [h0; h1; h2].
Proof.
  intros HV H3. assert (Hne : specs <> []) by (intros ->; discriminate).
  destruct (gradient_convergence_lemma specs HV Hne ltac:(rewrite H3; unfold INT_MAX; lia)) as (ds & HG & H). exists ds. split; [exact HG|]. rewrite H3 in H.
  intros ctx E f g j M c h0 h1 h2 var xi Hj Lx LM Lc P0 P1 P2 HC Hv Hg E0 ES EM.
  destruct (H ctx E f g j M c [h0; h1; h2] var xi Hj Lx LM Lc eq_refl) as (v & Ev & Lv & B); try assumption; [repeat constructor; assumption|].
  destruct (ProofTransform.scaling_lemma ctx h0 h1 h2) as (_ & Hinv & _). specialize (Hinv ltac:(lra) ltac:(lra) ltac:(lra)).
  exists v. do 2 eexists. split; [exact Ev|]. split; [exact Hinv|]. split; [exact Lv|]. split; [reflexivity|].
  destruct j as [|[|[|j]]]; [exact B|exact B|exact B|lia].
Qed.

(** Squares on a segment. *)
Lemma convergence_example a l : 0 < l ->
  let D := fun (k i : nat) p => match i with O => nth 0 p 0 * nth 0 p 0 | S O => 2 * nth 0 p 0 | _ => 2 end in
  Forall ValidOrder [(EqualSpacing, 1%Z)] /\ value_convergence [(EqualSpacing, 1%Z)] [2] [l] = l * l /\
  forall ds, Forall2 GridR [(EqualSpacing, 1%Z)] ds ->
  (forall k i d p, nth_error ds k = Some d -> (i < Z.to_nat (npts d))%nat -> InBox [a] [l] p -> Partial (D k i) k p (D k (S i) p)) /\
  (forall k d p, nth_error ds k = Some d -> InBox [a] [l] p -> Rabs (D k (Z.to_nat (npts d)) p) <= nth k [2] 0).
Proof.
  intros Hl. cbv zeta. split; [repeat constructor; cbn; lia|]. split; [cbn [value_convergence snd]; change (Z.to_nat (1 + 1)) with 2%nat; change (fact 2) with 2%nat; change (INR 2) with (1 + 1); field|]. intros ds HG.
  inversion HG as [|? d0 ? ds' (N0 & _) HG']; subst. inversion HG'; subst. cbn in N0. split.
  - intros k i d p Hk Hi Hp. destruct k as [|k]; cbn in Hk; [|destruct k; discriminate]. injection Hk as <-. rewrite N0 in Hi. change (i < 2)%nat in Hi.
    destruct p as [|x [|y p]]; try (destruct Hp as (? & []); fail); [destruct Hp|]. destruct i as [|[|i]]; [| |lia]; unfold Partial; cbn [upd nth].
    + pose proof (derivable_pt_lim_mult id id x _ _ (derivable_pt_lim_id x) (derivable_pt_lim_id x)) as H. unfold id, mult_fct in H. replace (2 * x) with (1 * x + x * 1) by ring. exact H.
    + pose proof (derivable_pt_lim_scal id 2 x 1 (derivable_pt_lim_id x)) as H. rewrite Rmult_1_r in H. exact H.
  - intros k d p Hk Hp. destruct k as [|k]; cbn in Hk; [|destruct k; discriminate]. injection Hk as <-. rewrite N0. change (Rabs 2 <= 2). rewrite Rabs_pos_eq; lra.
Qed.
