(** Total errors on box cells: interpolation, data and rounding. *)
From Coq Require Import ZArith QArith Qreals Reals Bool List Lia Lra.
From Flocq Require Import Core IEEE754.BinarySingleNaN.
From Verif Require Import Base ProofBase Num SpecIndex SpecNumeric SpecBasis ModelB64 ModelF32 ModelAssert ModelSpacing ModelLagrange ModelBasisProduct
  SpecB64 SpecF32 SpecAccuracy SpecElement64 SpecElement32 SpecApprox SpecStability SpecGradError SpecConvergence ProofPoly ProofSpacing ProofLagrange ProofApprox ProofBox ProofTensor ProofConform
  ProofTables ProofStability ProofGradError ProofGradStability ProofStability64 ProofGradStability64 ProofConvergence.
From Verif Require Import ModelMath ModelTransforms ModelTransforms32.
From Verif Require ProofNodes64 ProofNodes32 ProofElement64 ProofElement32 ProofScaling64 ProofScaling32.
Import ListNotations.
Open Scope R_scope.

(** * Interpolation on a box, for any points *)
Lemma sized_nodals specs ds : Forall2 Sized specs ds -> Forall Nodal ds.
Proof. induction 1 as [|so d l m (_ & H) _ IH]; constructor; assumption. Qed.
Lemma sized_lengths specs ds : Forall2 Sized specs ds -> length ds = length specs.
Proof. induction 1 as [|so d l m _ _ IH]; [reflexivity|]. cbn [length]. now rewrite IH. Qed.
Section Core.
Context (specs : list (spacing * Z)) (ds : list direction).
Context (HV : Forall ValidOrder specs) (HZ : Forall2 Sized specs ds) (HP : PointsIn (-1) 1 ds).
Context (Inc : Forall (fun d => (1 <= npts d)%Z /\ Increasing (npts d) (pt d)) ds).
Context (HA : forall xi, length xi = length specs -> InCube (-1) 1 xi -> Amplifies ds (map Stability specs) xi).

Lemma sized_length : length ds = length specs.
Proof using HZ. exact (sized_lengths specs ds HZ). Qed.
Lemma sized_nodal : Forall Nodal ds.
Proof using HZ. exact (sized_nodals specs ds HZ). Qed.

Lemma interp_convergence (D : nat -> nat -> list R -> R) f M c h xi :
  length xi = length specs -> length M = length specs -> length c = length specs -> length h = length specs ->
  Forall (fun l => 0 < l) h -> InCube (-1) 1 xi ->
  (forall k p, (k < length specs)%nat -> InBox c h p -> D k 0%nat p = f p) ->
  (forall k i d p, nth_error ds k = Some d -> (i < Z.to_nat (npts d))%nat -> InBox c h p -> Partial (D k i) k p (D k (S i) p)) ->
  (forall k d p, nth_error ds k = Some d -> InBox c h p -> Rabs (D k (Z.to_nat (npts d)) p) <= nth k M 0) ->
  Rabs (f (place c h xi) - interp ds (fun t => f (place c h (gridpoint ds t))) xi) <= value_convergence specs M h.
Proof using HV HZ HP HA.
  intros Hl HM Lc Lh Hh HC D0 DS DM. pose proof sized_length as Ld.
  assert (Lhc : length h = length c) by congruence.
  assert (Lp : forall p : list R, length p = length ds -> length p = length c) by (intros p Hp; congruence).
  assert (Hk : forall k d, nth_error ds k = Some d -> (k < length c)%nat). { intros k d Hd. rewrite Lc, <- Ld. apply nth_error_Some. congruence. }
  assert (Hb : forall p, length p = length ds -> InCube (-1) 1 p -> InBox c h (place c h p)) by (intros p Hp Hpc; apply place_box; auto).
  assert (Hl' : length xi = length ds) by congruence.
  assert (M0 : Forall (fun m => 0 <= m) M).
  { apply (bounds_nonneg ds M (fun k d => D k (Z.to_nat (npts d)) (place c h xi))); [congruence|]. intros k d Hd. apply DM; auto. }
  eapply Rle_trans.
  - apply (tensor_error (-1) 1 ds sized_nodal HP (fun k i p => (nth k h 0 / 2) ^ i * D k i (place c h p)) (fun p => f (place c h p)) (map Stability specs) (scalv 1 specs M h) xi).
    + exact Hl'.
    + rewrite scalv_length by assumption. symmetry. exact Ld.
    + exact HC.
    + now apply HA.
    + intros k p Hkd Hp Hpc. cbn [Rpow_def.pow]. rewrite Rmult_1_l. apply D0; [now rewrite <- Ld|now apply Hb].
    + intros k i d p Hd Hi Hp Hpc. cbn [Rpow_def.pow]. replace (nth k h 0 / 2 * (nth k h 0 / 2) ^ i * D k (S i) (place c h p)) with ((nth k h 0 / 2) ^ i * (nth k h 0 / 2 * D k (S i) (place c h p))) by ring.
      apply partial_scal. apply partial_place; [exact Lhc|now apply Lp|now apply (Hk k d)|]. apply (DS k i d); auto.
    + intros k d p Hd Hp Hpc. rewrite (scalv_nth 1 specs ds HZ M h k d HM Lh Hd), Rmult_1_l, Rabs_mult.
      assert (Hpos : 0 <= (nth k h 0 / 2) ^ Z.to_nat (npts d)).
      { apply pow_le. assert (Hin : In (nth k h 0) h) by (apply nth_In; rewrite Lhc; now apply (Hk k d)). pose proof (proj1 (Forall_forall _ _) Hh _ Hin). cbn beta in *. lra. }
      rewrite (Rabs_pos_eq _ Hpos). apply Rmult_le_compat_l; [exact Hpos|]. apply DM; auto.
  - rewrite <- (Rmult_1_l (value_convergence specs M h)). apply (value_bound 1 specs ds); try assumption. lra.
Qed.

Lemma dinterp_convergence (E : nat -> nat -> list R -> R) f g j M c h xi :
  (j < length specs)%nat -> length xi = length specs -> length M = length specs -> length c = length specs -> length h = length specs ->
  Forall (fun l => 0 < l) h -> InCube (-1) 1 xi ->
  (forall p, InBox c h p -> Partial f j p (g p)) ->
  (forall k p, (k < length specs)%nat -> InBox c h p -> E k 0%nat p = g p) ->
  (forall k i d p, nth_error ds k = Some d -> (i < times j k d)%nat -> InBox c h p -> Partial (E k i) k p (E k (S i) p)) ->
  (forall k d p, nth_error ds k = Some d -> InBox c h p -> Rabs (E k (times j k d) p) <= nth k M 0) ->
  0 < nth j h 0 / 2 /\
  Rabs (g (place c h xi) - / (nth j h 0 / 2) * dinterp j ds (fun t => f (place c h (gridpoint ds t))) xi) <= gradient_convergence j specs M h.
Proof using HV HZ HP HA Inc.
  intros Hj Hl HM Lc Lh Hh HC Hg E0 ES EM. pose proof sized_length as Ld.
  assert (Lhc : length h = length c) by congruence.
  assert (Lp : forall p : list R, length p = length ds -> length p = length c) by (intros p Hp; congruence).
  assert (Hk : forall k d, nth_error ds k = Some d -> (k < length c)%nat). { intros k d Hd. rewrite Lc, <- Ld. apply nth_error_Some. congruence. }
  assert (Hb : forall p, length p = length ds -> InCube (-1) 1 p -> InBox c h (place c h p)) by (intros p Hp Hpc; apply place_box; auto).
  assert (Hhp : forall k, (k < length c)%nat -> 0 < nth k h 0 / 2).
  { intros k Hkc. assert (Hin : In (nth k h 0) h) by (apply nth_In; now rewrite Lhc). pose proof (proj1 (Forall_forall _ _) Hh _ Hin). cbn beta in *. lra. }
  assert (Hjc : (j < length c)%nat) by (now rewrite Lc).
  assert (Hl' : length xi = length ds) by congruence.
  assert (W : 0 < nth j h 0 / 2) by (now apply Hhp). split; [exact W|]. set (w := nth j h 0 / 2) in *.
  assert (M0 : Forall (fun m => 0 <= m) M).
  { apply (bounds_nonneg ds M (fun k d => E k (times j k d) (place c h xi))); [congruence|]. intros k d Hd. apply EM; auto. }
  assert (B : Rabs (w * g (place c h xi) - dinterp j ds (fun t => f (place c h (gridpoint ds t))) xi) <= gradient_error_bound j ds (map Stability specs) (scalg j w specs M h) xi).
  { apply (dtensor_error (-1) 1 j ds sized_nodal Inc HP ltac:(rewrite Ld; exact Hj) (fun k i p => w * ((nth k h 0 / 2) ^ i * E k i (place c h p))) (fun p => f (place c h p)) (fun p => w * g (place c h p)) (map Stability specs) (scalg j w specs M h) xi).
    - exact Hl'.
    - rewrite scalg_length by assumption. symmetry. exact Ld.
    - exact HC.
    - now apply HA.
    - intros p Hp Hpc. apply partial_place; auto.
    - intros k p Hks Hp Hpc. cbn [Rpow_def.pow]. rewrite Rmult_1_l, E0; [reflexivity|now rewrite <- Ld|now apply Hb].
    - intros k i d p Hd Hi Hp Hpc. cbn [Rpow_def.pow]. apply partial_scal.
      replace (nth k h 0 / 2 * (nth k h 0 / 2) ^ i * E k (S i) (place c h p)) with ((nth k h 0 / 2) ^ i * (nth k h 0 / 2 * E k (S i) (place c h p))) by ring.
      apply partial_scal. apply partial_place; [exact Lhc|now apply Lp|now apply (Hk k d)|]. apply (ES k i d); auto.
    - intros k d p Hd Hp Hpc. rewrite (scalg_nth w j specs ds M h k d HZ HM Lh Hd), Rabs_mult, (Rabs_pos_eq w) by lra. apply Rmult_le_compat_l; [lra|]. rewrite Rabs_mult.
      assert (Hpos : 0 <= (nth k h 0 / 2) ^ times j k d) by (apply pow_le, Rlt_le, Hhp; now apply (Hk k d)).
      rewrite (Rabs_pos_eq _ Hpos). apply Rmult_le_compat_l; [exact Hpos|]. apply EM; auto. }
  pose proof (gradient_bound w j specs ds (Rlt_le _ _ W) HV HZ HP M h xi HM Lh Hl M0 Hh HC) as GB.
  apply Rmult_le_reg_l with w; [exact W|]. eapply Rle_trans; [|exact GB]. eapply Rle_trans; [|exact B].
  rewrite <- (Rabs_pos_eq w) at 1 by lra. rewrite <- Rabs_mult. right. f_equal. field. lra.
Qed.
End Core.

(** * The stored points *)
Definition ordered (so : spacing * Z) : bool :=
  let c := map (refp (fst so) (snd so + 1)) (zseq (Z.to_nat (snd so + 1))) in
  forallb (fun p => (fst p + 9 <=? snd p)%Z) (combine c (tl c)).
Lemma ordered_checked : forallb ordered valid_orders = true.
Proof. vm_compute. reflexivity. Qed.
Lemma steps_increasing N (x : Z -> R) : (forall k, (0 <= k)%Z -> (k + 1 < N)%Z -> x k < x (k + 1)%Z) -> Increasing N x.
Proof.
  intros H i j Hij HjN. assert (G : forall n, (i + 1 + Z.of_nat n < N)%Z -> x i < x (i + 1 + Z.of_nat n)%Z).
  { induction n as [|n IH]; intros Hn; [rewrite Z.add_0_r; apply H; lia|]. specialize (IH ltac:(lia)).
    pose proof (H (i + 1 + Z.of_nat n)%Z ltac:(lia) ltac:(lia)) as ST. replace (i + 1 + Z.of_nat n + 1)%Z with (i + 1 + Z.of_nat (S n))%Z in ST by lia. lra. }
  specialize (G (Z.to_nat (j - i - 1)) ltac:(lia)). replace (i + 1 + Z.of_nat (Z.to_nat (j - i - 1)))%Z with j in G by lia. exact G.
Qed.
Lemma tl_nth {A} (l : list A) n d : nth n (tl l) d = nth (S n) l d.
Proof. destruct l; [destruct n; reflexivity|reflexivity]. Qed.
Lemma close_increasing so d : ValidOrder so -> (snd so <= 15)%Z -> CloseGrid so d -> (1 <= npts d)%Z /\ Increasing (npts d) (pt d).
Proof.
  destruct so as [s o]. intros HV H15 (Hn & _ & HC). cbn [fst snd] in *. assert (HO : (1 <= o)%Z) by (unfold ValidOrder in HV; cbn in HV; destruct s; lia).
  split; [lia|]. apply steps_increasing. intros k H0 H1. rewrite Hn in H1.
  pose proof ordered_checked as H. rewrite forallb_forall in H. specialize (H _ (valid_orders_spec _ _ HV H15)). unfold ordered in H. cbv zeta in H. cbn [fst snd] in H.
  set (c := map (refp s (o + 1)) (zseq (Z.to_nat (o + 1)))) in H. rewrite forallb_forall in H.
  assert (Lc : length c = Z.to_nat (o + 1)) by (unfold c, zseq; rewrite !map_length, seq_length; reflexivity).
  assert (Lt : length (tl c) = Z.to_nat o) by (destruct c; cbn in *; lia).
  assert (C : forall n, (n < Z.to_nat (o + 1))%nat -> nth n c 0%Z = refp s (o + 1) (Z.of_nat n)).
  { intros n Hn'. pose proof (cached_spec s o (Z.of_nat n)) as Q. unfold cached in Q. fold c in Q. rewrite Nat2Z.id in Q. apply Q. apply in_zseq. lia. }
  specialize (H (nth (Z.to_nat k) (combine c (tl c)) (0, 0)%Z)).
  assert (Hin : In (nth (Z.to_nat k) (combine c (tl c)) (0, 0)%Z) (combine c (tl c))) by (apply nth_In; rewrite combine_length, Lc, Lt; lia).
  specialize (H Hin).
  assert (EN : nth (Z.to_nat k) (combine c (tl c)) (0, 0)%Z = (refp s (o + 1) k, refp s (o + 1) (k + 1))).
  { clear H Hin. assert (G : forall (l m : list Z) n, (n < length l)%nat -> (n < length m)%nat -> nth n (combine l m) (0, 0)%Z = (nth n l 0%Z, nth n m 0%Z)).
    { induction l as [|a l IH]; intros [|b m] n L1 L2; cbn in L1, L2; try lia. destruct n as [|n]; [reflexivity|]. cbn. apply IH; lia. }
    rewrite G by lia. rewrite tl_nth, !C by lia. f_equal; f_equal; lia. }
  rewrite EN in H. cbn [fst snd] in H. apply Z.leb_le in H. apply IZR_le in H. rewrite plus_IZR in H.
  pose proof (HC k ltac:(apply in_zseq; lia)) as A. pose proof (HC (k + 1)%Z ltac:(apply in_zseq; lia)) as B. apply abs_le_inv in A. apply abs_le_inv in B. lra.
Qed.

Lemma grid64_in specs ds : Forall Supported64 specs -> Forall2 Grid64 specs ds -> PointsIn (-1) 1 ds.
Proof.
  intros HS HG. induction HG as [|[s o] d specs ds (Hn & (x & Hp & Hx) & HN) _ IH]; [constructor|]. inversion HS as [|? ? S1 S2]; subst. constructor; [|now apply IH].
  cbn [fst snd] in *. intros i Hi. rewrite Hn in Hi. rewrite Hx by exact Hi.
  assert (SU : ProofNodes64.supported64 s o) by (unfold Supported64 in S1; cbn in S1; destruct s; cbn; lia).
  destruct (ProofNodes64.bundled_nodes64 s o SU) as (q & x' & HO & _ & _ & _ & P & (SP & _)).
  pose proof (Hp i Hi) as E1. pose proof (P i Hi) as E2. rewrite E1 in E2. injection E2 as E2. rewrite E2. destruct (SP i Hi) as (_ & R). apply abs_le_inv in R. exact R.
Qed.
Lemma s64_valid specs : Forall Supported64 specs -> Forall (fun so => ValidOrder so /\ (snd so <= 15)%Z) specs.
Proof. intros HS. eapply Forall_impl; [intros so; apply supported_valid|exact HS]. Qed.
Lemma s64_valid1 specs : Forall Supported64 specs -> Forall ValidOrder specs.
Proof. intros HS. eapply Forall_impl; [|exact (s64_valid specs HS)]. intros so H. apply H. Qed.
Lemma s64_close specs ds : Forall Supported64 specs -> Forall2 Grid64 specs ds -> Forall2 CloseGrid specs ds.
Proof. intros HS HG. induction HG as [|so d l m G _ IH]; [constructor|]. inversion HS; subst. constructor; [now apply grid64_close|now apply IH]. Qed.
Lemma s64_sized specs ds : Forall2 Grid64 specs ds -> Forall2 Sized specs ds.
Proof. intros HG. induction HG as [|so d l m (Hn & _ & HN) _ IH]; constructor; [split; assumption|exact IH]. Qed.
Lemma s64_inc specs ds : Forall Supported64 specs -> Forall2 Grid64 specs ds -> Forall (fun d => (1 <= npts d)%Z /\ Increasing (npts d) (pt d)) ds.
Proof.
  intros HS HG. pose proof (s64_close _ _ HS HG) as HC. pose proof (s64_valid _ HS) as HV. clear -HC HV. induction HC as [|so d l m C _ IH]; [constructor|]. inversion HV as [|? ? (V1 & V2) V3]; subst.
  constructor; [now apply (close_increasing so)|now apply IH].
Qed.
Lemma s64_points specs ds : Forall Supported64 specs -> Forall2 Grid64 specs ds -> Forall (fun d => (npts d <= INT_MAX)%Z) ds.
Proof.
  intros HS HG. pose proof (s64_close _ _ HS HG) as HC. pose proof (s64_valid _ HS) as HV. clear -HC HV. induction HC as [|so d l m (Hn & _) _ IH]; [constructor|]. inversion HV as [|? ? (V1 & V2) V3]; subst.
  constructor; [rewrite Hn; unfold INT_MAX; lia|now apply IH].
Qed.
Lemma s64_amplifies specs ds (HS : Forall Supported64 specs) (HG : Forall2 Grid64 specs ds) xi : length xi = length specs -> InCube (-1) 1 xi -> Amplifies ds (map Stability specs) xi.
Proof. intros Hl HC. apply close_amplifies; [exact (s64_valid _ HS)|exact (s64_close _ _ HS HG)|rewrite Hl; apply le_n|exact HC]. Qed.

Lemma value_total64 specs : specs <> [] -> (length specs <= 3)%nat -> Forall Supported64 specs ->
  exists ds, Forall2 Grid64 specs ds /\
  forall (D : nat -> nat -> list R -> R) f M c h eta Mx xi var w,
  Forall InReference xi -> length xi = length specs -> length M = length specs -> length c = length specs -> length h = length specs ->
  Forall (fun l => 0 < l) h -> 0 <= eta -> 0 <= Mx ->
  (forall t, InRange (sizes64 specs) t -> var t = Ok (w t) /\ Data64 (w t) /\ Rabs (B2R (w t)) <= Mx /\ Rabs (B2R (w t) - f (place c h (gridpoint ds t))) <= eta) ->
  (forall k p, (k < length specs)%nat -> InBox c h p -> D k 0%nat p = f p) ->
  (forall k i d p, nth_error ds k = Some d -> (i < Z.to_nat (npts d))%nat -> InBox c h p -> Partial (D k i) k p (D k (S i) p)) ->
  (forall k d p, nth_error ds k = Some d -> InBox c h p -> Rabs (D k (Z.to_nat (npts d)) p) <= nth k M 0) ->
  exists v, parent_value B64Num (Z.of_nat (length specs)) (map basis64 specs) var xi = Ok v /\ is_finite v = true /\
    Rabs (B2R v - f (place c h (map B2R xi)))
      <= value_convergence specs M h + ElementStability specs * eta
         + IZR (roundings64 specs) * bpow radix2 (-53) * (ElementStability specs * Mx) + bpow radix2 (-400).
Proof.
  intros Hne H3 HS. destruct (double_error_lemma specs Hne H3 HS) as (ds & HG & H). exists ds. split; [exact HG|].
  intros D f M c h eta Mx xi var w Hxi Lx LM Lc Lh Hh He HMx Hw D0 DS DM.
  assert (Lm : length (map B2R xi) = length specs) by (rewrite map_length; exact Lx).
  assert (HC : InCube (-1) 1 (map B2R xi)) by (apply abs_cube; eapply Forall_impl; [|exact Hxi]; intros x Hx; exact (proj2 Hx)).
  destruct (H xi var w Mx Hxi (Nat.eq_le_incl _ _ (eq_sym Lx)) HMx) as (v & Ev & Fv & B1).
  { intros t Ht. destruct (Hw t Ht) as (A1 & A2 & A3 & _). repeat split; assumption || apply A2. }
  exists v. split; [exact Ev|]. split; [exact Fv|].
  pose proof (interp_convergence specs ds (s64_valid1 specs HS) (s64_sized specs ds HG) (grid64_in specs ds HS HG) (s64_amplifies specs ds HS HG) D f M c h (map B2R xi) Lm LM Lc Lh Hh HC D0 DS DM) as B3.
  assert (B2 : Rabs (interp ds (fun t => B2R (w t)) (map B2R xi) - interp ds (fun t => f (place c h (gridpoint ds t))) (map B2R xi)) <= ElementStability specs * eta).
  { apply interp_difference; [now apply (s64_amplifies specs)|rewrite (ProofElement64.grid_length _ _ HG), Lm; apply le_n|exact He|].
    intros t Ht. rewrite (ProofElement64.grid_counts _ _ HG) in Ht. apply Hw, Ht. }
  fold (interp ds (fun t => B2R (w t)) (map B2R xi)) in B1.
  apply abs_le_inv in B1. apply abs_le_inv in B2. apply abs_le_inv in B3. apply Rabs_le. lra.
Qed.
Lemma gradient_total64 ctx specs : specs <> [] -> (length specs <= 3)%nat -> Forall Supported64 specs ->
  exists ds, Forall2 Grid64 specs ds /\
  forall (E : nat -> nat -> list R -> R) f g j M c h eta Mx xi var w,
  (j < length specs)%nat -> Forall InReference xi -> length xi = length specs -> length M = length specs -> length c = length specs -> length h = length specs ->
  Forall (fun l => 0 < l) h -> 0 <= eta -> 0 <= Mx ->
  (forall t, InRange (sizes64 specs) t -> var t = Ok (w t) /\ Data64 (w t) /\ Rabs (B2R (w t)) <= Mx /\ Rabs (B2R (w t) - f (place c h (gridpoint ds t))) <= eta) ->
  (forall p, InBox c h p -> Partial f j p (g p)) ->
  (forall k p, (k < length specs)%nat -> InBox c h p -> E k 0%nat p = g p) ->
  (forall k i d p, nth_error ds k = Some d -> (i < times j k d)%nat -> InBox c h p -> Partial (E k i) k p (E k (S i) p)) ->
  (forall k d p, nth_error ds k = Some d -> InBox c h p -> Rabs (E k (times j k d) p) <= nth k M 0) ->
  exists v, parent_gradient B64Num ctx (Z.of_nat (length specs)) (map basis64 specs) var xi = Ok v /\ length v = length specs /\
    is_finite (nth j v (b64_ofZ 0)) = true /\
    Rabs (/ (nth j h 0 / 2) * B2R (nth j v (b64_ofZ 0)) - g (place c h (map B2R xi)))
      <= gradient_convergence j specs M h
         + / (nth j h 0 / 2) * (ElementGradientStability j specs * eta
             + IZR (roundings64 specs) * bpow radix2 (-53) * (ElementGradientStability j specs * Mx) + bpow radix2 (-400)).
Proof.
  intros Hne H3 HS. destruct (double_gradient_lemma ctx specs Hne H3 HS) as (ds & HG & H). exists ds. split; [exact HG|].
  intros E f g j M c h eta Mx xi var w Hj Hxi Lx LM Lc Lh Hh He HMx Hw Hg E0 ES EM.
  assert (Lm : length (map B2R xi) = length specs) by (rewrite map_length; exact Lx).
  assert (HC : InCube (-1) 1 (map B2R xi)) by (apply abs_cube; eapply Forall_impl; [|exact Hxi]; intros x Hx; exact (proj2 Hx)).
  destruct (H xi var w Mx Hxi (Nat.eq_le_incl _ _ (eq_sym Lx)) HMx) as (v & Ev & Lv & B1).
  { intros t Ht. destruct (Hw t Ht) as (A1 & A2 & A3 & _). repeat split; assumption || apply A2. }
  exists v. split; [exact Ev|]. split; [exact Lv|]. destruct (B1 j Hj) as (G & PG & Fv & B). split; [exact Fv|].
  pose proof (ProofElement64.grid_length _ _ HG) as Ld.
  assert (EG : G = dinterp j ds (fun t => B2R (w t)) (map B2R xi)).
  { apply (uniqueness_limite _ _ _ _ PG). apply interp_partial; [apply Nodal_Differentiates; now apply (ProofElement64.grid_nodal specs)|rewrite Ld, Lm; apply le_n|rewrite Ld; exact Hj]. }
  destruct (dinterp_convergence specs ds (s64_valid1 specs HS) (s64_sized specs ds HG) (grid64_in specs ds HS HG) (s64_inc specs ds HS HG) (s64_amplifies specs ds HS HG) E f g j M c h (map B2R xi) Hj Lm LM Lc Lh Hh HC Hg E0 ES EM) as (W & B3).
  assert (B2 : Rabs (dinterp j ds (fun t => B2R (w t)) (map B2R xi) - dinterp j ds (fun t => f (place c h (gridpoint ds t))) (map B2R xi)) <= ElementGradientStability j specs * eta).
  { eapply Rle_trans; [|apply (grid64_dbound specs ds HS HG j xi (fun t => B2R (w t) - f (place c h (gridpoint ds t))) eta Hj Hxi (Nat.eq_le_incl _ _ (eq_sym Lx)) He); intros t Ht; apply Hw, Ht].
    unfold dinterp. rewrite !BoxSum_sumR, <- sumR_minus. eapply Rle_trans; [apply sumR_abs|]. apply sumR_le. intros t Ht. apply in_zbox in Ht.
    rewrite <- Rmult_minus_distr_l, Rabs_mult. apply Rmult_le_compat_r; [apply Rabs_pos|].
    apply dtensor_le; [now apply (ProofElement64.grid_nodal specs)|now apply (s64_points specs)|exact Ht|rewrite Ld, Lm; apply le_n|rewrite Ld; exact Hj]. }
  set (a := / (nth j h 0 / 2)) in *. assert (A0 : 0 < a) by (apply Rinv_0_lt_compat; exact W).
  set (X := dinterp j ds (fun t => f (place c h (gridpoint ds t))) (map B2R xi)) in *. subst G.
  set (Y := dinterp j ds (fun t => B2R (w t)) (map B2R xi)) in *. set (V := B2R (nth j v (b64_ofZ 0))) in *.
  replace (a * V - g (place c h (map B2R xi))) with (a * ((V - Y) + (Y - X)) + - (g (place c h (map B2R xi)) - a * X)) by ring.
  eapply Rle_trans; [apply Rabs_triang|]. rewrite Rabs_Ropp, Rabs_mult, (Rabs_pos_eq a) by lra. rewrite Rplus_comm. apply Rplus_le_compat; [exact B3|].
  apply Rmult_le_compat_l; [lra|]. eapply Rle_trans; [apply Rabs_triang|]. lra.
Qed.

Lemma cell_gradient_total64 ctx specs : length specs = 3%nat -> Forall Supported64 specs ->
  exists ds, Forall2 Grid64 specs ds /\
  forall (E : nat -> nat -> list R -> R) f g j M c (h0 h1 h2 : b64) eta Mx G xi var w,
  (j < 3)%nat -> Forall InReference xi -> length xi = 3%nat -> length M = 3%nat -> length c = 3%nat ->
  (forall h, In h [h0; h1; h2] -> is_finite h = true /\ bpow radix2 (- 300) <= B2R h <= bpow radix2 300) -> 0 <= eta -> 0 <= Mx ->
  (forall t, InRange (sizes64 specs) t -> var t = Ok (w t) /\ Data64 (w t) /\ Rabs (B2R (w t)) <= Mx /\
     Rabs (B2R (w t) - f (place c [B2R h0; B2R h1; B2R h2] (gridpoint ds t))) <= eta) ->
  (forall p, InBox c [B2R h0; B2R h1; B2R h2] p -> Partial f j p (g p) /\ Rabs (g p) <= G) ->
  (forall k p, (k < 3)%nat -> InBox c [B2R h0; B2R h1; B2R h2] p -> E k 0%nat p = g p) ->
  (forall k i d p, nth_error ds k = Some d -> (i < times j k d)%nat -> InBox c [B2R h0; B2R h1; B2R h2] p -> Partial (E k i) k p (E k (S i) p)) ->
  (forall k d p, nth_error ds k = Some d -> InBox c [B2R h0; B2R h1; B2R h2] p -> Rabs (E k (times j k d) p) <= nth k M 0) ->
  exists v detJ invJ, parent_gradient B64Num ctx 3 (map basis64 specs) var xi = Ok v /\ scaling_inverseJacobian_wrapper B64Num ctx [h0; h1; h2] = Ok (detJ, invJ) /\
    length v = 3%nat /\ length invJ = 3%nat /\ is_finite (nth j v (b64_ofZ 0)) = true /\ is_finite (nth j invJ (b64_ofZ 0)) = true /\
    let total := gradient_convergence j specs M [B2R h0; B2R h1; B2R h2]
         + / (B2R (nth j [h0; h1; h2] (b64_ofZ 0)) / 2) * (ElementGradientStability j specs * eta
             + IZR (roundings64 specs) * bpow radix2 (-53) * (ElementGradientStability j specs * Mx) + bpow radix2 (-400)) in
    Rabs (B2R (nth j invJ (b64_ofZ 0)) * B2R (nth j v (b64_ofZ 0)) - g (place c [B2R h0; B2R h1; B2R h2] (map B2R xi))) <= total + bpow radix2 (-53) * (G + total).
Proof.
  intros L3 HS. destruct (gradient_total64 ctx specs ltac:(intros ->; discriminate) ltac:(lia) HS) as (ds & HG & H). exists ds. split; [exact HG|]. rewrite L3 in H.
  intros E f g j M c h0 h1 h2 eta Mx G xi var w Hj Hxi Lx LM Lc Hh He HMx Hw Hg E0 ES EM.
  assert (Hp : forall h, In h [h0; h1; h2] -> 0 < B2R h) by (intros h Hin; destruct (Hh h Hin) as (_ & A & _); pose proof (bpow_gt_0 radix2 (- 300)); lra).
  pose proof (Hp h0 ltac:(cbn; auto)) as P0. pose proof (Hp h1 ltac:(cbn; auto)) as P1. pose proof (Hp h2 ltac:(cbn; auto)) as P2.
  destruct (H E f g j M c [B2R h0; B2R h1; B2R h2] eta Mx xi var w Hj Hxi Lx LM Lc eq_refl ltac:(repeat constructor; assumption) He HMx Hw
    (fun p Hb => proj1 (Hg p Hb)) E0 ES EM) as (v & Ev & Lv & Fv & B).
  destruct (ProofScaling64.scaling64_lemma ctx h0 h1 h2) as (_ & d & q0 & q1 & q2 & Ed & Bq & _ & _).
  { intros h Hin. destruct (Hh h Hin) as (A & A2). split; [exact A|]. rewrite Rabs_pos_eq by (left; now apply Hp). exact A2. }
  exists v, d, [q0; q1; q2]. split; [exact Ev|]. split; [exact Ed|]. split; [exact Lv|]. split; [reflexivity|]. split; [exact Fv|].
  assert (Hin : In (nth j [h0; h1; h2] (b64_ofZ 0), nth j [q0; q1; q2] (b64_ofZ 0)) [(h0, q0); (h1, q1); (h2, q2)]) by (destruct j as [|[|[|j]]]; [cbn; auto|cbn; auto|cbn; auto|lia]).
  assert (EH : nth j [B2R h0; B2R h1; B2R h2] 0 = B2R (nth j [h0; h1; h2] (b64_ofZ 0))) by (destruct j as [|[|[|j]]]; [reflexivity|reflexivity|reflexivity|lia]).
  assert (Hj0 : 0 < B2R (nth j [h0; h1; h2] (b64_ofZ 0))) by (apply Hp, nth_In; exact Hj).
  destruct (Bq _ _ Hin) as (Fq & BQ). split; [exact Fq|]. cbv zeta. rewrite EH in B.
  set (T := gradient_convergence j specs M [B2R h0; B2R h1; B2R h2] + _) in *. set (y := B2R (nth j v (b64_ofZ 0))) in *.
  set (q := B2R (nth j [q0; q1; q2] (b64_ofZ 0))) in *. set (a := / (B2R (nth j [h0; h1; h2] (b64_ofZ 0)) / 2)) in *. set (x := g (place c [B2R h0; B2R h1; B2R h2] (map B2R xi))) in *.
  assert (A0 : 0 < a) by (apply Rinv_0_lt_compat; lra).
  assert (GX : Rabs x <= G). { apply Hg. apply place_box; [symmetry; exact Lc|rewrite map_length, Lc; exact Lx|repeat constructor; assumption|]. apply abs_cube. eapply Forall_impl; [|exact Hxi]. intros z Hz. exact (proj2 Hz). }
  assert (AY : Rabs (a * y) <= G + T). { replace (a * y) with ((a * y - x) + x) by ring. eapply Rle_trans; [apply Rabs_triang|]. lra. }
  replace (q * y - x) with ((a * y - x) + (q - a) * y) by ring. eapply Rle_trans; [apply Rabs_triang|]. apply Rplus_le_compat; [exact B|].
  rewrite Rabs_mult. apply Rle_trans with (bpow radix2 (-53) * Rabs a * Rabs y); [apply Rmult_le_compat_r; [apply Rabs_pos|exact BQ]|].
  rewrite Rmult_assoc, <- Rabs_mult. apply Rmult_le_compat_l; [apply bpow_ge_0|exact AY].
Qed.

Lemma grid32_in specs ds : Forall Supported32 specs -> Forall2 Grid32 specs ds -> PointsIn (-1) 1 ds.
Proof.
  intros HS HG. induction HG as [|[s o] d specs ds (Hn & (x & Hp & Hx) & HN) _ IH]; [constructor|]. inversion HS as [|? ? S1 S2]; subst. constructor; [|now apply IH].
  cbn [fst snd] in *. intros i Hi. rewrite Hn in Hi. rewrite Hx by exact Hi.
  assert (SU : ProofNodes32.supported32 s o) by (unfold Supported32 in S1; cbn in S1; destruct s; cbn; lia).
  destruct (ProofNodes32.bundled_nodes32 s o SU) as (x' & HO & P & (SP & _)).
  pose proof (Hp i Hi) as E1. pose proof (P i Hi) as E2. rewrite E1 in E2. injection E2 as E2. rewrite E2. destruct (SP i Hi) as (_ & R). apply abs_le_inv in R. exact R.
Qed.
Lemma s32_valid specs : Forall Supported32 specs -> Forall (fun so => ValidOrder so /\ (snd so <= 15)%Z) specs.
Proof. intros HS. eapply Forall_impl; [intros so; apply supported32_valid|exact HS]. Qed.
Lemma s32_valid1 specs : Forall Supported32 specs -> Forall ValidOrder specs.
Proof. intros HS. eapply Forall_impl; [|exact (s32_valid specs HS)]. intros so H. apply H. Qed.
Lemma s32_close specs ds : Forall Supported32 specs -> Forall2 Grid32 specs ds -> Forall2 CloseGrid specs ds.
Proof. intros HS HG. induction HG as [|so d l m G _ IH]; [constructor|]. inversion HS; subst. constructor; [now apply grid32_close|now apply IH]. Qed.
Lemma s32_sized specs ds : Forall2 Grid32 specs ds -> Forall2 Sized specs ds.
Proof. intros HG. induction HG as [|so d l m (Hn & _ & HN) _ IH]; constructor; [split; assumption|exact IH]. Qed.
Lemma s32_inc specs ds : Forall Supported32 specs -> Forall2 Grid32 specs ds -> Forall (fun d => (1 <= npts d)%Z /\ Increasing (npts d) (pt d)) ds.
Proof.
  intros HS HG. pose proof (s32_close _ _ HS HG) as HC. pose proof (s32_valid _ HS) as HV. clear -HC HV. induction HC as [|so d l m C _ IH]; [constructor|]. inversion HV as [|? ? (V1 & V2) V3]; subst.
  constructor; [now apply (close_increasing so)|now apply IH].
Qed.
Lemma s32_points specs ds : Forall Supported32 specs -> Forall2 Grid32 specs ds -> Forall (fun d => (npts d <= INT_MAX)%Z) ds.
Proof.
  intros HS HG. pose proof (s32_close _ _ HS HG) as HC. pose proof (s32_valid _ HS) as HV. clear -HC HV. induction HC as [|so d l m (Hn & _) _ IH]; [constructor|]. inversion HV as [|? ? (V1 & V2) V3]; subst.
  constructor; [rewrite Hn; unfold INT_MAX; lia|now apply IH].
Qed.
Lemma s32_amplifies specs ds (HS : Forall Supported32 specs) (HG : Forall2 Grid32 specs ds) xi : length xi = length specs -> InCube (-1) 1 xi -> Amplifies ds (map Stability specs) xi.
Proof. intros Hl HC. apply close_amplifies; [exact (s32_valid _ HS)|exact (s32_close _ _ HS HG)|rewrite Hl; apply le_n|exact HC]. Qed.

Lemma value_total32 specs : specs <> [] -> (length specs <= 3)%nat -> Forall Supported32 specs ->
  exists ds, Forall2 Grid32 specs ds /\
  forall (D : nat -> nat -> list R -> R) f M c h eta Mx xi var w,
  Forall InReference32 xi -> length xi = length specs -> length M = length specs -> length c = length specs -> length h = length specs ->
  Forall (fun l => 0 < l) h -> 0 <= eta -> 0 <= Mx ->
  (forall t, InRange (sizes64 specs) t -> var t = Ok (w t) /\ Data32 (w t) /\ Rabs (B2R (w t)) <= Mx /\ Rabs (B2R (w t) - f (place c h (gridpoint ds t))) <= eta) ->
  (forall k p, (k < length specs)%nat -> InBox c h p -> D k 0%nat p = f p) ->
  (forall k i d p, nth_error ds k = Some d -> (i < Z.to_nat (npts d))%nat -> InBox c h p -> Partial (D k i) k p (D k (S i) p)) ->
  (forall k d p, nth_error ds k = Some d -> InBox c h p -> Rabs (D k (Z.to_nat (npts d)) p) <= nth k M 0) ->
  exists v, parent_value F32Num (Z.of_nat (length specs)) (map basis32 specs) var xi = Ok v /\ is_finite v = true /\
    Rabs (B2R v - f (place c h (map B2R xi)))
      <= value_convergence specs M h + ElementStability specs * eta
         + IZR (roundings64 specs) * bpow radix2 (-24) * (ElementStability specs * Mx) + bpow radix2 (-64).
Proof.
  intros Hne H3 HS. destruct (float_error_lemma specs Hne H3 HS) as (ds & HG & H). exists ds. split; [exact HG|].
  intros D f M c h eta Mx xi var w Hxi Lx LM Lc Lh Hh He HMx Hw D0 DS DM.
  assert (Lm : length (map B2R xi) = length specs) by (rewrite map_length; exact Lx).
  assert (HC : InCube (-1) 1 (map B2R xi)) by (apply abs_cube; eapply Forall_impl; [|exact Hxi]; intros x Hx; exact (proj2 Hx)).
  destruct (H xi var w Mx Hxi (Nat.eq_le_incl _ _ (eq_sym Lx)) HMx) as (v & Ev & Fv & B1).
  { intros t Ht. destruct (Hw t Ht) as (A1 & A2 & A3 & _). repeat split; assumption || apply A2. }
  exists v. split; [exact Ev|]. split; [exact Fv|].
  pose proof (interp_convergence specs ds (s32_valid1 specs HS) (s32_sized specs ds HG) (grid32_in specs ds HS HG) (s32_amplifies specs ds HS HG) D f M c h (map B2R xi) Lm LM Lc Lh Hh HC D0 DS DM) as B3.
  assert (B2 : Rabs (interp ds (fun t => B2R (w t)) (map B2R xi) - interp ds (fun t => f (place c h (gridpoint ds t))) (map B2R xi)) <= ElementStability specs * eta).
  { apply interp_difference; [now apply (s32_amplifies specs)|rewrite (ProofElement32.grid_length _ _ HG), Lm; apply le_n|exact He|].
    intros t Ht. rewrite (ProofElement32.grid_counts _ _ HG) in Ht. apply Hw, Ht. }
  fold (interp ds (fun t => B2R (w t)) (map B2R xi)) in B1.
  apply abs_le_inv in B1. apply abs_le_inv in B2. apply abs_le_inv in B3. apply Rabs_le. lra.
Qed.
Lemma gradient_total32 ctx specs : specs <> [] -> (length specs <= 3)%nat -> Forall Supported32 specs ->
  exists ds, Forall2 Grid32 specs ds /\
  forall (E : nat -> nat -> list R -> R) f g j M c h eta Mx xi var w,
  (j < length specs)%nat -> Forall InReference32 xi -> length xi = length specs -> length M = length specs -> length c = length specs -> length h = length specs ->
  Forall (fun l => 0 < l) h -> 0 <= eta -> 0 <= Mx ->
  (forall t, InRange (sizes64 specs) t -> var t = Ok (w t) /\ Data32 (w t) /\ Rabs (B2R (w t)) <= Mx /\ Rabs (B2R (w t) - f (place c h (gridpoint ds t))) <= eta) ->
  (forall p, InBox c h p -> Partial f j p (g p)) ->
  (forall k p, (k < length specs)%nat -> InBox c h p -> E k 0%nat p = g p) ->
  (forall k i d p, nth_error ds k = Some d -> (i < times j k d)%nat -> InBox c h p -> Partial (E k i) k p (E k (S i) p)) ->
  (forall k d p, nth_error ds k = Some d -> InBox c h p -> Rabs (E k (times j k d) p) <= nth k M 0) ->
  exists v, parent_gradient F32Num ctx (Z.of_nat (length specs)) (map basis32 specs) var xi = Ok v /\ length v = length specs /\
    is_finite (nth j v (b32_ofZ 0)) = true /\
    Rabs (/ (nth j h 0 / 2) * B2R (nth j v (b32_ofZ 0)) - g (place c h (map B2R xi)))
      <= gradient_convergence j specs M h
         + / (nth j h 0 / 2) * (ElementGradientStability j specs * eta
             + IZR (roundings64 specs) * bpow radix2 (-24) * (ElementGradientStability j specs * Mx) + bpow radix2 (-64)).
Proof.
  intros Hne H3 HS. destruct (float_gradient_lemma ctx specs Hne H3 HS) as (ds & HG & H). exists ds. split; [exact HG|].
  intros E f g j M c h eta Mx xi var w Hj Hxi Lx LM Lc Lh Hh He HMx Hw Hg E0 ES EM.
  assert (Lm : length (map B2R xi) = length specs) by (rewrite map_length; exact Lx).
  assert (HC : InCube (-1) 1 (map B2R xi)) by (apply abs_cube; eapply Forall_impl; [|exact Hxi]; intros x Hx; exact (proj2 Hx)).
  destruct (H xi var w Mx Hxi (Nat.eq_le_incl _ _ (eq_sym Lx)) HMx) as (v & Ev & Lv & B1).
  { intros t Ht. destruct (Hw t Ht) as (A1 & A2 & A3 & _). repeat split; assumption || apply A2. }
  exists v. split; [exact Ev|]. split; [exact Lv|]. destruct (B1 j Hj) as (G & PG & Fv & B). split; [exact Fv|].
  pose proof (ProofElement32.grid_length _ _ HG) as Ld.
  assert (EG : G = dinterp j ds (fun t => B2R (w t)) (map B2R xi)).
  { apply (uniqueness_limite _ _ _ _ PG). apply interp_partial; [apply Nodal_Differentiates; now apply (ProofElement32.grid_nodal specs)|rewrite Ld, Lm; apply le_n|rewrite Ld; exact Hj]. }
  destruct (dinterp_convergence specs ds (s32_valid1 specs HS) (s32_sized specs ds HG) (grid32_in specs ds HS HG) (s32_inc specs ds HS HG) (s32_amplifies specs ds HS HG) E f g j M c h (map B2R xi) Hj Lm LM Lc Lh Hh HC Hg E0 ES EM) as (W & B3).
  assert (B2 : Rabs (dinterp j ds (fun t => B2R (w t)) (map B2R xi) - dinterp j ds (fun t => f (place c h (gridpoint ds t))) (map B2R xi)) <= ElementGradientStability j specs * eta).
  { eapply Rle_trans; [|apply (grid32_dbound specs ds HS HG j xi (fun t => B2R (w t) - f (place c h (gridpoint ds t))) eta Hj Hxi (Nat.eq_le_incl _ _ (eq_sym Lx)) He); intros t Ht; apply Hw, Ht].
    unfold dinterp. rewrite !BoxSum_sumR, <- sumR_minus. eapply Rle_trans; [apply sumR_abs|]. apply sumR_le. intros t Ht. apply in_zbox in Ht.
    rewrite <- Rmult_minus_distr_l, Rabs_mult. apply Rmult_le_compat_r; [apply Rabs_pos|].
    apply dtensor_le; [now apply (ProofElement32.grid_nodal specs)|now apply (s32_points specs)|exact Ht|rewrite Ld, Lm; apply le_n|rewrite Ld; exact Hj]. }
  set (a := / (nth j h 0 / 2)) in *. assert (A0 : 0 < a) by (apply Rinv_0_lt_compat; exact W).
  set (X := dinterp j ds (fun t => f (place c h (gridpoint ds t))) (map B2R xi)) in *. subst G.
  set (Y := dinterp j ds (fun t => B2R (w t)) (map B2R xi)) in *. set (V := B2R (nth j v (b32_ofZ 0))) in *.
  replace (a * V - g (place c h (map B2R xi))) with (a * ((V - Y) + (Y - X)) + - (g (place c h (map B2R xi)) - a * X)) by ring.
  eapply Rle_trans; [apply Rabs_triang|]. rewrite Rabs_Ropp, Rabs_mult, (Rabs_pos_eq a) by lra. rewrite Rplus_comm. apply Rplus_le_compat; [exact B3|].
  apply Rmult_le_compat_l; [lra|]. eapply Rle_trans; [apply Rabs_triang|]. lra.
Qed.

Lemma cell_gradient_total32 ctx specs : length specs = 3%nat -> Forall Supported32 specs ->
  exists ds, Forall2 Grid32 specs ds /\
  forall (E : nat -> nat -> list R -> R) f g j M c (h0 h1 h2 : b32) eta Mx G xi var w,
  (j < 3)%nat -> Forall InReference32 xi -> length xi = 3%nat -> length M = 3%nat -> length c = 3%nat ->
  (forall h, In h [h0; h1; h2] -> is_finite h = true /\ bpow radix2 (- 40) <= B2R h <= bpow radix2 40) -> 0 <= eta -> 0 <= Mx ->
  (forall t, InRange (sizes64 specs) t -> var t = Ok (w t) /\ Data32 (w t) /\ Rabs (B2R (w t)) <= Mx /\
     Rabs (B2R (w t) - f (place c [B2R h0; B2R h1; B2R h2] (gridpoint ds t))) <= eta) ->
  (forall p, InBox c [B2R h0; B2R h1; B2R h2] p -> Partial f j p (g p) /\ Rabs (g p) <= G) ->
  (forall k p, (k < 3)%nat -> InBox c [B2R h0; B2R h1; B2R h2] p -> E k 0%nat p = g p) ->
  (forall k i d p, nth_error ds k = Some d -> (i < times j k d)%nat -> InBox c [B2R h0; B2R h1; B2R h2] p -> Partial (E k i) k p (E k (S i) p)) ->
  (forall k d p, nth_error ds k = Some d -> InBox c [B2R h0; B2R h1; B2R h2] p -> Rabs (E k (times j k d) p) <= nth k M 0) ->
  exists v detJ invJ, parent_gradient F32Num ctx 3 (map basis32 specs) var xi = Ok v /\ scaling_inverseJacobian_wrapper32 ctx [h0; h1; h2] = Ok (detJ, invJ) /\
    length v = 3%nat /\ length invJ = 3%nat /\ is_finite (nth j v (b32_ofZ 0)) = true /\ is_finite (nth j invJ (b32_ofZ 0)) = true /\
    let total := gradient_convergence j specs M [B2R h0; B2R h1; B2R h2]
         + / (B2R (nth j [h0; h1; h2] (b32_ofZ 0)) / 2) * (ElementGradientStability j specs * eta
             + IZR (roundings64 specs) * bpow radix2 (-24) * (ElementGradientStability j specs * Mx) + bpow radix2 (-64)) in
    Rabs (B2R (nth j invJ (b32_ofZ 0)) * B2R (nth j v (b32_ofZ 0)) - g (place c [B2R h0; B2R h1; B2R h2] (map B2R xi))) <= total + bpow radix2 (-24) * (G + total).
Proof.
  intros L3 HS. destruct (gradient_total32 ctx specs ltac:(intros ->; discriminate) ltac:(lia) HS) as (ds & HG & H). exists ds. split; [exact HG|]. rewrite L3 in H.
  intros E f g j M c h0 h1 h2 eta Mx G xi var w Hj Hxi Lx LM Lc Hh He HMx Hw Hg E0 ES EM.
  assert (Hp : forall h, In h [h0; h1; h2] -> 0 < B2R h) by (intros h Hin; destruct (Hh h Hin) as (_ & A & _); pose proof (bpow_gt_0 radix2 (- 40)); lra).
  pose proof (Hp h0 ltac:(cbn; auto)) as P0. pose proof (Hp h1 ltac:(cbn; auto)) as P1. pose proof (Hp h2 ltac:(cbn; auto)) as P2.
  destruct (H E f g j M c [B2R h0; B2R h1; B2R h2] eta Mx xi var w Hj Hxi Lx LM Lc eq_refl ltac:(repeat constructor; assumption) He HMx Hw
    (fun p Hb => proj1 (Hg p Hb)) E0 ES EM) as (v & Ev & Lv & Fv & B).
  destruct (ProofScaling32.scaling32_lemma ctx h0 h1 h2) as (_ & d & q0 & q1 & q2 & Ed & Bq & _ & _).
  { intros h Hin. destruct (Hh h Hin) as (A & A2). split; [exact A|]. rewrite Rabs_pos_eq by (left; now apply Hp). exact A2. }
  exists v, d, [q0; q1; q2]. split; [exact Ev|]. split; [exact Ed|]. split; [exact Lv|]. split; [reflexivity|]. split; [exact Fv|].
  assert (Hin : In (nth j [h0; h1; h2] (b32_ofZ 0), nth j [q0; q1; q2] (b32_ofZ 0)) [(h0, q0); (h1, q1); (h2, q2)]) by (destruct j as [|[|[|j]]]; [cbn; auto|cbn; auto|cbn; auto|lia]).
  assert (EH : nth j [B2R h0; B2R h1; B2R h2] 0 = B2R (nth j [h0; h1; h2] (b32_ofZ 0))) by (destruct j as [|[|[|j]]]; [reflexivity|reflexivity|reflexivity|lia]).
  assert (Hj0 : 0 < B2R (nth j [h0; h1; h2] (b32_ofZ 0))) by (apply Hp, nth_In; exact Hj).
  destruct (Bq _ _ Hin) as (Fq & BQ). split; [exact Fq|]. cbv zeta. rewrite EH in B.
  set (T := gradient_convergence j specs M [B2R h0; B2R h1; B2R h2] + _) in *. set (y := B2R (nth j v (b32_ofZ 0))) in *.
  set (q := B2R (nth j [q0; q1; q2] (b32_ofZ 0))) in *. set (a := / (B2R (nth j [h0; h1; h2] (b32_ofZ 0)) / 2)) in *. set (x := g (place c [B2R h0; B2R h1; B2R h2] (map B2R xi))) in *.
  assert (A0 : 0 < a) by (apply Rinv_0_lt_compat; lra).
  assert (GX : Rabs x <= G). { apply Hg. apply place_box; [symmetry; exact Lc|rewrite map_length, Lc; exact Lx|repeat constructor; assumption|]. apply abs_cube. eapply Forall_impl; [|exact Hxi]. intros z Hz. exact (proj2 Hz). }
  assert (AY : Rabs (a * y) <= G + T). { replace (a * y) with ((a * y - x) + x) by ring. eapply Rle_trans; [apply Rabs_triang|]. lra. }
  replace (q * y - x) with ((a * y - x) + (q - a) * y) by ring. eapply Rle_trans; [apply Rabs_triang|]. apply Rplus_le_compat; [exact B|].
  rewrite Rabs_mult. apply Rle_trans with (bpow radix2 (-24) * Rabs a * Rabs y); [apply Rmult_le_compat_r; [apply Rabs_pos|exact BQ]|].
  rewrite Rmult_assoc, <- Rabs_mult. apply Rmult_le_compat_l; [apply bpow_ge_0|exact AY].
Qed.

(** Squares on [-1,1]: the data are exact. *)
Lemma ok_inj {A} (a b : A) : Ok a = Ok b -> a = b.
Proof. now intros [= ->]. Qed.
Lemma total_example :
  let specs := [(EqualSpacing, 1%Z)] in
  let f := fun p : list R => nth 0 p 0 * nth 0 p 0 in
  let D := fun (k i : nat) p => match i with O => f p | S O => 2 * nth 0 p 0 | _ => 2 end in
  let E := fun (k i : nat) p => match i with O => 2 * nth 0 p 0 | _ => 2 end in
  Forall Supported64 specs /\
  forall ds, Forall2 Grid64 specs ds ->
  (forall t, InRange (sizes64 specs) t -> Data64 (b64_ofZ 1) /\ Rabs (B2R (b64_ofZ 1)) <= 1 /\ Rabs (B2R (b64_ofZ 1) - f (place [0] [2] (gridpoint ds t))) <= 0) /\
  (forall k i d p, nth_error ds k = Some d -> (i < Z.to_nat (npts d))%nat -> InBox [0] [2] p -> Partial (D k i) k p (D k (S i) p)) /\
  (forall k d p, nth_error ds k = Some d -> InBox [0] [2] p -> Rabs (D k (Z.to_nat (npts d)) p) <= nth k [2] 0) /\
  (forall p, InBox [0] [2] p -> Partial f 0 p (2 * nth 0 p 0)) /\
  (forall k i d p, nth_error ds k = Some d -> (i < times 0 k d)%nat -> InBox [0] [2] p -> Partial (E k i) k p (E k (S i) p)) /\
  (forall k d p, nth_error ds k = Some d -> InBox [0] [2] p -> Rabs (E k (times 0 k d) p) <= nth k [2] 0).
Proof.
  cbv zeta. split; [repeat constructor; cbn; lia|]. intros ds HG. inversion HG as [|? d0 ? ds' (N0 & (x & Hp & Hx) & _) HG']; subst. inversion HG'; subst. cbn [fst snd] in *. change (1 + 1)%Z with 2%Z in *.
  assert (O1 : B2R (b64_ofZ 1) = 1).
  { destruct (ProofNodes64.fix60_ok (Ok (b64_ofZ 1)) (2 ^ 60)%Z ltac:(vm_compute; reflexivity)) as (y & Ey & _ & By). pose proof (ok_inj _ _ Ey) as E2. rewrite E2, By.
    change (2 ^ 60)%Z with (Zpower radix2 60). rewrite IZR_Zpower by lia. rewrite <- bpow_plus. reflexivity. }
  assert (P : forall i, (0 <= i < 2)%Z -> pt d0 i * pt d0 i = 1).
  { intros i Hi. rewrite Hx by exact Hi. pose proof (Hp i Hi) as Ei. assert (Ci : i = 0%Z \/ i = 1%Z) by lia. destruct Ci as [-> | ->].
    - destruct (ProofNodes64.fix60_ok (coord_ct B64Num EqualSpacing 2 0) (- 2 ^ 60)%Z ltac:(vm_compute; reflexivity)) as (y & Ey & _ & By). pose proof (eq_trans (eq_sym Ei) Ey) as E2. apply ok_inj in E2. rewrite E2, By.
      rewrite opp_IZR. change (2 ^ 60)%Z with (Zpower radix2 60). rewrite IZR_Zpower by lia. rewrite Ropp_mult_distr_l_reverse, <- bpow_plus. change (bpow radix2 (60 + -60)) with 1. ring.
    - destruct (ProofNodes64.fix60_ok (coord_ct B64Num EqualSpacing 2 1) (2 ^ 60)%Z ltac:(vm_compute; reflexivity)) as (y & Ey & _ & By). pose proof (eq_trans (eq_sym Ei) Ey) as E2. apply ok_inj in E2. rewrite E2, By.
      change (2 ^ 60)%Z with (Zpower radix2 60). rewrite IZR_Zpower by lia. rewrite <- bpow_plus. change (bpow radix2 (60 + -60)) with 1. ring. }
  assert (Q : forall y, derivable_pt_lim (fun t => t * t) y (2 * y)).
  { intros y. pose proof (derivable_pt_lim_mult id id y _ _ (derivable_pt_lim_id y) (derivable_pt_lim_id y)) as H. unfold id, mult_fct in H. replace (2 * y) with (1 * y + y * 1) by ring. exact H. }
  assert (Q2 : forall y, derivable_pt_lim (fun t => 2 * t) y 2).
  { intros y. pose proof (derivable_pt_lim_scal id 2 y 1 (derivable_pt_lim_id y)) as H. rewrite Rmult_1_r in H. exact H. }
  assert (A2 : Rabs 2 <= 2) by (rewrite Rabs_pos_eq; lra).
  assert (K : forall k d, nth_error [d0] k = Some d -> k = 0%nat /\ d = d0) by (intros [|[|k]] d Hd; try discriminate; injection Hd as <-; split; reflexivity).
  assert (BX : forall p, InBox [0] [2] p -> exists y, p = [y]) by (intros [|y [|z p]] Hb; [destruct Hb|now exists y|destruct Hb as (_ & [])]).
  split; [|split; [|split; [|split; [|split]]]].
  - intros t Ht. apply InRange_cons in Ht. destruct Ht as (i & t' & -> & Hi & Ht). cbn in Hi. split; [split; [reflexivity|rewrite O1, Rabs_R1; change 1 with (bpow radix2 0); apply bpow_le; lia]|].
    split; [rewrite O1, Rabs_R1; lra|]. cbn [gridpoint place nth]. rewrite O1. replace (1 - (0 + 2 / 2 * pt d0 i) * (0 + 2 / 2 * pt d0 i)) with (1 - pt d0 i * pt d0 i) by field. rewrite P by exact Hi. rewrite Rminus_diag_eq by reflexivity. rewrite Rabs_R0. lra.
  - intros k i d p Hk Hi Hb. apply K in Hk as (-> & ->). rewrite N0 in Hi. change (i < 2)%nat in Hi. apply BX in Hb as (y & ->). unfold Partial. cbn [upd nth]. destruct i as [|[|i]]; [apply Q|apply Q2|lia].
  - intros k d p Hk Hb. apply K in Hk as (-> & ->). rewrite N0. exact A2.
  - intros p Hb. apply BX in Hb as (y & ->). unfold Partial. cbn [upd nth]. apply Q.
  - intros k i d p Hk Hi Hb. apply K in Hk as (-> & ->). unfold times in Hi. cbn [Nat.eqb] in Hi. rewrite N0 in Hi. change (i < 1)%nat in Hi. apply BX in Hb as (y & ->). unfold Partial. cbn [upd nth]. destruct i as [|i]; [apply Q2|lia].
  - intros k d p Hk Hb. apply K in Hk as (-> & ->). unfold times. cbn [Nat.eqb]. rewrite N0. exact A2.
Qed.

(** The same in three dimensions, on the cube with side lengths 2. *)
Lemma cell_example :
  let specs := [(EqualSpacing, 1%Z); (EqualSpacing, 1%Z); (EqualSpacing, 1%Z)] in
  let f := fun p : list R => nth 0 p 0 * nth 0 p 0 in
  let g := fun p : list R => 2 * nth 0 p 0 in
  let E := fun (k i : nat) p => match i, k with O, _ => g p | _, O => 2 | _, _ => 0 end in
  let h := b64_ofZ 2 in let hs := [B2R h; B2R h; B2R h] in let c := [0; 0; 0] in
  Forall Supported64 specs /\ is_finite h = true /\ bpow radix2 (- 300) <= B2R h <= bpow radix2 300 /\
  forall ds, Forall2 Grid64 specs ds ->
  (forall t, InRange (sizes64 specs) t -> Data64 (b64_ofZ 1) /\ Rabs (B2R (b64_ofZ 1)) <= 1 /\ Rabs (B2R (b64_ofZ 1) - f (place c hs (gridpoint ds t))) <= 0) /\
  (forall p, InBox c hs p -> Partial f 0 p (g p) /\ Rabs (g p) <= 2) /\
  (forall k i d p, nth_error ds k = Some d -> (i < times 0 k d)%nat -> InBox c hs p -> Partial (E k i) k p (E k (S i) p)) /\
  (forall k d p, nth_error ds k = Some d -> InBox c hs p -> Rabs (E k (times 0 k d) p) <= nth k [2; 0; 0] 0).
Proof.
  cbv zeta. split; [repeat constructor; cbn; lia|].
  assert (O2 : B2R (b64_ofZ 2) = 2).
  { destruct (ProofNodes64.fix60_ok (Ok (b64_ofZ 2)) (2 ^ 61)%Z ltac:(vm_compute; reflexivity)) as (y & Ey & _ & By). pose proof (ok_inj _ _ Ey) as E2. rewrite E2, By.
    change (2 ^ 61)%Z with (Zpower radix2 61). rewrite IZR_Zpower by lia. rewrite <- bpow_plus. reflexivity. }
  split; [reflexivity|]. rewrite O2. split; [change 2 with (bpow radix2 1); split; apply bpow_le; lia|].
  intros ds HG. inversion HG as [|? d0 ? ds1 G0 HG1]; subst. inversion HG1 as [|? d1 ? ds2 G1 HG2]; subst. inversion HG2 as [|? d2 ? ds3 G2 HG3]; subst. inversion HG3; subst.
  destruct total_example as (_ & TE). destruct (TE [d0] ltac:(constructor; [exact G0|constructor])) as (T1 & _).
  destruct G0 as (N0 & _). destruct G1 as (N1 & _). destruct G2 as (N2 & _). cbn [fst snd] in N0, N1, N2. change (1 + 1)%Z with 2%Z in *.
  assert (Q : forall y, derivable_pt_lim (fun t => t * t) y (2 * y)).
  { intros y. pose proof (derivable_pt_lim_mult id id y _ _ (derivable_pt_lim_id y) (derivable_pt_lim_id y)) as H. unfold id, mult_fct in H. replace (2 * y) with (1 * y + y * 1) by ring. exact H. }
  assert (Q2 : forall y, derivable_pt_lim (fun t => 2 * t) y 2).
  { intros y. pose proof (derivable_pt_lim_scal id 2 y 1 (derivable_pt_lim_id y)) as H. rewrite Rmult_1_r in H. exact H. }
  assert (QC : forall a y, derivable_pt_lim (fun _ => a) y 0) by (intros a y; apply derivable_pt_lim_const).
  assert (BX : forall p, InBox [0; 0; 0] [2; 2; 2] p -> exists x y z, p = [x; y; z] /\ -1 <= x <= 1).
  { intros [|x [|y [|z [|u p]]]] Hb; cbn in Hb; try tauto. exists x, y, z. split; [reflexivity|lra]. }
  assert (K : forall k d, nth_error [d0; d1; d2] k = Some d -> (k < 3)%nat /\ npts d = 2%Z) by (intros [|[|[|[|k]]]] d Hd; try discriminate; injection Hd as <-; split; (lia || assumption)).
  split; [|split; [|split]].
  - intros t Ht. apply InRange_cons in Ht. destruct Ht as (i & t' & -> & Hi & Ht). cbn in Hi.
    specialize (T1 [i] ltac:(constructor; [exact Hi|constructor])). apply InRange_cons in Ht. destruct Ht as (i1 & t1 & -> & Hi1 & Ht). exact T1.
  - intros p Hb. apply BX in Hb as (x & y & z & -> & Hx). split; [unfold Partial; cbn [upd nth]; apply Q|]. cbn [nth]. apply Rabs_le. lra.
  - intros k i d p Hk Hi Hb. apply K in Hk as (Hk & Hn). apply BX in Hb as (x & y & z & -> & Hx). unfold Partial.
    destruct k as [|[|[|k]]]; [| | |lia]; unfold times in Hi; cbn [Nat.eqb] in Hi; rewrite Hn in Hi; [change (i < 1)%nat in Hi|change (i < 2)%nat in Hi|change (i < 2)%nat in Hi].
    + destruct i; [|lia]. cbn [upd nth]. apply Q2.
    + destruct i as [|i]; cbn [upd nth]; apply QC.
    + destruct i as [|i]; cbn [upd nth]; apply QC.
  - intros k d p Hk Hb. apply K in Hk as (Hk & Hn). unfold times. destruct k as [|[|[|k]]]; [| | |lia]; cbn [Nat.eqb]; rewrite Hn; [change (Z.to_nat 2 - 1)%nat with 1%nat|change (Z.to_nat 2) with 2%nat|change (Z.to_nat 2) with 2%nat]; [change (Rabs 2 <= 2); rewrite Rabs_pos_eq; lra|change (Rabs 0 <= 0); rewrite Rabs_R0; lra|change (Rabs 0 <= 0); rewrite Rabs_R0; lra].
Qed.
