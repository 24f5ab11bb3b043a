(** Integrals of interpolated fields on box cells in doubles and floats. *)
From Coq Require Import ZArith QArith Reals Bool List Lia Lra.
From Flocq Require Import Core IEEE754.BinarySingleNaN.
From Verif Require Import Base ProofBase Num SpecIndex ProofBox SpecNumeric SpecBasis SpecApprox SpecIntegral SpecStability SpecGradError SpecConvergence SpecQuadError ModelAssert ModelB64 ModelF32 SpecB64 SpecF32
  ModelSpacing ModelLagrange ModelBasisProduct ModelQuadrature ModelTransforms ModelTransforms32 SpecVolume SpecQuadTotal SpecAccuracy SpecAccuracy32 SpecElement64 SpecElement32
  ProofConvergence ProofQuadError ProofTotalError ProofQuadTotal.
From Verif Require ProofNodes64 ProofNodes32.
Import ListNotations.
Open Scope R_scope.

Lemma rule_points64 rs ws xs : Rules64 rs ws xs -> Forall supported rs -> forall q, InRange (map snd rs) q -> Forall InReference (pick xs q) /\ length (pick xs q) = length rs.
Proof.
  induction 1 as [|q N w x rs ws xs Pw Px H IH]; intros HS t Ht; [destruct t; split; (constructor || reflexivity)|].
  inversion HS as [|? ? S1 S2]; subst. cbn [map snd] in Ht. apply InRange_cons in Ht as (i & u & -> & Hi & Hu). cbn [pick length]. destruct (IH S2 u Hu) as (A & L).
  split; [|now rewrite L]. constructor; [|exact A].
  destruct (ProofNodes64.bundled_nodes64 (rule_spacing q) (N - 1)) as (q4 & y & _ & _ & _ & _ & Py & (R & _)).
  { unfold supported in S1. cbn in S1. destruct q; cbn; lia. }
  rewrite Z.sub_add in Py, R. replace (x i) with (y i); [exact (R i Hi)|]. pose proof (Px i Hi). pose proof (Py i Hi). congruence.
Qed.
Lemma interpolated64 ctx specs rs ws xs : length specs = 3%nat -> Forall Supported64 specs -> Rules64 rs ws xs -> Forall supported rs -> length rs = 3%nat ->
  exists ds, Forall2 Grid64 specs ds /\
  forall (D : nat -> nat -> list R -> R) f B M c (h0 h1 h2 : b64) V eta Mx m var w,
  length B = 3%nat -> length M = 3%nat -> length c = 3%nat -> 0 <= eta -> 0 <= Mx ->
  (forall h, In h [h0; h1; h2] -> is_finite h = true /\ bpow radix2 (- 300) <= B2R h <= bpow radix2 300) ->
  (forall t, InRange (sizes64 specs) t -> var t = Ok (w t) /\ Data64 (w t) /\ Rabs (B2R (w t)) <= Mx /\
     Rabs (B2R (w t) - f (place c [B2R h0; B2R h1; B2R h2] (gridpoint ds t))) <= eta) ->
  (forall k p, (k < 3)%nat -> InBox c [B2R h0; B2R h1; B2R h2] p -> D k 0%nat p = f p) ->
  (forall k i d r p, nth_error ds k = Some d -> nth_error rs k = Some r -> (i < Nat.max (Z.to_nat (npts d)) (smoothness r))%nat ->
     InBox c [B2R h0; B2R h1; B2R h2] p -> Partial (D k i) k p (D k (S i) p)) ->
  (forall k d p, nth_error ds k = Some d -> InBox c [B2R h0; B2R h1; B2R h2] p -> Rabs (D k (Z.to_nat (npts d)) p) <= nth k M 0) ->
  (forall k i r p, nth_error rs k = Some r -> (i <= smoothness r)%nat -> InBox c [B2R h0; B2R h1; B2R h2] p -> Rabs (D k i p) <= nth k B (fun _ => 0) i) ->
  (forall p, InBox c [B2R h0; B2R h1; B2R h2] p -> Rabs (f p) <= m) ->
  BoxIntegral c [B2R h0; B2R h1; B2R h2] f V ->
  exists F d invJ,
    (forall q, InRange (map snd rs) q -> parent_value B64Num 3 (map basis64 specs) var (pick xs q) = Ok (F q) /\ is_finite (F q) = true) /\
    scaling_inverseJacobian_wrapper B64Num ctx [h0; h1; h2] = Ok (d, invJ) /\ is_finite d = true /\
    let values := value_convergence specs M [B2R h0; B2R h1; B2R h2] + ElementStability specs * eta
         + IZR (roundings64 specs) * bpow radix2 (-53) * (ElementStability specs * Mx) + bpow radix2 (-400) in
    Rabs (B2R d * BoxSum (map snd rs) (fun q => product (map B2R (pick ws q)) * B2R (F q)) - V) <=
      B2R h0 / 2 * (B2R h1 / 2) * (B2R h2 / 2) *
        ((2 + table64 rs) ^ 2 * directions_error (table64 rs) rs B [B2R h0; B2R h1; B2R h2] + (2 + table64 rs) ^ 3 * (values + (3 * bpow radix2 (-53)) * (m + values))).
Proof.
  intros L3 HS HR HU Lr. destruct (value_total64 specs ltac:(intros ->; discriminate) ltac:(lia) HS) as (ds & HG & H). exists ds. split; [exact HG|]. rewrite L3 in H.
  intros D f B M c h0 h1 h2 V eta Mx m var w LB LM Lc He HMx Hh Hw D0 DS DM DB Hm HV.
  assert (Hp : forall h, In h [h0; h1; h2] -> 0 < B2R h) by (intros h Hin; destruct (Hh h Hin) as (_ & A & _); pose proof (bpow_gt_0 radix2 (- 300)); lra).
  pose proof (Hp h0 ltac:(cbn; auto)) as P0. pose proof (Hp h1 ltac:(cbn; auto)) as P1. pose proof (Hp h2 ltac:(cbn; auto)) as P2.
  assert (Ld : length ds = 3%nat) by (rewrite <- L3; clear -HG; induction HG; cbn; congruence).
  assert (Xr : forall k d, nth_error ds k = Some d -> exists r, nth_error rs k = Some r).
  { intros k d Hk. destruct (nth_error rs k) as [r|] eqn:Hr; [now exists r|]. exfalso. apply nth_error_None in Hr. assert (nth_error ds k <> None) as X by congruence. apply nth_error_Some in X. lia. }
  assert (Xd : forall k r, nth_error rs k = Some r -> exists d, nth_error ds k = Some d).
  { intros k r Hk. destruct (nth_error ds k) as [d|] eqn:Hr; [now exists d|]. exfalso. apply nth_error_None in Hr. assert (nth_error rs k <> None) as X by congruence. apply nth_error_Some in X. lia. }
  set (values := value_convergence specs M [B2R h0; B2R h1; B2R h2] + _ + _ + _).
  assert (V1 : forall q, InRange (map snd rs) q -> exists v, parent_value B64Num 3 (map basis64 specs) var (pick xs q) = Ok v /\ is_finite v = true /\
    Rabs (B2R v - f (place c [B2R h0; B2R h1; B2R h2] (map B2R (pick xs q)))) <= values).
  { intros q Hq. destruct (rule_points64 rs ws xs HR HU q Hq) as (A & L). rewrite Lr in L.
    apply (H D f M c [B2R h0; B2R h1; B2R h2] eta Mx (pick xs q) var w A L LM Lc eq_refl ltac:(repeat constructor; assumption) He HMx Hw D0); [|exact DM].
    intros k i d p Hk Hi Hb. destruct (Xr k d Hk) as (r & Hr). apply (DS k i d r); try assumption. lia. }
  set (F := fun q => match parent_value B64Num 3 (map basis64 specs) var (pick xs q) with Ok v => v | _ => b64_ofZ 0 end).
  assert (V2 : forall q, InRange (map snd rs) q -> parent_value B64Num 3 (map basis64 specs) var (pick xs q) = Ok (F q) /\ is_finite (F q) = true /\
    Rabs (B2R (F q) - f (place c [B2R h0; B2R h1; B2R h2] (map B2R (pick xs q)))) <= values).
  { intros q Hq. destruct (V1 q Hq) as (v & Ev & Fv & Bv). assert (EF : F q = v) by (unfold F; rewrite Ev; reflexivity). rewrite EF. split; [exact Ev|]. split; assumption. }
  assert (Hv : 0 <= values).
  { assert (X : InRange (map snd rs) (map (fun _ => 0%Z) rs)). { clear -HU. induction HU as [|r rs Hr _ IH]; cbn [map]; [constructor|constructor; [|exact IH]]. unfold supported in Hr. destruct (fst r); lia. }
    destruct (V2 _ X) as (_ & _ & Bv). eapply Rle_trans; [apply Rabs_pos|exact Bv]. }
  destruct (cell_total64 ctx rs ws xs D f B c h0 h1 h2 V (fun q => B2R (F q)) values m HR HU Lr Hv Hh LB Lc D0) as (d & invJ & Ed & Fd & Bd); try assumption.
  { intros k i r p Hk Hi Hb. destruct (Xd k r Hk) as (d & Hd). apply (DS k i d r); try assumption. lia. }
  { intros q Hq. now apply V2. }
  exists F, d, invJ. split; [intros q Hq; split; now apply V2|]. split; [exact Ed|]. split; [exact Fd|]. exact Bd.
Qed.

Lemma rule_points32 rs ws xs : Rules32 rs ws xs -> Forall supported rs -> forall q, InRange (map snd rs) q -> Forall InReference32 (pick xs q) /\ length (pick xs q) = length rs.
Proof.
  induction 1 as [|q N w x rs ws xs Pw Px H IH]; intros HS t Ht; [destruct t; split; (constructor || reflexivity)|].
  inversion HS as [|? ? S1 S2]; subst. cbn [map snd] in Ht. apply InRange_cons in Ht as (i & u & -> & Hi & Hu). cbn [pick length]. destruct (IH S2 u Hu) as (A & L).
  split; [|now rewrite L]. constructor; [|exact A].
  destruct (ProofNodes32.bundled_nodes32 (rule_spacing q) (N - 1)) as (y & _ & Py & (R & _)).
  { unfold supported in S1. cbn in S1. destruct q; cbn; lia. }
  rewrite Z.sub_add in Py, R. replace (x i) with (y i); [exact (R i Hi)|]. pose proof (Px i Hi). pose proof (Py i Hi). congruence.
Qed.
Lemma interpolated32 ctx specs rs ws xs : length specs = 3%nat -> Forall Supported32 specs -> Rules32 rs ws xs -> Forall supported rs -> length rs = 3%nat ->
  exists ds, Forall2 Grid32 specs ds /\
  forall (D : nat -> nat -> list R -> R) f B M c (h0 h1 h2 : b32) V eta Mx m var w,
  length B = 3%nat -> length M = 3%nat -> length c = 3%nat -> 0 <= eta -> 0 <= Mx ->
  (forall h, In h [h0; h1; h2] -> is_finite h = true /\ bpow radix2 (- 40) <= B2R h <= bpow radix2 40) ->
  (forall t, InRange (sizes64 specs) t -> var t = Ok (w t) /\ Data32 (w t) /\ Rabs (B2R (w t)) <= Mx /\
     Rabs (B2R (w t) - f (place c [B2R h0; B2R h1; B2R h2] (gridpoint ds t))) <= eta) ->
  (forall k p, (k < 3)%nat -> InBox c [B2R h0; B2R h1; B2R h2] p -> D k 0%nat p = f p) ->
  (forall k i d r p, nth_error ds k = Some d -> nth_error rs k = Some r -> (i < Nat.max (Z.to_nat (npts d)) (smoothness r))%nat ->
     InBox c [B2R h0; B2R h1; B2R h2] p -> Partial (D k i) k p (D k (S i) p)) ->
  (forall k d p, nth_error ds k = Some d -> InBox c [B2R h0; B2R h1; B2R h2] p -> Rabs (D k (Z.to_nat (npts d)) p) <= nth k M 0) ->
  (forall k i r p, nth_error rs k = Some r -> (i <= smoothness r)%nat -> InBox c [B2R h0; B2R h1; B2R h2] p -> Rabs (D k i p) <= nth k B (fun _ => 0) i) ->
  (forall p, InBox c [B2R h0; B2R h1; B2R h2] p -> Rabs (f p) <= m) ->
  BoxIntegral c [B2R h0; B2R h1; B2R h2] f V ->
  exists F d invJ,
    (forall q, InRange (map snd rs) q -> parent_value F32Num 3 (map basis32 specs) var (pick xs q) = Ok (F q) /\ is_finite (F q) = true) /\
    scaling_inverseJacobian_wrapper32 ctx [h0; h1; h2] = Ok (d, invJ) /\ is_finite d = true /\
    let values := value_convergence specs M [B2R h0; B2R h1; B2R h2] + ElementStability specs * eta
         + IZR (roundings64 specs) * bpow radix2 (-24) * (ElementStability specs * Mx) + bpow radix2 (-64) in
    Rabs (B2R d * BoxSum (map snd rs) (fun q => product (map B2R (pick ws q)) * B2R (F q)) - V) <=
      B2R h0 / 2 * (B2R h1 / 2) * (B2R h2 / 2) *
        ((2 + bpow radix2 (-23)) ^ 2 * directions_error (bpow radix2 (-23)) rs B [B2R h0; B2R h1; B2R h2] + (2 + bpow radix2 (-23)) ^ 3 * (values + (bpow radix2 (-24) + bpow radix2 (-52)) * (m + values))).
Proof.
  intros L3 HS HR HU Lr. destruct (value_total32 specs ltac:(intros ->; discriminate) ltac:(lia) HS) as (ds & HG & H). exists ds. split; [exact HG|]. rewrite L3 in H.
  intros D f B M c h0 h1 h2 V eta Mx m var w LB LM Lc He HMx Hh Hw D0 DS DM DB Hm HV.
  assert (Hp : forall h, In h [h0; h1; h2] -> 0 < B2R h) by (intros h Hin; destruct (Hh h Hin) as (_ & A & _); pose proof (bpow_gt_0 radix2 (- 40)); lra).
  pose proof (Hp h0 ltac:(cbn; auto)) as P0. pose proof (Hp h1 ltac:(cbn; auto)) as P1. pose proof (Hp h2 ltac:(cbn; auto)) as P2.
  assert (Ld : length ds = 3%nat) by (rewrite <- L3; clear -HG; induction HG; cbn; congruence).
  assert (Xr : forall k d, nth_error ds k = Some d -> exists r, nth_error rs k = Some r).
  { intros k d Hk. destruct (nth_error rs k) as [r|] eqn:Hr; [now exists r|]. exfalso. apply nth_error_None in Hr. assert (nth_error ds k <> None) as X by congruence. apply nth_error_Some in X. lia. }
  assert (Xd : forall k r, nth_error rs k = Some r -> exists d, nth_error ds k = Some d).
  { intros k r Hk. destruct (nth_error ds k) as [d|] eqn:Hr; [now exists d|]. exfalso. apply nth_error_None in Hr. assert (nth_error rs k <> None) as X by congruence. apply nth_error_Some in X. lia. }
  set (values := value_convergence specs M [B2R h0; B2R h1; B2R h2] + _ + _ + _).
  assert (V1 : forall q, InRange (map snd rs) q -> exists v, parent_value F32Num 3 (map basis32 specs) var (pick xs q) = Ok v /\ is_finite v = true /\
    Rabs (B2R v - f (place c [B2R h0; B2R h1; B2R h2] (map B2R (pick xs q)))) <= values).
  { intros q Hq. destruct (rule_points32 rs ws xs HR HU q Hq) as (A & L). rewrite Lr in L.
    apply (H D f M c [B2R h0; B2R h1; B2R h2] eta Mx (pick xs q) var w A L LM Lc eq_refl ltac:(repeat constructor; assumption) He HMx Hw D0); [|exact DM].
    intros k i d p Hk Hi Hb. destruct (Xr k d Hk) as (r & Hr). apply (DS k i d r); try assumption. lia. }
  set (F := fun q => match parent_value F32Num 3 (map basis32 specs) var (pick xs q) with Ok v => v | _ => b32_ofZ 0 end).
  assert (V2 : forall q, InRange (map snd rs) q -> parent_value F32Num 3 (map basis32 specs) var (pick xs q) = Ok (F q) /\ is_finite (F q) = true /\
    Rabs (B2R (F q) - f (place c [B2R h0; B2R h1; B2R h2] (map B2R (pick xs q)))) <= values).
  { intros q Hq. destruct (V1 q Hq) as (v & Ev & Fv & Bv). assert (EF : F q = v) by (unfold F; rewrite Ev; reflexivity). rewrite EF. split; [exact Ev|]. split; assumption. }
  assert (Hv : 0 <= values).
  { assert (X : InRange (map snd rs) (map (fun _ => 0%Z) rs)). { clear -HU. induction HU as [|r rs Hr _ IH]; cbn [map]; [constructor|constructor; [|exact IH]]. unfold supported in Hr. destruct (fst r); lia. }
    destruct (V2 _ X) as (_ & _ & Bv). eapply Rle_trans; [apply Rabs_pos|exact Bv]. }
  destruct (cell_total32 ctx rs ws xs D f B c h0 h1 h2 V (fun q => B2R (F q)) values m HR HU Lr Hv Hh LB Lc D0) as (d & invJ & Ed & Fd & Bd); try assumption.
  { intros k i r p Hk Hi Hb. destruct (Xd k r Hk) as (d & Hd). apply (DS k i d r); try assumption. lia. }
  { intros q Hq. now apply V2. }
  exists F, d, invJ. split; [intros q Hq; split; now apply V2|]. split; [exact Ed|]. split; [exact Fd|]. exact Bd.
Qed.

(** exp x on the cube with side lengths 2, with the data 1. *)
Lemma interpolated_example :
  let specs := [(EqualSpacing, 1%Z); (GaussLobattoSpacing, 2%Z); (EqualSpacing, 1%Z)] in
  let f := fun p : list R => exp (nth 0 p 0) in
  let D := fun (k i : nat) (p : list R) => match k, i with O, _ => f p | _, O => f p | _, _ => 0 end in
  let h := b64_ofZ 2 in let hs := [B2R h; B2R h; B2R h] in let c := [0; 0; 0] in
  Forall Supported64 specs /\ is_finite h = true /\ bpow radix2 (- 300) <= B2R h <= bpow radix2 300 /\
  (forall ds t, Forall2 Grid64 specs ds -> InRange (sizes64 specs) t ->
     Data64 (b64_ofZ 1) /\ Rabs (B2R (b64_ofZ 1)) <= 1 /\ Rabs (B2R (b64_ofZ 1) - f (place c hs (gridpoint ds t))) <= 2) /\
  (forall k p, (k < 3)%nat -> InBox c hs p -> D k 0%nat p = f p) /\
  (forall k i p, (k < 3)%nat -> InBox c hs p -> Partial (D k i) k p (D k (S i) p)) /\
  (forall k i p, (k < 3)%nat -> InBox c hs p -> Rabs (D k i p) <= 3) /\
  (forall p, InBox c hs p -> Rabs (f p) <= 3) /\
  exists V, BoxIntegral c hs f V.
Proof.
  cbv zeta. assert (SS : Forall Supported64 [(EqualSpacing, 1%Z); (GaussLobattoSpacing, 2%Z); (EqualSpacing, 1%Z)]) by (repeat constructor; cbn; lia).
  split; [exact SS|].
  destruct cell_example as (_ & F2 & R2 & _). cbv zeta in F2, R2. split; [exact F2|]. split; [exact R2|]. clear F2 R2.
  assert (O2 : B2R (b64_ofZ 2) = 2).
  { destruct (ProofNodes64.fix60_ok (Ok (b64_ofZ 2)) (2 ^ 61)%Z ltac:(vm_compute; reflexivity)) as (y & Ey & _ & By). pose proof (ok_inj _ _ Ey) as E2. rewrite E2, By.
    change (2 ^ 61)%Z with (Zpower radix2 61). rewrite IZR_Zpower by lia. rewrite <- bpow_plus. reflexivity. }
  assert (O1 : B2R (b64_ofZ 1) = 1).
  { destruct (ProofNodes64.fix60_ok (Ok (b64_ofZ 1)) (2 ^ 60)%Z ltac:(vm_compute; reflexivity)) as (y & Ey & _ & By). pose proof (ok_inj _ _ Ey) as E2. rewrite E2, By.
    change (2 ^ 60)%Z with (Zpower radix2 60). rewrite IZR_Zpower by lia. rewrite <- bpow_plus. reflexivity. }
  rewrite O2. destruct (exp_box_example 0 0 0 2 2 2 ltac:(lra) ltac:(lra) ltac:(lra)) as (W0 & WS & WB & Wm & WV).
  assert (E3 : exp (0 + 2 / 2) <= 3) by (replace (0 + 2 / 2) with 1 by field; exact exp_le_3).
  split; [|split; [exact W0|split; [exact WS|split; [|split]]]].
  - intros ds t HG Ht. split; [split; [reflexivity|rewrite O1, Rabs_R1; change 1 with (bpow radix2 0); apply bpow_le; lia]|]. rewrite O1. split; [rewrite Rabs_R1; lra|].
    pose proof (grid64_in _ _ SS HG) as HI. destruct ds as [|d0 ds']; [inversion HG|]. assert (Hd0 := Forall_inv HI). cbv beta in Hd0. apply InRange_cons in Ht. destruct Ht as (i & t' & -> & Hi & _).
    assert (G0 : Grid64 (EqualSpacing, 1%Z) d0) by (inversion HG; assumption). destruct G0 as (N0 & _). cbn [fst snd] in N0. change (1 + 1)%Z with 2%Z in N0. cbn in Hi. pose proof (Hd0 i ltac:(rewrite N0; exact Hi)) as PX.
    set (y := pt d0 i) in *.
    assert (NE : nth 0 (place [0; 0; 0] [2; 2; 2] (gridpoint (d0 :: ds') (i :: t'))) 0 = y) by (cbn [gridpoint place nth]; fold y; field).
    rewrite NE. pose proof (exp_pos y) as EP. pose proof exp_le_3 as E1.
    assert (EY : exp y <= exp 1) by (destruct (proj2 PX) as [X|X]; [left; now apply exp_increasing|rewrite X; apply Rle_refl]).
    apply Rabs_le. lra.
  - intros k i p Hk Hb. eapply Rle_trans; [exact (WB k i p Hk Hb)|]. destruct k as [|[|[|k]]]; cbn [nth]; (exact E3 || lia).
  - intros p Hb. eapply Rle_trans; [exact (Wm p Hb)|exact E3].
  - eexists. exact WV.
Qed.
