(** Rounding errors of gradients and Jacobians bounded by the size of the data. *)
From Coq Require Import ZArith QArith Qreals Reals Bool List Lia Lra.
From Flocq Require Import Core IEEE754.BinarySingleNaN.
From Verif Require Import Base ProofBase Num SpecIndex SpecNumeric SpecBasis ModelB64 ModelF32 ModelAssert ModelSpacing ModelLagrange ModelBasisProduct
  SpecB64 SpecF32 SpecAccuracy SpecElement64 SpecElement32 SpecApprox SpecStability ProofPoly ProofSpacing ProofLagrange ProofApprox ProofBox ProofTensor ProofTables ProofStability.
From Verif Require ProofNodes64 ProofNodes32 ProofElement64 ProofElement32.
From Verif Require Import SpecCArray ModelCArray ModelMath ModelTransforms ProofGradStability ProofStability64.
Local Open Scope Z_scope.

Lemma close_damplifies specs ds : Forall (fun so => ValidOrder so /\ snd so <= 15) specs -> Forall2 CloseGrid specs ds ->
  forall j xi, (j < length specs)%nat -> (length specs <= length xi)%nat -> InCube (-1) 1 xi -> DAmplifies j ds specs xi.
Proof.
  intros HV HG. induction HG as [|[s o] d specs ds HC HG' IH]; intros j xi Hj Hl Hxi; [cbn in Hj; lia|].
  assert (HA := close_amplifies _ _ HV (Forall2_cons _ _ HC HG') xi Hl Hxi).
  inversion HV as [|? ? (V1 & V2) V3]; subst. destruct xi as [|x xi]; [cbn in Hl; lia|]. inversion Hxi as [|? ? Hx Hxi']; subst.
  cbn [map Amplifies] in HA. destruct HA as (A1 & A2). destruct HC as (Hn & HN & HC). cbn [fst snd] in *.
  destruct j as [|j]; cbn [DAmplifies]; split; try assumption.
  - rewrite sizes_dsum, Hn. now apply order_dstable.
  - apply IH; [exact V3|cbn in Hj; lia|apply le_S_n; exact Hl|exact Hxi'].
Qed.
Lemma dsize_nonneg j : forall ds t xi, (0 <= dtensor_size j ds t xi)%R.
Proof.
  induction j as [|j IH]; intros [|d ds] [|i t] [|x xi]; cbn [dtensor_size]; try lra;
    (apply Rmult_le_pos; [first [apply size_nonneg|apply Rabs_pos]|first [apply Rabs_pos|apply IH]]).
Qed.
Lemma dweighted_bound j ds specs xi (w : list Z -> R) M : DAmplifies j ds specs xi -> (length ds <= length xi)%nat -> (0 <= M)%R ->
  (forall t, InRange (counts ds) t -> (Rabs (w t) <= M)%R) ->
  (BoxSum (counts ds) (fun t => dtensor_size j ds t xi * Rabs (w t)) <= ElementGradientStability j specs * M)%R.
Proof.
  intros HA Hl HM Hw. rewrite BoxSum_sumR. apply Rle_trans with (sumR (fun t => dtensor_size j ds t xi * M) (zbox (counts ds)))%R.
  - apply sumR_le. intros t Ht. apply in_zbox in Ht. apply Rmult_le_compat_l; [apply dsize_nonneg|now apply Hw].
  - rewrite sumR_scal_r, <- BoxSum_sumR. apply Rmult_le_compat_r; [exact HM|]. now apply dtensor_total.
Qed.

Lemma grid64_dbound specs ds : Forall Supported64 specs -> Forall2 Grid64 specs ds ->
  forall j (xi : list b64) (w : list Z -> R) M, (j < length specs)%nat -> Forall InReference xi -> (length specs <= length xi)%nat -> (0 <= M)%R ->
  (forall t, InRange (sizes64 specs) t -> (Rabs (w t) <= M)%R) ->
  (BoxSum (counts ds) (fun t => dtensor_size j ds t (map B2R xi) * Rabs (w t)) <= ElementGradientStability j specs * M)%R.
Proof.
  intros HS HG j xi w M Hj Hxi Hlx HM Hw. assert (Lm : (length specs <= length (map B2R xi))%nat) by (rewrite map_length; exact Hlx).
  apply dweighted_bound; [|rewrite (ProofElement64.grid_length _ _ HG); exact Lm|exact HM|].
  - apply close_damplifies; [|clear -HS HG|exact Hj|exact Lm|].
    + eapply Forall_impl; [intros so; apply supported_valid|exact HS].
    + induction HG as [|so d specs ds G _ IH]; [constructor|]. inversion HS; subst. constructor; [now apply grid64_close|now apply IH].
    + apply abs_cube. eapply Forall_impl; [|exact Hxi]. intros x Hx. exact (proj2 Hx).
  - intros t Ht. rewrite (ProofElement64.grid_counts _ _ HG) in Ht. apply Hw, Ht.
Qed.

Lemma grid32_dbound specs ds : Forall Supported32 specs -> Forall2 Grid32 specs ds ->
  forall j (xi : list b32) (w : list Z -> R) M, (j < length specs)%nat -> Forall InReference32 xi -> (length specs <= length xi)%nat -> (0 <= M)%R ->
  (forall t, InRange (sizes64 specs) t -> (Rabs (w t) <= M)%R) ->
  (BoxSum (counts ds) (fun t => dtensor_size j ds t (map B2R xi) * Rabs (w t)) <= ElementGradientStability j specs * M)%R.
Proof.
  intros HS HG j xi w M Hj Hxi Hlx HM Hw. assert (Lm : (length specs <= length (map B2R xi))%nat) by (rewrite map_length; exact Hlx).
  apply dweighted_bound; [|rewrite (ProofElement32.grid_length _ _ HG); exact Lm|exact HM|].
  - apply close_damplifies; [|clear -HS HG|exact Hj|exact Lm|].
    + eapply Forall_impl; [intros so; apply supported32_valid|exact HS].
    + induction HG as [|so d specs ds G _ IH]; [constructor|]. inversion HS; subst. constructor; [now apply grid32_close|now apply IH].
    + apply abs_cube. eapply Forall_impl; [|exact Hxi]. intros x Hx. exact (proj2 Hx).
  - intros t Ht. rewrite (ProofElement32.grid_counts _ _ HG) in Ht. apply Hw, Ht.
Qed.

Lemma double_gradient_lemma c specs : specs <> [] -> (length specs <= 3)%nat -> Forall Supported64 specs ->
  exists ds, Forall2 Grid64 specs ds /\
  forall xi var w M, Forall InReference xi -> (length specs <= length xi)%nat -> (0 <= M)%R ->
  (forall t, InRange (sizes64 specs) t -> var t = Ok (w t) /\ Data64 (w t) /\ (Rabs (B2R (w t)) <= M)%R) ->
  exists g, parent_gradient B64Num c (Z.of_nat (length specs)) (map basis64 specs) var xi = Ok g /\ length g = length specs /\
    forall j, (j < length specs)%nat -> exists D,
      Partial (fun p => BoxSum (counts ds) (fun t => tensor ds t p * B2R (w t)))%R j (map B2R xi) D /\
      is_finite (nth j g (b64_ofZ 0)) = true /\
      (Rabs (B2R (nth j g (b64_ofZ 0)) - D)
        <= IZR (roundings64 specs) * bpow radix2 (-53) * (ElementGradientStability j specs * M) + bpow radix2 (-400))%R.
Proof.
  intros Hne Hl HS. destruct (ProofElement64.element_gradient64 c specs Hne Hl HS) as (ds & HG & H). exists ds. split; [exact HG|].
  intros xi var w M Hxi Hlx HM Hw. destruct (H xi var w Hxi Hlx) as (g & E & L & B).
  { intros t Ht. destruct (Hw t Ht) as (H1 & H2 & _). split; assumption. }
  exists g. split; [exact E|]. split; [exact L|]. intros j Hj. destruct (B j Hj) as (D & HD & F & Er). exists D. split; [exact HD|]. split; [exact F|].
  eapply Rle_trans; [exact Er|]. apply Rplus_le_compat_r. apply Rmult_le_compat_l.
  - apply Rmult_le_pos; [apply IZR_le; apply roundings_nonneg; eapply Forall_impl; [intros so; apply supported_valid|exact HS]|apply bpow_ge_0].
  - apply (grid64_dbound specs ds HS HG j xi (fun t => B2R (w t)) M Hj Hxi Hlx HM). intros t Ht. apply Hw, Ht.
Qed.
Lemma double_jacobian_lemma c specs : specs <> [] -> (length specs <= 3)%nat -> Forall Supported64 specs ->
  exists ds, Forall2 Grid64 specs ds /\
  forall xi mem X M, Forall InReference xi -> length xi = 3%nat -> (0 <= M)%R ->
  Holds (owning (sizes64 specs ++ [Z.of_nat (length specs)])) mem X ->
  (forall t i, InRange (sizes64 specs) t -> 0 <= i < Z.of_nat (length specs) -> Data64 (X (t ++ [i])) /\ (Rabs (B2R (X (t ++ [i]))) <= M)%R) ->
  exists J Jm, jacobian_wrapper B64Num c (Z.of_nat (length specs)) (map basis64 specs) mem xi = Ok J /\
    Holds (owning [Z.of_nat (length specs); Z.of_nat (length specs)]) J Jm /\
    forall i j, 0 <= i < Z.of_nat (length specs) -> (j < length specs)%nat -> exists D,
      Partial (fun p => BoxSum (counts ds) (fun t => tensor ds t p * B2R (X (t ++ [i]))))%R j (map B2R xi) D /\
      is_finite (Jm [i; Z.of_nat j]) = true /\
      (Rabs (B2R (Jm [i; Z.of_nat j]) - D)
        <= IZR (roundings64 specs) * bpow radix2 (-53) * (ElementGradientStability j specs * M) + bpow radix2 (-400))%R.
Proof.
  intros Hne Hl HS. destruct (ProofElement64.jacobian64 c specs Hne Hl HS) as (ds & HG & H). exists ds. split; [exact HG|].
  intros xi mem X M Hxi Hlx HM HX Hw. destruct (H xi mem X Hxi Hlx HX) as (J & Jm & E & L & B).
  { intros t i Ht Hi. apply (Hw t i Ht Hi). }
  exists J, Jm. split; [exact E|]. split; [exact L|]. intros i j Hi Hj. destruct (B i j Hi Hj) as (D & HD & F & Er). exists D. split; [exact HD|]. split; [exact F|].
  eapply Rle_trans; [exact Er|]. apply Rplus_le_compat_r. apply Rmult_le_compat_l.
  - apply Rmult_le_pos; [apply IZR_le; apply roundings_nonneg; eapply Forall_impl; [intros so; apply supported_valid|exact HS]|apply bpow_ge_0].
  - apply (grid64_dbound specs ds HS HG j xi (fun t => B2R (X (t ++ [i]))) M Hj Hxi); [|exact HM|].
    + apply Nat.le_trans with (1 := Hl). apply Nat.eq_le_incl. symmetry. exact Hlx.
    + intros t Ht. apply (Hw t i Ht Hi).
Qed.

Lemma float_gradient_lemma c specs : specs <> [] -> (length specs <= 3)%nat -> Forall Supported32 specs ->
  exists ds, Forall2 Grid32 specs ds /\
  forall xi var w M, Forall InReference32 xi -> (length specs <= length xi)%nat -> (0 <= M)%R ->
  (forall t, InRange (sizes64 specs) t -> var t = Ok (w t) /\ Data32 (w t) /\ (Rabs (B2R (w t)) <= M)%R) ->
  exists g, parent_gradient F32Num c (Z.of_nat (length specs)) (map basis32 specs) var xi = Ok g /\ length g = length specs /\
    forall j, (j < length specs)%nat -> exists D,
      Partial (fun p => BoxSum (counts ds) (fun t => tensor ds t p * B2R (w t)))%R j (map B2R xi) D /\
      is_finite (nth j g (b32_ofZ 0)) = true /\
      (Rabs (B2R (nth j g (b32_ofZ 0)) - D)
        <= IZR (roundings64 specs) * bpow radix2 (-24) * (ElementGradientStability j specs * M) + bpow radix2 (-64))%R.
Proof.
  intros Hne Hl HS. destruct (ProofElement32.element_gradient32 c specs Hne Hl HS) as (ds & HG & H). exists ds. split; [exact HG|].
  intros xi var w M Hxi Hlx HM Hw. destruct (H xi var w Hxi Hlx) as (g & E & L & B).
  { intros t Ht. destruct (Hw t Ht) as (H1 & H2 & _). split; assumption. }
  exists g. split; [exact E|]. split; [exact L|]. intros j Hj. destruct (B j Hj) as (D & HD & F & Er). exists D. split; [exact HD|]. split; [exact F|].
  eapply Rle_trans; [exact Er|]. apply Rplus_le_compat_r. apply Rmult_le_compat_l.
  - apply Rmult_le_pos; [apply IZR_le; apply roundings_nonneg; eapply Forall_impl; [intros so; apply supported32_valid|exact HS]|apply bpow_ge_0].
  - apply (grid32_dbound specs ds HS HG j xi (fun t => B2R (w t)) M Hj Hxi Hlx HM). intros t Ht. apply Hw, Ht.
Qed.
Lemma float_jacobian_lemma c specs : specs <> [] -> (length specs <= 3)%nat -> Forall Supported32 specs ->
  exists ds, Forall2 Grid32 specs ds /\
  forall xi mem X M, Forall InReference32 xi -> length xi = 3%nat -> (0 <= M)%R ->
  Holds (owning (sizes64 specs ++ [Z.of_nat (length specs)])) mem X ->
  (forall t i, InRange (sizes64 specs) t -> 0 <= i < Z.of_nat (length specs) -> Data32 (X (t ++ [i])) /\ (Rabs (B2R (X (t ++ [i]))) <= M)%R) ->
  exists J Jm, jacobian_wrapper F32Num c (Z.of_nat (length specs)) (map basis32 specs) mem xi = Ok J /\
    Holds (owning [Z.of_nat (length specs); Z.of_nat (length specs)]) J Jm /\
    forall i j, 0 <= i < Z.of_nat (length specs) -> (j < length specs)%nat -> exists D,
      Partial (fun p => BoxSum (counts ds) (fun t => tensor ds t p * B2R (X (t ++ [i]))))%R j (map B2R xi) D /\
      is_finite (Jm [i; Z.of_nat j]) = true /\
      (Rabs (B2R (Jm [i; Z.of_nat j]) - D)
        <= IZR (roundings64 specs) * bpow radix2 (-24) * (ElementGradientStability j specs * M) + bpow radix2 (-64))%R.
Proof.
  intros Hne Hl HS. destruct (ProofElement32.jacobian32 c specs Hne Hl HS) as (ds & HG & H). exists ds. split; [exact HG|].
  intros xi mem X M Hxi Hlx HM HX Hw. destruct (H xi mem X Hxi Hlx HX) as (J & Jm & E & L & B).
  { intros t i Ht Hi. apply (Hw t i Ht Hi). }
  exists J, Jm. split; [exact E|]. split; [exact L|]. intros i j Hi Hj. destruct (B i j Hi Hj) as (D & HD & F & Er). exists D. split; [exact HD|]. split; [exact F|].
  eapply Rle_trans; [exact Er|]. apply Rplus_le_compat_r. apply Rmult_le_compat_l.
  - apply Rmult_le_pos; [apply IZR_le; apply roundings_nonneg; eapply Forall_impl; [intros so; apply supported32_valid|exact HS]|apply bpow_ge_0].
  - apply (grid32_dbound specs ds HS HG j xi (fun t => B2R (X (t ++ [i]))) M Hj Hxi); [|exact HM|].
    + apply Nat.le_trans with (1 := Hl). apply Nat.eq_le_incl. symmetry. exact Hlx.
    + intros t Ht. apply (Hw t i Ht Hi).
Qed.
