(** Volumes of hexahedra from Jacobian determinants computed in floats. *)
From Coq Require Import ZArith Reals Bool List Lia Lra Psatz.
From Flocq Require Import Core IEEE754.BinarySingleNaN.
From Verif Require Import Base ProofBase Num ModelF32 SpecF32 ModelB64 SpecIndex ProofBox ModelAssert ModelCArray SpecCArray ModelSpacing ModelQuadrature
  ModelBasisProduct ModelTransforms SpecMath SpecNumeric SpecBasis SpecElement64 SpecElement32 SpecIntegral SpecVolume
  ProofTensor ProofQuadrature ProofIntegral ProofVolume ProofF32 ProofQuad32 ProofNodes32 ProofElement32 ProofCell32 ProofVolumeGen.
Local Open Scope Z_scope.

Definition reals (l : list (Z -> b32)) : list (Z -> R) := map (fun (f : Z -> b32) i => B2R (f i)) l.
Definition bits32 : Z := 23.
Lemma pick_product ws : forall q, product (map B2R (pick ws q)) = weights_at (reals ws) q.
Proof.
  induction ws as [|w ws IH]; intros [|i q]; try reflexivity.
  unfold product, reals. cbn [pick map fold_right weights_at]. f_equal. apply IH.
Qed.
Lemma pick_point xs : forall q, map B2R (pick xs q) = point_at (reals xs) q.
Proof.
  induction xs as [|x xs IH]; intros [|i q]; try reflexivity. unfold reals. cbn [pick map point_at]. f_equal. apply IH.
Qed.
Lemma rule32_moments q N w x eps : 2 <= N <= rule_max q ->
  Points32 (weight_ct32 q N) N w -> Points32 (coord_ct32 (rule_spacing q) N) N x ->
  (pow2 (- 23) <= eps)%R ->
  Moments eps (q, N) (fun i => B2R (w i)) (fun i => B2R (x i)) /\
  (forall i, 0 <= i < N -> (0 <= B2R (w i))%R /\ InReference32 (x i)).
Proof.
  intros HN Pw Px He. destruct (rule32_facts q N HN) as (Fw & Fx & B & M).
  assert (Ew : forall i, 0 <= i < N -> w i = w32 q N i) by (intros i Hi; pose proof (Pw i Hi); pose proof (Fw i Hi); congruence).
  assert (Ex : forall i, 0 <= i < N -> x i = n32 q N i) by (intros i Hi; pose proof (Px i Hi); pose proof (Fx i Hi); congruence).
  split.
  - intros k Hk. cbn [snd]. eapply Rle_trans; [|exact He]. unfold degree in Hk. cbn [fst snd] in Hk.
    rewrite (Zsum_ext N _ (fun i => B2R (w32 q N i) * B2R (n32 q N i) ^ Z.to_nat k)%R).
    + apply M. unfold rule_degree. destruct q; lia.
    + intros i Hi. cbv beta. rewrite Ew, Ex by exact Hi. reflexivity.
  - intros i Hi. split; [rewrite Ew by exact Hi; apply Rlt_le; apply B, Hi|].
    destruct (bundled_nodes32 (rule_spacing q) (N - 1)) as (y & _ & Py & (R & _)).
    { unfold rule_max in HN. destruct q; cbn; lia. }
    rewrite Z.sub_add in Py, R. replace (x i) with (y i); [exact (R i Hi)|]. pose proof (Px i Hi). pose proof (Py i Hi). congruence.
Qed.
Lemma rules32_moments rs ws xs eps : Rules32 rs ws xs -> Forall supported rs -> (pow2 (- bits32) <= eps)%R ->
  Momentss eps rs (reals ws) (reals xs) /\
  Forall2 (fun (r : rule * Z) (w : Z -> R) => forall i, 0 <= i < snd r -> (0 <= w i)%R) rs (reals ws) /\
  forall q, InRange (map snd rs) q -> Forall InReference32 (pick xs q).
Proof.
  intros H. revert eps. induction H as [|q N w x rs ws xs Pw Px H IH]; intros eps HS He.
  - split; [constructor|]. split; [constructor|]. intros q Hq. constructor.
  - inversion_clear HS as [|? ? S1 S2]. unfold supported in S1. cbn [fst snd] in S1.
    assert (E1 : (pow2 (- 23) <= eps)%R /\ (pow2 (- bits32) <= eps)%R).
    { split; exact He. }
    destruct E1 as [E1 E2]. destruct (IH eps S2 E2) as (M & W & R).
    destruct (rule32_moments q N w x eps) as (M1 & W1); [unfold rule_max; destruct q; lia|exact Pw|exact Px|exact E1|].
    split; [constructor; assumption|]. split; [constructor; [intros i Hi; apply W1, Hi|exact W]|].
    intros idx Hq. cbn [map snd] in Hq. apply InRange_cons in Hq as (i & t & -> & Hi & Hq). cbn [pick]. constructor; [apply W1, Hi|apply R, Hq].
Qed.
Lemma rules32_length rs ws xs q : Rules32 rs ws xs -> InRange (map snd rs) q -> length (pick xs q) = length rs.
Proof.
  intros H. revert q. induction H as [|a N w x rs ws xs Pw Px H IH]; intros q Hq; [reflexivity|].
  cbn [map snd] in Hq. apply InRange_cons in Hq as (i & t & -> & Hi & Hq). cbn [pick length]. f_equal. apply IH, Hq.
Qed.

Lemma volume32 c specs rs ws xs mem X L : Hex64 specs -> Rules32 rs ws xs -> length rs = 3%nat -> Forall supported rs ->
  Forall (fun r => 2 <= degree r) rs -> Holds (owning [2; 2; 2; 3]) mem X ->
  (pow2 (-8) <= L <= pow2 20)%R ->
  (forall t, InRange [2; 2; 2; 3] t -> is_finite (X t) = true /\ (Rabs (B2R (X t)) <= L)%R) ->
  exists D : list Z -> b32,
    (forall q, InRange (map snd rs) q -> exists invJ,
       inverseJacobian_wrapper F32Num c 3 (map basis32 specs) mem (pick xs q) = Ok (D q, invJ) /\ is_finite (D q) = true) /\
    (Rabs (BoxSum (map snd rs) (fun q => product (map B2R (pick ws q)) * B2R (D q)) - hexVolume (fun a b e i => B2R (X [a; b; e; i])))
       <= 15000 * pow2 (-23) * L ^ 3)%R.
Proof.
  intros HH HR Hl HS Hd HX HL HD.
  destruct (rules32_moments rs ws xs (pow2 (- bits32)) HR HS (Rle_refl _)) as (M & W & R).
  set (D := fun q => match inverseJacobian_wrapper F32Num c 3 (map basis32 specs) mem (pick xs q) with Ok (d, _) => d | _ => narrow (b64_lit 0 0) end).
  assert (H : forall q, InRange (map snd rs) q -> exists invJ K,
    inverseJacobian_wrapper F32Num c 3 (map basis32 specs) mem (pick xs q) = Ok (D q, invJ) /\ is_finite (D q) = true /\
    (forall i j, 0 <= i < 3 -> (j < 3)%nat ->
        Partial (fun p => BoxSum [2; 2; 2] (fun s => trilinear s p * B2R (X (s ++ [i])))%R) j (point_at (reals xs) q) (K i (Z.of_nat j))) /\
    (Rabs (B2R (D q) - det 3 K) <= 1100 * pow2 (-24) * L ^ 3)%R).
  { intros q Hq. destruct (hex32 c specs HH (pick xs q) mem X L (R q Hq) (eq_trans (rules32_length _ _ _ _ HR Hq) Hl) HX HL HD)
      as (K & HK & d & invJ & Y & E & _ & F & B & _).
    exists invJ, K. unfold D. rewrite E. split; [reflexivity|]. split; [exact F|]. rewrite <- pick_point. split; [exact HK|exact B]. }
  exists D. split.
  { intros q Hq. destruct (H q Hq) as (invJ & K & E & F & _). exists invJ. split; assumption. }
  rewrite (BoxSum_ext _ _ (fun q => weights_at (reals ws) q * B2R (D q))%R) by (intros q _; cbv beta; rewrite pick_product; reflexivity).
  assert (eps10 : (0 <= pow2 (- bits32) <= 1 / 10)%R).
  { split; [apply bpow_ge_0|]. apply Rle_trans with (pow2 (-4)); [apply bpow_le; unfold bits32; lia|]. cbn -[Rmult Rinv]. lra. }
  eapply Rle_trans; [apply (volume_gen (pow2 (- bits32)) (1100 * pow2 (-24) * L ^ 3) rs (reals ws) (reals xs) (fun t => B2R (X t)) L (fun q => B2R (D q)))|].
  - exact eps10.
  - exact M.
  - exact Hl.
  - exact HS.
  - exact Hd.
  - exact W.
  - intros t Ht. apply HD, Ht.
  - intros q Hq. destruct (H q Hq) as (invJ & K & _ & _ & HK & B). exists K. split; assumption.
  - set (eps := pow2 (- bits32)) in *.
    assert (E53 : (pow2 (-24) <= eps)%R) by (apply bpow_le; unfold bits32; lia).
    assert (L3 : (0 <= L ^ 3)%R) by (apply pow_le; pose proof (bpow_ge_0 radix2 (-8)); lra).
    assert (S : (pow2 (- bits32) <= / 1000000)%R).
    { apply Rle_trans with (pow2 (-20)); [apply bpow_le; unfold bits32; lia|]. cbn -[Rmult Rinv]. lra. }
    fold eps in S. pose proof (bpow_ge_0 radix2 (-24)) as Z53.
    replace (27 * eps * (384 * L ^ 3) + (8 + 27 * eps) * (1100 * pow2 (-24) * L ^ 3))%R
      with ((10368 * eps + (8 + 27 * eps) * (1100 * pow2 (-24))) * L ^ 3)%R by ring.
    apply Rmult_le_compat_r; [exact L3|].
    assert (E24 : (pow2 (-24) * 2 = eps)%R) by (unfold eps, bits32; cbn -[Rmult Rinv]; lra). change (pow2 (-23)) with eps. nra.
Qed.
