(** Quadrature of inexact Jacobian determinants with inexact rules. *)
From Coq Require Import ZArith Reals Bool List Lia Lra Psatz.
From Flocq Require Import Core.
From Verif Require Import Base ProofBase Num SpecIndex ProofBox SpecNumeric SpecMath SpecBasis SpecElement64 SpecIntegral ModelSpacing ModelQuadrature
  ProofApprox ProofMath ProofTensor ProofTransform ProofQuadrature ProofIntegral ProofVolume ProofElement64 ProofCell64.
Local Open Scope Z_scope.

(** [w], [x] integrate the powers up to the degree of the rule to [eps]. *)
Definition Moments (eps : R) (r : rule * Z) (w x : Z -> R) : Prop :=
  forall k, 0 <= k <= degree r -> (Rabs (Zsum (snd r) (fun i => w i * x i ^ Z.to_nat k) - exact_moment (Z.to_nat k)) <= eps)%R.
Inductive Momentss (eps : R) : list (rule * Z) -> list (Z -> R) -> list (Z -> R) -> Prop :=
| no_rules : Momentss eps [] [] []
| more_rules r w x rs ws xs : Moments eps r w x -> Momentss eps rs ws xs -> Momentss eps (r :: rs) (w :: ws) (x :: xs).

Lemma monomial_gen eps rs ws xs : (0 <= eps)%R -> Momentss eps rs ws xs ->
  forall e, Forall2 (fun k r => 0 <= k <= degree r) e rs ->
  (Rabs (quadrature rs ws xs (monomial e) - imono e) <= cerr eps (length rs))%R.
Proof.
  intros He HM. induction HM as [|r w x rs ws xs H1 HM IH]; intros e HE.
  - inversion HE; subst. unfold quadrature. cbn [map BoxSum length cerr imono weights_at].
    replace (monomial [] (point_at [] [])) with 1%R by reflexivity.
    replace (1 * 1 - 1)%R with 0%R by ring. rewrite Rabs_R0. lra.
  - inversion HE as [|k ? e' ? Hk He']; subst. specialize (IH e' He').
    rewrite quadrature_cons. cbn [imono length cerr].
    rewrite (Zsum_ext _ _ (fun i => quadrature rs ws xs (monomial e') * (w i * x i ^ Z.to_nat k))%R).
    2:{ intros i _. rewrite (quadrature_ext _ _ _ _ (fun t => x i ^ Z.to_nat k * monomial e' t)%R) by reflexivity.
        rewrite quadrature_scal. ring. }
    rewrite Zsum_scal. pose proof (H1 k Hk) as M1.
    set (Q := quadrature rs ws xs (monomial e')) in *. set (S := Zsum _ _) in *.
    set (M := exact_moment (Z.to_nat k)) in *. set (I := imono e') in *.
    replace (Q * S - M * I)%R with ((Q - I) * S + I * (S - M))%R by ring.
    eapply Rle_trans; [apply Rabs_triang|]. rewrite !Rabs_mult.
    assert (HS : (Rabs S <= 2 + eps)%R).
    { replace S with ((S - M) + M)%R by ring. eapply Rle_trans; [apply Rabs_triang|].
      pose proof (exact_moment_abs (Z.to_nat k)) as HK. fold M in HK. lra. }
    assert (HI : (Rabs I <= 2 ^ length rs)%R) by (rewrite <- (Forall2_len _ _ _ He'); apply imono_abs).
    apply Rplus_le_compat.
    + rewrite Rmult_comm. apply Rmult_le_compat; try apply Rabs_pos; assumption.
    + rewrite Rmult_comm. apply Rmult_le_compat; try apply Rabs_pos; [exact M1|exact HI].
Qed.
Lemma sparse_gen eps rs ws xs ts : (0 <= eps <= 1 / 10)%R -> Momentss eps rs ws xs ->
  Forall (fun t => Forall2 (fun k r => 0 <= k <= degree r) (snd t) rs) ts ->
  (Rabs (quadrature rs ws xs (sparse ts) - isparse ts) <= 3 ^ length rs * eps * size ts)%R.
Proof.
  intros He HM HT. eapply Rle_trans; [apply (quad_sparse_abs (cerr eps (length rs)))|].
  - intros t Ht. rewrite Forall_forall in HT. apply monomial_gen; [lra|exact HM|now apply HT].
  - apply Rmult_le_compat_r; [apply size_nonneg|]. apply cerr_bound. lra.
Qed.
Lemma weights_pos rs ws q : Forall2 (fun (r : rule * Z) (w : Z -> R) => forall i, 0 <= i < snd r -> (0 <= w i)%R) rs ws ->
  InRange (map snd rs) q -> (0 <= weights_at ws q)%R.
Proof.
  intros H. revert q. induction H as [|r w rs ws Hw _ IH]; intros q Hq.
  - inversion Hq; subst. cbn [weights_at]. lra.
  - cbn [map] in Hq. apply InRange_cons in Hq as (i & t & -> & Hi & Hq). cbn [weights_at].
    apply Rmult_le_pos; [apply Hw, Hi|apply IH, Hq].
Qed.

(** A direction with the points -1 and 1. *)
Lemma unit_exists : exists d, Nodal d /\ unit_direction d.
Proof.
  destruct (grid_exists (EqualSpacing, 1)) as (d & G & _); [cbn; lia|]. exists d. split; [apply G|]. eapply unit64; [|exact G]. cbn. auto.
Qed.
Lemma det_trilinear X xi (K : matrix) : length xi = 3%nat ->
  (forall i j, 0 <= i < 3 -> (j < 3)%nat ->
     Partial (fun p => BoxSum [2; 2; 2] (fun s => trilinear s p * X (s ++ [i]))%R) j xi (K i (Z.of_nat j))) ->
  det 3 K = sparse (dterms (colA X) (colB X) (colC X)) xi.
Proof.
  intros Hp HK. destruct unit_exists as (d & N & U).
  assert (HN : Forall Nodal [d; d; d]) by (repeat (constructor; [exact N|]); constructor).
  assert (HU : Forall unit_direction [d; d; d]) by (repeat (constructor; [exact U|]); constructor).
  assert (C : counts [d; d; d] = [2; 2; 2]) by (apply counts_hex; [reflexivity|exact HU]).
  assert (HD : Forall Differentiates [d; d; d]) by exact (Nodal_Differentiates _ HN).
  destruct xi as [|x [|y [|z [|]]]]; try discriminate. rewrite <- (det_Jmat [d; d; d] X x y z eq_refl HN HU). rewrite !det3.
  assert (E : forall i j, 0 <= i < 3 -> 0 <= j < 3 -> K i j = Jmat [d; d; d] X [x; y; z] [i; j]).
  { intros i j Hi Hj. specialize (HK i (Z.to_nat j) Hi ltac:(lia)).
    pose proof (Jmat_partial [d; d; d] X [x; y; z] i (Z.to_nat j) HD ltac:(cbn; lia) ltac:(cbn; lia)) as P.
    rewrite Z2Nat.id in HK, P by lia.
    eapply uniqueness_limite; [exact HK|]. revert P. unfold Partial, position. rewrite C. intros P.
    eapply deriv_ext; [|exact P]. intros w. cbv beta. apply BoxSum_ext. intros s Hs. f_equal.
    apply tensor_trilinear; [exact HN|exact HU|exact Hs|]. rewrite upd_length. reflexivity. }
  rewrite !E by lia. reflexivity.
Qed.

Lemma volume_gen eps delta rs ws xs X M (D : list Z -> R) :
  (0 <= eps <= 1 / 10)%R -> Momentss eps rs ws xs -> length rs = 3%nat -> Forall supported rs -> Forall (fun r => 2 <= degree r) rs ->
  Forall2 (fun (r : rule * Z) (w : Z -> R) => forall i, 0 <= i < snd r -> (0 <= w i)%R) rs ws ->
  (forall t, InRange [2; 2; 2; 3] t -> (Rabs (X t) <= M)%R) ->
  (forall q, InRange (map snd rs) q -> exists K : matrix,
     (forall i j, 0 <= i < 3 -> (j < 3)%nat ->
        Partial (fun p => BoxSum [2; 2; 2] (fun s => trilinear s p * X (s ++ [i]))%R) j (point_at xs q) (K i (Z.of_nat j))) /\
     (Rabs (D q - det 3 K) <= delta)%R) ->
  (Rabs (BoxSum (map snd rs) (fun q => weights_at ws q * D q) - hexVolume (fun a b e i => X [a; b; e; i]))
     <= 27 * eps * (384 * M ^ 3) + (8 + 27 * eps) * delta)%R.
Proof.
  intros He HM Hl Hs Hdeg Hw HX HD. set (ts := dterms (colA X) (colB X) (colC X)).
  assert (HP : forall q, InRange (map snd rs) q -> length (point_at xs q) = 3%nat).
  { intros q Hq. destruct HM as [|r0 w0 x0 ? ? ? _ [|r1 w1 x1 ? ? ? _ [|r2 w2 x2 ? ? ? _ [|? ? ? ? ? ? _ _]]]]; try discriminate.
    cbn [map] in Hq. apply InRange3 in Hq. destruct Hq as (a & b & e & -> & _). reflexivity. }
  assert (E : (Rabs (BoxSum (map snd rs) (fun q => weights_at ws q * D q) - quadrature rs ws xs (sparse ts)) <= (8 + 27 * eps) * delta)%R).
  { assert (B : (Rabs (BoxSum (map snd rs) (fun q => weights_at ws q * D q) - quadrature rs ws xs (sparse ts))
                 <= delta * quadrature rs ws xs (monomial [0%Z; 0%Z; 0%Z]))%R).
    { rewrite <- quadrature_scal. unfold quadrature. apply Rabs_le.
      replace (BoxSum (map snd rs) (fun q => weights_at ws q * D q) - BoxSum (map snd rs) (fun q => weights_at ws q * sparse ts (point_at xs q)))%R
        with (BoxSum (map snd rs) (fun q => weights_at ws q * D q + -1 * (weights_at ws q * sparse ts (point_at xs q))))%R
        by (rewrite BoxSum_plus, BoxSum_scal; ring).
      assert (MM : forall q, InRange (map snd rs) q -> monomial [0%Z; 0%Z; 0%Z] (point_at xs q) = 1%R).
      { intros q Hq. specialize (HP q Hq). destruct (point_at xs q) as [|a [|b [|e [|]]]]; try discriminate. cbn. ring. }
      assert (P : forall q, InRange (map snd rs) q -> (Rabs (weights_at ws q * D q + -1 * (weights_at ws q * sparse ts (point_at xs q)))
                    <= weights_at ws q * (delta * monomial [0%Z; 0%Z; 0%Z] (point_at xs q)))%R).
      { intros q Hq. destruct (HD q Hq) as (K & HK & HE). pose proof (weights_pos rs ws q Hw Hq) as Pw.
        rewrite (MM q Hq), Rmult_1_r.
        replace (weights_at ws q * D q + -1 * (weights_at ws q * sparse ts (point_at xs q)))%R
          with (weights_at ws q * (D q - det 3 K))%R by (rewrite (det_trilinear X _ K (HP q Hq) HK); fold ts; ring).
        rewrite Rabs_mult, (Rabs_pos_eq _ Pw). apply Rmult_le_compat_l; assumption. }
      split.
      - replace (- BoxSum (map snd rs) (fun q => weights_at ws q * (delta * monomial [0%Z; 0%Z; 0%Z] (point_at xs q))))%R
          with (BoxSum (map snd rs) (fun q => -1 * (weights_at ws q * (delta * monomial [0%Z; 0%Z; 0%Z] (point_at xs q)))))%R by (rewrite BoxSum_scal; ring).
        apply BoxSum_le. intros q Hq. specialize (P q Hq). apply Rabs_le_inv in P. lra.
      - apply BoxSum_le. intros q Hq. specialize (P q Hq). apply Rabs_le_inv in P. lra. }
    eapply Rle_trans; [exact B|].
    assert (T0 : Forall2 (fun k r => 0 <= k <= degree r) [0; 0; 0] rs).
    { destruct rs as [|r0 [|r1 [|r2 [|]]]]; try discriminate. inversion Hdeg as [|? ? G0 Hd1]; subst. inversion Hd1 as [|? ? G1 Hd2]; subst. inversion Hd2 as [|? ? G2 _]; subst.
      repeat (constructor; [lia|]). constructor. }
    pose proof (monomial_gen eps rs ws xs ltac:(lra) HM [0; 0; 0] T0) as Q. rewrite Hl in Q.
    pose proof (cerr_bound eps 3 He) as CB. replace (3 ^ 3)%R with 27%R in CB by (cbn; ring).
    assert (I8 : imono [0%Z; 0%Z; 0%Z] = 8%R).
    { assert (E0 : exact_moment (Z.to_nat 0) = 2%R) by exact em0. cbn [imono]. rewrite !E0. ring. }
    rewrite I8 in Q. apply Rabs_le_inv in Q.
    assert (D0 : (0 <= delta)%R).
    { destruct (HD (repeat 0 3)) as (K & _ & HE); [|eapply Rle_trans; [apply Rabs_pos|exact HE]].
      destruct rs as [|r0 [|r1 [|r2 [|]]]]; try discriminate. inversion Hs as [|? ? G0 Hd1]; subst. inversion Hd1 as [|? ? G1 Hd2]; subst. inversion Hd2 as [|? ? G2 _]; subst.
      unfold supported in *. cbn [map repeat]. repeat (constructor; [lia|]). constructor. }
    rewrite Rmult_comm. apply Rmult_le_compat_r; [exact D0|]. lra. }
  assert (HMp : (0 <= M)%R).
  { eapply Rle_trans; [apply Rabs_pos|]. apply (HX [0; 0; 0; 0]). apply InRange4; lia. }
  assert (V : (Rabs (quadrature rs ws xs (sparse ts) - hexVolume (fun a b e i => X [a; b; e; i])) <= 27 * eps * (384 * M ^ 3))%R).
  { rewrite <- volume_sparse. fold ts. pose proof (sparse_gen eps rs ws xs ts He HM (expo_degree rs Hs Hl Hdeg _ _ _)) as T.
    rewrite Hl in T. replace (3 ^ 3)%R with 27%R in T by (cbn; ring).
    eapply Rle_trans; [exact T|]. apply Rmult_le_compat_l; [lra|].
    apply size_dterms; [exact HMp|]. intros p i Hi.
    assert (B : forall a b e, 0 <= a < 2 -> 0 <= b < 2 -> 0 <= e < 2 -> (Rabs (X [a; b; e; i]) <= M)%R) by (intros; apply HX, InRange4; lia).
    repeat split; apply four_bound; intros a b Ha Hb; apply s8_diff; apply B; lia. }
  replace (BoxSum (map snd rs) (fun q => weights_at ws q * D q) - hexVolume (fun a b e i => X [a; b; e; i]))%R
    with ((BoxSum (map snd rs) (fun q => weights_at ws q * D q) - quadrature rs ws xs (sparse ts)) + (quadrature rs ws xs (sparse ts) - hexVolume (fun a b e i => X [a; b; e; i])))%R by ring.
  eapply Rle_trans; [apply Rabs_triang|]. lra.
Qed.
