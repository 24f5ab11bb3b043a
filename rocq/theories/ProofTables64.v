(** The tables as stored in doubles against the exact Gauss rules. *)
From Coq Require Import ZArith QArith Qreals Reals Bool List Lia Lra.
From Flocq Require Import Core IEEE754.BinarySingleNaN.
From Verif Require Import Base ProofBase Num ModelB64 ModelF32 SpecB64 SpecF32 ModelSpacing ModelQuadrature
  SpecNumeric SpecTables ProofSpacing ProofQuadrature ProofTables.
From Verif Require ProofNodes64.
Local Open Scope Z_scope.

(** The literal [a] and z / 2^60 differ by at most 2^-e. *)
Definition stored_b (e : Z) (o : option Z) (a : Q) : bool :=
  match o with
  | Some z => Z.abs (z * Zpos (Qden a) - Qnum a * 2 ^ 60) * 2 ^ e <=? 2 ^ 60 * Zpos (Qden a)
  | None => false
  end.
Lemma stored_b_spec e z a : 0 <= e -> stored_b e (Some z) a = true ->
  (Rabs (IZR z * bpow radix2 (-60) - Q2R a) <= bpow radix2 (- e))%R.
Proof.
  intros He H. unfold stored_b in H. apply Z.leb_le in H. apply IZR_le in H.
  rewrite !mult_IZR, abs_IZR, minus_IZR, !mult_IZR in H.
  change (2 ^ e) with (Zpower radix2 e) in H. rewrite IZR_Zpower in H by exact He.
  change (IZR (2 ^ 60)) with (bpow radix2 60) in H.
  assert (Hd : (0 < IZR (Zpos (Qden a)))%R) by (apply IZR_lt; reflexivity).
  unfold Q2R. set (d := IZR (Zpos (Qden a))) in *. set (n := IZR (Qnum a)) in *.
  pose proof (bpow_gt_0 radix2 60) as P. pose proof (bpow_gt_0 radix2 e) as Pe.
  rewrite !bpow_opp. change (bpow radix2 (-60)) with (/ bpow radix2 60)%R.
  set (u := bpow radix2 60) in *. set (t := bpow radix2 e) in *. clearbody u t d n.
  assert (E : (IZR z * / u - n * / d = (IZR z * d - n * u) / (u * d))%R) by (field; lra).
  rewrite E. apply abs_div_le; [apply Rmult_lt_0_compat; lra|].
  apply Rmult_le_reg_r with t; [exact Pe|]. replace (/ t * (u * d) * t)%R with (u * d)%R by (field; lra). exact H.
Qed.

Definition sizes : list (rule * Z) :=
  [(QuadratureGaussLegendre, 2); (QuadratureGaussLegendre, 3); (QuadratureGaussLegendre, 4);
   (QuadratureGaussLobatto, 2); (QuadratureGaussLobatto, 3); (QuadratureGaussLobatto, 4); (QuadratureGaussLobatto, 5);
   (QuadratureGaussLobatto, 6); (QuadratureGaussLobatto, 7); (QuadratureGaussLobatto, 8); (QuadratureGaussLobatto, 9)].
Lemma sizes_all q N : Tabulated q N -> In (q, N) sizes.
Proof.
  unfold Tabulated. destruct q; intros H.
  - assert (N = 2 \/ N = 3 \/ N = 4) as [->|[->| ->]] by lia; cbn; tauto.
  - assert (N = 2 \/ N = 3 \/ N = 4 \/ N = 5 \/ N = 6 \/ N = 7 \/ N = 8 \/ N = 9) as [->|[->|[->|[->|[->|[->|[->| ->]]]]]]] by lia; cbn; tauto.
Qed.
Definition all_sizes (p : rule -> Z -> Z -> bool) : bool :=
  forallb (fun qN => forallb (p (fst qN) (snd qN)) (zseq (Z.to_nat (snd qN)))) sizes.
Lemma all_sizes_spec p q N i : all_sizes p = true -> Tabulated q N -> 0 <= i < N -> p q N i = true.
Proof.
  intros H HT Hi. unfold all_sizes in H. rewrite forallb_forall in H. specialize (H (q, N) (sizes_all q N HT)).
  rewrite forallb_forall in H. apply H. apply in_zseq. cbn [snd]. lia.
Qed.

Lemma stored64 : all_sizes (fun q N i =>
  stored_b 54 (ProofNodes64.fix60 (coord_ct B64Num (rule_spacing q) N i)) (qnode q N i) &&
  stored_b 53 (ProofNodes64.fix60 (weight_ct B64Num q N i)) (qweight q N i)) = true.
Proof. vm_cast_no_check (eq_refl true). Qed.

Lemma two_errors a b c e f : (Rabs (a - b) <= f -> Rabs (b - c) <= e -> Rabs (a - c) <= e + f)%R.
Proof.
  intros H1 H2. replace (a - c)%R with ((a - b) + (b - c))%R by ring.
  eapply Rle_trans; [apply Rabs_triang|]. lra.
Qed.

Lemma tables64_lemma q N r : Tabulated q N -> ExactPoints q N r ->
  exists x w, Points64 (coord_ct B64Num (rule_spacing q) N) N x /\ Points64 (weight_ct B64Num q N) N w /\
    forall i, 0 <= i < N -> is_finite (x i) = true /\ is_finite (w i) = true /\
      (Rabs (B2R (x i) - r i) <= PointError N + bpow radix2 (-54))%R /\
      (Rabs (B2R (w i) - ExactWeight q N (r i)) <= WeightError N + bpow radix2 (-53))%R.
Proof.
  intros HT Hr.
  assert (K : forall i, 0 <= i < N -> exists x w, coord_ct B64Num (rule_spacing q) N i = Ok x /\ weight_ct B64Num q N i = Ok w /\
    is_finite x = true /\ is_finite w = true /\
    (Rabs (B2R x - r i) <= PointError N + bpow radix2 (-54))%R /\
    (Rabs (B2R w - ExactWeight q N (r i)) <= WeightError N + bpow radix2 (-53))%R).
  { intros i Hi. pose proof (all_sizes_spec _ q N i stored64 HT Hi) as B. cbv beta in B. apply andb_prop in B as (Bx & Bw).
    destruct (ProofNodes64.fix60 (coord_ct B64Num (rule_spacing q) N i)) as [zx|] eqn:Ex; [|discriminate].
    destruct (ProofNodes64.fix60 (weight_ct B64Num q N i)) as [zw|] eqn:Ew; [|discriminate].
    destruct (ProofNodes64.fix60_ok _ _ Ex) as (x & -> & Fx & Rx). destruct (ProofNodes64.fix60_ok _ _ Ew) as (w & -> & Fw & Rw).
    exists x, w. split; [reflexivity|]. split; [reflexivity|]. split; [exact Fx|]. split; [exact Fw|]. split.
    - rewrite Rx. exact (two_errors _ _ _ _ _ (stored_b_spec 54 _ _ ltac:(lia) Bx) (point_near q N r i HT Hr Hi)).
    - rewrite Rw. exact (two_errors _ _ _ _ _ (stored_b_spec 53 _ _ ltac:(lia) Bw) (weight_near q N r i HT Hr Hi)). }
  assert (K1 : forall i, 0 <= i < N -> exists p : b64 * b64, coord_ct B64Num (rule_spacing q) N i = Ok (fst p) /\
    weight_ct B64Num q N i = Ok (snd p) /\ is_finite (fst p) = true /\ is_finite (snd p) = true /\
    (Rabs (B2R (fst p) - r i) <= PointError N + bpow radix2 (-54))%R /\
    (Rabs (B2R (snd p) - ExactWeight q N (r i)) <= WeightError N + bpow radix2 (-53))%R).
  { intros i Hi. destruct (K i Hi) as (x & w & H). exists (x, w). exact H. }
  destruct (choice_range _ (b64_ofZ 0, b64_ofZ 0) 0 N K1) as (p & Hp).
  exists (fun i => fst (p i)), (fun i => snd (p i)).
  split; [intros i Hi; apply Hp; exact Hi|]. split; [intros i Hi; apply Hp; exact Hi|].
  intros i Hi. destruct (Hp i Hi) as (_ & _ & H). exact H.
Qed.
