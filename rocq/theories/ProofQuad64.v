(** The quadrature rules as stored in binary64. *)
From Coq Require Import ZArith Reals Bool List Lia Lra SpecFloat.
From Flocq Require Import Core IEEE754.BinarySingleNaN.
From Verif Require Import Base ProofBase Num ModelB64 SpecB64 ModelSpacing ModelQuadrature
  SpecNumeric ProofSpacing ProofQuadrature ProofB64 ProofSpacing64 ProofNodes64.
Local Open Scope Z_scope.

Definition zof (o : option Z) : Z := match o with Some z => z | None => 0 end.
Definition some_b (o : option Z) : bool := match o with Some _ => true | None => false end.

(** Positive weights, and moments to 53 (45) bits. *)
Definition rule64_check (q : rule) (N : Z) : bool :=
  let W := map (fun i => fix60 (weight_ct B64Num q N i)) (zseq (Z.to_nat N)) in
  let X := map (fun i => fix60 (coord_ct B64Num (rule_spacing q) N i)) (zseq (Z.to_nat N)) in
  forallb some_b W && forallb some_b X &&
  forallb (fun o => (0 <? zof o) && (zof o <? 2 ^ 61)) W &&
  mom_check (Z.to_nat (rule_degree q N + 1)) 0 (map zof X) (map zof W)
    (2 ^ 60) (2 ^ 60) (2 ^ (if N <=? 5 then 53 else 45)).

Lemma rule64_legendre : forallb (rule64_check QuadratureGaussLegendre) [2; 3; 4] = true.
Proof. vm_cast_no_check (eq_refl true). Qed.
Lemma rule64_lobatto : forallb (rule64_check QuadratureGaussLobatto) [2; 3; 4; 5; 6; 7; 8; 9] = true.
Proof. vm_cast_no_check (eq_refl true). Qed.

Lemma rule64_check_true q N : 2 <= N <= rule_max q -> rule64_check q N = true.
Proof.
  intros H. destruct q; cbn in H.
  - apply (proj1 (forallb_forall _ _) rule64_legendre). cbn. lia.
  - apply (proj1 (forallb_forall _ _) rule64_lobatto). cbn. lia.
Qed.

Definition w64 (q : rule) (N i : Z) : b64 := unOk (weight_ct B64Num q N i).
Definition n64 (q : rule) (N i : Z) : b64 := unOk (coord_ct B64Num (rule_spacing q) N i).

Lemma some_fix60 o : some_b (fix60 o) = true ->
  o = Ok (unOk o) /\ is_finite (unOk o) = true /\ B2R (unOk o) = (IZR (zof (fix60 o)) * pow2 (-60))%R.
Proof.
  intros H. destruct (fix60 o) as [z|] eqn:E; [|discriminate].
  destruct (fix60_ok o z E) as (x & -> & F & R). cbn [unOk zof]. repeat split; assumption.
Qed.

Lemma rule64_facts q N : 2 <= N <= rule_max q ->
  Points64 (weight_ct B64Num q N) N (w64 q N) /\
  Points64 (coord_ct B64Num (rule_spacing q) N) N (n64 q N) /\
  (forall i, 0 <= i < N -> is_finite (w64 q N i) = true /\ is_finite (n64 q N i) = true /\ (0 < B2R (w64 q N i) < 2)%R) /\
  (forall k, (k <= Z.to_nat (rule_degree q N))%nat ->
     (Rabs (Zsum N (fun i => B2R (w64 q N i) * B2R (n64 q N i) ^ k) - exact_moment k)
        <= pow2 (- (if N <=? 5 then 53 else 45)))%R).
Proof.
  intros HN. assert (H := rule64_check_true q N HN). unfold rule64_check in H. cbv zeta in H.
  apply andb_prop in H. destruct H as [H M]. apply andb_prop in H. destruct H as [H P].
  apply andb_prop in H. destruct H as [SW SX].
  assert (I : forall {A} (g : Z -> A) i, 0 <= i < N -> In (g i) (map g (zseq (Z.to_nat N)))).
  { intros A g i Hi. apply in_map, in_zseq. lia. }
  assert (GW : forall i, 0 <= i < N -> some_b (fix60 (weight_ct B64Num q N i)) = true).
  { intros i Hi. apply (proj1 (forallb_forall _ _) SW). now apply (I _ (fun i => fix60 (weight_ct B64Num q N i))). }
  assert (GX : forall i, 0 <= i < N -> some_b (fix60 (coord_ct B64Num (rule_spacing q) N i)) = true).
  { intros i Hi. apply (proj1 (forallb_forall _ _) SX).
    now apply (I _ (fun i => fix60 (coord_ct B64Num (rule_spacing q) N i))). }
  assert (P60 : (pow2 (-60) * IZR (2 ^ 60) = 1)%R) by (cbn -[Rmult Rinv]; lra).
  split; [|split; [|split]].
  - intros i Hi. now apply some_fix60, GW.
  - intros i Hi. now apply some_fix60, GX.
  - intros i Hi. destruct (some_fix60 _ (GW i Hi)) as (_ & FW & RW).
    destruct (some_fix60 _ (GX i Hi)) as (_ & FX & _).
    split; [exact FW|]. split; [exact FX|].
    assert (Pi := proj1 (forallb_forall _ _) P _ (I _ (fun i => fix60 (weight_ct B64Num q N i)) i Hi)).
    cbv beta in Pi. apply andb_prop in Pi. destruct Pi as [P1 P2]. apply Z.ltb_lt in P1, P2.
    unfold w64. rewrite RW. apply IZR_lt in P1, P2.
    change (pow2 (-60)) with (/ 1152921504606846976)%R. cbn in P2. lra.
  - intros k Hk. rewrite !map_map in M.
    destruct (mom_check_spec N (fun i => B2R (w64 q N i)) (fun i => B2R (n64 q N i))
                (fun i => zof (fix60 (coord_ct B64Num (rule_spacing q) N i))) (2 ^ 60)
                (2 ^ (if N <=? 5 then 53 else 45))) with (n := Z.to_nat (rule_degree q N + 1)) (k := O)
                (W := fun i => zof (fix60 (weight_ct B64Num q N i))) (Den := 2 ^ 60) as [A _].
    + reflexivity.
    + destruct (N <=? 5); reflexivity.
    + intros i Hi. destruct (some_fix60 _ (GX i Hi)) as (_ & _ & R). unfold n64. rewrite R.
      rewrite Rmult_assoc, P60. ring.
    + reflexivity.
    + intros i Hi. destruct (some_fix60 _ (GW i Hi)) as (_ & _ & R). unfold w64. rewrite R.
      cbn [pow]. rewrite Rmult_1_r, Rmult_assoc, P60. ring.
    + exact M.
    + eapply Rle_trans; [apply (A k); destruct q; cbn [rule_max rule_degree] in *; lia|].
      apply Req_le. rewrite bpow_opp. f_equal. destruct (N <=? 5); reflexivity.
Qed.

Lemma quad_pmom_gen N (w x : Z -> R) p : forall m,
  Zsum N (fun i => w i * (x i ^ m * peval p (x i)))%R = pmom (fun k => Zsum N (fun i => w i * x i ^ k)%R) m p.
Proof.
  induction p as [|c p IH]; intros m; simpl.
  - rewrite (Zsum_ext _ _ (fun _ => 0%R)); [apply Zsum_zero|]. intros; ring.
  - rewrite <- IH. rewrite <- Zsum_scal, <- Zsum_add. apply Zsum_ext. intros i _. simpl. ring.
Qed.

Lemma quad64_lemma q N :
  2 <= N <= (match q with QuadratureGaussLegendre => 4 | QuadratureGaussLobatto => 9 end) ->
  exists w x, Points64 (weight_ct B64Num q N) N w /\ Points64 (coord_ct B64Num (rule_spacing q) N) N x /\
    (forall i, 0 <= i < N -> is_finite (w i) = true /\ is_finite (x i) = true /\ (0 < B2R (w i) < 2)%R) /\
    (Rabs (Zsum N (fun i => B2R (w i)) - 2) <= pow2 (- (if N <=? 5 then 53 else 45)))%R /\
    forall p P,
      Z.of_nat (length p) <= (match q with QuadratureGaussLegendre => 2 * N | QuadratureGaussLobatto => 2 * N - 2 end) ->
      (forall t, derivable_pt_lim P t (peval p t)) ->
      (Rabs (Zsum N (fun i => B2R (w i) * peval p (B2R (x i))) - (P 1 - P (-1)))
         <= pow2 (- (if N <=? 5 then 53 else 45)) * norm1 p)%R.
Proof.
  intros HN. destruct (rule64_facts q N HN) as (PW & PX & B & M).
  exists (w64 q N), (n64 q N). split; [exact PW|]. split; [exact PX|]. split; [exact B|]. split.
  - assert (M0 := M O ltac:(lia)).
    replace (Zsum N (fun i => B2R (w64 q N i))) with (Zsum N (fun i => B2R (w64 q N i) * B2R (n64 q N i) ^ 0)%R).
    + replace 2%R with (exact_moment 0); [exact M0|]. unfold exact_moment. cbn. field.
    + apply Zsum_ext. intros i _. cbn [pow]. ring.
  - intros p P Hl HP. rewrite (integral_pmom p P HP).
    rewrite (Zsum_ext N _ (fun i => B2R (w64 q N i) * (B2R (n64 q N i) ^ 0 * peval p (B2R (n64 q N i))))%R)
      by (intros; cbn [pow]; ring).
    rewrite quad_pmom_gen. apply pmom_bound. intros k Hk. apply M.
    destruct q; cbn [rule_degree]; lia.
Qed.

(** Run-time against compile-time accessors, bit for bit. *)
Definition sf_eqb (a b : spec_float) : bool :=
  match a, b with
  | S754_zero s, S754_zero t => Bool.eqb s t
  | S754_infinity s, S754_infinity t => Bool.eqb s t
  | S754_nan, S754_nan => true
  | S754_finite s m e, S754_finite t n f => Bool.eqb s t && (m =? n)%positive && (e =? f)
  | _, _ => false
  end.
Lemma sf_eqb_eq a b : sf_eqb a b = true -> a = b.
Proof.
  destruct a, b; cbn; try discriminate; intros H; try reflexivity;
    try (apply eqb_prop in H; now subst).
  apply andb_prop in H. destruct H as [H E]. apply andb_prop in H. destruct H as [S M].
  apply eqb_prop in S. apply Pos.eqb_eq in M. apply Z.eqb_eq in E. now subst.
Qed.
Definition same64_b (a b : outcome b64) : bool :=
  match a, b with Ok x, Ok y => sf_eqb (B2SF x) (B2SF y) | _, _ => false end.
Lemma same64_ok a b : same64_b a b = true -> same64 a b.
Proof.
  destruct a as [x| | | |], b as [y| | | |]; try discriminate. intros H. exists x, y.
  split; [reflexivity|]. split; [reflexivity|]. now apply sf_eqb_eq.
Qed.

Lemma accessors64_tables :
  forallb (fun sN : spacing * Z => let (s, N) := sN in
    forallb (fun i => same64_b (coord_rt B64Num s N i) (coord_ct B64Num s N i)) (zseq (Z.to_nat N)))
    [(GaussLegendreSpacing, 2); (GaussLegendreSpacing, 3); (GaussLegendreSpacing, 4);
     (GaussLobattoSpacing, 2); (GaussLobattoSpacing, 3); (GaussLobattoSpacing, 5)] = true.
Proof. vm_cast_no_check (eq_refl true). Qed.
Lemma weights64_tables :
  forallb (fun sN : rule * Z => let (s, N) := sN in
    forallb (fun i => same64_b (weight_rt B64Num s N i) (weight_ct B64Num s N i)) (zseq (Z.to_nat N)))
    [(QuadratureGaussLegendre, 2); (QuadratureGaussLegendre, 3); (QuadratureGaussLegendre, 4);
     (QuadratureGaussLobatto, 2); (QuadratureGaussLobatto, 3); (QuadratureGaussLobatto, 5)] = true.
Proof. vm_cast_no_check (eq_refl true). Qed.

Lemma accessors64_lemma s N i : 0 <= i < N ->
  match s with
  | EqualSpacing => 2 <= N <= INT_MAX
  | GaussLegendreSpacing => 2 <= N <= 4
  | GaussLobattoSpacing => N = 2 \/ N = 3 \/ N = 5
  end ->
  same64 (coord_rt B64Num s N i) (coord_ct B64Num s N i).
Proof.
  intros Hi H. destruct s.
  - destruct (equal_coord64 N H i) as [-> ->]. eexists _, _. split; [reflexivity|]. split; reflexivity.
  - apply same64_ok. assert (C : In (GaussLegendreSpacing, N) [(GaussLegendreSpacing, 2); (GaussLegendreSpacing, 3); (GaussLegendreSpacing, 4);
     (GaussLobattoSpacing, 2); (GaussLobattoSpacing, 3); (GaussLobattoSpacing, 5)]).
    { assert (N = 2 \/ N = 3 \/ N = 4) as [->|[->| ->]] by lia; cbn; tauto. }
    assert (G := proj1 (forallb_forall _ _) accessors64_tables _ C). cbv beta iota in G.
    apply (proj1 (forallb_forall _ _) G). apply in_zseq. lia.
  - apply same64_ok. assert (C : In (GaussLobattoSpacing, N) [(GaussLegendreSpacing, 2); (GaussLegendreSpacing, 3); (GaussLegendreSpacing, 4);
     (GaussLobattoSpacing, 2); (GaussLobattoSpacing, 3); (GaussLobattoSpacing, 5)]).
    { destruct H as [->|[->| ->]]; cbn; tauto. }
    assert (G := proj1 (forallb_forall _ _) accessors64_tables _ C). cbv beta iota in G.
    apply (proj1 (forallb_forall _ _) G). apply in_zseq. lia.
Qed.

Lemma weights_accessors64_lemma q N i : 0 <= i < N ->
  match q with
  | QuadratureGaussLegendre => 2 <= N <= 4
  | QuadratureGaussLobatto => N = 2 \/ N = 3 \/ N = 5
  end ->
  same64 (weight_rt B64Num q N i) (weight_ct B64Num q N i).
Proof.
  intros Hi H. apply same64_ok.
  assert (C : In (q, N) [(QuadratureGaussLegendre, 2); (QuadratureGaussLegendre, 3); (QuadratureGaussLegendre, 4);
     (QuadratureGaussLobatto, 2); (QuadratureGaussLobatto, 3); (QuadratureGaussLobatto, 5)]).
  { destruct q.
    - assert (N = 2 \/ N = 3 \/ N = 4) as [->|[->| ->]] by lia; cbn; tauto.
    - destruct H as [->|[->| ->]]; cbn; tauto. }
  assert (G := proj1 (forallb_forall _ _) weights64_tables _ C). cbv beta iota in G.
  apply (proj1 (forallb_forall _ _) G). apply in_zseq. lia.
Qed.

(** The 4-point Gauss-Lobatto rule: the interior points and weights differ in the last bit. *)
Lemma lobatto4_check :
  forallb (fun i => negb (same64_b (coord_rt B64Num GaussLobattoSpacing 4 i) (coord_ct B64Num GaussLobattoSpacing 4 i)) &&
                    negb (same64_b (weight_rt B64Num QuadratureGaussLobatto 4 i) (weight_ct B64Num QuadratureGaussLobatto 4 i)))
    [1; 2] = true.
Proof. vm_cast_no_check (eq_refl true). Qed.
Lemma sf_eqb_refl a : sf_eqb a a = true.
Proof. destruct a; cbn; rewrite ?eqb_reflx, ?Pos.eqb_refl, ?Z.eqb_refl; reflexivity. Qed.
Lemma same64_b_complete a b : same64 a b -> same64_b a b = true.
Proof. intros (x & y & -> & -> & E). cbn. rewrite E. apply sf_eqb_refl. Qed.
Lemma lobatto4_lemma i : i = 1 \/ i = 2 ->
  ~ same64 (coord_rt B64Num GaussLobattoSpacing 4 i) (coord_ct B64Num GaussLobattoSpacing 4 i) /\
  ~ same64 (weight_rt B64Num QuadratureGaussLobatto 4 i) (weight_ct B64Num QuadratureGaussLobatto 4 i).
Proof.
  intros Hi. assert (G := proj1 (forallb_forall _ _) lobatto4_check i ltac:(destruct Hi; subst; cbn; tauto)).
  cbv beta in G. apply andb_prop in G. destruct G as [G1 G2].
  apply negb_true_iff in G1, G2.
  split; intros S; apply same64_b_complete in S; congruence.
Qed.

Lemma weight64_witness : exists w, weight_ct B64Num QuadratureGaussLegendre 2 0 = Ok w /\ IsNum w 1%R.
Proof.
  exists (b64_ofZ 1). split; [reflexivity|].
  destruct (b64_ofZ_exact 1 ltac:(lia)) as [F E]. split; assumption.
Qed.
