(** The quadrature rules as stored in binary32. *)
From Coq Require Import ZArith Reals Bool List Lia Lra SpecFloat.
From Flocq Require Import Core IEEE754.BinarySingleNaN.
From Verif Require Import Base ProofBase Num ModelB64 ModelF32 SpecF32 ModelSpacing ModelQuadrature
  SpecNumeric ProofSpacing ProofQuadrature ProofF32 ProofSpacing32 ModelLagrange ProofNodes32.
Require Verif.ProofNodes64.
Local Open Scope Z_scope.

Definition zof (o : option Z) : Z := match o with Some z => z | None => 0 end.
Definition some_b (o : option Z) : bool := match o with Some _ => true | None => false end.

(** Positive weights, and moments to 23 bits. *)
Definition rule32_check (q : rule) (N : Z) : bool :=
  let W := map (fun i => fix60 (weight_ct32 q N i)) (zseq (Z.to_nat N)) in
  let X := map (fun i => fix60 (coord_ct32 (rule_spacing q) N i)) (zseq (Z.to_nat N)) in
  forallb some_b W && forallb some_b X &&
  forallb (fun o => (0 <? zof o) && (zof o <? 2 ^ 61)) W &&
  mom_check (Z.to_nat (rule_degree q N + 1)) 0 (map zof X) (map zof W)
    (2 ^ 60) (2 ^ 60) (2 ^ 23).

Lemma rule32_legendre : forallb (rule32_check QuadratureGaussLegendre) [2; 3; 4] = true.
Proof. vm_cast_no_check (eq_refl true). Qed.
Lemma rule32_lobatto : forallb (rule32_check QuadratureGaussLobatto) [2; 3; 4; 5; 6; 7; 8; 9] = true.
Proof. vm_cast_no_check (eq_refl true). Qed.

Lemma rule32_check_true q N : 2 <= N <= rule_max q -> rule32_check q N = true.
Proof.
  intros H. destruct q; cbn in H.
  - apply (proj1 (forallb_forall _ _) rule32_legendre). cbn. lia.
  - apply (proj1 (forallb_forall _ _) rule32_lobatto). cbn. lia.
Qed.

Definition w32 (q : rule) (N i : Z) : b32 := unOk (weight_ct32 q N i).
Definition n32 (q : rule) (N i : Z) : b32 := unOk (coord_ct32 (rule_spacing q) N i).

Lemma some_fix60 o : some_b (fix60 o) = true ->
  o = Ok (unOk o) /\ is_finite (unOk o) = true /\ B2R (unOk o) = (IZR (zof (fix60 o)) * pow2 (-60))%R.
Proof.
  intros H. destruct (fix60 o) as [z|] eqn:E; [|discriminate].
  destruct (fix60_ok o z E) as (x & -> & F & R). cbn [unOk zof]. repeat split; assumption.
Qed.

Lemma rule32_facts q N : 2 <= N <= rule_max q ->
  Points32 (weight_ct32 q N) N (w32 q N) /\
  Points32 (coord_ct32 (rule_spacing q) N) N (n32 q N) /\
  (forall i, 0 <= i < N -> is_finite (w32 q N i) = true /\ is_finite (n32 q N i) = true /\ (0 < B2R (w32 q N i) < 2)%R) /\
  (forall k, (k <= Z.to_nat (rule_degree q N))%nat ->
     (Rabs (Zsum N (fun i => B2R (w32 q N i) * B2R (n32 q N i) ^ k) - exact_moment k)
        <= pow2 (- 23))%R).
Proof.
  intros HN. assert (H := rule32_check_true q N HN). unfold rule32_check in H. cbv zeta in H.
  apply andb_prop in H. destruct H as [H M]. apply andb_prop in H. destruct H as [H P].
  apply andb_prop in H. destruct H as [SW SX].
  assert (I : forall {A} (g : Z -> A) i, 0 <= i < N -> In (g i) (map g (zseq (Z.to_nat N)))).
  { intros A g i Hi. apply in_map, in_zseq. lia. }
  assert (GW : forall i, 0 <= i < N -> some_b (fix60 (weight_ct32 q N i)) = true).
  { intros i Hi. apply (proj1 (forallb_forall _ _) SW). now apply (I _ (fun i => fix60 (weight_ct32 q N i))). }
  assert (GX : forall i, 0 <= i < N -> some_b (fix60 (coord_ct32 (rule_spacing q) N i)) = true).
  { intros i Hi. apply (proj1 (forallb_forall _ _) SX).
    now apply (I _ (fun i => fix60 (coord_ct32 (rule_spacing q) N i))). }
  assert (P60 : (pow2 (-60) * IZR (2 ^ 60) = 1)%R) by (cbn -[Rmult Rinv]; lra).
  split; [|split; [|split]].
  - intros i Hi. now apply some_fix60, GW.
  - intros i Hi. now apply some_fix60, GX.
  - intros i Hi. destruct (some_fix60 _ (GW i Hi)) as (_ & FW & RW).
    destruct (some_fix60 _ (GX i Hi)) as (_ & FX & _).
    split; [exact FW|]. split; [exact FX|].
    assert (Pi := proj1 (forallb_forall _ _) P _ (I _ (fun i => fix60 (weight_ct32 q N i)) i Hi)).
    cbv beta in Pi. apply andb_prop in Pi. destruct Pi as [P1 P2]. apply Z.ltb_lt in P1, P2.
    unfold w32. rewrite RW. apply IZR_lt in P1, P2.
    change (pow2 (-60)) with (/ 1152921504606846976)%R. cbn in P2. lra.
  - intros k Hk. rewrite !map_map in M.
    destruct (mom_check_spec N (fun i => B2R (w32 q N i)) (fun i => B2R (n32 q N i))
                (fun i => zof (fix60 (coord_ct32 (rule_spacing q) N i))) (2 ^ 60)
                (2 ^ 23)) with (n := Z.to_nat (rule_degree q N + 1)) (k := O)
                (W := fun i => zof (fix60 (weight_ct32 q N i))) (Den := 2 ^ 60) as [A _].
    + reflexivity.
    + reflexivity.
    + intros i Hi. destruct (some_fix60 _ (GX i Hi)) as (_ & _ & R). unfold n32. rewrite R.
      rewrite Rmult_assoc, P60. ring.
    + reflexivity.
    + intros i Hi. destruct (some_fix60 _ (GW i Hi)) as (_ & _ & R). unfold w32. rewrite R.
      cbn [pow]. rewrite Rmult_1_r, Rmult_assoc, P60. ring.
    + exact M.
    + eapply Rle_trans; [apply (A k); destruct q; cbn [rule_max rule_degree] in *; lia|].
      apply Req_le. rewrite (bpow_opp radix2 23 : pow2 (-23) = (/ pow2 23)%R). reflexivity.
Qed.

Lemma quad_pmom_gen N (w x : Z -> R) p : forall m,
  Zsum N (fun i => w i * (x i ^ m * peval p (x i)))%R = pmom (fun k => Zsum N (fun i => w i * x i ^ k)%R) m p.
Proof.
  induction p as [|c p IH]; intros m; simpl.
  - rewrite (Zsum_ext _ _ (fun _ => 0%R)); [apply Zsum_zero|]. intros; ring.
  - rewrite <- IH. rewrite <- Zsum_scal, <- Zsum_add. apply Zsum_ext. intros i _. simpl. ring.
Qed.

Lemma quad32_lemma q N :
  2 <= N <= (match q with QuadratureGaussLegendre => 4 | QuadratureGaussLobatto => 9 end) ->
  exists w x, Points32 (weight_ct32 q N) N w /\ Points32 (coord_ct32 (rule_spacing q) N) N x /\
    (forall i, 0 <= i < N -> is_finite (w i) = true /\ is_finite (x i) = true /\ (0 < B2R (w i) < 2)%R) /\
    (Rabs (Zsum N (fun i => B2R (w i)) - 2) <= pow2 (- 23))%R /\
    forall p P,
      Z.of_nat (length p) <= (match q with QuadratureGaussLegendre => 2 * N | QuadratureGaussLobatto => 2 * N - 2 end) ->
      (forall t, derivable_pt_lim P t (peval p t)) ->
      (Rabs (Zsum N (fun i => B2R (w i) * peval p (B2R (x i))) - (P 1 - P (-1)))
         <= pow2 (- 23) * norm1 p)%R.
Proof.
  intros HN. destruct (rule32_facts q N HN) as (PW & PX & B & M).
  exists (w32 q N), (n32 q N). split; [exact PW|]. split; [exact PX|]. split; [exact B|]. split.
  - assert (M0 := M O ltac:(lia)).
    replace (Zsum N (fun i => B2R (w32 q N i))) with (Zsum N (fun i => B2R (w32 q N i) * B2R (n32 q N i) ^ 0)%R).
    + replace 2%R with (exact_moment 0); [exact M0|]. unfold exact_moment. cbn. field.
    + apply Zsum_ext. intros i _. cbn [pow]. ring.
  - intros p P Hl HP. rewrite (integral_pmom p P HP).
    rewrite (Zsum_ext N _ (fun i => B2R (w32 q N i) * (B2R (n32 q N i) ^ 0 * peval p (B2R (n32 q N i))))%R)
      by (intros; cbn [pow]; ring).
    rewrite quad_pmom_gen. apply pmom_bound. intros k Hk. apply M.
    destruct q; cbn [rule_degree]; lia.
Qed.

(** Run-time against compile-time accessors, bit for bit. *)
Definition sf_eqb (a b : spec_float) : bool :=
  match a, b with
  | S754_zero s, S754_zero t => Bool.eqb s t
  | S754_infinity s, S754_infinity t => Bool.eqb s t
  | S754_nan, S754_nan => true
  | S754_finite s m e, S754_finite t n f => Bool.eqb s t && (m =? n)%positive && (e =? f)
  | _, _ => false
  end.
Lemma sf_eqb_eq a b : sf_eqb a b = true -> a = b.
Proof.
  destruct a, b; cbn; try discriminate; intros H; try reflexivity;
    try (apply eqb_prop in H; now subst).
  apply andb_prop in H. destruct H as [H E]. apply andb_prop in H. destruct H as [S M].
  apply eqb_prop in S. apply Pos.eqb_eq in M. apply Z.eqb_eq in E. now subst.
Qed.
Definition same32_b (a b : outcome b32) : bool :=
  match a, b with Ok x, Ok y => sf_eqb (B2SF x) (B2SF y) | _, _ => false end.
Lemma same32_ok a b : same32_b a b = true -> same32 a b.
Proof.
  destruct a as [x| | | |], b as [y| | | |]; try discriminate. intros H. exists x, y.
  split; [reflexivity|]. split; [reflexivity|]. now apply sf_eqb_eq.
Qed.

Lemma accessors32_tables :
  forallb (fun sN : spacing * Z => let (s, N) := sN in
    forallb (fun i => same32_b (coord_rt32 s N i) (coord_ct32 s N i)) (zseq (Z.to_nat N)))
    [(GaussLegendreSpacing, 2); (GaussLegendreSpacing, 3); (GaussLegendreSpacing, 4);
     (GaussLobattoSpacing, 2); (GaussLobattoSpacing, 3); (GaussLobattoSpacing, 4); (GaussLobattoSpacing, 5)] = true.
Proof. vm_cast_no_check (eq_refl true). Qed.
Lemma weights32_tables :
  forallb (fun sN : rule * Z => let (s, N) := sN in
    forallb (fun i => same32_b (weight_rt32 s N i) (weight_ct32 s N i)) (zseq (Z.to_nat N)))
    [(QuadratureGaussLegendre, 2); (QuadratureGaussLegendre, 3); (QuadratureGaussLegendre, 4);
     (QuadratureGaussLobatto, 2); (QuadratureGaussLobatto, 3); (QuadratureGaussLobatto, 4); (QuadratureGaussLobatto, 5)] = true.
Proof. vm_cast_no_check (eq_refl true). Qed.

Lemma accessors32_lemma s N i : 0 <= i < N ->
  match s with
  | EqualSpacing => 2 <= N <= INT_MAX
  | GaussLegendreSpacing => 2 <= N <= 4
  | GaussLobattoSpacing => 2 <= N <= 5
  end ->
  same32 (coord_rt32 s N i) (coord_ct32 s N i).
Proof.
  intros Hi H. destruct s.
  - destruct (equal_accessors32 N i H Hi) as (x & -> & ->). exists x, x. repeat split.
  - apply same32_ok. refine (proj1 (forallb_forall _ _) (proj1 (forallb_forall _ _) accessors32_tables (GaussLegendreSpacing, N) _) i _).
    + assert (N = 2 \/ N = 3 \/ N = 4) as [->|[->| ->]] by lia; cbn; tauto.
    + apply in_zseq. lia.
  - apply same32_ok. refine (proj1 (forallb_forall _ _) (proj1 (forallb_forall _ _) accessors32_tables (GaussLobattoSpacing, N) _) i _).
    + assert (N = 2 \/ N = 3 \/ N = 4 \/ N = 5) as [->|[->|[->| ->]]] by lia; cbn; tauto.
    + apply in_zseq. lia.
Qed.

Lemma weights_accessors32_lemma q N i : 0 <= i < N ->
  match q with
  | QuadratureGaussLegendre => 2 <= N <= 4
  | QuadratureGaussLobatto => 2 <= N <= 5
  end ->
  same32 (weight_rt32 q N i) (weight_ct32 q N i).
Proof.
  intros Hi H. apply same32_ok.
  refine (proj1 (forallb_forall _ _) (proj1 (forallb_forall _ _) weights32_tables (q, N) _) i _).
  - destruct q.
    + assert (N = 2 \/ N = 3 \/ N = 4) as [->|[->| ->]] by lia; cbn; tauto.
    + assert (N = 2 \/ N = 3 \/ N = 4 \/ N = 5) as [->|[->|[->| ->]]] by lia; cbn; tauto.
  - apply in_zseq. lia.
Qed.

(** Floats against doubles. *)
Definition near_b (e : Z) (a : outcome b32) (b : outcome b64) : bool :=
  match fix60 a, ProofNodes64.fix60 b with
  | Some za, Some zb => Z.abs (za - zb) * 2 ^ e <=? 2 ^ 60
  | _, _ => false
  end.
Lemma near_ok e a b : 0 <= e -> near_b e a b = true ->
  exists x y, a = Ok x /\ b = Ok y /\ is_finite x = true /\ is_finite y = true /\ (Rabs (B2R x - B2R y) <= pow2 (- e))%R.
Proof.
  intros He H. unfold near_b in H. destruct (fix60 a) as [za|] eqn:Ea; [|discriminate].
  destruct (ProofNodes64.fix60 b) as [zb|] eqn:Eb; [|discriminate]. apply Z.leb_le in H.
  destruct (fix60_ok _ _ Ea) as (x & -> & Fx & Rx). destruct (ProofNodes64.fix60_ok _ _ Eb) as (y & -> & Fy & Ry).
  exists x, y. split; [reflexivity|]. split; [reflexivity|]. split; [exact Fx|]. split; [exact Fy|].
  rewrite Rx, Ry, <- Rmult_minus_distr_r, <- minus_IZR, Rabs_mult, <- abs_IZR.
  rewrite (Rabs_pos_eq (pow2 (-60))) by apply bpow_ge_0.
  apply IZR_le in H. rewrite mult_IZR in H.
  change (2 ^ e) with (Zpower radix2 e) in H. rewrite IZR_Zpower in H by exact He.
  change (IZR (2 ^ 60)) with (pow2 60) in H.
  pose proof (bpow_gt_0 radix2 (-60)) as P. pose proof (bpow_gt_0 radix2 (- e)) as Pe.
  assert (I : (pow2 e * pow2 (- e) = 1)%R) by (rewrite <- bpow_plus; replace (e + - e) with 0 by lia; reflexivity).
  assert (I60 : (pow2 60 * pow2 (-60) = 1)%R) by (rewrite <- bpow_plus; reflexivity).
  replace (IZR (Z.abs (za - zb)) * pow2 (-60))%R
    with (IZR (Z.abs (za - zb)) * pow2 e * pow2 (-60) * pow2 (- e))%R
    by (transitivity (IZR (Z.abs (za - zb)) * pow2 (-60) * (pow2 e * pow2 (- e)))%R; [ring|rewrite I; ring]).
  rewrite <- (Rmult_1_l (pow2 (- e))) at 2. apply Rmult_le_compat_r; [lra|]. rewrite <- I60.
  apply Rmult_le_compat_r; lra.
Qed.
Lemma coord32_near_table :
  forallb (fun sN : spacing * Z => let (s, N) := sN in
    forallb (fun i => near_b 25 (coord_ct32 s N i) (coord_ct B64Num s N i)) (zseq (Z.to_nat N)))
    [(GaussLegendreSpacing, 2); (GaussLegendreSpacing, 3); (GaussLegendreSpacing, 4);
     (GaussLobattoSpacing, 2); (GaussLobattoSpacing, 3); (GaussLobattoSpacing, 4); (GaussLobattoSpacing, 5);
     (GaussLobattoSpacing, 6); (GaussLobattoSpacing, 7); (GaussLobattoSpacing, 8); (GaussLobattoSpacing, 9)] = true.
Proof. vm_cast_no_check (eq_refl true). Qed.
Lemma weight32_near_table :
  forallb (fun sN : rule * Z => let (s, N) := sN in
    forallb (fun i => near_b 24 (weight_ct32 s N i) (weight_ct B64Num s N i)) (zseq (Z.to_nat N)))
    [(QuadratureGaussLegendre, 2); (QuadratureGaussLegendre, 3); (QuadratureGaussLegendre, 4);
     (QuadratureGaussLobatto, 2); (QuadratureGaussLobatto, 3); (QuadratureGaussLobatto, 4); (QuadratureGaussLobatto, 5);
     (QuadratureGaussLobatto, 6); (QuadratureGaussLobatto, 7); (QuadratureGaussLobatto, 8); (QuadratureGaussLobatto, 9)] = true.
Proof. vm_cast_no_check (eq_refl true). Qed.
Lemma tables32_lemma q N i :
  2 <= N <= (match q with QuadratureGaussLegendre => 4 | QuadratureGaussLobatto => 9 end) -> 0 <= i < N ->
  exists w w' x x', weight_ct32 q N i = Ok w /\ weight_ct B64Num q N i = Ok w' /\
    coord_ct32 (rule_spacing q) N i = Ok x /\ coord_ct B64Num (rule_spacing q) N i = Ok x' /\
    is_finite w = true /\ is_finite x = true /\ is_finite w' = true /\ is_finite x' = true /\
    (Rabs (B2R w - B2R w') <= pow2 (-24))%R /\ (Rabs (B2R x - B2R x') <= pow2 (-25))%R.
Proof.
  intros HN Hi.
  destruct (near_ok 24 (weight_ct32 q N i) (weight_ct B64Num q N i)) as (w & w' & Ew & Ew' & Fw & Fw' & Dw); [lia| |].
  { refine (proj1 (forallb_forall _ _) (proj1 (forallb_forall _ _) weight32_near_table (q, N) _) i _); [|apply in_zseq; lia].
    destruct q.
    - assert (N = 2 \/ N = 3 \/ N = 4) as [->|[->| ->]] by lia; cbn; tauto.
    - assert (N = 2 \/ N = 3 \/ N = 4 \/ N = 5 \/ N = 6 \/ N = 7 \/ N = 8 \/ N = 9) as [->|[->|[->|[->|[->|[->|[->| ->]]]]]]] by lia; cbn; tauto. }
  destruct (near_ok 25 (coord_ct32 (rule_spacing q) N i) (coord_ct B64Num (rule_spacing q) N i)) as (x & x' & Ex & Ex' & Fx & Fx' & Dx); [lia| |].
  { refine (proj1 (forallb_forall _ _) (proj1 (forallb_forall _ _) coord32_near_table (rule_spacing q, N) _) i _); [|apply in_zseq; lia].
    destruct q.
    - assert (N = 2 \/ N = 3 \/ N = 4) as [->|[->| ->]] by lia; cbn; tauto.
    - assert (N = 2 \/ N = 3 \/ N = 4 \/ N = 5 \/ N = 6 \/ N = 7 \/ N = 8 \/ N = 9) as [->|[->|[->|[->|[->|[->|[->| ->]]]]]]] by lia; cbn; tauto. }
  exists w, w', x, x'. repeat (split; [assumption|]). assumption.
Qed.

(** Counterexamples. *)
Lemma equal32_last_42 : exists x, coord_ct32 EqualSpacing 42 41 = Ok x /\ B2R x = (1 - pow2 (-23))%R.
Proof.
  destruct (fix60_ok (coord_ct32 EqualSpacing 42 41) (2 ^ 60 - 2 ^ 37)) as (x & E & _ & R).
  - vm_compute. reflexivity.
  - exists x. split; [exact E|]. rewrite R, minus_IZR.
    change (pow2 (-60)) with (/ 1152921504606846976)%R. change (pow2 (-23)) with (/ 8388608)%R.
    cbn -[Rmult Rinv Rminus]. lra.
Qed.
Lemma equal32_coincide : exists N i j x, 2 <= N <= INT_MAX /\ 0 <= i < j /\ j < N /\
  coord_ct32 EqualSpacing N i = Ok x /\ coord_ct32 EqualSpacing N j = Ok x.
Proof.
  destruct (same32_ok (coord_ct32 EqualSpacing (2 ^ 24 + 2) (2 ^ 24)) (coord_ct32 EqualSpacing (2 ^ 24 + 2) (2 ^ 24 + 1)))
    as (x & y & Ex & Ey & S); [vm_compute; reflexivity|].
  apply B2SF_inj in S. subst y.
  exists (2 ^ 24 + 2), (2 ^ 24), (2 ^ 24 + 1), x.
  split; [unfold INT_MAX; lia|]. split; [lia|]. split; [lia|]. split; [exact Ex|exact Ey].
Qed.
Lemma fix60_bind32 (o : outcome b32) f z : fix60 (x <- o ;; f x) = Some z ->
  exists x v, o = Ok x /\ f x = Ok v /\ B2R v = (IZR z * pow2 (-60))%R.
Proof.
  intros H. destruct o as [x| | | | ]; try discriminate. cbn [bind] in H.
  destruct (fix60_ok _ _ H) as (v & E & _ & R). exists x, v. auto.
Qed.
Lemma own_value32_refuted : exists x v, coord_ct32 GaussLobattoSpacing 5 1 = Ok x /\
  bvalue (LagrangeBasis32 4 GaussLobattoSpacing) 1 x = Ok v /\ B2R v = (1 - 3 * pow2 (-24))%R.
Proof.
  destruct (fix60_bind32 (coord_ct32 GaussLobattoSpacing 5 1) (bvalue (LagrangeBasis32 4 GaussLobattoSpacing) 1)
              (2 ^ 60 - 3 * 2 ^ 36)) as (x & v & Ex & Ev & R).
  - vm_compute. reflexivity.
  - exists x, v. split; [exact Ex|]. split; [exact Ev|]. rewrite R.
    change (pow2 (-60)) with (/ 1152921504606846976)%R. change (pow2 (-24)) with (/ 16777216)%R.
    change (2 ^ 60 - 3 * 2 ^ 36) with 1152921298448416768. lra.
Qed.
Lemma equal32_witness : exists x, coord_ct32 EqualSpacing 5 4 = Ok x /\ IsFloat x 1.
Proof.
  destruct (fix60_ok (coord_ct32 EqualSpacing 5 4) (2 ^ 60)) as (x & E & F & R).
  - vm_compute. reflexivity.
  - exists x. split; [exact E|]. split; [exact F|]. rewrite R.
    change (pow2 (-60)) with (/ 1152921504606846976)%R. cbn -[Rmult Rinv]. lra.
Qed.
Lemma half_reference32 : InReference32 (narrow (b64_lit 5 1)) /\ B2R (narrow (b64_lit 5 1)) = (/ 2)%R.
Proof.
  destruct (fix60_ok (Ok (narrow (b64_lit 5 1))) (2 ^ 59)) as (x & E & F & R).
  - vm_compute. reflexivity.
  - assert (Ok_inj : forall a b : b32, Ok a = Ok b -> a = b) by (intros ? ? J; injection J; auto).
    rewrite (Ok_inj _ _ E).
    assert (V : B2R x = (/ 2)%R).
    { rewrite R. change (pow2 (-60)) with (/ 1152921504606846976)%R. cbn -[Rmult Rinv]. lra. }
    split; [|exact V]. split; [exact F|]. rewrite V. rewrite Rabs_pos_eq; lra.
Qed.
