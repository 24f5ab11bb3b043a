(** Errors of the derivatives of tensor-product interpolation. *)
From Coq Require Import ZArith QArith Reals Bool List Lia Lra Sorted Permutation.
From Verif Require Import Base ProofBase Num SpecIndex ProofBox SpecNumeric SpecBasis SpecApprox SpecStability SpecGradError ModelAssert ModelSpacing ModelQuadrature ModelLagrange
  ModelBasisProduct ProofPoly ProofLagrange ProofSpacing ProofTensor ProofQuadrature ProofRemainder ProofConform ProofApprox ProofEnergy ProofStability.
Import ListNotations.
Open Scope R_scope.

Lemma zeros_between (f g : R -> R) x n : (forall i t, (0 <= i < Z.of_nat n)%Z -> x i <= t <= x (i + 1)%Z -> derivable_pt_lim f t (g t)) ->
  (forall i, (0 <= i < Z.of_nat n)%Z -> x i < x (i + 1)%Z) -> (forall i, (0 <= i <= Z.of_nat n)%Z -> f (x i) = 0) ->
  exists c, forall i, (0 <= i < Z.of_nat n)%Z -> x i < c i < x (i + 1)%Z /\ g (c i) = 0.
Proof.
  induction n as [|n IH]; intros HD HX HZ; [exists x; intros i Hi; lia|].
  destruct IH as (c & Hc); [intros i t Hi; apply HD; lia|intros i Hi; apply HX; lia|intros i Hi; apply HZ; lia|].
  set (k := Z.of_nat n). destruct (rolle_between f g (x k) (x (k + 1)%Z)) as (e & He & Ge); [apply HX; lia|intros t Ht; apply (HD k); [lia|exact Ht]|apply HZ; lia|apply HZ; lia|].
  exists (fun i => if (i =? k)%Z then e else c i). intros i Hi. destruct (Z.eqb_spec i k) as [->|Hik]; [split; assumption|apply Hc; lia].
Qed.
Lemma increasing_points N x : Increasing N x -> forall i j, (0 <= i <= j)%Z -> (j < N)%Z -> x i <= x j.
Proof. intros H i j Hij Hj. destruct (Z.eq_dec i j) as [->|Hn]; [lra|]. left. apply H; lia. Qed.
Lemma nodal_deriv_bound N x v g (F : nat -> R -> R) a b y M : NodalBasis N x v g -> (1 <= N)%Z -> Increasing N x ->
  (forall i, (0 <= i < N)%Z -> a <= x i <= b) -> a <= y <= b ->
  (forall k t, (k < Z.to_nat N)%nat -> a <= t <= b -> derivable_pt_lim (F k) t (F (S k) t)) ->
  (forall t, a <= t <= b -> Rabs (F (Z.to_nat N) t) <= M) ->
  Rabs (F 1%nat y - Zsum N (fun i => F O (x i) * g i y)) <=
    M / INR (fact (Z.to_nat (N - 1))) * Zprod (N - 1) (fun i => Rmax (Rabs (y - x i)) (Rabs (y - x (i + 1)%Z))).
Proof.
  intros HB H1 HI Hx Hy HD HM. set (l := zseq (Z.to_nat N)).
  assert (Hl : forall i, In i l -> (0 <= i < N)%Z) by (intros i Hi; apply in_zseq in Hi; lia).
  destruct (interpolant_poly N x v g (fun i => F O (x i)) HB l Hl) as (p & Lp & Ep).
  assert (E' : Zsum N (fun i => F O (x i) * g i y) = peval (pd p) y).
  { rewrite Zsum_sumR. fold l. apply (deriv_unique (peval p) y); [|apply pd_deriv].
    eapply deriv_ext; [exact Ep|]. clear -HB Hl. induction l as [|i l IH]; [apply (derivable_pt_lim_const 0)|].
    rewrite sumR_cons.
    apply (derivable_pt_lim_plus (fun t => F O (x i) * v i t) (fun t => sumR (fun i => F O (x i) * v i t) l)).
    - apply (derivable_pt_lim_scal (v i)). apply (nb_deriv _ _ _ _ HB). apply Hl. left. reflexivity.
    - apply IH. intros k Hk. apply Hl. right. exact Hk. }
  set (n := Z.to_nat (N - 1)). assert (En : Z.of_nat n = (N - 1)%Z) by (unfold n; lia).
  destruct (zeros_between (fun t => F O t - peval p t) (fun t => F 1%nat t - peval (pd p) t) x n) as (c & Hc).
  { intros i t Hi Ht. apply derivable_pt_lim_minus; [|apply pd_deriv]. apply HD; [lia|].
    pose proof (Hx i ltac:(lia)). pose proof (Hx (i + 1)%Z ltac:(lia)). lra. }
  { intros i Hi. apply HI; lia. }
  { intros i Hi. rewrite <- Ep, (sumR_one _ l i).
    - rewrite (nb_nodal _ _ _ _ HB) by lia. rewrite Z.eqb_refl. ring.
    - apply NoDup_zseq.
    - apply in_zseq. lia.
    - intros k Hk Hne. rewrite (nb_nodal _ _ _ _ HB) by (try (apply Hl; assumption); lia). apply Z.eqb_neq in Hne. rewrite Hne. ring. }
  assert (HDc : Distinct (N - 1) c).
  { intros i j Hi Hj Eij. destruct (Z.lt_trichotomy i j) as [L|[L|L]]; [|exact L|]; exfalso.
    - destruct (Hc i ltac:(lia)) as ((_ & A) & _). destruct (Hc j ltac:(lia)) as ((B & _) & _). pose proof (increasing_points N x HI (i + 1) j ltac:(lia) ltac:(lia)). lra.
    - destruct (Hc j ltac:(lia)) as ((_ & A) & _). destruct (Hc i ltac:(lia)) as ((B & _) & _). pose proof (increasing_points N x HI (j + 1) i ltac:(lia) ltac:(lia)). lra. }
  assert (Lm : length (map c (zseq n)) = n) by (rewrite map_length; apply zseq_length).
  destruct (remainder (map c (zseq n)) (pd p) (fun k => F (S k)) a b y) as (xi & Hxi & E).
  - exact (NoDup_points _ _ HDc).
  - rewrite pd_length, Lm. lia.
  - apply Forall_forall. intros t Ht. apply in_map_iff in Ht. destruct Ht as (j & <- & Hj). apply in_zseq in Hj.
    destruct (Hc j ltac:(lia)) as ((A & B) & C). pose proof (Hx j ltac:(lia)). pose proof (Hx (j + 1)%Z ltac:(lia)). split; lra.
  - exact Hy.
  - rewrite Lm. intros k t Hk Ht. apply HD; [lia|exact Ht].
  - rewrite E', E, Lm, prodR_map, Zprod_prodR. fold n. replace (S n) with (Z.to_nat N) by lia.
    assert (Hf : 0 < INR (fact n)) by apply INR_fact_lt_0.
    assert (M0 : 0 <= M) by (eapply Rle_trans; [apply Rabs_pos|apply (HM y Hy)]).
    rewrite Rabs_mult, ProofRemainder.prodR_abs. apply Rmult_le_compat; [apply Rabs_pos|apply prodR_pos; intros; apply Rabs_pos| |].
    + unfold Rdiv. rewrite Rabs_mult, (Rabs_pos_eq (/ _)) by (apply Rlt_le, Rinv_0_lt_compat, Hf).
      apply Rmult_le_compat_r; [apply Rlt_le, Rinv_0_lt_compat, Hf|apply HM, Hxi].
    + refine (proj2 (prodR_le _ _ _ _)). intros i Hi. apply in_zseq in Hi. split; [apply Rabs_pos|]. destruct (Hc i ltac:(lia)) as ((A & B) & _).
      unfold Rmax, Rabs. destruct (Rle_dec _ _); repeat destruct (Rcase_abs _); lra.
Qed.

Lemma Zsum_scal_interp n (w : Z -> R) ds (U : Z -> list Z -> R) xi :
  Zsum n (fun i => w i * interp ds (U i) xi) = interp ds (fun t => Zsum n (fun i => U i t * w i)) xi.
Proof.
  rewrite Zsum_sumR. unfold interp. rewrite (BoxSum_ext _ _ (fun t => sumR (fun i => w i * (tensor ds t xi * U i t)) (zseq (Z.to_nat n)))).
  - rewrite BoxSum_swap. apply sumR_ext. intros i _. rewrite <- BoxSum_scal. reflexivity.
  - intros t _. rewrite Zsum_sumR, <- sumR_scal. apply sumR_ext. intros i _. ring.
Qed.
Lemma stab_nonneg ds : forall L xi, Amplifies ds L xi -> 0 <= fold_right Rmult 1 L.
Proof.
  induction ds as [|d ds IH]; intros [|l L] xi HA; try (destruct HA; fail); cbn [fold_right]; [lra|]. destruct xi as [|x xi]; [destruct HA|].
  destruct HA as (Hl & HA). apply Rmult_le_pos; [|now apply (IH L xi)]. eapply Rle_trans; [|exact Hl]. rewrite Zsum_sumR. apply sum_nonneg. intros; apply Rabs_pos.
Qed.
Lemma gap_distances_nonneg d y : 0 <= gap_distances d y.
Proof. unfold gap_distances. rewrite Zprod_prodR. apply prodR_pos. intros i. eapply Rle_trans; [apply Rabs_pos|apply Rmax_l]. Qed.
Lemma gradient_error_nonneg j : forall ds L M xi, (forall m, In m M -> 0 <= m) -> Amplifies ds L xi -> 0 <= gradient_error_bound j ds L M xi.
Proof.
  induction j as [|j IH]; intros ds L M xi HM HA; (destruct ds as [|d ds]; [cbn; lra|]); (destruct L as [|l L]; [cbn; lra|]); (destruct M as [|m M]; [cbn; lra|]);
    (destruct xi as [|x xi]; [cbn; lra|]); destruct HA as (Hl & HA); cbn [gradient_error_bound];
    assert (M0 : 0 <= m) by (apply HM; left; reflexivity); assert (MS : forall k, In k M -> 0 <= k) by (intros k Hk; apply HM; right; exact Hk);
    assert (Hm : forall k, 0 <= m / INR (fact k)) by (intros k; apply Rmult_le_pos; [exact M0|apply Rlt_le, Rinv_0_lt_compat, INR_fact_lt_0]).
  - apply Rplus_le_le_0_compat; [|now apply error_bound_nonneg].
    apply Rmult_le_pos; [apply Rmult_le_pos; [apply Hm|apply gap_distances_nonneg]|exact (stab_nonneg _ _ _ HA)].
  - apply Rplus_le_le_0_compat; apply Rmult_le_pos; [apply Hm|rewrite Zprod_prodR; apply prodR_pos; intros; apply Rabs_pos| |now apply IH].
    eapply Rle_trans; [|exact Hl]. rewrite Zsum_sumR. apply sum_nonneg. intros; apply Rabs_pos.
Qed.
Lemma dtensor_error a b j : forall ds, Forall Nodal ds -> Forall (fun d => (1 <= npts d)%Z /\ Increasing (npts d) (pt d)) ds -> PointsIn a b ds -> (j < length ds)%nat ->
  forall (E : nat -> nat -> list R -> R) f g L M xi, length xi = length ds -> length M = length ds -> InCube a b xi -> Amplifies ds L xi ->
  (forall p, length p = length ds -> InCube a b p -> Partial f j p (g p)) ->
  (forall k p, (k < length ds)%nat -> length p = length ds -> InCube a b p -> E k 0%nat p = g p) ->
  (forall k i d p, nth_error ds k = Some d -> (i < times j k d)%nat -> length p = length ds -> InCube a b p ->
     Partial (E k i) k p (E k (S i) p)) ->
  (forall k d p, nth_error ds k = Some d -> length p = length ds -> InCube a b p -> Rabs (E k (times j k d) p) <= nth k M 0) ->
  Rabs (g xi - dinterp j ds (fun t => f (gridpoint ds t)) xi) <= gradient_error_bound j ds L M xi.
Proof.
  induction j as [|j IH]; intros ds HN HInc HP Hj E f g L M xi Hx HMl HC HA Hg E0 ES EM;
    (destruct ds as [|d ds]; [cbn in Hj; lia|]); (destruct xi as [|x z]; [discriminate|]); (destruct L as [|l L]; [destruct HA|]); (destruct M as [|m M]; [discriminate|]);
    injection Hx as Hx; injection HMl as HMl; inversion HC as [|? ? Hx1 Hz]; subst; destruct HA as (Hl & HA);
    inversion HN as [|? ? HN1 HNs]; subst; inversion HP as [|? ? HP1 HPs]; subst; inversion HInc as [|? ? (N1 & HI1) HIs]; subst;
    cbn [gradient_error_bound].
  - (* the derivative in the first direction *)
    rewrite dinterp_cons0. cbn [gridpoint]. rewrite (Zsum_scal_interp (npts d) (fun i => fder d i x) ds (fun i t => f (pt d i :: gridpoint ds t))).
    set (u := fun t => Zsum (npts d) (fun i => f (pt d i :: gridpoint ds t) * fder d i x)).
    set (h := fun t => g (x :: gridpoint ds t)). set (B := m / INR (fact (Z.to_nat (npts d - 1))) * gap_distances d x).
    assert (Hcube : forall p, InCube a b p -> InCube a b (x :: p)) by (intros p Hp; constructor; assumption).
    assert (Hlen : forall (t : R) p, length p = length ds -> length (t :: p) = length (d :: ds)) by (intros t p Hp; cbn; lia).
    assert (P1 : Rabs (g (x :: z) - interp ds h z) <= error_bound ds L M z).
    { apply (tensor_error a b ds HNs HPs (fun k i p => E (S k) i (x :: p)) (fun p => g (x :: p)) L M z Hx HMl Hz HA).
      - intros k p Hk Hp Hpc. apply E0; [cbn; lia|now apply Hlen|apply Hcube, Hpc].
      - intros k i e p He Hi Hp Hpc. exact (ES (S k) i e (x :: p) He Hi (Hlen x p Hp) (Hcube p Hpc)).
      - intros k e p He Hp Hpc. exact (EM (S k) e (x :: p) He (Hlen x p Hp) (Hcube p Hpc)). }
    assert (M0 : 0 <= m). { eapply Rle_trans; [apply Rabs_pos|]. exact (EM 0%nat d (x :: z) eq_refl (Hlen x z Hx) HC). }
    assert (P2 : Rabs (interp ds h z - interp ds u z) <= fold_right Rmult 1 L * B).
    { apply interp_difference; [exact HA|rewrite <- Hx; apply le_n| |].
      - apply Rmult_le_pos; [apply Rmult_le_pos; [exact M0|apply Rlt_le, Rinv_0_lt_compat, INR_fact_lt_0]|apply gap_distances_nonneg].
      - intros t Ht. unfold h, u. set (q := gridpoint ds t).
        assert (Lq : length q = length ds) by (apply gridpoint_length; assumption). assert (Cq : InCube a b q) by (now apply gridpoint_cube).
        assert (Hc : forall s, a <= s <= b -> InCube a b (s :: q)) by (intros s Hs; constructor; assumption).
        pose (F := fun k s => match k with O => f (s :: q) | S k' => E 0%nat k' (s :: q) end).
        assert (Q : Rabs (F 1%nat x - Zsum (npts d) (fun i => F O (pt d i) * fder d i x)) <= B).
        { apply (nodal_deriv_bound (npts d) (pt d) (fval d) (fder d) F a b x m HN1 N1 HI1 HP1 Hx1).
          - intros k s Hk Hs. destruct k as [|k]; unfold F.
            + rewrite (E0 0%nat (s :: q)) by (cbn; auto with arith). exact (Hg (s :: q) (Hlen s q Lq) (Hc s Hs)).
            + apply (ES 0%nat k d (s :: q) eq_refl); [unfold times; cbn [Nat.eqb]; lia|now apply Hlen|now apply Hc].
          - intros s Hs. replace (Z.to_nat (npts d)) with (S (Z.to_nat (npts d - 1))) by lia. exact (EM 0%nat d (s :: q) eq_refl (Hlen s q Lq) (Hc s Hs)). }
        unfold F in Q. rewrite E0 in Q; [exact Q|cbn; lia|now apply Hlen|now apply Hcube]. }
    replace (g (x :: z) - interp ds u z) with ((g (x :: z) - interp ds h z) + (interp ds h z - interp ds u z)) by ring.
    eapply Rle_trans; [apply Rabs_triang|]. lra.
  - (* a later direction *)
    rewrite dinterp_consS, Zsum_sumR. cbn [gridpoint]. set (I := zseq (Z.to_nat (npts d))).
    assert (HI : forall i, In i I -> (0 <= i < npts d)%Z) by (intros i Hi; apply in_zseq in Hi; lia).
    set (W := fun i => dinterp j ds (fun t => f (pt d i :: gridpoint ds t)) z).
    change (Rabs (g (x :: z) - sumR (fun i => fval d i x * W i) I) <=
      m / INR (fact (Z.to_nat (npts d))) * Zprod (npts d) (fun i => Rabs (x - pt d i)) + l * gradient_error_bound j ds L M z).
    replace (g (x :: z) - sumR (fun i => fval d i x * W i) I) with
      ((g (x :: z) - sumR (fun i => g (pt d i :: z) * fval d i x) I) + sumR (fun i => fval d i x * (g (pt d i :: z) - W i)) I).
    2:{ rewrite (sumR_ext (fun i => fval d i x * (g (pt d i :: z) - W i)) (fun i => g (pt d i :: z) * fval d i x - fval d i x * W i)) by (intros; ring).
        rewrite sumR_minus. ring. }
    eapply Rle_trans; [apply Rabs_triang|]. apply Rplus_le_compat.
    + assert (Hcube : forall t, a <= t <= b -> InCube a b (t :: z)) by (intros t Ht; constructor; assumption).
      assert (Hlen : forall t : R, length (t :: z) = length (d :: ds)) by (intros t; cbn [length]; f_equal; exact Hx).
      assert (Q : Rabs (E 0%nat 0%nat (x :: z) - Zsum (npts d) (fun i => E 0%nat 0%nat (pt d i :: z) * fval d i x)) <=
         m / INR (fact (Z.to_nat (npts d))) * Zprod (npts d) (fun i => Rabs (x - pt d i))).
      { apply (nodal_bound (npts d) (pt d) (fval d) (fder d) (fun k t => E 0%nat k (t :: z)) a b x m HN1 HP1 Hx1).
        - intros k t Hk Ht. exact (ES 0%nat k d (t :: z) eq_refl Hk (Hlen t) (Hcube t Ht)).
        - intros t Ht. exact (EM 0%nat d (t :: z) eq_refl (Hlen t) (Hcube t Ht)). }
      rewrite Zsum_sumR in Q. fold I in Q. rewrite E0 in Q by (try apply Hlen; try exact HC; cbn; lia).
      rewrite (sumR_ext _ (fun i => g (pt d i :: z) * fval d i x)) in Q; [exact Q|].
      intros i Hi. rewrite E0; [reflexivity|cbn; lia|apply Hlen|apply Hcube, HP1, HI, Hi].
    + eapply Rle_trans; [apply sumR_abs|].
      apply Rle_trans with (sumR (fun i => Rabs (fval d i x) * gradient_error_bound j ds L M z) I).
      * apply sumR_le. intros i Hi. rewrite Rabs_mult. apply Rmult_le_compat_l; [apply Rabs_pos|].
        assert (Hcube : forall p, InCube a b p -> InCube a b (pt d i :: p)) by (intros p Hpc; constructor; [apply HP1, HI, Hi|exact Hpc]).
        assert (Hlen : forall (t : R) p, length p = length ds -> length (t :: p) = length (d :: ds)) by (intros t p Hp; cbn; lia).
        apply (IH ds HNs HIs HPs ltac:(cbn in Hj; lia) (fun k n p => E (S k) n (pt d i :: p)) (fun p => f (pt d i :: p)) (fun p => g (pt d i :: p)) L M z Hx HMl Hz HA).
        -- intros p Hp Hpc. exact (Hg (pt d i :: p) (Hlen _ p Hp) (Hcube p Hpc)).
        -- intros k p Hk Hp Hpc. apply E0; [cbn; lia|now apply Hlen|apply Hcube, Hpc].
        -- intros k n e p He Hk Hp Hpc. exact (ES (S k) n e (pt d i :: p) He Hk (Hlen _ p Hp) (Hcube p Hpc)).
        -- intros k e p He Hp Hpc. exact (EM (S k) e (pt d i :: p) He (Hlen _ p Hp) (Hcube p Hpc)).
      * rewrite sumR_scal_r. rewrite Zsum_sumR in Hl. fold I in Hl. apply Rmult_le_compat_r; [|exact Hl]. apply gradient_error_nonneg; [|exact HA].
        intros k Hk. apply (In_nth _ _ 0) in Hk. destruct Hk as (n & Hn & <-).
        destruct (nth_error ds n) as [e|] eqn:He; [|apply nth_error_None in He; lia].
        assert (Hlz : length (x :: z) = length (d :: ds)) by (cbn [length]; f_equal; exact Hx).
        eapply Rle_trans; [apply Rabs_pos|]. exact (EM (S n) e (x :: z) He Hlz HC).
Qed.

Lemma spacing_increasing s ORDER x : ValidOrder (s, ORDER) -> Points (coord_ct RNum s (ORDER + 1)) (ORDER + 1) x -> Increasing (ORDER + 1) x.
Proof.
  intros HV Hp. assert (HS : exists x', Points (coord_ct RNum s (ORDER + 1)) (ORDER + 1) x' /\ Increasing (ORDER + 1) x').
  { unfold ValidOrder in HV. cbn in HV. destruct s.
    - destruct (equal_spacing_lemma (ORDER + 1) ltac:(unfold INT_MAX in *; lia)) as (x' & h & _ & _ & H & _ & _ & _ & HI & _). exists x'. split; [intros i _; apply H|exact HI].
    - destruct (legendre_roots_lemma (ORDER + 1) ltac:(lia)) as (x' & r & H & _ & HI & _). exists x'. now split.
    - destruct (lobatto_roots_lemma (ORDER + 1) ltac:(lia)) as (x' & r & H & HI & _). exists x'. now split. }
  destruct HS as (x' & H & HI). intros i j Hij Hj. pose proof (Hp i ltac:(lia)) as A1. pose proof (H i ltac:(lia)) as A2. pose proof (Hp j ltac:(lia)) as B1. pose proof (H j ltac:(lia)) as B2.
  rewrite A1 in A2. rewrite B1 in B2. injection A2 as ->. injection B2 as ->. now apply HI.
Qed.
Lemma gradient_error_lemma specs : Forall ValidOrder specs -> specs <> [] -> (Z.of_nat (length specs) <= INT_MAX)%Z ->
  exists ds, Forall2 GridR specs ds /\
  forall c (E : nat -> nat -> list R -> R) f g j M var xi,
  (j < length specs)%nat -> length xi = length specs -> length M = length specs -> InCube (-1) 1 xi ->
  (forall t, InRange (counts ds) t -> var t = Ok (f (gridpoint ds t))) ->
  (forall p, length p = length specs -> InCube (-1) 1 p -> Partial f j p (g p)) ->
  (forall k p, (k < length specs)%nat -> length p = length specs -> InCube (-1) 1 p -> E k 0%nat p = g p) ->
  (forall k i d p, nth_error ds k = Some d -> (i < times j k d)%nat -> length p = length specs -> InCube (-1) 1 p ->
     Partial (E k i) k p (E k (S i) p)) ->
  (forall k d p, nth_error ds k = Some d -> length p = length specs -> InCube (-1) 1 p -> Rabs (E k (times j k d) p) <= nth k M 0) ->
  exists v, parent_gradient RNum c (Z.of_nat (length specs)) (map (fun so => LagrangeBasis RNum (snd so) (fst so)) specs) var xi = Ok v /\
    length v = length specs /\ Rabs (g xi - nth j v 0) <= gradient_error_bound j ds (map Stability specs) M xi.
Proof.
  intros HV Hne HM. destruct (grids_exist specs HV) as (ds & HE & HG). exists ds. split; [exact HG|].
  destruct (grids_facts specs ds HV HG) as (Ld & HN & Hc & HP & HA). intros c E f g j M var xi Hj Hl HMl HC Hv Hg E0 ES EM.
  assert (Lx : (length ds <= length xi)%nat) by (rewrite Ld; apply Nat.eq_le_incl; symmetry; exact Hl).
  assert (Hds : ds <> []) by (intros ->; destruct specs; [congruence|discriminate]). rewrite <- Ld in HM.
  destruct (parent_gradient_nth c _ ds (fun t => f (gridpoint ds t)) var xi HE Hds HM Hv Lx) as (v & Ev & Lv & Nv).
  rewrite Ld in Ev, Lv, Nv. exists v. split; [exact Ev|]. split; [exact Lv|]. rewrite (Nv j Hj).
  assert (HI : Forall (fun d => (1 <= npts d)%Z /\ Increasing (npts d) (pt d)) ds).
  { clear -HV HG. induction HG as [|[s o] d specs ds (Hn & Hp & _) _ IH]; [constructor|]. inversion HV as [|? ? V1 V2]; subst. constructor; [|now apply IH].
    cbn [fst snd] in *. rewrite Hn. split; [unfold ValidOrder in V1; cbn in V1; destruct s; lia|now apply (spacing_increasing s o)]. }
  assert (Hl' : length xi = length ds) by (etransitivity; [exact Hl|symmetry; exact Ld]).
  assert (HMl' : length M = length ds) by (etransitivity; [exact HMl|symmetry; exact Ld]).
  rewrite <- Ld in Hj, E0, ES, EM, Hg.
  apply (dtensor_error (-1) 1 j ds HN HI HP Hj E f g (map Stability specs) M xi); try assumption. now apply HA.
Qed.

Lemma gradient_error_example :
  let f := fun p => nth 0 p 0 * nth 0 p 0 * nth 1 p 0 in let g := fun p => 2 * nth 0 p 0 * nth 1 p 0 in
  let E := fun (k i : nat) p => match k, i with
    | O, O => g p | O, _ => 2 * nth 1 p 0 | _, O => g p | _, 1%nat => 2 * nth 0 p 0 | _, _ => 0 end in
  Forall ValidOrder [(EqualSpacing, 1%Z); (GaussLobattoSpacing, 1%Z)] /\
  forall ds, Forall2 GridR [(EqualSpacing, 1%Z); (GaussLobattoSpacing, 1%Z)] ds ->
  (forall p, length p = 2%nat -> InCube (-1) 1 p -> Partial f 0 p (g p)) /\
  (forall k p, (k < 2)%nat -> E k 0%nat p = g p) /\
  (forall k i d p, nth_error ds k = Some d -> (i < times 0 k d)%nat -> length p = 2%nat -> InCube (-1) 1 p ->
     Partial (E k i) k p (E k (S i) p)) /\
  (forall k d p, nth_error ds k = Some d -> length p = 2%nat -> InCube (-1) 1 p -> Rabs (E k (times 0 k d) p) <= nth k [2; 0] 0).
Proof.
  cbv zeta. split; [repeat constructor; cbn; try lia; discriminate|]. intros ds HG.
  inversion HG as [|? d0 ? ds' (N0 & _) HG']; subst. inversion HG' as [|? d1 ? ds'' (N1 & _) HG'']; subst. inversion HG''; subst.
  cbn in N0, N1.
  assert (L : forall b t : R, derivable_pt_lim (fun s => b * s) t b).
  { intros b t. pose proof (derivable_pt_lim_scal id b t 1 (derivable_pt_lim_id t)) as H. rewrite Rmult_1_r in H. exact H. }
  split; [|split; [|split]].
  - intros [|x [|y [|w p]]] Hp _; try discriminate. unfold Partial. cbn [upd nth].
    pose proof (derivable_pt_lim_mult _ _ _ _ _ (derivable_pt_lim_mult id id x _ _ (derivable_pt_lim_id x) (derivable_pt_lim_id x)) (derivable_pt_lim_const y x)) as H.
    unfold id, fct_cte, mult_fct in H. replace (2 * x * y) with ((1 * x + x * 1) * y + x * x * 0) by ring. exact H.
  - intros [|k] p _; reflexivity.
  - intros k i d p Hk Hi Hp _. destruct p as [|x [|y [|w p]]]; try discriminate. destruct k as [|[|k]]; cbn in Hk; [| |destruct k; discriminate]; injection Hk as <-;
      unfold times in Hi; cbn [Nat.eqb] in Hi; [rewrite N0 in Hi|rewrite N1 in Hi].
    + change (i < 1)%nat in Hi. assert (i = 0%nat) as -> by lia. unfold Partial. cbn [upd nth].
      eapply deriv_ext; [|apply L]. intros s. cbn. ring.
    + change (i < 2)%nat in Hi. destruct i as [|[|i]]; [| |lia]; unfold Partial; cbn [upd nth].
      * apply L.
      * apply derivable_pt_lim_const.
  - intros k d p Hk Hp HC. destruct p as [|x [|y [|w p]]]; try discriminate. inversion HC as [|? ? Hx HC']; subst. inversion HC' as [|? ? Hy _]; subst.
    destruct k as [|[|k]]; cbn in Hk; [| |destruct k; discriminate]; injection Hk as <-; unfold times; cbn [Nat.eqb]; [rewrite N0|rewrite N1]; cbn [nth].
    + change (Rabs (2 * y) <= 2). apply Rabs_le. lra.
    + change (Rabs 0 <= 0). rewrite Rabs_R0. lra.
Qed.
