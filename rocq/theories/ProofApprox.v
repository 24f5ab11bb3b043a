(** Errors of tensor-product interpolation and of quadrature; bounds on interpolated values. *)
From Verif Require Import Base ProofBase Num SpecIndex ProofBox SpecNumeric SpecBasis SpecApprox ModelAssert ModelSpacing ModelQuadrature ModelLagrange ModelBasisProduct
  ProofPoly ProofLagrange ProofSpacing ProofTensor ProofQuadrature ProofRemainder ProofConform.
From Coq Require Import Reals Lra.
Open Scope R_scope.

Lemma sumR_abs {A} (f : A -> R) l : Rabs (sumR f l) <= sumR (fun a => Rabs (f a)) l.
Proof. induction l as [|a l IH]; [cbn; rewrite Rabs_R0; lra|]. rewrite !sumR_cons. eapply Rle_trans; [apply Rabs_triang|]. lra. Qed.
Lemma sumR_le {A} (f g : A -> R) l : (forall a, In a l -> f a <= g a) -> sumR f l <= sumR g l.
Proof.
  induction l as [|a l IH]; intros H; [cbn; lra|]. rewrite !sumR_cons. pose proof (H a ltac:(left; reflexivity)).
  assert (sumR f l <= sumR g l) by (apply IH; intros b Hb; apply H; right; exact Hb). lra.
Qed.
Lemma sumR_minus {A} (f g : A -> R) l : sumR (fun a => f a - g a) l = sumR f l - sumR g l.
Proof. induction l as [|a l IH]; [cbn; ring|]. rewrite !sumR_cons, IH. ring. Qed.

Definition PointsIn (a b : R) (ds : list direction) : Prop := Forall (fun d => forall i, (0 <= i < npts d)%Z -> a <= pt d i <= b) ds.
Lemma gridpoint_cube a b ds : PointsIn a b ds -> forall t, InRange (counts ds) t -> InCube a b (gridpoint ds t).
Proof.
  induction 1 as [|d ds Hd _ IH]; intros t Ht; [constructor|]. change (counts (d :: ds)) with (npts d :: counts ds) in Ht.
  apply InRange_cons in Ht. destruct Ht as (i & t' & -> & Hi & Ht). cbn [gridpoint]. constructor; [apply Hd, Hi|apply IH, Ht].
Qed.
Lemma error_bound_nonneg ds : forall L M xi, (forall m, In m M -> 0 <= m) -> Amplifies ds L xi -> 0 <= error_bound ds L M xi.
Proof.
  induction ds as [|d ds IH]; intros L M xi HM HA; [cbn; lra|]. destruct L as [|l L]; [cbn; lra|]. destruct M as [|m M]; [cbn; lra|].
  destruct xi as [|x xi]; [cbn; lra|]. destruct HA as (Hl & HA). cbn [error_bound].
  assert (0 <= l). { eapply Rle_trans; [|exact Hl]. rewrite Zsum_sumR. rewrite <- (sumR_zero (fun _ : Z => 0) (zseq (Z.to_nat (npts d)))) by reflexivity. apply sumR_le. intros i _. apply Rabs_pos. }
  assert (0 <= error_bound ds L M xi) by (apply IH; [intros k Hk; apply HM; right; exact Hk|exact HA]).
  assert (0 <= m / INR (fact (Z.to_nat (npts d)))).
  { unfold Rdiv. apply Rmult_le_pos; [apply HM; left; reflexivity|]. apply Rlt_le, Rinv_0_lt_compat, INR_fact_lt_0. }
  assert (0 <= Zprod (npts d) (fun i => Rabs (x - pt d i))) by (rewrite Zprod_prodR; apply prodR_pos; intros; apply Rabs_pos).
  apply Rplus_le_le_0_compat; apply Rmult_le_pos; assumption.
Qed.

Lemma tensor_error a b ds : Forall Nodal ds -> PointsIn a b ds ->
  forall (D : nat -> nat -> list R -> R) f L M xi, length xi = length ds -> length M = length ds -> InCube a b xi -> Amplifies ds L xi ->
  (forall j p, (j < length ds)%nat -> length p = length ds -> InCube a b p -> D j 0%nat p = f p) ->
  (forall j k d p, nth_error ds j = Some d -> (k < Z.to_nat (npts d))%nat -> length p = length ds -> InCube a b p ->
     Partial (D j k) j p (D j (S k) p)) ->
  (forall j d p, nth_error ds j = Some d -> length p = length ds -> InCube a b p -> Rabs (D j (Z.to_nat (npts d)) p) <= nth j M 0) ->
  Rabs (f xi - interp ds (fun t => f (gridpoint ds t)) xi) <= error_bound ds L M xi.
Proof.
  intros HN HP. induction ds as [|d ds IH]; intros D f L M xi Hx HMl HC HA D0 DS DM.
  - destruct xi; [|discriminate]. unfold interp. cbn. replace (f [] - 1 * f []) with 0 by ring. rewrite Rabs_R0. lra.
  - destruct xi as [|x z]; [discriminate|]. destruct L as [|l L]; [destruct HA|]. destruct M as [|m M]; [discriminate|].
    injection Hx as Hx. injection HMl as HMl. inversion HC as [|? ? Hx1 Hz]; subst. destruct HA as (Hl & HA).
    inversion HN as [|? ? HN1 HNs]; subst. inversion HP as [|? ? HP1 HPs]; subst.
    rewrite interp_cons. cbn [error_bound gridpoint]. set (I := zseq (Z.to_nat (npts d))).
    assert (HI : forall i, In i I -> (0 <= i < npts d)%Z) by (intros i Hi; apply in_zseq in Hi; lia).
    set (W := fun i => interp ds (fun t => f (pt d i :: gridpoint ds t)) z).
    change (Rabs (f (x :: z) - sumR (fun i => fval d i x * W i) I) <=
      m / INR (fact (Z.to_nat (npts d))) * Zprod (npts d) (fun i => Rabs (x - pt d i)) + l * error_bound ds L M z).
    replace (f (x :: z) - sumR (fun i => fval d i x * W i) I) with
      ((f (x :: z) - sumR (fun i => f (pt d i :: z) * fval d i x) I) + sumR (fun i => fval d i x * (f (pt d i :: z) - W i)) I).
    2:{ rewrite (sumR_ext (fun i => fval d i x * (f (pt d i :: z) - W i)) (fun i => f (pt d i :: z) * fval d i x - fval d i x * W i)) by (intros; ring).
        rewrite sumR_minus. ring. }
    eapply Rle_trans; [apply Rabs_triang|]. apply Rplus_le_compat.
    + assert (Hcube : forall t, a <= t <= b -> InCube a b (t :: z)) by (intros t Ht; constructor; assumption).
      assert (Hlen : forall t, length (t :: z) = length (d :: ds)) by (intros t; cbn; lia).
      pose proof (nodal_bound (npts d) (pt d) (fval d) (fder d) (fun k t => D 0%nat k (t :: z)) a b x m HN1 HP1 Hx1) as NB.
      assert (Q : Rabs (D 0%nat 0%nat (x :: z) - Zsum (npts d) (fun i => D 0%nat 0%nat (pt d i :: z) * fval d i x)) <=
         m / INR (fact (Z.to_nat (npts d))) * Zprod (npts d) (fun i => Rabs (x - pt d i))).
      { apply NB.
        - intros k t Hk Ht. pose proof (DS 0%nat k d (t :: z) eq_refl Hk (Hlen t) (Hcube t Ht)) as P. exact P.
        - intros t Ht. exact (DM 0%nat d (t :: z) eq_refl (Hlen t) (Hcube t Ht)). }
      rewrite Zsum_sumR in Q. fold I in Q. rewrite D0 in Q by (cbn; auto; lia).
      rewrite (sumR_ext _ (fun i => f (pt d i :: z) * fval d i x)) in Q; [exact Q|].
      intros i Hi. rewrite D0; [reflexivity|cbn; lia|apply Hlen|apply Hcube, HP1, HI, Hi].
    + eapply Rle_trans; [apply sumR_abs|].
      apply Rle_trans with (sumR (fun i => Rabs (fval d i x) * error_bound ds L M z) I).
      * apply sumR_le. intros i Hi. rewrite Rabs_mult. apply Rmult_le_compat_l; [apply Rabs_pos|].
        assert (Hcube : forall p, InCube a b p -> InCube a b (pt d i :: p)) by (intros p Hpc; constructor; [apply HP1, HI, Hi|exact Hpc]).
        apply (IH HNs HPs (fun j k p => D (S j) k (pt d i :: p)) (fun p => f (pt d i :: p)) L M z Hx HMl Hz HA).
        -- intros j p Hj Hp Hpc. apply D0; [cbn; lia|cbn; lia|apply Hcube, Hpc].
        -- intros j k e p He Hk Hp Hpc. exact (DS (S j) k e (pt d i :: p) He Hk ltac:(cbn; lia) (Hcube p Hpc)).
        -- intros j e p He Hp Hpc. exact (DM (S j) e (pt d i :: p) He ltac:(cbn; lia) (Hcube p Hpc)).
      * rewrite sumR_scal_r. rewrite Zsum_sumR in Hl. fold I in Hl.
        destruct ds as [|d2 ds2].
        { cbn [error_bound]. lra. }
        apply Rmult_le_compat_r; [|exact Hl]. apply error_bound_nonneg; [|exact HA].
        intros k Hk. apply (In_nth _ _ 0) in Hk. destruct Hk as (j & Hj & <-).
        destruct (nth_error (d2 :: ds2) j) as [e|] eqn:He; [|apply nth_error_None in He; lia].
        assert (Hlz : length (x :: z) = length (d :: d2 :: ds2)) by (cbn [length]; rewrite Hx; reflexivity).
        eapply Rle_trans; [apply Rabs_pos|]. exact (DM (S j) e (x :: z) He Hlz HC).
Qed.
Lemma parent_error a b bases ds D f L M var xi : Forall2 Evaluates bases ds -> Forall Nodal ds -> ds <> [] -> PointsIn a b ds ->
  length xi = length ds -> length M = length ds -> InCube a b xi -> Amplifies ds L xi ->
  (forall t, InRange (counts ds) t -> var t = Ok (f (gridpoint ds t))) ->
  (forall j p, (j < length ds)%nat -> length p = length ds -> InCube a b p -> D j 0%nat p = f p) ->
  (forall j k d p, nth_error ds j = Some d -> (k < Z.to_nat (npts d))%nat -> length p = length ds -> InCube a b p ->
     Partial (D j k) j p (D j (S k) p)) ->
  (forall j d p, nth_error ds j = Some d -> length p = length ds -> InCube a b p -> Rabs (D j (Z.to_nat (npts d)) p) <= nth j M 0) ->
  exists v, parent_value RNum (Z.of_nat (length ds)) bases var xi = Ok v /\ Rabs (f xi - v) <= error_bound ds L M xi.
Proof.
  intros HE HN Hne HP Hx HM HC HA Hv D0 DS DM. assert (Hlx : (length ds <= length xi)%nat) by lia. exists (interp ds (fun t => f (gridpoint ds t)) xi). split.
  - apply parent_value_ok; [exact HE|exact Hne|reflexivity|exact Hv|exact Hlx].
  - apply (tensor_error a b ds HN HP D); assumption.
Qed.

(** Interpolation at nonnegative weights. *)
Lemma tensor_nonneg ds : forall t xi, Forall2 (fun d x => forall i, (0 <= i < npts d)%Z -> 0 <= fval d i x) ds xi -> InRange (counts ds) t ->
  0 <= tensor ds t xi.
Proof.
  induction ds as [|d ds IH]; intros t xi H Ht; [cbn; lra|]. inversion H as [|? x ? xi' Hd Hs]; subst.
  change (counts (d :: ds)) with (npts d :: counts ds) in Ht. apply InRange_cons in Ht. destruct Ht as (i & t' & -> & Hi & Ht).
  cbn [tensor]. apply Rmult_le_pos; [apply Hd, Hi|apply IH; assumption].
Qed.
Lemma BoxSum_le ns f g : (forall t, InRange ns t -> f t <= g t) -> BoxSum ns f <= BoxSum ns g.
Proof. intros H. rewrite !BoxSum_sumR. apply sumR_le. intros t Ht. apply H. now apply in_zbox. Qed.
Lemma interp_range ds u lo hi xi : Forall Nodal ds -> length xi = length ds ->
  Forall2 (fun d x => forall i, (0 <= i < npts d)%Z -> 0 <= fval d i x) ds xi ->
  (forall t, InRange (counts ds) t -> lo <= u t <= hi) -> lo <= interp ds u xi <= hi.
Proof.
  intros HN Hx HP Hu. assert (Hl : (length ds <= length xi)%nat) by lia.
  pose proof (interp_const ds lo xi HN Hl) as C1. pose proof (interp_const ds hi xi HN Hl) as C2.
  split; [rewrite <- C1|rewrite <- C2]; unfold interp; apply BoxSum_le; intros t Ht;
    (apply Rmult_le_compat_l; [apply tensor_nonneg; assumption|apply Hu, Ht]).
Qed.

(** Two points: the functions are (1 - y) / 2 and (1 + y) / 2. *)
Lemma two_points d : Nodal d -> npts d = 2%Z -> pt d 0 = -1 -> pt d 1 = 1 -> forall y,
  fval d 0 y = (1 - y) / 2 /\ fval d 1 y = (1 + y) / 2.
Proof.
  intros HN H2 H0 H1 y. unfold Nodal in HN. rewrite H2 in HN.
  pose proof (nb_unity _ _ _ _ HN y) as U. pose proof (nb_reproduce _ _ _ _ HN [0; 1] y ltac:(cbn; lia)) as P.
  rewrite Zsum_sumR in U, P. change (zseq (Z.to_nat 2)) with [0%Z; 1%Z] in U, P. cbn in U, P. rewrite H0, H1 in P. lra.
Qed.
Definition linear_spec (so : spacing * Z) : Prop := snd so = 1%Z /\ fst so <> GaussLegendreSpacing.
Lemma linear_directions specs : Forall linear_spec specs ->
  exists ds, Forall2 Evaluates (map lag specs) ds /\ Forall Nodal ds /\ counts ds = map (fun so => snd so + 1)%Z specs /\
    Forall (fun d => npts d = 2%Z /\ pt d 0 = -1 /\ pt d 1 = 1) ds.
Proof.
  induction 1 as [|[s o] l (Ho & Hs) _ (ds & H1 & H2 & H3 & H4)].
  - exists []. repeat constructor.
  - cbn [fst snd] in *. subst o. destruct (closed_direction s 1) as (d & E & N & Hn & P0 & P1).
    { unfold closed_ok. cbn [fst snd]. destruct s; unfold INT_MAX; [lia|congruence|lia]. }
    exists (d :: ds). split; [constructor; [exact E|exact H1]|]. split; [constructor; assumption|].
    split; [unfold counts in *; cbn [map]; rewrite Hn, H3; reflexivity|]. constructor; [split; [exact Hn|split; assumption]|exact H4].
Qed.
Lemma no_overshoot_lemma specs u var lo hi xi : Forall linear_spec specs -> specs <> [] -> length xi = length specs -> InCube (-1) 1 xi ->
  (forall t, InRange (map (fun so => snd so + 1)%Z specs) t -> var t = Ok (u t) /\ lo <= u t <= hi) ->
  exists v, parent_value RNum (Z.of_nat (length specs)) (map lag specs) var xi = Ok v /\ lo <= v <= hi.
Proof.
  intros HS Hne Hx HC Hu. destruct (linear_directions specs HS) as (ds & E & N & C & P).
  assert (Hl : length ds = length specs) by (apply (f_equal (@length Z)) in C; unfold counts in C; rewrite !map_length in C; exact C).
  assert (Hlx : (length ds <= length xi)%nat) by lia. exists (interp ds u xi). rewrite <- C in Hu. split.
  - apply parent_value_ok; [exact E|destruct ds; [destruct specs; [congruence|discriminate]|discriminate]|lia|intros t Ht; apply Hu, Ht|exact Hlx].
  - apply interp_range; [exact N|lia| |intros t Ht; apply Hu, Ht].
    assert (Hx' : length xi = length ds) by lia. clear - P N HC Hx'. revert xi HC Hx'.
    induction P as [|d ds (Hn & P0 & P1) _ IH]; intros xi HC Hx; (destruct xi as [|x xi]; [try discriminate; constructor|]); [discriminate|].
    inversion N; subst. inversion HC; subst. constructor; [|apply IH; [assumption|assumption|cbn in Hx; lia]].
    intros i Hi. destruct (two_points d ltac:(assumption) Hn P0 P1 x) as (F0 & F1).
    assert (Ci : i = 0%Z \/ i = 1%Z) by lia. destruct Ci as [->| ->]; [rewrite F0|rewrite F1]; lra.
Qed.

(** From three points on, no element is free of overshoots. *)
Lemma sumR_nonneg_zero {A} (f : A -> R) l : (forall a, In a l -> 0 <= f a) -> sumR f l = 0 -> forall a, In a l -> f a = 0.
Proof.
  induction l as [|b l IH]; intros H E a Ha; [destruct Ha|]. rewrite sumR_cons in E.
  pose proof (H b ltac:(left; reflexivity)) as Hb.
  assert (Hs : 0 <= sumR f l).
  { rewrite <- (sumR_zero (fun _ : A => 0) l) by reflexivity. apply sumR_le. intros c Hc. apply H. right. exact Hc. }
  destruct Ha as [<-|Ha]; [lra|]. apply IH; [intros c Hc; apply H; right; exact Hc|lra|exact Ha].
Qed.
Lemma all_or_negative {A} (f : A -> R) l : (forall a, In a l -> 0 <= f a) \/ exists a, In a l /\ f a < 0.
Proof.
  induction l as [|b l [IH|(a & Ha & Hf)]]; [left; intros a []| |right; exists a; split; [right; exact Ha|exact Hf]].
  destruct (Rlt_le_dec (f b) 0) as [L|L]; [right; exists b; split; [left; reflexivity|exact L]|].
  left. intros a [<-|Ha]; [exact L|apply IH, Ha].
Qed.
Lemma negative_somewhere N x v g y : NodalBasis N x v g -> (3 <= N)%Z -> (forall i, (0 <= i < N)%Z -> x i <> y) ->
  exists i, (0 <= i < N)%Z /\ v i y < 0.
Proof.
  intros HB HN Hy. destruct (all_or_negative (fun i => v i y) (zseq (Z.to_nat N))) as [H|(i & Hi & Hv)].
  2:{ exists i. split; [apply in_zseq in Hi; lia|exact Hv]. }
  exfalso. pose proof (nb_unity _ _ _ _ HB y) as U. pose proof (nb_reproduce _ _ _ _ HB [y * y; - (2 * y); 1] y ltac:(cbn; lia)) as P.
  rewrite Zsum_sumR in U, P.
  assert (Z0 : forall i, In i (zseq (Z.to_nat N)) -> v i y = 0).
  { intros i Hi.
    assert (Q : peval [y * y; - (2 * y); 1] (x i) * v i y = 0).
    { revert i Hi. apply sumR_nonneg_zero; [|rewrite P; cbn; ring]. intros i Hi. apply Rmult_le_pos; [|apply H, Hi].
      replace (peval [y * y; - (2 * y); 1] (x i)) with ((x i - y) * (x i - y)) by (cbn; ring). apply Rle_0_sqr. }
    assert (Hne : x i - y <> 0). { apply in_zseq in Hi. pose proof (Hy i ltac:(lia)). lra. }
    replace (peval [y * y; - (2 * y); 1] (x i)) with ((x i - y) * (x i - y)) in Q by (cbn; ring).
    apply Rmult_integral in Q. destruct Q as [Q|Q]; [|exact Q]. apply Rmult_integral in Q. destruct Q; contradiction. }
  rewrite (sumR_zero _ _ Z0) in U. lra.
Qed.
Definition unit_data (i : Z) (t : list Z) : outcome R := Ok (if (nth 0 t 0 =? i)%Z then 1 else 0).
Lemma one_direction b d i y : Evaluates b d -> (0 <= i < npts d)%Z ->
  parent_value RNum 1 [b] (unit_data i) [y] = Ok (fval d i y).
Proof.
  intros HE Hi. assert (HF : Forall2 Evaluates [b] [d]) by (constructor; [exact HE|constructor]).
  etransitivity; [apply (parent_value_ok 1 _ [d] _ (fun t => if (nth 0 t 0 =? i)%Z then 1 else 0)); [exact HF|discriminate|reflexivity|reflexivity|cbn; lia]|].
  assert (V : interp [d] (fun t => if (nth 0 t 0 =? i)%Z then 1 else 0) [y] = fval d i y); [|exact (f_equal (@Ok R) V)].
  rewrite interp_cons. rewrite (sumR_one _ _ i).
  - unfold interp. cbn. rewrite Z.eqb_refl. ring.
  - apply NoDup_zseq.
  - apply in_zseq. lia.
  - intros j _ Hj. unfold interp. cbn. apply Z.eqb_neq in Hj. rewrite Hj. ring.
Qed.
Lemma overshoot_lemma s o x y : spec_ok (s, o) -> (2 <= o)%Z -> Points (coord_ct RNum s (o + 1)) (o + 1) x ->
  (forall i, (0 <= i <= o)%Z -> x i <> y) ->
  exists i v, (0 <= i <= o)%Z /\ parent_value RNum 1 [LagrangeBasis RNum o s] (unit_data i) [y] = Ok v /\ v < 0.
Proof.
  intros Hs Ho Hx Hy. destruct (lagrange_direction s o Hs) as (d & E & N & Hn & P).
  destruct (negative_somewhere (npts d) (pt d) (fval d) (fder d) y N ltac:(lia)) as (i & Hi & Hv).
  - intros i Hi. rewrite Hn in Hi. pose proof (P i Hi) as Q1. rewrite (Hx i Hi) in Q1. injection Q1 as Q1. rewrite <- Q1. apply Hy. lia.
  - exists i, (fval d i y). split; [lia|]. split; [apply one_direction; [exact E|exact Hi]|exact Hv].
Qed.
Lemma legendre_overshoot_lemma : exists v, parent_value RNum 1 [LagrangeBasis RNum 1 GaussLegendreSpacing] (unit_data 0) [1] = Ok v /\ v < 0.
Proof.
  assert (Hs : spec_ok (GaussLegendreSpacing, 1%Z)) by (unfold spec_ok; cbn; lia).
  destruct (lagrange_direction GaussLegendreSpacing 1 Hs) as (d & E & N & Hn & P).
  exists (fval d 0 1). split; [apply one_direction; [exact E|lia]|].
  destruct (legendre_roots_lemma 2 ltac:(lia)) as (x & r & Hx & _ & Hinc & Hodd & Hin & _).
  change (1 + 1)%Z with 2%Z in *. unfold Nodal in N. rewrite Hn in N.
  assert (X0 : pt d 0 = x 0%Z). { pose proof (P 0%Z ltac:(lia)) as Q. rewrite (Hx 0%Z ltac:(lia)) in Q. injection Q as Q. symmetry. exact Q. }
  assert (X1 : pt d 1 = x 1%Z). { pose proof (P 1%Z ltac:(lia)) as Q. rewrite (Hx 1%Z ltac:(lia)) in Q. injection Q as Q. symmetry. exact Q. }
  pose proof (nb_unity _ _ _ _ N 1) as U. pose proof (nb_reproduce _ _ _ _ N [0; 1] 1 ltac:(cbn; lia)) as Q.
  rewrite Zsum_sumR in U, Q. change (zseq (Z.to_nat 2)) with [0%Z; 1%Z] in U, Q. cbn in U, Q. rewrite X0, X1 in Q.
  pose proof (Hin 0%Z ltac:(lia)) as I0. pose proof (Hin 1%Z ltac:(lia)) as I1. pose proof (Hinc 0%Z 1%Z ltac:(lia) ltac:(lia)) as I2.
  set (a := fval d 0 1) in *. set (b := fval d 1 1) in *. destruct (Rlt_le_dec a 0) as [L|L]; [exact L|exfalso].
  assert (Eb : b = 1 - a) by lra. rewrite Eb in Q.
  assert (x 1%Z - a * (x 1%Z - x 0%Z) = 1) by lra.
  assert (0 <= a * (x 1%Z - x 0%Z)) by (apply Rmult_le_pos; lra). lra.
Qed.

(** Quadrature of functions that are close to polynomials. *)
Lemma quadrature_error_lemma q N f P p delta :
  (2 <= N <= (match q with QuadratureGaussLegendre => 4 | QuadratureGaussLobatto => 9 end))%Z ->
  (Z.of_nat (length p) <= (match q with QuadratureGaussLegendre => 2 * N | QuadratureGaussLobatto => 2 * N - 2 end))%Z ->
  (forall t, -1 <= t <= 1 -> derivable_pt_lim P t (f t)) ->
  (forall t, -1 <= t <= 1 -> Rabs (f t - peval p t) <= delta) ->
  exists w x, Points (weight_ct RNum q N) N w /\ Points (coord_ct RNum (rule_spacing q) N) N x /\
    Rabs (Zsum N (fun i => w i * f (x i)) - (P 1 - P (-1))) <=
      (4 + tenth (if (N <=? 5)%Z then 33 else 13)) * delta + tenth (if (N <=? 5)%Z then 33 else 13) * norm1 p.
Proof.
  intros HN Hp HP Hd. destruct (antiderivative_exists p) as (Q & HQ).
  destruct (exactness_lemma q N p Q HN Hp HQ) as (w & x & Hw & Hx & He).
  destruct (weights_lemma q N HN) as (w' & Hw' & Hpos & Hsum & _).
  assert (Ew : forall i, (0 <= i < N)%Z -> w i = w' i).
  { intros i Hi. pose proof (Hw i Hi) as A1. rewrite (Hw' i Hi) in A1. injection A1 as A1. symmetry. exact A1. }
  assert (Hin : forall i, (0 <= i < N)%Z -> -1 <= x i <= 1).
  { intros i Hi. destruct q; cbn [rule_spacing] in Hx.
    - destruct (legendre_roots_lemma N HN) as (z & _ & Hz & _ & _ & _ & Hb & _).
      pose proof (Hx i Hi) as A1. rewrite (Hz i Hi) in A1. injection A1 as A1. rewrite <- A1. specialize (Hb i Hi). lra.
    - destruct (lobatto_roots_lemma N HN) as (z & _ & Hz & Hinc & _ & Z0 & Z1 & _).
      pose proof (Hx i Hi) as A1. rewrite (Hz i Hi) in A1. injection A1 as A1. rewrite <- A1. split.
      + destruct (Z.eq_dec i 0) as [->|Hne]; [lra|]. pose proof (Hinc 0%Z i ltac:(lia) ltac:(lia)). lra.
      + destruct (Z.eq_dec i (N - 1)) as [->|Hne]; [lra|]. pose proof (Hinc i (N - 1)%Z ltac:(lia) ltac:(lia)). lra. }
  exists w, x. split; [exact Hw|]. split; [exact Hx|]. set (eps := tenth (if (N <=? 5)%Z then 33 else 13)) in *.
  set (I := zseq (Z.to_nat N)). assert (HI : forall i, In i I -> (0 <= i < N)%Z) by (intros i Hi; apply in_zseq in Hi; lia).
  rewrite !Zsum_sumR in *. fold I in He, Hsum |- *.
  assert (Hdelta : 0 <= delta) by (eapply Rle_trans; [apply Rabs_pos|apply (Hd 0); lra]).
  assert (B1 : Rabs (sumR (fun i => w i * f (x i)) I - sumR (fun i => w i * peval p (x i)) I) <= (2 + eps) * delta).
  { rewrite <- sumR_minus. eapply Rle_trans; [apply sumR_abs|].
    apply Rle_trans with (sumR (fun i => w' i * delta) I).
    - apply sumR_le. intros i Hi. specialize (HI i Hi). rewrite (Ew i HI). destruct (Hpos i HI) as (H0 & _).
      replace (w' i * f (x i) - w' i * peval p (x i)) with (w' i * (f (x i) - peval p (x i))) by ring.
      rewrite Rabs_mult, (Rabs_right (w' i)) by lra. apply Rmult_le_compat_l; [lra|]. apply Hd, Hin, HI.
    - rewrite sumR_scal_r. apply Rmult_le_compat_r; [exact Hdelta|]. apply Rabs_def2' in Hsum. lra. }
  assert (B2 : Rabs ((P 1 - P (-1)) - (Q 1 - Q (-1))) <= 2 * delta).
  { destruct (MVT_cor2 (fun t => P t - Q t) (fun t => f t - peval p t) (-1) 1) as (c & Hc & Hb); [lra| |].
    - intros c Hc. apply (derivable_pt_lim_minus P Q); [apply HP, Hc|apply HQ].
    - replace (P 1 - P (-1) - (Q 1 - Q (-1))) with ((P 1 - Q 1) - (P (-1) - Q (-1))) by ring. rewrite Hc. rewrite Rabs_mult.
      rewrite (Rabs_right (1 - -1)) by lra. pose proof (Hd c ltac:(lra)). lra. }
  replace (sumR (fun i => w i * f (x i)) I - (P 1 - P (-1))) with
    ((sumR (fun i => w i * f (x i)) I - sumR (fun i => w i * peval p (x i)) I) +
     ((sumR (fun i => w i * peval p (x i)) I - (Q 1 - Q (-1))) + - ((P 1 - P (-1)) - (Q 1 - Q (-1))))) by ring.
  eapply Rle_trans; [apply Rabs_triang|].
  eapply Rle_trans; [apply Rplus_le_compat_l, Rabs_triang|]. rewrite Rabs_Ropp. lra.
Qed.

Lemma lagrange_remainder_lemma ORDER coordinate x (F : nat -> R -> R) a b y :
  (0 <= ORDER < INT_MAX)%Z -> Points coordinate (ORDER + 1) x -> Distinct (ORDER + 1) x ->
  (forall i, (0 <= i <= ORDER)%Z -> a <= x i <= b) -> a <= y <= b ->
  (forall k t, (Z.of_nat k <= ORDER)%Z -> a <= t <= b -> derivable_pt_lim (F k) t (F (S k) t)) ->
  exists v xi, (forall i, (0 <= i <= ORDER)%Z -> lagrange_value RNum ORDER coordinate i y = Ok (v i)) /\ a <= xi <= b /\
    F O y - Zsum (ORDER + 1) (fun i => F O (x i) * v i) =
      F (Z.to_nat (ORDER + 1)) xi / INR (fact (Z.to_nat (ORDER + 1))) * Zprod (ORDER + 1) (fun i => y - x i).
Proof.
  intros HO Hp Hd Hx Hy HD. destruct (lagrange_basis_lemma _ _ _ HO Hp Hd) as (Hv & _ & HB).
  destruct (nodal_remainder (ORDER + 1) x (lval1 ORDER x) (lgrad1 ORDER x) F a b y HB) as (xi & Hxi & E).
  - intros i Hi. apply Hx. lia.
  - exact Hy.
  - intros k t Hk Ht. apply HD; [lia|exact Ht].
  - exists (fun i => lval1 ORDER x i y), xi. split; [intros i Hi; apply Hv; lia|]. split; [exact Hxi|exact E].
Qed.

(** Multilinear elements. *)
Lemma linear_amplifies ds : Forall Nodal ds -> Forall (fun d => npts d = 2%Z /\ pt d 0 = -1 /\ pt d 1 = 1) ds ->
  forall xi, length xi = length ds -> InCube (-1) 1 xi -> Amplifies ds (repeat 1 (length ds)) xi.
Proof.
  intros HN HF. induction HF as [|d ds (H2 & P0 & P1) _ IH]; intros xi Hx HC; [exact I|].
  destruct xi as [|x xi]; [discriminate|]. inversion HN; subst. inversion HC; subst. cbn [length repeat Amplifies].
  split; [|apply IH; [assumption|cbn in Hx; lia|assumption]].
  destruct (two_points d ltac:(assumption) H2 P0 P1 x) as (F0 & F1). rewrite Zsum_sumR, H2. change (zseq (Z.to_nat 2)) with [0%Z; 1%Z]. rewrite !sumR_cons, F0, F1. cbn [sumR fold_right].
  rewrite !Rabs_right by lra. lra.
Qed.
Lemma linear_bound ds : Forall (fun d => npts d = 2%Z /\ pt d 0 = -1 /\ pt d 1 = 1) ds ->
  forall M xi, length xi = length ds -> length M = length ds -> InCube (-1) 1 xi ->
  error_bound ds (repeat 1 (length ds)) M xi = fold_right Rplus 0 (map (fun mx => fst mx / 2 * (1 - snd mx * snd mx)) (combine M xi)).
Proof.
  induction 1 as [|d ds (H2 & P0 & P1) _ IH]; intros M xi Hx HM HC.
  - destruct M; [|discriminate]. reflexivity.
  - destruct xi as [|x xi]; [discriminate|]. destruct M as [|m M]; [discriminate|]. inversion HC; subst.
    cbn [length repeat error_bound combine map fold_right fst snd]. rewrite IH; [|cbn in *; lia|cbn in *; lia|assumption].
    rewrite Zprod_prodR, H2. change (Z.to_nat 2) with 2%nat. change (zseq 2) with [0%Z; 1%Z]. cbn [prodR fold_right fact Nat.mul Nat.add INR].
    rewrite P0, P1. replace (x - -1) with (1 + x) by ring. rewrite (Rabs_right (1 + x)) by lra. rewrite (Rabs_minus_sym x 1), (Rabs_right (1 - x)) by lra. field.
Qed.
Lemma multilinear_error_lemma specs D f M var xi : Forall linear_spec specs -> specs <> [] ->
  length xi = length specs -> length M = length specs -> InCube (-1) 1 xi ->
  (forall t, InRange (map (fun _ => 2%Z) specs) t -> var t = Ok (f (map (fun i => 2 * IZR i - 1) t))) ->
  (forall j p, (j < length specs)%nat -> length p = length specs -> InCube (-1) 1 p -> D j 0%nat p = f p) ->
  (forall j k p, (j < length specs)%nat -> (k < 2)%nat -> length p = length specs -> InCube (-1) 1 p -> Partial (D j k) j p (D j (S k) p)) ->
  (forall j p, (j < length specs)%nat -> length p = length specs -> InCube (-1) 1 p -> Rabs (D j 2%nat p) <= nth j M 0) ->
  exists v, parent_value RNum (Z.of_nat (length specs)) (map lag specs) var xi = Ok v /\
    Rabs (f xi - v) <= fold_right Rplus 0 (map (fun mx => fst mx / 2 * (1 - snd mx * snd mx)) (combine M xi)).
Proof.
  intros HS Hne Hx HM HC Hv D0 DS DM. destruct (linear_directions specs HS) as (ds & E & N & C & P).
  assert (Hl : length ds = length specs) by (apply (f_equal (@length Z)) in C; unfold counts in C; rewrite !map_length in C; exact C).
  assert (C2 : counts ds = map (fun _ => 2%Z) specs).
  { rewrite C. apply map_ext_in. intros so Hso. rewrite Forall_forall in HS. destruct (HS so Hso) as (-> & _). reflexivity. }
  assert (G : forall t, InRange (counts ds) t -> gridpoint ds t = map (fun i => 2 * IZR i - 1) t).
  { clear - P. induction P as [|d ds (H2 & P0 & P1) _ IH]; intros t Ht.
    - apply InRange_nil in Ht. subst. reflexivity.
    - change (counts (d :: ds)) with (npts d :: counts ds) in Ht. apply InRange_cons in Ht. destruct Ht as (i & t' & -> & Hi & Ht).
      cbn [gridpoint map]. rewrite IH by exact Ht. f_equal. assert (Ci : i = 0%Z \/ i = 1%Z) by lia.
      destruct Ci as [->| ->]; [rewrite P0|rewrite P1]; cbn; lra. }
  assert (Nd : forall j d, nth_error ds j = Some d -> (j < length specs)%nat /\ npts d = 2%Z).
  { intros j d Hj. split; [rewrite <- Hl; apply nth_error_Some; congruence|]. rewrite Forall_forall in P. apply (P d). eapply nth_error_In. exact Hj. }
  assert (Hx' : length xi = length ds) by congruence. assert (HM' : length M = length ds) by congruence.
  rewrite <- (linear_bound ds P M xi Hx' HM' HC). rewrite <- Hl.
  apply (parent_error (-1) 1 (map lag specs) ds D f); try assumption.
  - destruct ds; [destruct specs; [congruence|discriminate]|discriminate].
  - apply Forall_forall. intros d Hd i Hi. rewrite Forall_forall in P. destruct (P d Hd) as (H2 & P0 & P1).
    assert (Ci : i = 0%Z \/ i = 1%Z) by lia. destruct Ci as [->| ->]; [rewrite P0|rewrite P1]; lra.
  - apply linear_amplifies; assumption.
  - intros t Ht. rewrite (G t Ht). apply Hv. rewrite <- C2. exact Ht.
  - intros j p Hj Hp. apply D0; congruence.
  - intros j k d p Hj Hk Hp HCp. destruct (Nd j d Hj) as (Hj' & H2). rewrite H2 in Hk. apply DS; [exact Hj'|exact Hk|congruence|exact HCp].
  - intros j d p Hj Hp HCp. destruct (Nd j d Hj) as (Hj' & H2). rewrite H2. apply DM; [exact Hj'|congruence|exact HCp].
Qed.

(** The bound is attained: x^2 on a square. *)
Lemma square_example : exists D : nat -> nat -> list R -> R,
  (forall j p, (j < 2)%nat -> length p = 2%nat -> InCube (-1) 1 p -> D j 0%nat p = (nth 0 p 0 * nth 0 p 0)) /\
  (forall j k p, (j < 2)%nat -> (k < 2)%nat -> length p = 2%nat -> InCube (-1) 1 p -> Partial (D j k) j p (D j (S k) p)) /\
  (forall j p, (j < 2)%nat -> length p = 2%nat -> InCube (-1) 1 p -> Rabs (D j 2%nat p) <= nth j [2; 0] 0).
Proof.
  exists (fun j k p => match j, k with
    | _, O => nth 0 p 0 * nth 0 p 0 | O, 1%nat => 2 * nth 0 p 0 | O, 2%nat => 2 | _, _ => 0 end).
  split; [|split].
  - intros j p Hj _ _. destruct j as [|j]; reflexivity.
  - intros j k p Hj Hk Hp _. destruct p as [|x [|y [|z p]]]; try discriminate. unfold Partial.
    destruct j as [|[|j]]; [| |lia]; destruct k as [|[|k]]; try lia; cbn [nth upd].
    + replace (2 * x) with (1 * x + x * 1) by ring. apply (derivable_pt_lim_mult id id); apply derivable_pt_lim_id.
    + pose proof (derivable_pt_lim_scal id 2 x 1 (derivable_pt_lim_id x)) as P. rewrite Rmult_1_r in P. exact P.
    + apply (derivable_pt_lim_const (x * x)).
    + apply (derivable_pt_lim_const 0).
  - intros j p Hj _ _. destruct j as [|[|j]]; [| |lia]; cbn; [rewrite Rabs_right by lra; lra|rewrite Rabs_R0; lra].
Qed.
Lemma quartic_example : (forall t, derivable_pt_lim (fun t => t ^ 5 / 5) t (t ^ 4)) /\
  (forall t, -1 <= t <= 1 -> Rabs (t ^ 4 - peval [- (1 / 8); 0; 1] t) <= 1 / 8).
Proof.
  split.
  - intros t. pose proof (derivable_pt_lim_scal (fun t => t ^ 5) (/ 5) t _ (derivable_pt_lim_pow t 5)) as P.
    replace (/ 5 * (INR 5 * t ^ Nat.pred 5)) with (t ^ 4) in P by (cbn; field).
    eapply deriv_ext; [|exact P]. intros s. unfold mult_real_fct. field.
  - intros t Ht. replace (t ^ 4 - peval [- (1 / 8); 0; 1] t) with ((t * t - 1 / 2) * (t * t - 1 / 2) - 1 / 8) by (cbn; field).
    assert (0 <= t * t <= 1) by nra. set (z := t * t - 1 / 2). assert (Hz : - (1 / 2) <= z <= 1 / 2) by (unfold z; lra).
    assert (0 <= z * z <= 1 / 4) by nra. apply Rabs_le. split; lra.
Qed.
