(** Proofs about mass and stiffness matrices computed by quadrature. *)
From Verif Require Import Base Num SpecIndex SpecMath ModelAssert ModelCArray ModelSpacing ModelQuadrature ModelLagrange
  ModelBasisProduct ModelTransforms SpecCArray SpecNumeric SpecBasis SpecIntegral SpecEnergy
  ProofBase ProofBox ProofRep ProofPoly ProofSpacing ProofLagrange ProofTensor ProofTransform ProofQuadrature ProofIntegral.
From Coq Require Import Reals Lra Lia.
Open Scope Z_scope.

(** ** One direction *)
Fixpoint lincomb (ps : Z -> list R) (g : Z -> R) (l : list Z) : list R :=
  match l with [] => [] | i :: l' => padd (pscal (g i) (ps i)) (lincomb ps g l') end.
Lemma lincomb_eval ps g l x : peval (lincomb ps g l) x = sumR (fun i => peval (ps i) x * g i)%R l.
Proof. induction l as [|i l IH]; [reflexivity|]. cbn [lincomb]. rewrite peval_padd, peval_pscal, IH, sumR_cons. ring. Qed.
Lemma lincomb_length ps g l n : (forall i, In i l -> (length (ps i) <= n)%nat) -> (length (lincomb ps g l) <= n)%nat.
Proof.
  induction l as [|i l IH]; intros H; [cbn; lia|]. cbn [lincomb]. rewrite padd_length, pscal_length.
  assert (A := H i (or_introl eq_refl)). assert (B : (length (lincomb ps g l) <= n)%nat) by (apply IH; intros j Hj; apply H; now right). lia.
Qed.
Fixpoint pd (p : list R) : list R :=
  match p with
  | [] => []
  | _ :: p' => match p' with [] => [] | _ => padd p' (0%R :: pd p') end
  end.
Lemma pd_length p : length (pd p) = Nat.pred (length p).
Proof.
  induction p as [|a p IH]; [reflexivity|]. cbn [pd]. destruct p as [|b p]; [reflexivity|].
  rewrite padd_length. cbn [length] in *. rewrite IH. lia.
Qed.
Lemma pd_pderiv p x : peval (pd p) x = peval (pderiv p) x.
Proof.
  induction p as [|a p IH]; [reflexivity|]. cbn [pd pderiv]. destruct p as [|b p]; [cbn; ring|].
  rewrite !peval_padd. cbn [peval]. cbn [peval] in IH. now rewrite IH.
Qed.
Lemma pd_deriv p x : derivable_pt_lim (peval p) x (peval (pd p) x).
Proof. rewrite pd_pderiv. apply peval_deriv. Qed.

Lemma polys d : Nodal d -> exists ps : Z -> list R, forall i, 0 <= i < npts d ->
  Z.of_nat (length (ps i)) = npts d /\ forall y, fval d i y = peval (ps i) y.
Proof.
  intros HN.
  assert (K : forall n : nat, Z.of_nat n <= npts d -> exists ps : Z -> list R, forall i, 0 <= i < Z.of_nat n ->
    Z.of_nat (length (ps i)) = npts d /\ forall y, fval d i y = peval (ps i) y).
  { induction n as [|n IH]; intros Hn; [exists (fun _ => []); intros i Hi; lia|].
    destruct IH as (ps & Hps); [lia|]. destruct (nb_degree _ _ _ _ HN (Z.of_nat n)) as (p & Hp & He); [lia|].
    exists (fun i => if i =? Z.of_nat n then p else ps i). intros i Hi. destruct (Z.eqb_spec i (Z.of_nat n)) as [->|Ne].
    - now split.
    - apply Hps. lia. }
  destruct (Z_le_dec 0 (npts d)) as [H|H].
  - destruct (K (Z.to_nat (npts d))) as (ps & Hps); [lia|]. exists ps. intros i Hi. apply Hps. lia.
  - exists (fun _ => []). intros i Hi. lia.
Qed.

Definition grid (m : Z) (x : Z -> R) : list R := map x (zseq (Z.to_nat m)).
Lemma grid_length m x : length (grid m x) = Z.to_nat m.
Proof. unfold grid, zseq. now rewrite !map_length, seq_length. Qed.
Lemma in_grid m x y : In y (grid m x) <-> exists i, 0 <= i < m /\ y = x i.
Proof.
  unfold grid. rewrite in_map_iff. split.
  - intros (i & <- & Hi). exists i. split; [|reflexivity]. apply in_zseq in Hi. lia.
  - intros (i & Hi & ->). exists i. split; [reflexivity|]. apply in_zseq. lia.
Qed.
Lemma grid_nodup m x : Distinct m x -> NoDup (grid m x).
Proof.
  intros H. unfold grid.
  assert (K : forall l, NoDup l -> (forall i, In i l -> 0 <= i < m) -> NoDup (map x l)).
  { induction l as [|i l IH]; intros Hn Hi; [constructor|]. inversion Hn as [|? ? Hni Hn']; subst. cbn. constructor.
    - intros C. apply in_map_iff in C. destruct C as (j & E & Hj). apply Hni.
      rewrite <- (H j i); [exact Hj|apply Hi; now right|apply Hi; now left|exact E].
    - apply IH; [exact Hn'|]. intros j Hj. apply Hi. now right. }
  apply K; [apply NoDup_zseq|]. intros i Hi. apply in_zseq in Hi. lia.
Qed.
Lemma nodal_distinct d : Nodal d -> Distinct (npts d) (pt d).
Proof.
  intros HN i j Hi Hj E. pose proof (nb_nodal _ _ _ _ HN i i Hi Hi) as A. pose proof (nb_nodal _ _ _ _ HN i j Hi Hj) as B.
  rewrite E, B in A. rewrite Z.eqb_refl in A. destruct (Z.eqb_spec i j); [assumption|lra].
Qed.

Lemma values_vanish d m x g : Nodal d -> Distinct m x -> npts d <= m ->
  (forall q, 0 <= q < m -> Zsum (npts d) (fun i => fval d i (x q) * g i)%R = 0%R) ->
  forall i, 0 <= i < npts d -> g i = 0%R.
Proof.
  intros HN HD Hm H i Hi. destruct (polys d HN) as (ps & Hps).
  assert (E : forall y, peval (lincomb ps g (zseq (Z.to_nat (npts d)))) y = Zsum (npts d) (fun i => fval d i y * g i)%R).
  { intros y. rewrite lincomb_eval, Zsum_sumR. apply sumR_ext. intros k Hk. apply in_zseq in Hk.
    destruct (Hps k) as (_ & ->); [lia|reflexivity]. }
  assert (Zr : forall y, peval (lincomb ps g (zseq (Z.to_nat (npts d)))) y = 0%R).
  { apply (roots_zero (grid m x)); [now apply grid_nodup| |].
    - rewrite grid_length. etransitivity; [apply (lincomb_length _ _ _ (Z.to_nat (npts d)))|lia].
      intros k Hk. apply in_zseq in Hk. destruct (Hps k) as (L & _); lia.
    - intros r Hr. apply in_grid in Hr. destruct Hr as (q & Hq & ->). rewrite E. now apply H. }
  specialize (Zr (pt d i)). rewrite E, Zsum_sumR in Zr.
  rewrite (sumR_one _ _ i) in Zr.
  - rewrite (nb_nodal _ _ _ _ HN), Z.eqb_refl in Zr by assumption. lra.
  - apply NoDup_zseq.
  - apply in_zseq. lia.
  - intros k Hk Ne. apply in_zseq in Hk. rewrite (nb_nodal _ _ _ _ HN) by lia.
    destruct (Z.eqb_spec k i); [contradiction|lra].
Qed.

Lemma zero_derivative p : (forall x, derivable_pt_lim (peval p) x 0%R) -> forall x y, peval p x = peval p y.
Proof.
  intros H.
  assert (K : forall a b, (a < b)%R -> peval p b = peval p a).
  { intros a b Hab. destruct (MVT_cor2 (peval p) (fun _ => 0%R) a b Hab) as (c & Hc & _).
    { intros c _. apply H. } lra. }
  intros x y. destruct (Rtotal_order x y) as [L|[->|L]]; [symmetry; now apply K|reflexivity|now apply K].
Qed.

Lemma derivatives_vanish d m x g : Nodal d -> Distinct m x -> npts d - 1 <= m ->
  (forall q, 0 <= q < m -> Zsum (npts d) (fun i => fder d i (x q) * g i)%R = 0%R) ->
  forall i j, 0 <= i < npts d -> 0 <= j < npts d -> g i = g j.
Proof.
  intros HN HD Hm H i j Hi Hj. destruct (polys d HN) as (ps & Hps).
  set (p := lincomb ps g (zseq (Z.to_nat (npts d)))).
  assert (E : forall y, peval p y = Zsum (npts d) (fun i => fval d i y * g i)%R).
  { intros y. unfold p. rewrite lincomb_eval, Zsum_sumR. apply sumR_ext. intros k Hk. apply in_zseq in Hk.
    destruct (Hps k) as (_ & ->); [lia|reflexivity]. }
  assert (D : forall y, peval (pd p) y = Zsum (npts d) (fun i => fder d i y * g i)%R).
  { intros y. apply (deriv_unique (peval p) y); [apply pd_deriv|].
    apply (deriv_ext (fun y => Zsum (npts d) (fun i => fval d i y * g i)%R)); [intros z; symmetry; apply E|].
    rewrite Zsum_sumR. apply (deriv_ext (fun y => sumR (fun i => fval d i y * g i)%R (zseq (Z.to_nat (npts d))))).
    { intros z. symmetry. apply Zsum_sumR. }
    apply (deriv_sumR (fun i y => fval d i y * g i)%R (fun i => fder d i y * g i)%R).
    intros k Hk. apply in_zseq in Hk. apply deriv_scal_r. apply (nb_deriv _ _ _ _ HN). lia. }
  assert (Zr : forall y, peval (pd p) y = 0%R).
  { apply (roots_zero (grid m x)); [now apply grid_nodup| |].
    - rewrite grid_length, pd_length. assert ((length p <= Z.to_nat (npts d))%nat); [|lia].
      apply lincomb_length. intros k Hk. apply in_zseq in Hk. destruct (Hps k) as (L & _); lia.
    - intros r Hr. apply in_grid in Hr. destruct Hr as (q & Hq & ->). rewrite D. now apply H. }
  assert (C : forall a b, peval p a = peval p b).
  { apply zero_derivative. intros y. rewrite <- (Zr y). apply pd_deriv. }
  assert (V : forall k, 0 <= k < npts d -> peval p (pt d k) = g k).
  { intros k Hk. rewrite E, Zsum_sumR. rewrite (sumR_one _ _ k).
    - rewrite (nb_nodal _ _ _ _ HN), Z.eqb_refl by assumption. ring.
    - apply NoDup_zseq.
    - apply in_zseq. lia.
    - intros l Hl Ne. apply in_zseq in Hl. rewrite (nb_nodal _ _ _ _ HN) by lia.
      destruct (Z.eqb_spec l k); [contradiction|ring]. }
  rewrite <- (V i Hi), <- (V j Hj). apply C.
Qed.

(** ** All directions *)
Definition ingrid (ms : list Z) (xs : list (Z -> R)) (xi : list R) : Prop := exists q, InRange ms q /\ xi = point_at xs q.
Lemma ingrid_cons m ms x xs q t : 0 <= q < m -> ingrid ms xs t -> ingrid (m :: ms) (x :: xs) (x q :: t).
Proof.
  intros Hq (k & Hk & ->). exists (q :: k). split; [|reflexivity]. apply InRange_cons. now exists q, k.
Qed.
Lemma ingrid_length ms xs xi : length ms = length xs -> ingrid ms xs xi -> length xi = length xs.
Proof.
  intros L (q & Hq & ->). revert xs q L Hq. induction ms as [|m ms IH]; intros [|x xs] q L Hq; try discriminate.
  - reflexivity.
  - apply InRange_cons in Hq. destruct Hq as (i & t & -> & _ & Ht). cbn. f_equal. apply IH; [now injection L|exact Ht].
Qed.
Lemma ingrid_exists ms xs : Forall (fun m => 0 < m) ms -> length ms = length xs -> exists xi, ingrid ms xs xi.
Proof.
  revert xs. induction ms as [|m ms IH]; intros [|x xs] HP L; try discriminate.
  - exists [], []. split; [now apply InRange_nil|reflexivity].
  - inversion HP; subst. destruct (IH xs) as (xi & H); [assumption|now injection L|]. exists (x 0 :: xi). now apply ingrid_cons.
Qed.

Lemma dinterp_cons0 d ds u x xi : dinterp 0 (d :: ds) u (x :: xi) =
  Zsum (npts d) (fun i => fder d i x * interp ds (fun t => u (i :: t)) xi)%R.
Proof.
  unfold dinterp, interp. change (counts (d :: ds)) with (npts d :: counts ds). cbn [BoxSum dtensor].
  apply Zsum_ext. intros i _. rewrite <- BoxSum_scal. apply BoxSum_ext. intros t _. ring.
Qed.
Lemma dinterp_consS j d ds u x xi : dinterp (S j) (d :: ds) u (x :: xi) =
  Zsum (npts d) (fun i => fval d i x * dinterp j ds (fun t => u (i :: t)) xi)%R.
Proof.
  unfold dinterp. change (counts (d :: ds)) with (npts d :: counts ds). cbn [BoxSum dtensor].
  apply Zsum_ext. intros i _. rewrite <- BoxSum_scal. apply BoxSum_ext. intros t _. ring.
Qed.
Lemma interp_cons' d ds u x xi : interp (d :: ds) u (x :: xi) =
  Zsum (npts d) (fun i => fval d i x * interp ds (fun t => u (i :: t)) xi)%R.
Proof.
  unfold interp. change (counts (d :: ds)) with (npts d :: counts ds). cbn [BoxSum tensor].
  apply Zsum_ext. intros i _. rewrite <- BoxSum_scal. apply BoxSum_ext. intros t _. ring.
Qed.

Inductive Dist : list Z -> list (Z -> R) -> Prop :=
| Dist_nil : Dist [] []
| Dist_cons m ms x xs : 0 < m -> Distinct m x -> Dist ms xs -> Dist (m :: ms) (x :: xs).
Lemma Dist_length ms xs : Dist ms xs -> length ms = length xs.
Proof. induction 1; cbn; congruence. Qed.
Lemma Dist_exists ms xs : Dist ms xs -> exists xi, ingrid ms xs xi.
Proof.
  intros H. apply ingrid_exists; [|now apply Dist_length]. induction H; constructor; assumption.
Qed.

Lemma interp_vanish ds : forall ms xs u, Forall Nodal ds -> Dist ms xs -> Full (counts ds) ms ->
  (forall xi, ingrid ms xs xi -> interp ds u xi = 0%R) -> forall t, InRange (counts ds) t -> u t = 0%R.
Proof.
  induction ds as [|d ds IH]; intros ms xs u HN HD HF H t Ht.
  - inversion HF; subst. inversion HD; subst. apply InRange_nil in Ht. subst.
    assert (E : interp [] u [] = 0%R). { apply H. exists []. split; [now apply InRange_nil|reflexivity]. }
    unfold interp in E. cbn in E. lra.
  - change (counts (d :: ds)) with (npts d :: counts ds) in *. inversion HF as [|? m ? ms' Hm HF']; subst.
    inversion HD as [|? ? x xs' Hp Hx HD']; subst. inversion HN as [|? ? Hd HN']; subst.
    apply InRange_cons in Ht. destruct Ht as (i & t' & -> & Hi & Ht').
    apply (IH ms' xs' (fun t => u (i :: t)) HN' HD' HF'); [|exact Ht'].
    intros xi Hxi. revert i Hi. apply (values_vanish d m x (fun i => interp ds (fun t => u (i :: t)) xi) Hd Hx Hm).
    intros q Hq. rewrite <- interp_cons'. apply H. now apply ingrid_cons.
Qed.

Definition Const (ns : list Z) (u : list Z -> R) : Prop :=
  exists c, forall t, InRange ns t -> u t = c.
Inductive Almost : list Z -> list Z -> Prop :=
| Almost_full ns ms : Full ns ms -> Almost ns ms
| Almost_here n ns m ms : n - 1 <= m -> Full ns ms -> Almost (n :: ns) (m :: ms)
| Almost_later n ns m ms : n <= m -> Almost ns ms -> Almost (n :: ns) (m :: ms).
Lemma interp_minus ds u w xi : interp ds (fun t => u t - w t)%R xi = (interp ds u xi - interp ds w xi)%R.
Proof.
  replace (interp ds u xi - interp ds w xi)%R with (1 * interp ds u xi + (-1) * interp ds w xi)%R by ring.
  rewrite <- interp_linear. apply interp_ext. intros t _. ring.
Qed.
Lemma dinterp_ext j ds u w xi : (forall t, InRange (counts ds) t -> u t = w t) -> dinterp j ds u xi = dinterp j ds w xi.
Proof. intros H. unfold dinterp. apply BoxSum_ext. intros t Ht. now rewrite H. Qed.

Lemma gradient_vanish ds : forall ms xs u, Forall Nodal ds -> Forall (fun d => 0 < npts d) ds ->
  Dist ms xs -> Almost (counts ds) ms ->
  (forall xi j, (j < length ds)%nat -> ingrid ms xs xi -> dinterp j ds u xi = 0%R) -> Const (counts ds) u.
Proof.
  induction ds as [|d ds IH]; intros ms xs u HN HP HD HA H.
  - exists (u []). intros t Ht. apply InRange_nil in Ht. now subst.
  - change (counts (d :: ds)) with (npts d :: counts ds) in *.
    inversion HN as [|? ? Hd HN']; subst. inversion HP as [|? ? Hn HP']; subst.
    assert (Hsplit : exists m ms', ms = m :: ms' /\
      ((npts d <= m /\ Almost (counts ds) ms') \/ (npts d - 1 <= m /\ Full (counts ds) ms'))).
    { inversion HA as [? ? F|n ns m ms' A B|n ns m ms' A B]; subst.
      - inversion F as [|? m ? ms' Hm HF']; subst. exists m, ms'. split; [reflexivity|]. left. split; [exact Hm|now constructor].
      - exists m, ms'. split; [reflexivity|]. right. now split.
      - exists m, ms'. split; [reflexivity|]. left. now split. }
    destruct Hsplit as (m & ms' & -> & Hcase). inversion HD as [|? ? x xs' Hp Hx HD']; subst.
    assert (Eq : forall xi, ingrid ms' xs' xi -> forall i j, 0 <= i < npts d -> 0 <= j < npts d ->
      interp ds (fun t => u (i :: t)) xi = interp ds (fun t => u (j :: t)) xi).
    { intros xi Hxi. apply (derivatives_vanish d m x (fun i => interp ds (fun t => u (i :: t)) xi) Hd Hx); [lia|].
      intros q Hq. rewrite <- dinterp_cons0. apply H; [cbn; lia|]. now apply ingrid_cons. }
    destruct Hcase as [(Hm & HA')|(Hm & HF')].
    + assert (Ci : forall i, 0 <= i < npts d -> Const (counts ds) (fun t => u (i :: t))).
      { intros i Hi. apply (IH ms' xs'); [exact HN'|exact HP'|exact HD'|exact HA'|].
        intros xi j Hj Hxi. revert i Hi.
        apply (values_vanish d m x (fun i => dinterp j ds (fun t => u (i :: t)) xi) Hd Hx Hm).
        intros q Hq. rewrite <- dinterp_consS. apply H; [cbn; lia|]. now apply ingrid_cons. }
      destruct (Dist_exists _ _ HD') as (xi & Hxi). destruct (Ci 0) as (c0 & H0); [lia|]. exists c0.
      assert (Lxi : length xi = length ds).
      { rewrite (ingrid_length ms' xs' xi); [|now apply Dist_length|exact Hxi]. rewrite <- (Dist_length _ _ HD').
        transitivity (length (counts ds)); [|apply map_length].
        assert (L : forall a b, Almost a b -> length b = length a).
        { induction 1 as [? ? F|? ? ? ? ? F|]; [symmetry; now apply Forall2_len in F| |cbn; congruence].
          apply Forall2_len in F. cbn. congruence. } now apply L. }
      intros t Ht. apply InRange_cons in Ht. destruct Ht as (i & t' & -> & Hi & Ht').
      destruct (Ci i Hi) as (ci & Hci). rewrite (Hci t' Ht').
      pose proof (Eq xi Hxi i 0 Hi ltac:(lia)) as E.
      rewrite (interp_ext ds (fun t => u (i :: t)) (fun _ => ci)), (interp_ext ds (fun t => u (0 :: t)) (fun _ => c0)) in E by assumption.
      rewrite !interp_const in E by (assumption || lia). exact E.
    + assert (Ei : forall i, 0 <= i < npts d -> forall t, InRange (counts ds) t -> u (i :: t) = u (0 :: t)).
      { intros i Hi t Ht. apply Rminus_diag_uniq.
        apply (interp_vanish ds ms' xs' (fun t => u (i :: t) - u (0%Z :: t))%R HN' HD' HF'); [|exact Ht].
        intros xi Hxi. rewrite (interp_minus ds (fun t => u (i :: t)) (fun t => u (0 :: t))).
        rewrite (Eq xi Hxi i 0 Hi ltac:(lia)). ring. }
      destruct (IH ms' xs' (fun t => u (0 :: t)) HN' HP' HD') as (c & Hc); [now constructor| |].
      { intros xi j Hj Hxi. specialize (H (x 0 :: xi) (S j) ltac:(cbn; lia)).
        rewrite dinterp_consS in H.
        rewrite (Zsum_ext _ _ (fun i => fval d i (x 0%Z) * dinterp j ds (fun t => u (0%Z :: t)) xi)%R) in H.
        2:{ intros i Hi. f_equal. apply dinterp_ext. intros t Ht. now apply Ei. }
        rewrite Zsum_sumR, sumR_scal_r, <- Zsum_sumR, (nb_unity _ _ _ _ Hd) in H.
        rewrite <- H; [ring|]. apply ingrid_cons; [lia|exact Hxi]. }
      exists c. intros t Ht. apply InRange_cons in Ht. destruct Ht as (i & t' & -> & Hi & Ht').
      rewrite Ei by assumption. now apply Hc.
Qed.

(** ** Products of polynomials, one per direction *)
Fixpoint prodpoly (ps : list (list R)) (xi : list R) : R :=
  match ps, xi with
  | p :: ps', x :: xi' => (peval p x * prodpoly ps' xi')%R
  | _, _ => 1%R
  end.
Fixpoint dprod (j : nat) (ps : list (list R)) (xi : list R) {struct ps} : R :=
  match ps, xi with
  | p :: ps', x :: xi' =>
      match j with
      | O => (peval (pd p) x * prodpoly ps' xi')%R
      | S j' => (peval p x * dprod j' ps' xi')%R
      end
  | _, _ => 0%R
  end.
Definition Fits (ps : list (list R)) (ds : list direction) : Prop :=
  Forall2 (fun p d => Z.of_nat (length p) <= npts d) ps ds.
Definition sampled (ds : list direction) (ps : list (list R)) (t : list Z) : R := prodpoly ps (gridpoint ds t).

Lemma interp_sampled ds : forall ps xi, Forall Nodal ds -> Fits ps ds -> length xi = length ds ->
  interp ds (sampled ds ps) xi = prodpoly ps xi.
Proof.
  induction ds as [|d ds IH]; intros ps xi HN HF L.
  - inversion HF; subst. destruct xi; [|discriminate]. unfold interp, sampled. cbn. ring.
  - inversion HF as [|p ? ps' ? Hp HF']; subst. inversion HN as [|? ? Hd HN']; subst. destruct xi as [|x xi]; [discriminate|].
    rewrite interp_cons'. cbn [prodpoly].
    rewrite (Zsum_ext _ _ (fun i => peval p (pt d i) * fval d i x * prodpoly ps' xi)%R).
    + rewrite Zsum_sumR, sumR_scal_r, <- Zsum_sumR. f_equal. now apply (nb_reproduce _ _ _ _ Hd).
    + intros i Hi. rewrite (interp_ext ds _ (fun t => peval p (pt d i) * sampled ds ps' t)%R) by (intros; reflexivity).
      rewrite interp_scal, IH; [ring|assumption..|now injection L].
Qed.
Lemma sum_derivative d p x : Nodal d -> Z.of_nat (length p) <= npts d ->
  Zsum (npts d) (fun i => fder d i x * peval p (pt d i))%R = peval (pd p) x.
Proof.
  intros HN Hp. apply (deriv_unique (peval p) x); [|apply pd_deriv].
  apply (deriv_ext (fun y => Zsum (npts d) (fun i => fval d i y * peval p (pt d i))%R)).
  { intros y. rewrite <- (nb_reproduce _ _ _ _ HN p y Hp). apply Zsum_ext. intros; ring. }
  rewrite Zsum_sumR. apply (deriv_ext (fun y => sumR (fun i => fval d i y * peval p (pt d i))%R (zseq (Z.to_nat (npts d))))).
  { intros z. symmetry. apply Zsum_sumR. }
  apply (deriv_sumR (fun i y => fval d i y * peval p (pt d i))%R (fun i => fder d i x * peval p (pt d i))%R).
  intros k Hk. apply in_zseq in Hk. apply deriv_scal_r. apply (nb_deriv _ _ _ _ HN). lia.
Qed.
Lemma dinterp_sampled ds : forall ps j xi, Forall Nodal ds -> Fits ps ds -> length xi = length ds ->
  dinterp j ds (sampled ds ps) xi = dprod j ps xi.
Proof.
  induction ds as [|d ds IH]; intros ps j xi HN HF L.
  - inversion HF; subst. destruct xi; [|discriminate]. unfold dinterp, sampled. cbn. ring.
  - inversion HF as [|p ? ps' ? Hp HF']; subst. inversion HN as [|? ? Hd HN']; subst. destruct xi as [|x xi]; [discriminate|].
    injection L as L. destruct j as [|j]; cbn [dprod].
    + rewrite dinterp_cons0.
      rewrite (Zsum_ext _ _ (fun i => fder d i x * peval p (pt d i) * prodpoly ps' xi)%R).
      * rewrite Zsum_sumR, sumR_scal_r, <- Zsum_sumR. f_equal. now apply sum_derivative.
      * intros i Hi. rewrite (interp_ext ds _ (fun t => peval p (pt d i) * sampled ds ps' t)%R) by (intros; reflexivity).
        rewrite interp_scal, interp_sampled by assumption. ring.
    + rewrite dinterp_consS.
      rewrite (Zsum_ext _ _ (fun i => peval p (pt d i) * fval d i x * dprod j ps' xi)%R).
      * rewrite Zsum_sumR, sumR_scal_r, <- Zsum_sumR. f_equal. now apply (nb_reproduce _ _ _ _ Hd).
      * intros i Hi. rewrite (dinterp_ext j ds _ (fun t => peval p (pt d i) * sampled ds ps' t)%R) by (intros; reflexivity).
        rewrite <- (IH ps' j xi HN' HF' L). unfold dinterp.
        rewrite (BoxSum_ext _ _ (fun t => peval p (pt d i) * (dtensor j ds t xi * sampled ds ps' t))%R) by (intros; ring).
        rewrite BoxSum_scal. ring.
Qed.

(** ** Polynomials that vanish at the points *)
Fixpoint nodepoly (l : list R) : list R := match l with [] => [1%R] | r :: l' => plin (- r) 1 (nodepoly l') end.
Lemma nodepoly_length l : length (nodepoly l) = S (length l).
Proof. induction l as [|r l IH]; [reflexivity|]. cbn [nodepoly]. now rewrite plin_length, IH. Qed.
Lemma nodepoly_root l r : In r l -> peval (nodepoly l) r = 0%R.
Proof.
  induction l as [|a l IH]; intros H; [destruct H|]. cbn [nodepoly]. rewrite peval_plin.
  destruct H as [->|H]; [ring|]. rewrite IH by exact H. ring.
Qed.
Lemma nodepoly_nonzero l : exists y, forall z, (y <= z)%R -> peval (nodepoly l) z <> 0%R.
Proof.
  induction l as [|a l (y & H)]; [exists 0%R; intros z _; cbn; lra|].
  exists (Rmax y (a + 1)). intros z Hz. cbn [nodepoly]. rewrite peval_plin.
  pose proof (Rmax_l y (a + 1)). pose proof (Rmax_r y (a + 1)).
  apply Rmult_integral_contrapositive. split; [lra|]. apply H. lra.
Qed.
Definition vanishing (m : Z) (x : Z -> R) : list R := nodepoly (grid m x).
Lemma vanishing_length m x : 0 <= m -> Z.of_nat (length (vanishing m x)) = m + 1.
Proof. intros H. unfold vanishing. rewrite nodepoly_length, grid_length. lia. Qed.
Lemma vanishing_root m x q : 0 <= q < m -> peval (vanishing m x) (x q) = 0%R.
Proof. intros H. apply nodepoly_root, in_grid. now exists q. Qed.
Lemma vanishing_nonzero m x : exists y, peval (vanishing m x) y <> 0%R.
Proof. destruct (nodepoly_nonzero (grid m x)) as (y & H). exists y. apply H. lra. Qed.

(** An antiderivative. *)
Fixpoint antip (k : nat) (p : list R) : list R := match p with [] => [] | a :: p' => (a / INR (S k))%R :: antip (S k) p' end.
Definition anti (p : list R) : list R := 0%R :: antip 0 p.
Lemma anti_length p : length (anti p) = S (length p).
Proof. unfold anti. cbn. f_equal. generalize 0%nat. induction p as [|a p IH]; intros k; [reflexivity|]. cbn. now rewrite IH. Qed.
Lemma antip_deriv p : forall k x, derivable_pt_lim (fun y => y ^ (S k) * peval (antip k p) y)%R x (x ^ k * peval p x)%R.
Proof.
  induction p as [|a p IH]; intros k x.
  - cbn [antip peval]. rewrite Rmult_0_r. apply (deriv_ext (fun _ => 0%R)); [intros; ring|]. apply derivable_pt_lim_const.
  - cbn [antip peval].
    apply (deriv_ext (fun y => (a / INR (S k)) * y ^ (S k) + y ^ (S (S k)) * peval (antip (S k) p) y)%R).
    { intros y. cbn [pow]. ring. }
    replace (x ^ k * (a + x * peval p x))%R with ((a / INR (S k)) * (INR (S k) * x ^ k) + x ^ (S k) * peval p x)%R.
    2:{ cbn [pow]. field. apply not_0_INR. discriminate. }
    apply (derivable_pt_lim_plus (fun y => (a / INR (S k)) * y ^ (S k))%R (fun y => y ^ (S (S k)) * peval (antip (S k) p) y)%R).
    + apply (derivable_pt_lim_scal (fun y => y ^ (S k))%R). apply (derivable_pt_lim_pow x (S k)).
    + apply IH.
Qed.
Lemma anti_deriv p x : peval (pd (anti p)) x = peval p x.
Proof.
  apply (deriv_unique (peval (anti p)) x); [apply pd_deriv|].
  apply (deriv_ext (fun y => y ^ 1 * peval (antip 0 p) y)%R); [intros y; cbn; ring|].
  replace (peval p x) with (x ^ 0 * peval p x)%R by (cbn; ring). apply antip_deriv.
Qed.

(** ** Fields without energy *)
Definition ones (ds : list direction) : list (list R) := map (fun _ => [1%R]) ds.
Lemma ones_value ds : forall xi, prodpoly (ones ds) xi = 1%R.
Proof. induction ds as [|d ds IH]; intros [|x xi]; try reflexivity. cbn. rewrite IH. ring. Qed.
Lemma ones_deriv ds : forall j xi, dprod j (ones ds) xi = 0%R.
Proof. induction ds as [|d ds IH]; intros j [|x xi]; try reflexivity. destruct j; cbn; [ring|]. rewrite IH. ring. Qed.
Lemma ones_fit ds : Forall (fun d => 0 < npts d) ds -> Fits (ones ds) ds.
Proof. induction 1 as [|d ds Hd H IH]; constructor; [cbn; lia|exact IH]. Qed.

Lemma ingrid_inv m ms x xs xi : ingrid (m :: ms) (x :: xs) xi ->
  exists q t, xi = x q :: t /\ 0 <= q < m /\ ingrid ms xs t.
Proof.
  intros (k & Hk & ->). apply InRange_cons in Hk. destruct Hk as (q & t & -> & Hq & Ht).
  exists q, (point_at xs t). split; [reflexivity|]. split; [exact Hq|]. now exists t.
Qed.

Lemma mass_mode ds : forall ms xs, Forall (fun d => 0 < npts d) ds -> Dist ms xs ->
  length ms = length ds -> ~ Full (counts ds) ms ->
  exists ps, Fits ps ds /\ (forall xi, ingrid ms xs xi -> prodpoly ps xi = 0%R) /\
    exists y, length y = length ds /\ prodpoly ps y <> 0%R.
Proof.
  induction ds as [|d ds IH]; intros ms xs HP HD L HF.
  - destruct ms; [|discriminate]. exfalso. apply HF. constructor.
  - destruct ms as [|m ms]; [discriminate|]. inversion HP as [|? ? Hn HP']; subst.
    inversion HD as [|? ? x xs' Hm Hx HD']; subst. injection L as L.
    destruct (Z_lt_le_dec m (npts d)) as [Hlt|Hle].
    + exists (vanishing m x :: ones ds). split; [|split].
      * constructor; [rewrite vanishing_length; lia|now apply ones_fit].
      * intros xi Hxi. apply ingrid_inv in Hxi. destruct Hxi as (q & t & -> & Hq & _). cbn [prodpoly].
        rewrite vanishing_root by exact Hq. ring.
      * destruct (vanishing_nonzero m x) as (y & Hy). exists (y :: map (fun _ => 0%R) ds).
        split; [cbn; now rewrite map_length|]. cbn [prodpoly]. rewrite ones_value, Rmult_1_r. exact Hy.
    + destruct (IH ms xs' HP' HD' L) as (ps & Hfit & Hz & y & Ly & Hy).
      { intros C. apply HF. now constructor. }
      exists ([1%R] :: ps). split; [constructor; [cbn; lia|exact Hfit]|]. split.
      * intros xi Hxi. apply ingrid_inv in Hxi. destruct Hxi as (q & t & -> & _ & Ht). cbn [prodpoly]. rewrite Hz by exact Ht. ring.
      * exists (0%R :: y). split; [cbn; now rewrite Ly|]. cbn [prodpoly peval]. lra.
Qed.
Lemma stiff_mode ds : forall ms xs, Forall (fun d => 0 < npts d) ds -> Dist ms xs ->
  length ms = length ds -> ~ Almost (counts ds) ms ->
  exists ps, Fits ps ds /\ (forall xi j, ingrid ms xs xi -> dprod j ps xi = 0%R) /\
    exists y z, length y = length ds /\ length z = length ds /\ prodpoly ps y <> prodpoly ps z.
Proof.
  induction ds as [|d ds IH]; intros ms xs HP HD L HF.
  - destruct ms; [|discriminate]. exfalso. apply HF. constructor. constructor.
  - destruct ms as [|m ms]; [discriminate|]. inversion HP as [|? ? Hn HP']; subst.
    inversion HD as [|? ? x xs' Hm Hx HD']; subst. injection L as L.
    change (counts (d :: ds)) with (npts d :: counts ds) in HF.
    destruct (Z_lt_le_dec m (npts d - 1)) as [Hlt|Hle]; [|destruct (Z_lt_le_dec m (npts d)) as [Hlt|Hge]].
    + exists (anti (vanishing m x) :: ones ds). split; [|split].
      * constructor; [|now apply ones_fit]. rewrite anti_length, Nat2Z.inj_succ, vanishing_length; lia.
      * intros xi j Hxi. apply ingrid_inv in Hxi. destruct Hxi as (q & t & -> & Hq & _). destruct j as [|j]; cbn [dprod].
        -- rewrite anti_deriv, vanishing_root by exact Hq. ring.
        -- rewrite ones_deriv. ring.
      * destruct (vanishing_nonzero m x) as (y & Hy).
        assert (E : exists a b, peval (anti (vanishing m x)) a <> peval (anti (vanishing m x)) b).
        { set (p := anti (vanishing m x)).
          assert (N : ~ (forall a, peval p a = peval p y)).
          { intros C. apply Hy. rewrite <- anti_deriv. fold p. apply (deriv_unique (peval p) y); [apply pd_deriv|].
            apply (deriv_ext (fun _ => peval p y)); [intros z; symmetry; apply C|]. apply derivable_pt_lim_const. }
          assert (K : forall l : list R, (forall r, In r l -> peval p r = peval p y) \/ exists r, peval p r <> peval p y).
          { induction l as [|r l IHl]; [left; intros r []|]. destruct (Req_EM_T (peval p r) (peval p y)) as [Er|Er].
            - destruct IHl as [A|A]; [left; intros s [<-|Hs]; [exact Er|now apply A]|now right].
            - right. now exists r. }
          destruct (K (map INR (seq 0 (S (length p))))) as [A|(r & Hr)]; [|now exists r, y].
          exfalso. apply N. intros a.
          assert (Zp : peval (padd p [- peval p y]%R) a = 0%R).
          { apply (roots_zero (map INR (seq 0 (S (length p))))).
            - apply FinFun.Injective_map_NoDup; [intros u v; apply INR_eq|apply seq_NoDup].
            - rewrite padd_length, map_length, seq_length. cbn [length]. lia.
            - intros r Hr. rewrite peval_padd, (A r Hr). cbn. ring. }
          rewrite peval_padd in Zp. cbn [peval] in Zp. lra. }
        destruct E as (a & b & E). exists (a :: map (fun _ => 0%R) ds), (b :: map (fun _ => 0%R) ds).
        split; [cbn; now rewrite map_length|]. split; [cbn; now rewrite map_length|]. cbn [prodpoly].
        rewrite ones_value, !Rmult_1_r. exact E.
    + destruct (mass_mode ds ms xs' HP' HD' L) as (ps & Hfit & Hz & y & Ly & Hy).
      { intros C. apply HF. now apply Almost_here. }
      exists (vanishing m x :: ps). split; [|split].
      * constructor; [rewrite vanishing_length; lia|exact Hfit].
      * intros xi j Hxi. apply ingrid_inv in Hxi. destruct Hxi as (q & t & -> & Hq & Ht). destruct j as [|j]; cbn [dprod].
        -- rewrite Hz by exact Ht. ring.
        -- rewrite vanishing_root by exact Hq. ring.
      * destruct (vanishing_nonzero m x) as (y0 & Hy0). exists (y0 :: y), (x 0 :: y).
        split; [cbn; now rewrite Ly|]. split; [cbn; now rewrite Ly|]. cbn [prodpoly].
        rewrite (vanishing_root m x 0) by lia. rewrite Rmult_0_l. now apply Rmult_integral_contrapositive.
    + destruct (IH ms xs' HP' HD' L) as (ps & Hfit & Hz & y & z & Ly & Lz & Hyz).
      { intros C. apply HF. now apply Almost_later. }
      exists ([1%R] :: ps). split; [constructor; [cbn; lia|exact Hfit]|]. split.
      * intros xi j Hxi. apply ingrid_inv in Hxi. destruct Hxi as (q & t & -> & _ & Ht). destruct j as [|j]; cbn [dprod].
        -- cbn. ring.
        -- rewrite Hz by exact Ht. ring.
      * exists (0%R :: y), (0%R :: z). split; [cbn; now rewrite Ly|]. split; [cbn; now rewrite Lz|].
        cbn [prodpoly peval]. intros C. apply Hyz. lra.
Qed.

Lemma Almost_OneMissing ns : forall ms, length ns = length ms -> (Almost ns ms <-> OneMissing ns ms).
Proof.
  induction ns as [|n ns IH]; intros [|m ms] L; try discriminate.
  - split; [|intros _; constructor; constructor]. intros _. exists 0%nat. intros k a b Ha. destruct k; discriminate.
  - injection L as L. split.
    + intros H. inversion H as [? ? F|? ? ? ? A F|? ? ? ? A B]; subst.
      * exists 0%nat. assert (F' : forall k a b, nth_error (n :: ns) k = Some a -> nth_error (m :: ms) k = Some b -> a <= b).
        { clear -F. induction F as [|a b l l' Hab F IHF]; intros [|k] c e Hc He; try discriminate.
          - injection Hc as <-. now injection He as <-.
          - exact (IHF k c e Hc He). }
        intros k a b Ha Hb. specialize (F' k a b Ha Hb). lia.
      * exists 0%nat. assert (F' : forall k a b, nth_error ns k = Some a -> nth_error ms k = Some b -> a <= b).
        { clear -F. induction F as [|a b l l' Hab F IHF]; intros [|k] c e Hc He; try discriminate.
          - injection Hc as <-. now injection He as <-.
          - exact (IHF k c e Hc He). }
        intros [|k] a b Ha Hb.
        -- injection Ha as <-. injection Hb as <-. split; [exact A|congruence].
        -- specialize (F' k a b Ha Hb). lia.
      * apply (IH ms L) in B. destruct B as (j & B). exists (S j). intros [|k] a b Ha Hb.
        -- injection Ha as <-. injection Hb as <-. lia.
        -- destruct (B k a b Ha Hb) as (B1 & B2). split; [exact B1|]. intros Ne. apply B2. congruence.
    + intros (j & H). destruct j as [|j].
      * apply Almost_here; [exact (proj1 (H 0%nat n m eq_refl eq_refl))|].
        assert (F : forall k a b, nth_error ns k = Some a -> nth_error ms k = Some b -> a <= b).
        { intros k a b Ha Hb. apply (proj2 (H (S k) a b Ha Hb)). discriminate. }
        clear -F L. revert ms F L. induction ns as [|n ns IHn]; intros [|m ms] F L; try discriminate; constructor.
        -- exact (F 0%nat n m eq_refl eq_refl).
        -- apply IHn; [|now injection L]. intros k. exact (F (S k)).
      * apply Almost_later.
        -- apply (proj2 (H 0%nat n m eq_refl eq_refl)). discriminate.
        -- apply (IH ms L). exists j. intros k a b Ha Hb. destruct (H (S k) a b Ha Hb) as (H1 & H2). split; [exact H1|].
           intros Ne. apply H2. congruence.
Qed.

(** ** Energies *)
Lemma sum_nonneg {A} (f : A -> R) l : (forall a, In a l -> (0 <= f a)%R) -> (0 <= sumR f l)%R.
Proof.
  induction l as [|a l IH]; intros H; [cbn; lra|]. rewrite sumR_cons.
  pose proof (H a (or_introl eq_refl)). assert (0 <= sumR f l)%R by (apply IH; intros b Hb; apply H; now right). lra.
Qed.
Lemma sum_nonneg_zero {A} (f : A -> R) l : (forall a, In a l -> (0 <= f a)%R) -> sumR f l = 0%R ->
  forall a, In a l -> f a = 0%R.
Proof.
  induction l as [|b l IH]; intros H E a Ha; [destruct Ha|]. rewrite sumR_cons in E.
  pose proof (H b (or_introl eq_refl)) as Hb.
  assert (Hl : (0 <= sumR f l)%R) by (apply sum_nonneg; intros c Hc; apply H; now right).
  destruct Ha as [<-|Ha]; [lra|]. apply IH; [intros c Hc; apply H; now right|lra|exact Ha].
Qed.

Lemma rule_weight_pos r w x i : supported r -> Rule r w x -> 0 <= i < snd r -> (0 < w i)%R.
Proof.
  intros Hs (Hw & _) Hi. destruct (weights_lemma (fst r) (snd r)) as (w' & Hp & Hb & _).
  { unfold supported in Hs. destruct (fst r); exact Hs. }
  specialize (Hw i Hi). rewrite (Hp i Hi) in Hw. injection Hw as <-. now apply Hb.
Qed.
Lemma rule_points_distinct r w x : supported r -> Rule r w x -> Distinct (snd r) x.
Proof.
  intros Hs (_ & Hx). unfold supported in Hs.
  assert (K : exists y, Points (coord_ct RNum (rule_spacing (fst r)) (snd r)) (snd r) y /\ Increasing (snd r) y).
  { destruct (fst r); cbn [rule_spacing].
    - destruct (legendre_roots_lemma (snd r) Hs) as (y & z & H1 & _ & H2 & _). now exists y.
    - destruct (lobatto_roots_lemma (snd r) Hs) as (y & z & H1 & H2 & _). now exists y. }
  destruct K as (y & Hy & Hinc). intros i j Hi Hj E. apply (Increasing_Distinct _ _ Hinc i j Hi Hj).
  specialize (Hx i Hi) as Ei. rewrite (Hy i Hi) in Ei. injection Ei as ->.
  specialize (Hx j Hj) as Ej. rewrite (Hy j Hj) in Ej. injection Ej as ->. exact E.
Qed.
Lemma rules_dist rs : forall ws xs, Forall supported rs -> Rules rs ws xs -> Dist (map snd rs) xs.
Proof.
  induction rs as [|r rs IH]; intros ws xs HS HR.
  - destruct HR as (_ & L & _). destruct xs; [constructor|discriminate].
  - apply Rules_inv in HR. destruct HR as (w & ws' & x & xs' & -> & -> & Hr & HR). inversion HS; subst. cbn [map].
    constructor; [unfold supported in *; lia|now apply (rule_points_distinct r w)|now apply (IH ws')].
Qed.
Lemma weights_at_pos rs : forall ws xs q, Forall supported rs -> Rules rs ws xs -> InRange (map snd rs) q ->
  (0 < weights_at ws q)%R.
Proof.
  induction rs as [|r rs IH]; intros ws xs q HS HR Hq.
  - apply InRange_nil in Hq. subst. destruct ws; cbn; lra.
  - apply Rules_inv in HR. destruct HR as (w & ws' & x & xs' & -> & -> & Hr & HR). inversion HS; subst. cbn [map] in Hq.
    apply InRange_cons in Hq. destruct Hq as (i & t & -> & Hi & Ht). cbn [weights_at].
    apply Rmult_lt_0_compat; [now apply (rule_weight_pos r w x)|now apply (IH ws' xs')].
Qed.

Lemma quadrature_nonneg rs ws xs F : Forall supported rs -> Rules rs ws xs ->
  (forall q, InRange (map snd rs) q -> (0 <= F (point_at xs q))%R) -> (0 <= quadrature rs ws xs F)%R.
Proof.
  intros HS HR H. unfold quadrature. rewrite BoxSum_sumR. apply sum_nonneg. intros q Hq. apply in_zbox in Hq.
  apply Rmult_le_pos; [left; now apply (weights_at_pos rs ws xs)|now apply H].
Qed.
Lemma quadrature_zero rs ws xs F : Forall supported rs -> Rules rs ws xs ->
  (forall q, InRange (map snd rs) q -> (0 <= F (point_at xs q))%R) -> quadrature rs ws xs F = 0%R ->
  forall xi, ingrid (map snd rs) xs xi -> F xi = 0%R.
Proof.
  intros HS HR H E xi (q & Hq & ->). unfold quadrature in E. rewrite BoxSum_sumR in E.
  pose proof (weights_at_pos rs ws xs q HS HR Hq) as Hw.
  assert (Z : (weights_at ws q * F (point_at xs q))%R = 0%R).
  { apply (sum_nonneg_zero (fun q => weights_at ws q * F (point_at xs q))%R (zbox (map snd rs))); [|exact E|now apply in_zbox].
    intros p Hp. apply in_zbox in Hp. apply Rmult_le_pos; [left; now apply (weights_at_pos rs ws xs)|now apply H]. }
  apply Rmult_integral in Z. destruct Z; [lra|assumption].
Qed.
Lemma quadrature_null rs ws xs F : (forall xi, ingrid (map snd rs) xs xi -> F xi = 0%R) -> quadrature rs ws xs F = 0%R.
Proof.
  intros H. unfold quadrature. apply BoxSum_zero. intros q Hq. rewrite H; [ring|]. now exists q.
Qed.
Lemma rules_points_length rs ws xs xi : Rules rs ws xs -> ingrid (map snd rs) xs xi -> length xi = length rs.
Proof.
  intros (_ & L & _) H. rewrite <- L. apply (ingrid_length (map snd rs)); [now rewrite map_length|exact H].
Qed.
Lemma evaluates_pos bases ds : Forall2 Evaluates bases ds -> Forall (fun d => 0 < npts d) ds.
Proof. induction 1 as [|b d bs ds (_ & H & _)]; constructor; assumption. Qed.

Lemma Full_dec ns : forall ms, Full ns ms \/ ~ Full ns ms.
Proof.
  induction ns as [|n ns IH]; intros [|m ms].
  - left. constructor.
  - right. intros F. inversion F.
  - right. intros F. inversion F.
  - destruct (Z_le_dec n m) as [H|H]; [|right; intros F; inversion F; subst; contradiction].
    destruct (IH ms) as [F|F]; [left; now constructor|right; intros G; inversion G; subst; contradiction].
Qed.
Lemma mass_lemma bases ds rs ws xs (density : list R -> R) (val : (list Z -> R) -> list R -> R) :
  Forall2 Evaluates bases ds -> Forall Nodal ds -> ds <> [] ->
  Forall supported rs -> Rules rs ws xs -> length rs = length ds ->
  (forall q, InRange (map snd rs) q -> (0 < density (point_at xs q))%R) ->
  (forall u xi, length xi = length ds ->
     parent_value RNum (Z.of_nat (length ds)) bases (fun t => Ok (u t)) xi = Ok (val u xi)) ->
  (forall u, 0 <= quadrature rs ws xs (fun xi => density xi * (val u xi * val u xi)))%R /\
  ((forall u, quadrature rs ws xs (fun xi => density xi * (val u xi * val u xi))%R = 0%R ->
      forall t, InRange (counts ds) t -> u t = 0%R) <-> Full (counts ds) (map snd rs)).
Proof.
  intros HE HN Hne HS HR L Hd Hv.
  assert (V : forall u xi, ingrid (map snd rs) xs xi -> val u xi = interp ds u xi).
  { intros u xi Hxi. pose proof (rules_points_length _ _ _ _ HR Hxi) as Lx.
    specialize (Hv u xi (eq_trans Lx L)). assert (Ll : (length ds <= length xi)%nat) by (rewrite Lx, L; lia).
    rewrite (parent_value_ok _ bases ds _ u xi HE Hne eq_refl (fun t _ => eq_refl) Ll) in Hv. now injection Hv. }
  assert (P : forall u q, InRange (map snd rs) q -> (0 <= density (point_at xs q) * (val u (point_at xs q) * val u (point_at xs q)))%R).
  { intros u q Hq. apply Rmult_le_pos; [left; now apply Hd|]. apply Rle_0_sqr. }
  pose proof (rules_dist rs ws xs HS HR) as HD.
  split; [intros u; apply quadrature_nonneg; auto|]. split.
  - intros H. destruct (Full_dec (counts ds) (map snd rs)) as [F|F]; [exact F|exfalso].
    destruct (mass_mode ds (map snd rs) xs (evaluates_pos _ _ HE) HD) as (ps & Hfit & Hz & y & Ly & Hy);
      [now rewrite map_length|exact F|]. apply Hy.
    rewrite <- (interp_sampled ds ps y HN Hfit Ly). unfold interp. apply BoxSum_zero. intros t Ht.
    rewrite (H (sampled ds ps)); [ring| |exact Ht]. apply quadrature_null. intros xi Hxi.
    rewrite (V _ _ Hxi), interp_sampled, Hz; [ring|exact Hxi|exact HN|exact Hfit|].
    rewrite (rules_points_length _ _ _ _ HR Hxi). exact L.
  - intros HF u E. apply (interp_vanish ds (map snd rs) xs u HN HD HF). intros xi Hxi.
    pose proof (quadrature_zero rs ws xs _ HS HR (P u) E xi Hxi) as Zx. cbv beta in Zx. rewrite (V _ _ Hxi) in Zx.
    destruct Hxi as (q & Hq & ->). specialize (Hd q Hq). apply Rmult_integral in Zx. destruct Zx as [Zx|Zx]; [lra|].
    now apply Rmult_integral in Zx as [?|?].
Qed.

Lemma stiffness_lemma c bases ds rs ws xs (form : list R -> list R -> R) (grad : (list Z -> R) -> list R -> list R) :
  Forall2 Evaluates bases ds -> Forall Nodal ds -> ds <> [] -> Z.of_nat (length ds) <= INT_MAX ->
  Forall supported rs -> Rules rs ws xs -> length rs = length ds ->
  (forall q, InRange (map snd rs) q -> PositiveDefinite (length ds) (form (point_at xs q))) ->
  (forall u xi, length xi = length ds ->
     parent_gradient RNum c (Z.of_nat (length ds)) bases (fun t => Ok (u t)) xi = Ok (grad u xi)) ->
  (forall u, 0 <= quadrature rs ws xs (fun xi => form xi (grad u xi)))%R /\
  (forall u k, (forall t, InRange (counts ds) t -> u t = k) -> quadrature rs ws xs (fun xi => form xi (grad u xi)) = 0%R) /\
  ((forall u, quadrature rs ws xs (fun xi => form xi (grad u xi)) = 0%R ->
      exists k, forall t, InRange (counts ds) t -> u t = k) <-> OneMissing (counts ds) (map snd rs)).
Proof.
  intros HE HN Hne Hm HS HR L Hf Hg.
  assert (G : forall u xi, ingrid (map snd rs) xs xi -> length (grad u xi) = length ds /\
    forall j, (j < length ds)%nat -> nth j (grad u xi) 0%R = dinterp j ds u xi).
  { intros u xi Hxi. pose proof (rules_points_length _ _ _ _ HR Hxi) as Lx.
    specialize (Hg u xi (eq_trans Lx L)).
    assert (Ll : (length ds <= length xi)%nat) by (rewrite Lx, L; lia).
    destruct (parent_gradient_nth c bases ds u (fun t => Ok (u t)) xi HE Hne Hm (fun t _ => eq_refl) Ll) as (g & Eg & Lg & Hj).
    pose proof (eq_trans (eq_sym Eg) Hg) as E. injection E as <-. now split. }
  assert (P : forall u q, InRange (map snd rs) q -> (0 <= form (point_at xs q) (grad u (point_at xs q)))%R).
  { intros u q Hq. apply (Hf q Hq). apply (G u). now exists q. }
  assert (Zf : forall u xi, ingrid (map snd rs) xs xi ->
    (form xi (grad u xi) = 0%R <-> forall j, (j < length ds)%nat -> dinterp j ds u xi = 0%R)).
  { intros u xi Hxi. destruct (G u xi Hxi) as (Lg & Hj). destruct Hxi as (q & Hq & ->).
    destruct (Hf q Hq (grad u (point_at xs q)) Lg) as (_ & ->). rewrite Forall_nth. split.
    - intros H j Hjl. rewrite <- Hj by exact Hjl. apply H. lia.
    - intros H j d Hjl. rewrite (nth_indep _ d 0%R) by exact Hjl. rewrite Hj by lia. apply H. lia. }
  pose proof (rules_dist rs ws xs HS HR) as HD.
  assert (Hcl : length (counts ds) = length (map snd rs)). { unfold counts. now rewrite !map_length. }
  split; [intros u; apply quadrature_nonneg; auto|]. split; [|split].
  - intros u k Hk. apply quadrature_null. intros xi Hxi. apply Zf; [exact Hxi|]. intros j Hj.
    rewrite (dinterp_ext j ds u (fun _ => k)) by exact Hk. unfold dinterp. rewrite BoxSum_scal_r, dtensor_zero; [ring|exact HN| |exact Hj].
    rewrite (rules_points_length _ _ _ _ HR Hxi). lia.
  - intros H. apply (Almost_OneMissing _ _ Hcl).
    assert (Dec : Almost (counts ds) (map snd rs) \/ ~ Almost (counts ds) (map snd rs)).
    { clear. generalize (map snd rs). induction (counts ds) as [|n ns IH]; intros [|m ms].
      - left. constructor. constructor.
      - right. intros A. inversion A as [? ? F|?|?]; subst. inversion F.
      - right. intros A. inversion A as [? ? F|?|?]; subst. inversion F.
      - destruct (Z_lt_le_dec m (n - 1)) as [Hlt|Hle]; [|destruct (Z_lt_le_dec m n) as [Hlt|Hge]].
        + right. intros A. inversion A as [? ? F|?|?]; subst; [inversion F; subst; lia|lia|lia].
        + destruct (Full_dec ns ms) as [F|F]; [left; now apply Almost_here|right].
          intros A. inversion A as [? ? F'|?|?]; subst; [inversion F'; subst; lia|contradiction|lia].
        + destruct (IH ms) as [A|A]; [left; now apply Almost_later|]. right. intros B. apply A.
          inversion B as [? ? F'|?|?]; subst; [inversion F'; subst; now constructor|now constructor|assumption]. }
    destruct Dec as [A|A]; [exact A|exfalso].
    destruct (stiff_mode ds (map snd rs) xs (evaluates_pos _ _ HE) HD) as (ps & Hfit & Hz & y & z & Ly & Lz & Hyz);
      [now rewrite map_length|exact A|]. apply Hyz.
    destruct (H (sampled ds ps)) as (k & Hk).
    { apply quadrature_null. intros xi Hxi. apply Zf; [exact Hxi|]. intros j Hj.
      rewrite dinterp_sampled; [now apply Hz|exact HN|exact Hfit|]. rewrite (rules_points_length _ _ _ _ HR Hxi). exact L. }
    rewrite <- (interp_sampled ds ps y HN Hfit Ly), <- (interp_sampled ds ps z HN Hfit Lz).
    rewrite (interp_ext ds _ (fun _ => k) y Hk), (interp_ext ds _ (fun _ => k) z Hk). now rewrite !interp_const by (assumption || lia).
  - intros HO u E. apply (Almost_OneMissing _ _ Hcl) in HO.
    apply (gradient_vanish ds (map snd rs) xs u HN (evaluates_pos _ _ HE) HD HO). intros xi j Hj Hxi.
    apply (proj1 (Zf u xi Hxi)); [|exact Hj].
    exact (quadrature_zero rs ws xs (fun xi => form xi (grad u xi)) HS HR (P u) E xi Hxi).
Qed.

(** ** Physical gradients *)
Lemma Zsum3 f : Zsum 3 f = (f 0%Z + (f 1%Z + (f 2%Z + 0)))%R.
Proof. reflexivity. Qed.
Lemma physical_zero K B g : length g = 3%nat ->
  Inverse 3 K (fun i j => entry3 B i j) -> (forall i, 0 <= i < 3 -> physical B g i = 0%R) -> Forall (fun x => x = 0%R) g.
Proof.
  intros Lg HI H.
  assert (E : forall l, 0 <= l < 3 -> nth (Z.to_nat l) g 0%R =
    (physical B g 0 * K 0%Z l + (physical B g 1 * K 1%Z l + physical B g 2 * K 2%Z l))%R).
  { intros l Hl. unfold physical. rewrite !Zsum3.
    assert (D : forall k, 0 <= k < 3 -> (entry3 B k 0 * K 0%Z l + (entry3 B k 1 * K 1%Z l + (entry3 B k 2 * K 2%Z l + 0)))%R = delta k l).
    { intros k Hk. exact (proj2 (HI k l Hk Hl)). }
    pose proof (D 0 ltac:(lia)) as D0. pose proof (D 1 ltac:(lia)) as D1. pose proof (D 2 ltac:(lia)) as D2.
    transitivity (nth (Z.to_nat 0) g 0 * delta 0 l + (nth (Z.to_nat 1) g 0 * delta 1 l + nth (Z.to_nat 2) g 0 * delta 2 l))%R.
    - assert (C : l = 0 \/ l = 1 \/ l = 2) by lia. destruct C as [->|[->| ->]]; unfold delta; cbn; ring.
    - rewrite <- D0, <- D1, <- D2. ring. }
  assert (Z : forall l, 0 <= l < 3 -> nth (Z.to_nat l) g 0%R = 0%R).
  { intros l Hl. rewrite E, !H by lia. ring. }
  apply Forall_nth. intros i d Hi. rewrite (nth_indep _ d 0%R) by exact Hi. rewrite <- (Nat2Z.id i). apply Z. lia.
Qed.
Lemma norm2_nonneg B g : (0 <= norm2 B g)%R.
Proof.
  unfold norm2. rewrite Zsum3.
  pose proof (Rle_0_sqr (physical B g 0)). pose proof (Rle_0_sqr (physical B g 1)). pose proof (Rle_0_sqr (physical B g 2)).
  unfold Rsqr in *. lra.
Qed.
Lemma norm2_zero B g : norm2 B g = 0%R -> forall i, 0 <= i < 3 -> physical B g i = 0%R.
Proof.
  unfold norm2. rewrite Zsum3. intros H i Hi.
  pose proof (Rle_0_sqr (physical B g 0)). pose proof (Rle_0_sqr (physical B g 1)). pose proof (Rle_0_sqr (physical B g 2)).
  unfold Rsqr in *. assert (C : i = 0 \/ i = 1 \/ i = 2) by lia.
  assert (K : (physical B g i * physical B g i = 0)%R) by (destruct C as [->|[->| ->]]; lra).
  now apply Rmult_integral in K as [?|?].
Qed.
Lemma physical_of_zero B g i : Forall (fun x => x = 0%R) g -> physical B g i = 0%R.
Proof.
  intros H. assert (Z : forall k, nth k g 0%R = 0%R).
  { intros k. destruct (Nat.lt_ge_cases k (length g)) as [L|L]; [|now apply nth_overflow].
    rewrite Forall_nth in H. now apply H. }
  unfold physical. rewrite Zsum3, !Z. ring.
Qed.

Lemma diffusion_lemma c bases ds gbases gds mem X rs ws xs (detJ : list R -> R) (invJ : list R -> list R)
  (grad : (list Z -> R) -> list R -> list R) :
  Forall2 Evaluates bases ds -> Forall Nodal ds -> length ds = 3%nat ->
  Forall2 Evaluates gbases gds -> Forall Differentiates gds -> length gds = 3%nat ->
  Holds (owning (counts gds ++ [3])) mem X ->
  Forall supported rs -> Rules rs ws xs -> length rs = 3%nat ->
  (forall q, InRange (map snd rs) q ->
     inverseJacobian_wrapper RNum c 3 gbases mem (point_at xs q) = Ok (detJ (point_at xs q), invJ (point_at xs q)) /\
     (0 < detJ (point_at xs q))%R) ->
  (forall u xi, length xi = 3%nat -> parent_gradient RNum c 3 bases (fun t => Ok (u t)) xi = Ok (grad u xi)) ->
  (forall u, 0 <= quadrature rs ws xs (fun xi => detJ xi * norm2 (invJ xi) (grad u xi)))%R /\
  (forall u k, (forall t, InRange (counts ds) t -> u t = k) ->
     quadrature rs ws xs (fun xi => detJ xi * norm2 (invJ xi) (grad u xi))%R = 0%R) /\
  ((forall u, quadrature rs ws xs (fun xi => detJ xi * norm2 (invJ xi) (grad u xi))%R = 0%R ->
      exists k, forall t, InRange (counts ds) t -> u t = k) <-> OneMissing (counts ds) (map snd rs)).
Proof.
  intros HE HN L3 HGE HGD LG HX HS HR LR HJ Hg.
  apply (stiffness_lemma c bases ds rs ws xs (fun xi g => detJ xi * norm2 (invJ xi) g)%R grad HE HN).
  - intros ->. discriminate.
  - rewrite L3. unfold INT_MAX. lia.
  - exact HS.
  - exact HR.
  - now rewrite LR, L3.
  - intros q Hq g Lg. destruct (HJ q Hq) as (EJ & Hd). pose proof (norm2_nonneg (invJ (point_at xs q)) g) as Hn.
    split; [apply Rmult_le_pos; lra|]. split.
    + intros Z. apply Rmult_integral in Z. destruct Z as [Z|Z]; [lra|].
      assert (Lq : length (point_at xs q) = 3%nat).
      { rewrite (rules_points_length rs ws xs _ HR); [exact LR|now exists q]. }
      destruct (inverse_jacobian_lemma c gbases gds mem X (point_at xs q) HGE HGD LG Lq HX) as (K & _ & H1 & H2).
      destruct (Req_EM_T (det 3 K) 0) as [E0|E0].
      { rewrite (H2 E0) in EJ. discriminate. }
      destruct (H1 E0) as (M & B & EM & HB & HI).
      pose proof (eq_trans (eq_sym EM) EJ) as E. injection E as _ E. subst M.
      apply (physical_zero K (invJ (point_at xs q)) g).
      * now rewrite Lg.
      * apply Holds_iff in HB. destruct HB as (_ & HB). intros i j Hi Hj.
        assert (EB : forall i j, 0 <= i < 3 -> 0 <= j < 3 -> entry3 (invJ (point_at xs q)) i j = B [i; j]).
        { intros a b Ha Hb. specialize (HB [a; b]). unfold entry3. apply nth_error_nth.
          assert (Hab : InRange [3; 3] [a; b]).
          { apply InRange_cons. exists a, [b]. split; [reflexivity|]. split; [exact Ha|].
            apply InRange_cons. exists b, []. split; [reflexivity|]. split; [exact Hb|]. now apply InRange_nil. }
          specialize (HB Hab). replace (3 * a + b) with (base (owning [3; 3]) + flat_offset (dims (owning [3; 3])) [a; b]) by
            (change (0 + (a * (3 * 1) + (b * 1 + 0)) = 3 * a + b); lia).
          exact HB. }
        destruct (HI i j Hi Hj) as (A1 & A2). unfold matmul in *. cbn in A1, A2 |- *. rewrite !EB by lia. now split.
      * now apply norm2_zero.
    + intros Z. unfold norm2. rewrite Zsum3, !(physical_of_zero _ _ _ Z). ring.
  - intros u xi Lx. rewrite L3 in *. now apply Hg.
Qed.

(** ** The hypotheses can be met *)
Definition value_of (n : Z) (bases : list (basis RNum)) (u : list Z -> R) (xi : list R) : R :=
  match parent_value RNum n bases (fun t => Ok (u t)) xi with Ok v => v | _ => 0%R end.
Definition gradient_of (c : ctx) (n : Z) (bases : list (basis RNum)) (u : list Z -> R) (xi : list R) : list R :=
  match parent_gradient RNum c n bases (fun t => Ok (u t)) xi with Ok v => v | _ => [] end.

Lemma mass_hypotheses_lemma (specs : list (spacing * Z)) rs :
  Forall spec_ok specs -> specs <> [] -> Forall supported rs -> length rs = length specs ->
  exists bases ds ws xs val, Forall2 Evaluates bases ds /\ Forall Nodal ds /\ ds <> [] /\ Rules rs ws xs /\
    length rs = length ds /\ counts ds = map (fun s => snd s + 1) specs /\
    (forall u xi, length xi = length ds ->
       parent_value RNum (Z.of_nat (length ds)) bases (fun t => Ok (u t)) xi = Ok (val u xi)).
Proof.
  intros HO Hne HS L. destruct (lagrange_directions_lemma specs HO) as (ds & HE & HN & HC & _).
  destruct (rules_exist_lemma rs HS) as (ws & xs & HR).
  assert (Ld : length ds = length specs).
  { apply (f_equal (@length Z)) in HC. unfold counts in HC. now rewrite !map_length in HC. }
  assert (Dne : ds <> []). { intros ->. destruct specs; [now apply Hne|discriminate]. }
  exists (map (fun so => LagrangeBasis RNum (snd so) (fst so)) specs), ds, ws, xs,
    (value_of (Z.of_nat (length ds)) (map (fun so => LagrangeBasis RNum (snd so) (fst so)) specs)).
  split; [exact HE|]. split; [exact HN|]. split; [exact Dne|]. split; [exact HR|]. split; [congruence|]. split; [exact HC|].
  intros u xi Lx. assert (Ll : (length ds <= length xi)%nat) by (rewrite Lx; lia). unfold value_of.
  assert (E : forall o : outcome R, o = Ok (interp ds u xi) -> o = Ok (match o with Ok v => v | _ => 0%R end)) by (intros o ->; reflexivity).
  exact (E _ (parent_value_ok _ _ ds (fun t => Ok (u t)) u xi HE Dne eq_refl (fun t _ => eq_refl) Ll)).
Qed.

Lemma gradients_exist_lemma c (specs : list (spacing * Z)) : Forall spec_ok specs -> length specs = 3%nat ->
  exists bases ds grad, Forall2 Evaluates bases ds /\ Forall Nodal ds /\ length ds = 3%nat /\
    counts ds = map (fun s => snd s + 1) specs /\
    (forall u xi, length xi = 3%nat -> parent_gradient RNum c 3 bases (fun t => Ok (u t)) xi = Ok (grad u xi)).
Proof.
  intros HO L. destruct (lagrange_directions_lemma specs HO) as (ds & HE & HN & HC & _).
  assert (Ld : length ds = 3%nat).
  { apply (f_equal (@length Z)) in HC. unfold counts in HC. rewrite !map_length in HC. congruence. }
  assert (Dne : ds <> []). { intros ->. discriminate. }
  exists (map (fun so => LagrangeBasis RNum (snd so) (fst so)) specs), ds,
    (gradient_of c 3 (map (fun so => LagrangeBasis RNum (snd so) (fst so)) specs)).
  split; [exact HE|]. split; [exact HN|]. split; [exact Ld|]. split; [exact HC|].
  intros u xi Lx. assert (Ll : (length ds <= length xi)%nat) by (rewrite Lx, Ld; lia).
  assert (Hm : Z.of_nat (length ds) <= INT_MAX) by (rewrite Ld; unfold INT_MAX; lia).
  destruct (parent_gradient_nth c _ ds u (fun t => Ok (u t)) xi HE Dne Hm (fun t _ => eq_refl) Ll) as (g & Eg & _).
  rewrite Ld in Eg. unfold gradient_of. change (Z.of_nat 3) with 3 in Eg.
  assert (E : forall o : outcome (list R), o = Ok g -> o = Ok (match o with Ok v => v | _ => [] end)) by (intros o ->; reflexivity).
  exact (E _ Eg).
Qed.

(** The reference cell itself, with 8 vertices. *)
Definition ref_cell : list R :=
  map IZR [-1;-1;-1; -1;-1;1; -1;1;-1; -1;1;1; 1;-1;-1; 1;-1;1; 1;1;-1; 1;1;1].
Lemma geometry_exists_lemma c rs ws xs : Forall supported rs -> Rules rs ws xs -> length rs = 3%nat ->
  exists gbases gds mem X detJ invJ,
    Forall2 Evaluates gbases gds /\ Forall Differentiates gds /\ length gds = 3%nat /\
    Holds (owning (counts gds ++ [3])) mem X /\
    (forall q, InRange (map snd rs) q ->
       inverseJacobian_wrapper RNum c 3 gbases mem (point_at xs q) = Ok (detJ (point_at xs q), invJ (point_at xs q)) /\
       (0 < detJ (point_at xs q))%R).
Proof.
  intros HS HR LR. destruct (box_bases_lemma EqualSpacing (or_introl eq_refl)) as (d & HE & HN & Hn & P0 & P1).
  set (b := LagrangeBasis RNum 1 EqualSpacing). set (ds := [d; d; d]).
  assert (HE3 : Forall2 Evaluates [b; b; b] ds) by (constructor; [exact HE|constructor; [exact HE|constructor; [exact HE|constructor]]]).
  assert (HN3 : Forall Nodal ds) by (constructor; [exact HN|constructor; [exact HN|constructor; [exact HN|constructor]]]).
  assert (HC : counts ds = [2; 2; 2]) by (unfold ds, counts; cbn; now rewrite Hn).
  destruct (Holds_exists (owning [2; 2; 2; 3]) ref_cell) as (X & HX).
  { unfold view_ok, pos_dims, buflen, ref_cell. rewrite map_length. cbn [dims owning base length].
    split; [split; [discriminate|split; [repeat constructor|vm_compute; discriminate]]|split; vm_compute; discriminate]. }
  pose (ps := fun i => if i =? 0 then [[0;1]; [1]; [1]]%R else if i =? 1 then [[1]; [0;1]; [1]]%R else [[1]; [1]; [0;1]]%R).
  assert (HXv : forall t i, InRange (counts ds) t -> 0 <= i < 3 -> X (t ++ [i]) = sampled ds (ps i) t).
  { intros t i Ht Hi. rewrite HC in Ht. apply Holds_iff in HX. destruct HX as (_ & HXr).
    apply InRange_cons in Ht. destruct Ht as (a0 & t1 & -> & H0 & Ht).
    apply InRange_cons in Ht. destruct Ht as (a1 & t2 & -> & H1 & Ht).
    apply InRange_cons in Ht. destruct Ht as (a2 & t3 & -> & H2 & Ht). apply InRange_nil in Ht. subst t3.
    assert (Hin : InRange [2; 2; 2; 3] [a0; a1; a2; i]).
    { apply InRange_cons; exists a0, [a1; a2; i]; split; [reflexivity|]; split; [exact H0|].
      apply InRange_cons; exists a1, [a2; i]; split; [reflexivity|]; split; [exact H1|].
      apply InRange_cons; exists a2, [i]; split; [reflexivity|]; split; [exact H2|].
      apply InRange_cons; exists i, []; split; [reflexivity|]; split; [exact Hi|]. now apply InRange_nil. }
    specialize (HXr _ Hin). cbn [app].
    assert (C0 : a0 = 0 \/ a0 = 1) by lia. assert (C1 : a1 = 0 \/ a1 = 1) by lia. assert (C2 : a2 = 0 \/ a2 = 1) by lia.
    assert (Ci : i = 0 \/ i = 1 \/ i = 2) by lia. unfold sampled, ds, ps.
    destruct C0 as [->| ->], C1 as [->| ->], C2 as [->| ->], Ci as [->|[->| ->]]; cbn in HXr; injection HXr as <-;
      cbn; rewrite ?P0, ?P1; ring. }
  assert (Hfit : forall i, Fits (ps i) ds).
  { intros i. unfold ps, ds. destruct (i =? 0); [|destruct (i =? 1)]; repeat constructor; rewrite Hn; cbn; lia. }
  exists [b; b; b], ds, ref_cell, X,
    (fun xi => match inverseJacobian_wrapper RNum c 3 [b; b; b] ref_cell xi with Ok (v, _) => v | _ => 0%R end),
    (fun xi => match inverseJacobian_wrapper RNum c 3 [b; b; b] ref_cell xi with Ok (_, m) => m | _ => [] end).
  split; [exact HE3|]. split; [now apply Nodal_Differentiates|]. split; [reflexivity|].
  assert (HX' : Holds (owning (counts ds ++ [3])) ref_cell X) by (rewrite HC; exact HX). split; [exact HX'|].
  intros q Hq. assert (Lq : length (point_at xs q) = 3%nat).
  { rewrite (rules_points_length rs ws xs _ HR); [exact LR|now exists q]. }
  destruct (inverse_jacobian_lemma c [b; b; b] ds ref_cell X (point_at xs q) HE3 (Nodal_Differentiates _ HN3) eq_refl Lq HX')
    as (K & HK & H1 & _).
  assert (EK : forall i j, 0 <= i < 3 -> (j < 3)%nat -> K i (Z.of_nat j) = dprod j (ps i) (point_at xs q)).
  { intros i j Hi Hj. rewrite <- (dinterp_sampled ds (ps i) j (point_at xs q) HN3 (Hfit i) Lq).
    eapply deriv_unique; [exact (HK i j Hi Hj)|].
    pose proof (interp_partial ds (sampled ds (ps i)) j (point_at xs q) (Nodal_Differentiates _ HN3)) as HP.
    eapply deriv_ext; [|apply HP; [rewrite Lq; cbn; lia|exact Hj]].
    intros y. cbv beta. unfold interp. apply BoxSum_ext. intros t Ht. now rewrite HXv. }
  assert (ED : det 3 K = 1%R).
  { destruct (point_at xs q) as [|x0 [|x1 [|x2 [|]]]]; try discriminate.
    assert (E : forall i j, 0 <= i < 3 -> (j < 3)%nat -> K i (Z.of_nat j) = if i =? Z.of_nat j then 1%R else 0%R).
    { intros i j Hi Hj. rewrite EK by assumption. assert (Ci : i = 0 \/ i = 1 \/ i = 2) by lia. unfold ps.
      destruct Ci as [->|[->| ->]]; destruct j as [|[|[|]]]; try lia; cbn; ring. }
    pose proof (E 0 0%nat ltac:(lia) ltac:(lia)) as E00. pose proof (E 0 1%nat ltac:(lia) ltac:(lia)) as E01. pose proof (E 0 2%nat ltac:(lia) ltac:(lia)) as E02.
    pose proof (E 1 0%nat ltac:(lia) ltac:(lia)) as E10. pose proof (E 1 1%nat ltac:(lia) ltac:(lia)) as E11. pose proof (E 1 2%nat ltac:(lia) ltac:(lia)) as E12.
    pose proof (E 2 0%nat ltac:(lia) ltac:(lia)) as E20. pose proof (E 2 1%nat ltac:(lia) ltac:(lia)) as E21. pose proof (E 2 2%nat ltac:(lia) ltac:(lia)) as E22.
    cbn in E00, E01, E02, E10, E11, E12, E20, E21, E22.
    unfold det. cbn. rewrite E00, E01, E02, E10, E11, E12, E20, E21, E22. unfold sign. cbn. ring. }
  rewrite ED in H1. destruct (H1 ltac:(lra)) as (M & B & EM & _). rewrite EM. split; [reflexivity|lra].
Qed.

Lemma full_example_lemma :
  Full [3; 3; 3] (map snd [(QuadratureGaussLegendre, 3); (QuadratureGaussLobatto, 4); (QuadratureGaussLegendre, 4)]) /\
  ~ Full [3; 3; 3] (map snd [(QuadratureGaussLegendre, 3); (QuadratureGaussLobatto, 2); (QuadratureGaussLegendre, 4)]).
Proof.
  split; [repeat constructor; cbn; lia|]. intros F. inversion F as [|? ? ? ? _ G]; subst. inversion G; subst. lia.
Qed.
Lemma missing_example_lemma : OneMissing [2; 2; 2] [2; 2; 2] /\ OneMissing [3; 3; 3] [3; 2; 3] /\
  ~ OneMissing [3; 3; 3] [2; 2; 3] /\ ~ OneMissing [4; 4; 4] [2; 4; 4].
Proof.
  split; [|split; [|split]].
  - exists 0%nat. intros [|[|[|k]]] n m Hn Hm; cbn in Hn, Hm; try (destruct k; discriminate); injection Hn as <-; injection Hm as <-; lia.
  - exists 1%nat. intros [|[|[|k]]] n m Hn Hm; cbn in Hn, Hm; try (destruct k; discriminate); injection Hn as <-; injection Hm as <-; lia.
  - intros (j & H). pose proof (H 0%nat 3 2 eq_refl eq_refl). pose proof (H 1%nat 3 2 eq_refl eq_refl). lia.
  - intros (j & H). pose proof (H 0%nat 4 2 eq_refl eq_refl). lia.
Qed.
