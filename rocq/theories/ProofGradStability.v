(** Bounds for the sums of the absolute values of the derivatives of the basis functions. *)
From Coq Require Import ZArith QArith Qreals Reals Bool List Lia Lra.
From Verif Require Import Base ProofBase Num SpecIndex SpecNumeric SpecBasis ModelB64 ModelSpacing ModelLagrange
  ModelAssert ModelBasisProduct SpecApprox SpecAccuracy SpecElement64 SpecStability ProofPoly ProofSpacing ProofLagrange ProofApprox ProofTensor ProofQuadrature ProofTables.
From Verif Require Import ProofHom ProofBox ProofRemainder ProofStability.
Local Open Scope Z_scope.

(** * Sums of products with two factors left out *)
Definition but2 (f : Z -> Z) (i a : Z) (l : list Z) : Z := zprod (map (fun k => if (k =? a) || (k =? i) then 1 else f k) l).
(** The product of the m; the sum of the products without one m; the sum of the W times the other m;
    the sum of the W times the other m without one. *)
Fixpoint four (l : list (Z * Z)) : Z * Z * Z * Z :=
  match l with
  | [] => (1, 0, 0, 0)
  | (m, w) :: l' => let '(p, q, s, t) := four l' in (m * p, p + m * q, w * p + m * s, w * q + s + m * t)
  end.
Lemma sumz_plus (f g : Z -> Z) l : sumz (map (fun i => f i + g i) l) = sumz (map f l) + sumz (map g l).
Proof. induction l as [|k l IH]; cbn [map sumz]; lia. Qed.
Lemma sumz_ext (f g : Z -> Z) l : (forall i, In i l -> f i = g i) -> sumz (map f l) = sumz (map g l).
Proof. intros H. f_equal. apply map_ext_in. exact H. Qed.
Lemma but_cons_other m i k l : i <> k -> but m i (k :: l) = m k * but m i l.
Proof. intros H. unfold but. cbn [map zprod]. destruct (Z.eqb_spec i k); [contradiction|reflexivity]. Qed.
Lemma but_cons_same m k l : ~ In k l -> but m k (k :: l) = zprod (map m l).
Proof. intros H. unfold but. cbn [map zprod]. rewrite Z.eqb_refl. fold (but m k l). rewrite but_notin by exact H. ring. Qed.
Lemma but2_out m i a l : ~ In i l -> but2 m i a l = but m a l.
Proof.
  intros H. unfold but2, but. f_equal. apply map_ext_in. intros j Hj. rewrite (Z.eqb_sym j a).
  destruct (Z.eqb_spec j i) as [->|]; [contradiction|]. rewrite orb_false_r. reflexivity.
Qed.
Lemma but2_swap m i a l : but2 m i a l = but2 m a i l.
Proof. unfold but2. f_equal. apply map_ext. intros j. rewrite orb_comm. reflexivity. Qed.
Lemma but2_cons_left m i a l : but2 m i a (i :: l) = but2 m i a l.
Proof. unfold but2. cbn [map zprod]. rewrite Z.eqb_refl, orb_true_r. ring. Qed.
Lemma but2_cons_other m i a k l : k <> i -> k <> a -> but2 m i a (k :: l) = m k * but2 m i a l.
Proof.
  intros H1 H2. unfold but2. cbn [map zprod]. destruct (Z.eqb_spec k a); [contradiction|]. destruct (Z.eqb_spec k i); [contradiction|]. reflexivity.
Qed.
Definition pairs_sum (m w : Z -> Z) (l : list Z) : Z :=
  sumz (map (fun i => sumz (map (fun a => if a =? i then 0 else w i * but2 m i a l) l)) l).
Lemma four_spec (m w : Z -> Z) l : NoDup l ->
  four (map (fun k => (m k, w k)) l) =
    (zprod (map m l), sumz (map (fun a => but m a l) l), sumz (map (fun i => w i * but m i l) l), pairs_sum m w l).
Proof.
  induction 1 as [|k l Hk _ IH]; [reflexivity|]. cbn [map four]. rewrite IH.
  assert (K : forall i, In i l -> i <> k) by (intros i Hi ->; contradiction).
  assert (E1 : sumz (map (fun a => but m a (k :: l)) l) = m k * sumz (map (fun a => but m a l) l)).
  { rewrite <- sumz_scal. apply sumz_ext. intros i Hi. apply but_cons_other. now apply K. }
  assert (E2 : sumz (map (fun i => w i * but m i (k :: l)) l) = m k * sumz (map (fun i => w i * but m i l) l)).
  { rewrite <- sumz_scal. apply sumz_ext. intros i Hi. rewrite but_cons_other by now apply K. ring. }
  f_equal; [f_equal; [f_equal|]|].
  - cbn [map sumz]. rewrite E1, but_cons_same by exact Hk. reflexivity.
  - cbn [map sumz]. rewrite E2, but_cons_same by exact Hk. reflexivity.
  - unfold pairs_sum. cbn [map sumz]. rewrite Z.eqb_refl.
    assert (E3 : sumz (map (fun a => if a =? k then 0 else w k * but2 m k a (k :: l)) l) = w k * sumz (map (fun a => but m a l) l)).
    { rewrite <- sumz_scal. apply sumz_ext. intros a Ha. rewrite (proj2 (Z.eqb_neq _ _)) by now apply K.
      rewrite but2_cons_left, but2_out by exact Hk. reflexivity. }
    rewrite E3, Z.add_0_l.
    rewrite (sumz_ext (fun i => (if k =? i then 0 else w i * but2 m i k (k :: l)) + sumz (map (fun a => if a =? i then 0 else w i * but2 m i a (k :: l)) l))
      (fun i => w i * but m i l + m k * sumz (map (fun a => if a =? i then 0 else w i * but2 m i a l) l))).
    + rewrite sumz_plus, sumz_scal. ring.
    + intros i Hi. specialize (K i Hi) as Ki. rewrite (proj2 (Z.eqb_neq k i)) by congruence. f_equal.
      * rewrite but2_swap, but2_cons_left, but2_out by exact Hk. reflexivity.
      * rewrite <- sumz_scal. apply sumz_ext. intros a Ha. specialize (K a Ha) as Ka. destruct (a =? i); [ring|].
        rewrite but2_cons_other by congruence. ring.
Qed.

(** * One cell *)
Definition dcell_ok (cs ws : list Z) (num den s a b : Z) : bool :=
  snd (four (combine (map (far a b) cs) ws)) * 4096 * den <=? num * s.
Definition dstable_check (n : nat) (c : Z -> Z) (num den : Z) : bool :=
  let cs := map c (zseq n) in
  let ws := map (inv_gaps n c) (zseq n) in
  (0 <? den) && gaps_ok n c && cover 12 (dcell_ok cs ws num den (scale n)) (-1048576) 1048576.

Lemma prodR_mult {A} (f g : A -> R) l : prodR (fun a => f a * g a)%R l = (prodR f l * prodR g l)%R.
Proof. induction l as [|u l IH]; [cbn; ring|]. rewrite !prodR_cons, IH. ring. Qed.
Lemma zprod_R (f : Z -> Z) l : IZR (zprod (map f l)) = prodR (fun k => IZR (f k)) l.
Proof. induction l as [|u l IH]; [reflexivity|]. cbn [map zprod]. rewrite mult_IZR, IH. reflexivity. Qed.
Lemma prod_single (c : R) a l : NoDup l -> In a l -> prodR (fun k => if k =? a then c else 1%R) l = c.
Proof.
  induction l as [|k l IH]; intros ND Hin; [destruct Hin|]. inversion ND as [|? ? Hk ND']; subst. rewrite prodR_cons. destruct (Z.eqb_spec k a) as [->|e].
  - rewrite prodR_one; [ring|]. intros j Hj. destruct (Z.eqb_spec j a) as [->|]; [contradiction|reflexivity].
  - destruct Hin as [Hin|Hin]; [congruence|]. rewrite IH by assumption. ring.
Qed.
(** The summand of the product rule that differentiates factor [a]. *)
Definition part (x : Z -> R) (i a : Z) (y : R) (l : list Z) : R :=
  (/ Rabs (x i - x a) * prodR (fun k => if (k =? a) || (k =? i) then 1 else Rabs ((y - x k) / (x i - x k))) l)%R.
Definition dsum (x : Z -> R) (y : R) (l : list Z) : R :=
  sumR (fun i => sumR (fun a => if a =? i then 0%R else part x i a y l) l) l.

Section Cell.
Context (n : nat) (c : Z -> Z) (x : Z -> R) (Hx : Close n c x) (Hg : gaps_ok n c = true).
Context (a b : Z) (y : R) (Hy : (IZR a <= y * 1048576 <= IZR b)%R).
Let m k := far a b (c k).

Lemma part_bound i q : In i (zseq n) -> In q (zseq n) -> q <> i ->
  (part x i q y (zseq n) * IZR (scale n) <= 4096 * IZR (inv_gaps n c i * but2 m i q (zseq n)))%R.
Proof using Hx Hg Hy.
  intros Hi Hq Hqi. set (l := zseq n) in *.
  set (G := but (gap c i) i l). set (K := but (fun _ => 256) i l). set (M := but2 m i q l).
  assert (F : (part x i q y l * IZR G <= IZR K * (4096 * IZR M))%R).
  { apply Rle_trans with (prodR (fun k => (if k =? i then 1 else if k =? q then / Rabs (x i - x q) else Rabs ((y - x k) / (x i - x k))) *
                      IZR (if i =? k then 1%Z else gap c i k))%R l).
    - right. rewrite prodR_mult. unfold G, but. rewrite zprod_R. f_equal. unfold part. set (v' := (/ Rabs (x i - x q))%R).
      transitivity (prodR (fun k => if k =? q then v' else 1)%R l * prodR (fun k => if (k =? q) || (k =? i) then 1 else Rabs ((y - x k) / (x i - x k))) l)%R.
      { rewrite (prod_single v' q l (NoDup_zseq n) Hq). reflexivity. }
      rewrite <- prodR_mult. apply prodR_ext. intros k Hk.
      destruct (Z.eqb_spec k q) as [->|]; cbn [orb].
      + destruct (Z.eqb_spec q i); [contradiction|]. ring.
      + destruct (k =? i); ring.
    - apply Rle_trans with (prodR (fun k => IZR (if i =? k then 1%Z else 256%Z) * ((if k =? q then 4096 else 1) * IZR (if (k =? q) || (k =? i) then 1%Z else m k)))%R l).
      + apply prodR_le. intros k Hk. rewrite (Z.eqb_sym i k). destruct (Z.eqb_spec k i) as [->|e]; [rewrite orb_true_r|rewrite orb_false_r].
        * destruct (Z.eqb_spec i q); [congruence|]. lra.
        * destruct (gap_spec n c x Hx Hg i k Hi Hk ltac:(congruence)) as (D1 & D2). apply IZR_lt in D2.
          set (g := IZR (gap c i k)) in *. set (v := Rabs (x i - x k)) in *. assert (v0 : (0 < v)%R) by lra.
          pose proof (Rinv_0_lt_compat _ v0) as v1.
          destruct (Z.eqb_spec k q) as [->|e'].
          { fold v. split; [apply Rmult_le_pos; lra|]. apply Rle_trans with (/ v * (v * 1048576))%R; [apply Rmult_le_compat_l; lra|].
            rewrite <- Rmult_assoc, Rinv_l by lra. lra. }
          { destruct (far_spec n c x Hx a b y Hy k Hk) as (F1 & F2). fold (m k) in F1, F2. unfold Rdiv. rewrite Rabs_mult, Rabs_inv. fold v.
            set (u := Rabs (y - x k)) in *. assert (u0 : (0 <= u)%R) by apply Rabs_pos.
            split; [apply Rmult_le_pos; [apply Rmult_le_pos; lra|lra]|].
            apply Rle_trans with (u * / v * (v * 1048576))%R.
            - apply Rmult_le_compat_l; [apply Rmult_le_pos; lra|lra].
            - replace (u * / v * (v * 1048576))%R with (u * 1048576)%R by (field; lra). lra. }
      + right. rewrite prodR_mult, prodR_mult. rewrite (prod_single 4096 q l (NoDup_zseq n) Hq). unfold K, M, but, but2. rewrite !zprod_R. reflexivity. }
  assert (G0 : 0 < G). { apply but_pos. intros j Hj Hij. apply (gap_spec n c x Hx Hg i j Hi Hj Hij). }
  assert (M0 : (0 <= IZR M)%R).
  { unfold M, but2. rewrite zprod_R. eapply proj1.
    apply prodR_le with (g := fun k => IZR (if (k =? q) || (k =? i) then 1 else m k)). intros k Hk. split; [|lra]. apply IZR_le.
    destruct ((k =? q) || (k =? i)); [lia|]. destruct (far_spec n c x Hx a b y Hy k Hk) as (_ & F2). fold (m k) in F2. lia. }
  assert (W : scale n * K <= inv_gaps n c i * G).
  { unfold inv_gaps. fold l. fold G K. pose proof (Z.div_mod (scale n * K) G ltac:(lia)). pose proof (Z.mod_pos_bound (scale n * K) G G0). nia. }
  apply IZR_le in W. rewrite !mult_IZR in *. apply IZR_lt in G0. pose proof (scale_pos n) as S0. apply IZR_lt in S0.
  set (P := part x i q y l) in *. apply Rmult_le_reg_r with (IZR G); [exact G0|].
  apply Rle_trans with (IZR (scale n) * (IZR K * (4096 * IZR M)))%R.
  - replace (P * IZR (scale n) * IZR G)%R with (IZR (scale n) * (P * IZR G))%R by ring.
    apply Rmult_le_compat_l; [lra|exact F].
  - replace (IZR (scale n) * (IZR K * (4096 * IZR M)))%R with ((IZR (scale n) * IZR K) * (4096 * IZR M))%R by ring.
    replace (4096 * (IZR (inv_gaps n c i) * IZR M) * IZR G)%R with ((IZR (inv_gaps n c i) * IZR G) * (4096 * IZR M))%R by ring.
    apply Rmult_le_compat_r; [lra|exact W].
Qed.
Lemma dcell_bound num den : 0 < den ->
  dcell_ok (map c (zseq n)) (map (inv_gaps n c) (zseq n)) num den (scale n) a b = true ->
  (dsum x y (zseq n) <= IZR num / IZR den)%R.
Proof using Hx Hg Hy.
  intros Hd H. unfold dcell_ok in H. apply Z.leb_le in H.
  assert (E : combine (map (far a b) (map c (zseq n))) (map (inv_gaps n c) (zseq n)) = map (fun k => (m k, inv_gaps n c k)) (zseq n)).
  { rewrite map_map. generalize (zseq n). intros l. induction l as [|k l IH]; [reflexivity|]. cbn [map combine]. rewrite IH. reflexivity. }
  rewrite E in H. rewrite (four_spec m (inv_gaps n c) _ (NoDup_zseq n)) in H. cbn [snd] in H.
  apply IZR_le in H. rewrite !mult_IZR in H. apply IZR_lt in Hd. pose proof (scale_pos n) as S0. apply IZR_lt in S0.
  assert (B : (dsum x y (zseq n) * IZR (scale n) <= IZR (pairs_sum m (inv_gaps n c) (zseq n)) * 4096)%R).
  { unfold dsum, pairs_sum. rewrite <- sumR_IZR, <- !sumR_scal_r. apply sumR_le. intros i Hi. rewrite <- sumR_IZR, <- !sumR_scal_r. apply sumR_le.
    intros q Hq. destruct (Z.eqb_spec q i) as [e|e]; [lra|]. pose proof (part_bound i q Hi Hq e) as Q. lra. }
  set (A := dsum x y (zseq n)) in *. set (B' := IZR (pairs_sum _ _ _)) in *.
  apply Rmult_le_reg_r with (IZR den * IZR (scale n))%R; [apply Rmult_lt_0_compat; assumption|].
  replace (IZR num / IZR den * (IZR den * IZR (scale n)))%R with (IZR num * IZR (scale n))%R by (field; lra).
  replace (A * (IZR den * IZR (scale n)))%R with (A * IZR (scale n) * IZR den)%R by ring.
  apply Rle_trans with (B' * 4096 * IZR den)%R; [|exact H]. apply Rmult_le_compat_r; [lra|exact B].
Qed.
End Cell.
Lemma dstable_check_spec n c num den x y : dstable_check n c num den = true -> Close n c x -> (-1 <= y <= 1)%R ->
  (dsum x y (zseq n) <= IZR num / IZR den)%R.
Proof.
  intros H Hx Hy. unfold dstable_check in H. cbv zeta in H. apply andb_prop in H as (H & Hc). apply andb_prop in H as (Hd & Hg).
  apply Z.ltb_lt in Hd. destruct (cover_spec _ _ _ _ (y * 1048576) Hc) as (a & b & Hab & Hyab); [lra|].
  exact (dcell_bound n c x Hx Hg a b y Hyab num den Hd Hab).
Qed.

Definition dbound_num (s : spacing) (ORDER : Z) : Z := ORDER ^ 2 * match s with EqualSpacing => 8 ^ ORDER | _ => 2 end.
Definition dbound_den (s : spacing) (ORDER : Z) : Z := match s with EqualSpacing => 5 ^ ORDER | _ => 1 end.
Definition dorder_check (s : spacing) (ORDER : Z) : bool :=
  let cs := map (refp s (ORDER + 1)) (zseq (Z.to_nat (ORDER + 1))) in
  dstable_check (Z.to_nat (ORDER + 1)) (fun k => nth (Z.to_nat k) cs 0) (dbound_num s ORDER) (dbound_den s ORDER).
Lemma dorders_checked : forallb (fun so => dorder_check (fst so) (snd so)) valid_orders = true.
Proof. vm_compute. reflexivity. Qed.
Lemma order_dstable s ORDER x y : ValidOrder (s, ORDER) -> ORDER <= 15 ->
  Close (Z.to_nat (ORDER + 1)) (refp s (ORDER + 1)) x -> (-1 <= y <= 1)%R ->
  (dsum x y (zseq (Z.to_nat (ORDER + 1))) <= GradientStability (s, ORDER))%R.
Proof.
  intros HV H15 HC Hy. pose proof dorders_checked as H. rewrite forallb_forall in H.
  specialize (H _ (valid_orders_spec _ _ HV H15)). cbn [fst snd] in H. unfold dorder_check in H. cbv zeta in H.
  apply Rle_trans with (IZR (dbound_num s ORDER) / IZR (dbound_den s ORDER))%R.
  - apply (dstable_check_spec _ _ _ _ x y H); [|exact Hy]. intros k Hk. fold (cached s ORDER k). rewrite cached_spec by exact Hk. now apply HC.
  - right. unfold GradientStability, dbound_num, dbound_den. cbn [fst snd]. rewrite mult_IZR, Z.pow_2_r, mult_IZR.
    replace (IZR ORDER ^ 2)%R with (IZR ORDER * IZR ORDER)%R by ring.
    pose proof (bounds_stability s ORDER HV H15) as E. unfold bound_num, bound_den in E. destruct s; [rewrite <- E|lra|lra]. unfold Rdiv. ring.
Qed.

(** * Any number of equally spaced points *)
Lemma dcleared n x y t i a : (forall k, 0 <= k <= Z.of_nat n -> x k = (-1 + IZR k * (2 / INR n))%R) -> 0 <= i <= Z.of_nat n ->
  0 <= a <= Z.of_nat n -> a <> i -> y = (-1 + t * (2 / INR n))%R ->
  (part x i a y (zseq (S n)) * prodR (fun k => if i =? k then 1 else Rabs (IZR i - IZR k)) (zseq (S n)) =
   INR n / 2 * prodR (fun k => if (k =? a) || (k =? i) then 1 else Rabs (t - IZR k)) (zseq (S n)))%R.
Proof.
  intros Hx Hi Ha Hai Hy. assert (Nn : (0 < INR n)%R) by (apply lt_0_INR; lia). set (l := zseq (S n)).
  assert (Hal : In a l) by (apply in_zseq; lia).
  unfold part. set (v' := (/ Rabs (x i - x a))%R). rewrite <- (prod_single v' a l (NoDup_zseq _) Hal) at 1.
  rewrite <- (prod_single (INR n / 2) a l (NoDup_zseq _) Hal) at 1. rewrite <- !prodR_mult. apply prodR_ext. intros k Hk. apply in_zseq in Hk.
  assert (D : forall j, 0 <= j <= Z.of_nat n -> (x i - x j = (IZR i - IZR j) * (2 / INR n))%R) by (intros j Hj; rewrite (Hx i Hi), (Hx j Hj); ring).
  assert (H2 : (0 < 2 / INR n)%R) by (apply Rdiv_lt_0_compat; lra).
  assert (Q : forall j, 0 <= j <= Z.of_nat n -> j <> i -> (0 < Rabs (IZR i - IZR j))%R).
  { intros j Hj Hji. apply Rabs_pos_lt. rewrite <- minus_IZR. apply IZR_neq. lia. }
  rewrite (Z.eqb_sym i k). destruct (Z.eqb_spec k a) as [->|e]; cbn [orb].
  - destruct (Z.eqb_spec a i); [contradiction|]. unfold v'. rewrite (D a Ha), Rabs_mult, (Rabs_pos_eq (2 / INR n)) by lra.
    specialize (Q a Ha Hai). field. split; lra.
  - destruct (Z.eqb_spec k i) as [e'|e']; [ring|]. specialize (Q k ltac:(lia) e'). rewrite (D k) by lia. unfold Rdiv at 1.
    rewrite Rabs_mult, Rabs_inv, Rabs_mult, (Rabs_pos_eq (2 / INR n)) by lra.
    assert (Y : (y - x k = (t - IZR k) * (2 / INR n))%R) by (rewrite (Hx k), Hy by lia; ring). rewrite Y, Rabs_mult, (Rabs_pos_eq (2 / INR n)) by lra.
    field. split; lra.
Qed.
Lemma equal_dstable n x y : (0 < n)%nat -> Z.of_nat n < INT_MAX ->
  (forall k, 0 <= k <= Z.of_nat n -> x k = (-1 + IZR k * (2 / INR n))%R) -> (-1 <= y <= 1)%R ->
  (dsum x y (zseq (S n)) <= INR n ^ 2 * 2 ^ n)%R.
Proof.
  intros Hn HM Hx Hy. assert (Nn : (1 <= INR n)%R) by (apply (le_INR 1); lia).
  set (t := ((y + 1) * INR n / 2)%R). assert (Ht : (0 <= t <= INR n)%R) by (unfold t; split; nra).
  destruct (floor_cell n t Hn Ht) as (j & Hj & Hjt).
  apply Rle_trans with (sumR (fun i => INR n ^ 2 * Binomial.C n (Z.to_nat i))%R (zseq (S n))).
  - apply sumR_le. intros i Hi. apply in_zseq in Hi. assert (Hi' : 0 <= i <= Z.of_nat n) by lia.
    pose proof (gaps_fact n i Hi') as G. set (B := prodR (fun k => if i =? k then 1 else Rabs (IZR i - IZR k))%R (zseq (S n))) in *.
    assert (B0 : (0 < B)%R). { rewrite G. apply Rmult_lt_0_compat; apply INR_fact_lt_0. }
    assert (C0 : (0 <= Binomial.C n (Z.to_nat i))%R).
    { unfold Binomial.C. rewrite <- G. apply Rmult_le_pos; [apply pos_INR|left; apply Rinv_0_lt_compat; exact B0]. }
    apply Rle_trans with (sumR (fun _ : Z => INR n / 2 * Binomial.C n (Z.to_nat i))%R (zseq (S n))).
    + apply sumR_le. intros a Ha. apply in_zseq in Ha. destruct (Z.eqb_spec a i) as [e|e]; [apply Rmult_le_pos; lra|].
      pose proof (dcleared n x y t i a Hx Hi' ltac:(lia) e ltac:(unfold t; field; lra)) as E. fold B in E.
      pose proof (distances_fact n j t (fun k => (k =? a) || (k =? i)) Hj Hjt) as D.
      apply Rmult_le_reg_r with B; [exact B0|]. rewrite E. unfold Binomial.C. rewrite <- G.
      replace (INR n / 2 * (INR (fact n) / B) * B)%R with (INR n / 2 * INR (fact n))%R by (field; lra).
      apply Rmult_le_compat_l; [lra|exact D].
    + rewrite (sumR_ext _ (fun _ : Z => INR n / 2 * Binomial.C n (Z.to_nat i) * 1)%R) by (intros; ring). rewrite sumR_scal.
      assert (S1 : sumR (fun _ : Z => 1%R) (zseq (S n)) = INR (S n)).
      { generalize (S n). intros k. induction k as [|k IH]; [reflexivity|]. rewrite zseq_S, sumR_app, IH, S_INR, sumR_cons. cbn. ring. }
      rewrite S1, S_INR. set (C := Binomial.C n (Z.to_nat i)) in *.
      replace (INR n / 2 * C * (INR n + 1))%R with (INR n * (INR n + 1) / 2 * C)%R by field. apply Rmult_le_compat_r; [exact C0|]. nra.
  - rewrite sumR_scal. apply Rmult_le_compat_l; [nra|]. rewrite sumR_sum_f.
    replace (2 ^ n)%R with ((1 + 1) ^ n)%R by (f_equal; lra). rewrite Binomial.binomial.
    right. apply sum_eq. intros i _. rewrite Nat2Z.id, !pow1. ring.
Qed.

(** * Directions and elements *)
Lemma size_part n x i y : gradient_size n x i y = sumR (fun a => if a =? i then 0%R else part x i a y (zseq (Z.to_nat n))) (zseq (Z.to_nat n)).
Proof.
  unfold gradient_size. rewrite Zsum_sumR. apply sumR_ext. intros a _. destruct (a =? i); [reflexivity|]. unfold part. rewrite Zprod_prodR. reflexivity.
Qed.
Lemma sizes_dsum n x y : Zsum n (fun i => gradient_size n x i y) = dsum x y (zseq (Z.to_nat n)).
Proof. rewrite Zsum_sumR. unfold dsum. apply sumR_ext. intros i _. apply size_part. Qed.
Lemma direction_dstable s ORDER d y : ValidOrder (s, ORDER) -> npts d = ORDER + 1 ->
  Points (coord_ct RNum s (ORDER + 1)) (ORDER + 1) (pt d) -> (-1 <= y <= 1)%R ->
  (Zsum (npts d) (fun i => gradient_size (npts d) (pt d) i y) <= GradientStability (s, ORDER))%R.
Proof.
  intros HV Hn Hp Hy. assert (HO : 1 <= ORDER < INT_MAX) by (unfold ValidOrder, INT_MAX in *; cbn in HV; destruct s; lia).
  rewrite sizes_dsum, Hn. destruct (Z.leb_spec ORDER 15) as [L|L].
  - apply order_dstable; try assumption. now apply refp_close.
  - destruct s; unfold ValidOrder in HV; cbn in HV; [|lia|lia]. unfold GradientStability, Stability. cbn [fst snd]. rewrite (proj2 (Z.leb_gt _ _)) by lia.
    replace (Z.to_nat (ORDER + 1)) with (S (Z.to_nat ORDER)) by lia.
    replace (IZR ORDER) with (INR (Z.to_nat ORDER)) by (rewrite INR_IZR_INZ, Z2Nat.id by lia; reflexivity). apply equal_dstable; [lia|lia| |exact Hy].
    intros k Hk. rewrite (equal_points (ORDER + 1) (pt d) ltac:(lia) Hp k ltac:(lia)). rewrite INR_IZR_INZ, Z2Nat.id by lia.
    replace (ORDER + 1 - 1) with ORDER by lia. reflexivity.
Qed.
Lemma direction_derivatives d i y : Nodal d -> 0 <= i < npts d -> npts d <= INT_MAX ->
  (Rabs (fder d i y) <= gradient_size (npts d) (pt d) i y)%R.
Proof.
  intros HN Hi HM. set (O := npts d - 1). assert (EO : O + 1 = npts d) by (unfold O; lia).
  destruct (lagrange_basis_lemma O (fun k => Ok (pt d k)) (pt d)) as (_ & _ & HB); [lia|intros k _; reflexivity|rewrite EO; now apply nodal_distinct|].
  rewrite EO in HB. assert (E : fder d i y = lgrad1 O (pt d) i y).
  { pose proof (nb_deriv _ _ _ _ HN i y Hi) as D1. pose proof (nb_deriv _ _ _ _ HB i y Hi) as D2.
    apply (deriv_unique (fval d i) y); [exact D1|]. intros eps He. destruct (D2 eps He) as (delta & Hd). exists delta. intros h Hh0 Hh.
    specialize (Hd h Hh0 Hh). unfold lval1 in Hd. rewrite EO in Hd.
    rewrite !(direction_values d i _ HN (nodal_distinct d HN) Hi HM). exact Hd. }
  rewrite E, size_part. unfold lgrad1. rewrite EO. eapply Rle_trans; [apply sumR_abs|]. apply sumR_le. intros a Ha. apply in_zseq in Ha.
  unfold dterm. rewrite (Z.eqb_sym i a). destruct (Z.eqb_spec a i) as [e|e]; [rewrite Rmult_0_l, Rabs_R0; lra|].
  unfold part. rewrite Rabs_mult. unfold Rdiv at 1. rewrite Rmult_1_l, Rabs_inv. right. f_equal. rewrite prodR_abs. apply prodR_ext. intros k _.
  unfold term. destruct (Z.eqb_spec k a) as [ea|ea]; cbn [orb]; [apply Rabs_R1|]. rewrite (Z.eqb_sym i k). destruct (k =? i); [apply Rabs_R1|]. f_equal. unfold Rdiv. ring.
Qed.
Fixpoint DAmplifies (j : nat) (ds : list direction) (specs : list (spacing * Z)) (xi : list R) : Prop :=
  match ds, specs, xi with
  | d :: ds', so :: specs', x :: xi' =>
      match j with
      | O => (Zsum (npts d) (fun i => gradient_size (npts d) (pt d) i x) <= GradientStability so)%R /\ Amplifies ds' (map Stability specs') xi'
      | S j' => (Zsum (npts d) (fun i => Rabs (fval d i x)) <= Stability so)%R /\ DAmplifies j' ds' specs' xi'
      end
  | _, _, _ => False
  end.
Lemma part_nonneg x i a y l : (0 <= part x i a y l)%R.
Proof.
  unfold part. apply Rmult_le_pos.
  - destruct (Req_dec (x i - x a) 0) as [E|E]; [rewrite E, Rabs_R0, Rinv_0; lra|]. apply Rlt_le, Rinv_0_lt_compat. now apply Rabs_pos_lt.
  - induction l as [|k l IH]; [cbn; lra|]. rewrite prodR_cons. apply Rmult_le_pos; [|exact IH]. destruct ((k =? a) || (k =? i)); [lra|apply Rabs_pos].
Qed.
Lemma size_nonneg n x i y : (0 <= gradient_size n x i y)%R.
Proof. rewrite size_part. apply sum_nonneg. intros a _. destruct (a =? i); [lra|apply part_nonneg]. Qed.
Lemma dtensor_total j : forall ds specs xi, DAmplifies j ds specs xi -> (length ds <= length xi)%nat ->
  (0 <= BoxSum (counts ds) (fun t => dtensor_size j ds t xi) <= ElementGradientStability j specs)%R.
Proof.
  induction j as [|j IH]; intros ds specs xi HA Hl; (destruct ds as [|d ds]; [destruct HA|]); (destruct specs as [|so specs]; [destruct HA|]);
    (destruct xi as [|x xi]; [destruct HA|]); destruct HA as (H1 & H2); cbn [ElementGradientStability];
    change (counts (d :: ds)) with (npts d :: counts ds); cbn [BoxSum dtensor_size]; rewrite Zsum_sumR in *.
  - pose proof (tensor_abs ds _ xi H2 ltac:(cbn in Hl; lia)) as T. fold (ElementStability specs) in T.
    rewrite (sumR_ext _ (fun i => gradient_size (npts d) (pt d) i x * BoxSum (counts ds) (fun t => Rabs (tensor ds t xi)))%R).
    2: { intros i _. rewrite <- BoxSum_scal. reflexivity. }
    rewrite sumR_scal_r. set (S := sumR _ _) in *. assert (0 <= S)%R by (apply sum_nonneg; intros; apply size_nonneg).
    split; [apply Rmult_le_pos; lra|apply Rmult_le_compat; lra].
  - specialize (IH ds specs xi H2 ltac:(cbn in Hl; lia)).
    rewrite (sumR_ext _ (fun i => Rabs (fval d i x) * BoxSum (counts ds) (fun t => dtensor_size j ds t xi))%R).
    2: { intros i _. rewrite <- BoxSum_scal. reflexivity. }
    rewrite sumR_scal_r. set (S := sumR _ _) in *. assert (0 <= S)%R by (apply sum_nonneg; intros; apply Rabs_pos).
    split; [apply Rmult_le_pos; lra|apply Rmult_le_compat; lra].
Qed.
Lemma dtensor_le j : forall ds t xi, Forall Nodal ds -> Forall (fun d => npts d <= INT_MAX) ds -> InRange (counts ds) t ->
  (length ds <= length xi)%nat -> (j < length ds)%nat -> (Rabs (dtensor j ds t xi) <= dtensor_size j ds t xi)%R.
Proof.
  induction j as [|j IH]; intros ds t xi HN HM Ht Hl Hj; (destruct ds as [|d ds]; [cbn in Hj; lia|]); (destruct xi as [|x xi]; [cbn in Hl; lia|]);
    change (counts (d :: ds)) with (npts d :: counts ds) in Ht; apply InRange_cons in Ht as (i & t' & -> & Hi & Ht);
    inversion HN as [|? ? N1 N2]; subst; inversion HM as [|? ? M1 M2]; subst; cbn [dtensor dtensor_size]; rewrite Rabs_mult.
  - apply Rmult_le_compat_r; [apply Rabs_pos|]. now apply direction_derivatives.
  - apply Rmult_le_compat_l; [apply Rabs_pos|]. apply IH; try assumption; cbn in Hl, Hj; lia.
Qed.
Lemma grids_dfacts specs ds : Forall ValidOrder specs -> Forall2 GridR specs ds ->
  forall j xi, (j < length specs)%nat -> length xi = length specs -> InCube (-1) 1 xi -> DAmplifies j ds specs xi.
Proof.
  intros HV HG. induction HG as [|[s o] d specs ds (Hn & Hp & HN) HG' IH]; intros j xi Hj Hl HC; [cbn in Hj; lia|].
  inversion HV as [|? ? V1 V2]; subst. destruct xi as [|x xi]; [discriminate|]. inversion HC as [|? ? Hx HC']; subst. injection Hl as Hl. cbn [fst snd] in *.
  destruct j as [|j]; cbn [DAmplifies]; split.
  - now apply direction_dstable.
  - now apply (grids_facts specs ds V2 HG').
  - now apply direction_stable.
  - apply IH; try assumption. cbn in Hj. lia.
Qed.
Lemma grids_points specs ds : Forall ValidOrder specs -> Forall2 GridR specs ds -> Forall (fun d => npts d <= INT_MAX) ds.
Proof.
  intros HV HG. induction HG as [|[s o] d specs ds (Hn & _) _ IH]; [constructor|]. inversion HV as [|? ? V1 V2]; subst.
  constructor; [|now apply IH]. cbn in Hn. rewrite Hn. unfold ValidOrder, INT_MAX in *. cbn in V1. destruct s; lia.
Qed.
Lemma gradient_stability_lemma c specs u w var1 var2 eps xi : Forall ValidOrder specs -> specs <> [] -> Z.of_nat (length specs) <= INT_MAX ->
  length xi = length specs -> InCube (-1) 1 xi ->
  (forall t, InRange (map (fun so => snd so + 1) specs) t -> var1 t = Ok (u t) /\ var2 t = Ok (w t) /\ (Rabs (u t - w t) <= eps)%R) ->
  exists p q, parent_gradient RNum c (Z.of_nat (length specs)) (map (fun so => LagrangeBasis RNum (snd so) (fst so)) specs) var1 xi = Ok p /\
    parent_gradient RNum c (Z.of_nat (length specs)) (map (fun so => LagrangeBasis RNum (snd so) (fst so)) specs) var2 xi = Ok q /\
    length p = length specs /\ length q = length specs /\
    forall j, (j < length specs)%nat -> (Rabs (nth j p 0 - nth j q 0) <= ElementGradientStability j specs * eps)%R.
Proof.
  intros HV Hne HI Hl HC H. destruct (grids_exist specs HV) as (ds & HE & HG).
  destruct (grids_facts specs ds HV HG) as (Ld & HN & Hc & HP & HA). rewrite <- Hc in H.
  assert (Lx : (length ds <= length xi)%nat) by (rewrite Ld; apply Nat.eq_le_incl; symmetry; exact Hl).
  assert (Hds : ds <> []) by (intros ->; destruct specs; [congruence|discriminate]). rewrite <- Ld in HI.
  destruct (parent_gradient_nth c _ ds u var1 xi HE Hds HI (fun t Ht => proj1 (H t Ht)) Lx) as (p & Ep & Lp & Np).
  destruct (parent_gradient_nth c _ ds w var2 xi HE Hds HI (fun t Ht => proj1 (proj2 (H t Ht))) Lx) as (q & Eq & Lq & Nq).
  rewrite Ld in *. exists p, q. do 4 (split; [assumption|]). intros j Hj. rewrite Np, Nq by exact Hj.
  assert (He : (0 <= eps)%R).
  { assert (Hz : InRange (counts ds) (map (fun _ => 0) specs)).
    { rewrite Hc. clear -HV. induction HV as [|[s o] l Hv _ IH]; [constructor|].
      cbn [map]. constructor; [unfold ValidOrder in Hv; cbn in *; destruct s; lia|]. exact IH. }
    eapply Rle_trans; [apply Rabs_pos|]. apply (proj2 (proj2 (H _ Hz))). }
  unfold dinterp. rewrite !BoxSum_sumR, <- sumR_minus. eapply Rle_trans; [apply sumR_abs|].
  apply Rle_trans with (sumR (fun t => dtensor_size j ds t xi * eps) (zbox (counts ds)))%R.
  - apply sumR_le. intros t Ht. apply in_zbox in Ht. replace (dtensor j ds t xi * u t - dtensor j ds t xi * w t)%R with (dtensor j ds t xi * (u t - w t))%R by ring.
    rewrite Rabs_mult. apply Rmult_le_compat; [apply Rabs_pos|apply Rabs_pos| |now apply H].
    apply dtensor_le; try assumption; [now apply (grids_points specs)|rewrite Ld; exact Lx|rewrite Ld; exact Hj].
  - rewrite sumR_scal_r, <- BoxSum_sumR. apply Rmult_le_compat_r; [exact He|]. apply dtensor_total; [|rewrite Ld; exact Lx]. now apply grids_dfacts.
Qed.
Lemma gradient_near_best_lemma specs : Forall ValidOrder specs -> specs <> [] -> Z.of_nat (length specs) <= INT_MAX ->
  exists ds, Forall2 GridR specs ds /\
  forall c f coef var xi eps, length xi = length specs -> InCube (-1) 1 xi ->
  (forall t, InRange (counts ds) t -> var t = Ok (f (gridpoint ds t))) ->
  (forall p, length p = length specs -> InCube (-1) 1 p -> (Rabs (f p - tpoly (counts ds) coef p) <= eps)%R) ->
  exists g, parent_gradient RNum c (Z.of_nat (length specs)) (map (fun so => LagrangeBasis RNum (snd so) (fst so)) specs) var xi = Ok g /\
    length g = length specs /\
    forall j D e, (j < length specs)%nat -> Partial f j xi D -> Partial (fun p => f p - tpoly (counts ds) coef p)%R j xi e ->
    (Rabs (D - nth j g 0) <= Rabs e + ElementGradientStability j specs * eps)%R.
Proof.
  intros HV Hne HI. destruct (grids_exist specs HV) as (ds & HE & HG). exists ds. split; [exact HG|].
  destruct (grids_facts specs ds HV HG) as (Ld & HN & Hc & HP & HA). intros c f coef var xi eps Hl HC Hv Hf.
  assert (Lx : (length ds <= length xi)%nat) by (rewrite Ld; apply Nat.eq_le_incl; symmetry; exact Hl).
  assert (Hds : ds <> []) by (intros ->; destruct specs; [congruence|discriminate]).
  destruct (gradient_stability_lemma c specs (fun t => f (gridpoint ds t)) (fun t => tpoly (counts ds) coef (gridpoint ds t)) var
    (fun t => Ok (tpoly (counts ds) coef (gridpoint ds t))) eps xi HV Hne HI Hl HC) as (g & q & Eg & Eq & Lg & Lq & B).
  { rewrite <- Hc. intros t Ht. split; [now apply Hv|]. split; [reflexivity|].
    apply Hf; [rewrite gridpoint_length by assumption; exact Ld|now apply gridpoint_cube]. }
  exists g. split; [exact Eg|]. split; [exact Lg|]. intros j D e Hj HD He.
  rewrite <- Ld in HI.
  destruct (parent_gradient_polynomial_lemma c _ ds coef (fun t => Ok (tpoly (counts ds) coef (gridpoint ds t))) xi HE HN Hds HI (fun t _ => eq_refl) Lx)
    as (q' & Eq' & _ & Hq). rewrite Ld in Eq'. rewrite Eq in Eq'. injection Eq' as <-. rewrite Ld in Hq. specialize (Hq j Hj).
  assert (E : e = (D - nth j q 0)%R).
  { eapply deriv_unique; [exact He|]. exact (derivable_pt_lim_minus _ _ _ _ _ HD Hq). }
  specialize (B j Hj). rewrite E. replace (D - nth j g 0)%R with ((D - nth j q 0) - (nth j g 0 - nth j q 0))%R by ring.
  eapply Rle_trans; [apply Rabs_triang|]. rewrite Rabs_Ropp. lra.
Qed.
