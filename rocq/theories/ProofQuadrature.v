(** Quadrature weights and exactness. *)
From Verif Require Import Base ProofBase Num ModelSpacing ModelQuadrature SpecNumeric ProofHom ProofSpacing.
From Coq Require Import Reals QArith Qreals Qreduction Lra.
Open Scope Z_scope.

Definition qweight (q : rule) (N i : Z) : Q := qof (weight_ct QrawNum q N i).
Definition qnode (q : rule) (N i : Z) : Q := qcoord (rule_spacing q) N i.

(** [q] in units of 1/D. *)
Definition zscale (D : Z) (q : Q) : Z := Qnum q * (D / Zpos (Qden q)).
Definition scales (D : Z) (q : Q) : bool := (D / Zpos (Qden q)) * Zpos (Qden q) =? D.
Lemma zscale_R D q : D <> 0 -> scales D q = true -> IZR (zscale D q) = (Q2R q * IZR D)%R.
Proof.
  intros HD H. apply Z.eqb_eq in H. unfold zscale. set (k := D / Zpos (Qden q)) in *. rewrite <- H.
  rewrite !mult_IZR. unfold Q2R. field. apply not_0_IZR. discriminate.
Qed.

(** Denominator used for nodes and weights. *)
Definition unit_of (N : Z) : Z := if N <=? 5 then 10 ^ 39 else 10 ^ 16.

Fixpoint sumz (l : list Z) : Z := match l with [] => 0 | x :: l' => x + sumz l' end.
Fixpoint mul2 (l m : list Z) : list Z :=
  match l, m with x :: l', y :: m' => x * y :: mul2 l' m' | _, _ => [] end.

(** The integral of x^k over [-1,1] times k + 1. *)
Definition two_or_0 (k : nat) : Z := if Nat.even k then 2 else 0.

(** [WX] holds w_i x_i^k in units of 1/Den. *)
Fixpoint mom_check (n k : nat) (X WX : list Z) (D Den digits : Z) : bool :=
  let e := Z.abs (Z.of_nat (k + 1) * sumz WX - two_or_0 k * Den) in
  match n with
  | O => Z.of_nat (k + 1) * Den <=? 20000 * e
  | S m => (e * digits <=? Z.of_nat (k + 1) * Den) && mom_check m (S k) X (mul2 WX X) D (Den * D) digits
  end.

Definition rule_max (q : rule) : Z := match q with QuadratureGaussLegendre => 4 | QuadratureGaussLobatto => 9 end.
Definition rule_degree (q : rule) (N : Z) : Z :=
  match q with QuadratureGaussLegendre => 2 * N - 1 | QuadratureGaussLobatto => 2 * N - 3 end.
Definition rule_digits (N : Z) : nat := if N <=? 5 then 33 else 13.

Definition qabs_le (a e : Q) : bool := Qle_bool a e && Qle_bool (- a) e.
Lemma qabs_le_spec a e : qabs_le a e = true -> (Rabs (Q2R a) <= Q2R e)%R.
Proof.
  intros H. apply andb_prop in H. destruct H as (H1 & H2). apply Qleb_R in H1, H2.
  rewrite Q2R_opp in H2. apply Rabs_le. lra.
Qed.

Definition rule_check (q : rule) (N : Z) : bool :=
  allz N (fun i => is_ok (weight_ct QrawNum q N i)) &&
  allz N (fun i => is_ok (coord_ct QrawNum (rule_spacing q) N i)) &&
  within_b N (qweight q N) 0 2 &&
  allz N (fun i => qabs_le (qweight q N (N - 1 - i) - qweight q N i) (qtenth 13)) &&
  ((match q with QuadratureGaussLobatto => N =? 8 | _ => false end) || sym_b N (qweight q N)) &&
  allz N (fun i => scales (unit_of N) (qweight q N i) && scales (unit_of N) (qnode q N i)) &&
  mom_check (Z.to_nat (rule_degree q N + 1)) 0 (map (fun i => zscale (unit_of N) (qnode q N i)) (zseq (Z.to_nat N)))
    (map (fun i => zscale (unit_of N) (qweight q N i)) (zseq (Z.to_nat N)))
    (unit_of N) (unit_of N) (10 ^ Z.of_nat (rule_digits N)).

Lemma rule_check_legendre_2 : rule_check QuadratureGaussLegendre 2 = true.
Proof. vm_cast_no_check (eq_refl true). Qed.
Lemma rule_check_legendre_3 : rule_check QuadratureGaussLegendre 3 = true.
Proof. vm_cast_no_check (eq_refl true). Qed.
Lemma rule_check_legendre_4 : rule_check QuadratureGaussLegendre 4 = true.
Proof. vm_cast_no_check (eq_refl true). Qed.
Lemma rule_check_lobatto_2 : rule_check QuadratureGaussLobatto 2 = true.
Proof. vm_cast_no_check (eq_refl true). Qed.
Lemma rule_check_lobatto_3 : rule_check QuadratureGaussLobatto 3 = true.
Proof. vm_cast_no_check (eq_refl true). Qed.
Lemma rule_check_lobatto_4 : rule_check QuadratureGaussLobatto 4 = true.
Proof. vm_cast_no_check (eq_refl true). Qed.
Lemma rule_check_lobatto_5 : rule_check QuadratureGaussLobatto 5 = true.
Proof. vm_cast_no_check (eq_refl true). Qed.
Lemma rule_check_lobatto_6 : rule_check QuadratureGaussLobatto 6 = true.
Proof. vm_cast_no_check (eq_refl true). Qed.
Lemma rule_check_lobatto_7 : rule_check QuadratureGaussLobatto 7 = true.
Proof. vm_cast_no_check (eq_refl true). Qed.
Lemma rule_check_lobatto_8 : rule_check QuadratureGaussLobatto 8 = true.
Proof. vm_cast_no_check (eq_refl true). Qed.
Lemma rule_check_lobatto_9 : rule_check QuadratureGaussLobatto 9 = true.
Proof. vm_cast_no_check (eq_refl true). Qed.

Lemma rule_check_true q N : 2 <= N <= rule_max q -> rule_check q N = true.
Proof.
  intros H. destruct q; simpl in H.
  - assert (C : N = 2 \/ N = 3 \/ N = 4) by lia. destruct C as [E|[E|E]]; rewrite E.
    + exact rule_check_legendre_2.
    + exact rule_check_legendre_3.
    + exact rule_check_legendre_4.
  - assert (C : N = 2 \/ N = 3 \/ N = 4 \/ N = 5 \/ N = 6 \/ N = 7 \/ N = 8 \/ N = 9) by lia.
    destruct C as [E|[E|[E|[E|[E|[E|[E|E]]]]]]]; rewrite E.
    + exact rule_check_lobatto_2.
    + exact rule_check_lobatto_3.
    + exact rule_check_lobatto_4.
    + exact rule_check_lobatto_5.
    + exact rule_check_lobatto_6.
    + exact rule_check_lobatto_7.
    + exact rule_check_lobatto_8.
    + exact rule_check_lobatto_9.
Qed.

(** * Moments over the reals *)
Definition node (q : rule) (N i : Z) : R := Q2R (qnode q N i).
Definition wgt (q : rule) (N i : Z) : R := Q2R (qweight q N i).
Definition moment (q : rule) (N : Z) (k : nat) : R := Zsum N (fun i => wgt q N i * node q N i ^ k)%R.
Definition exact_moment (k : nat) : R := ((1 - (-1) ^ (k + 1)) / INR (k + 1))%R.

Lemma m1_pow k : ((-1) ^ k = if Nat.even k then 1 else -1)%R.
Proof.
  induction k as [|k IH]; [reflexivity|]. rewrite Nat.even_succ, <- Nat.negb_even. simpl pow. rewrite IH.
  destruct (Nat.even k); simpl; lra.
Qed.
Lemma two_or_0_R k : IZR (two_or_0 k) = (exact_moment k * IZR (Z.of_nat (k + 1)))%R.
Proof.
  unfold two_or_0, exact_moment. rewrite m1_pow, <- INR_IZR_INZ.
  replace (Nat.even (k + 1)) with (negb (Nat.even k)).
  2: { rewrite Nat.add_1_r, Nat.even_succ, <- Nat.negb_even. reflexivity. }
  assert (Hn : (INR (k + 1) <> 0)%R) by (apply not_0_INR; lia).
  destruct (Nat.even k); cbn [negb]; field; exact Hn.
Qed.

Lemma sumz_R {A} (l : list A) (g : A -> Z) (f : A -> R) c : (forall a, In a l -> IZR (g a) = (f a * c)%R) ->
  IZR (sumz (map g l)) = (fold_right Rplus 0 (map f l) * c)%R.
Proof.
  induction l as [|a l IH]; intros H; simpl; [ring|].
  rewrite plus_IZR, (H a) by (left; reflexivity). rewrite IH by (intros; apply H; right; assumption). ring.
Qed.
Lemma mul2_map {A} (l : list A) (f g : A -> Z) : mul2 (map f l) (map g l) = map (fun a => f a * g a) l.
Proof. induction l as [|a l IH]; simpl; [reflexivity|]. rewrite IH. reflexivity. Qed.

Lemma mom_check_spec N (w x : Z -> R) (X : Z -> Z) D digits : 0 < D -> 0 < digits ->
  (forall i, 0 <= i < N -> IZR (X i) = (x i * IZR D)%R) ->
  forall n k (W : Z -> Z) Den, 0 < Den ->
  (forall i, 0 <= i < N -> IZR (W i) = (w i * x i ^ k * IZR Den)%R) ->
  mom_check n k (map X (zseq (Z.to_nat N))) (map W (zseq (Z.to_nat N))) D Den digits = true ->
  (forall j, (k <= j < k + n)%nat ->
     (Rabs (Zsum N (fun i => w i * x i ^ j) - exact_moment j) <= / IZR digits)%R) /\
  (1 / 20000 <= Rabs (Zsum N (fun i => w i * x i ^ (k + n)) - exact_moment (k + n)))%R.
Proof.
  intros HD Hg HX.
  assert (E : forall k (W : Z -> Z) Den, 0 < Den ->
    (forall i, 0 <= i < N -> IZR (W i) = (w i * x i ^ k * IZR Den)%R) ->
    IZR (Z.abs (Z.of_nat (k + 1) * sumz (map W (zseq (Z.to_nat N))) - two_or_0 k * Den)) =
    (IZR (Z.of_nat (k + 1)) * IZR Den * Rabs (Zsum N (fun i => w i * x i ^ k) - exact_moment k))%R).
  { intros k W Den HDen HW. rewrite abs_IZR, minus_IZR, !mult_IZR, two_or_0_R.
    rewrite (sumz_R _ W (fun i => w i * x i ^ k)%R (IZR Den)).
    2: { intros i Hi. apply in_zseq in Hi. apply HW. lia. }
    fold (Zsum N (fun i => w i * x i ^ k)%R).
    replace (IZR (Z.of_nat (k + 1)) * (Zsum N (fun i => w i * x i ^ k) * IZR Den) -
             exact_moment k * IZR (Z.of_nat (k + 1)) * IZR Den)%R with
      (IZR (Z.of_nat (k + 1)) * IZR Den * (Zsum N (fun i => w i * x i ^ k) - exact_moment k))%R by ring.
    rewrite Rabs_mult. f_equal. apply Rabs_pos_eq. apply Rmult_le_pos; apply IZR_le; lia. }
  assert (Hgr : (0 < IZR digits)%R) by (apply IZR_lt; exact Hg).
  induction n as [|n IH]; intros k W Den HDen HW H.
  - split; [intros; lia|]. cbn [mom_check] in H. apply Z.leb_le in H. apply IZR_le in H.
    rewrite (mult_IZR 20000), (E k W Den HDen HW), mult_IZR in H. rewrite Nat.add_0_r.
    set (a := Rabs _) in *. set (c := (IZR (Z.of_nat (k + 1)) * IZR Den)%R) in *.
    assert (Hc : (0 < c)%R) by (unfold c; apply Rmult_lt_0_compat; apply IZR_lt; lia).
    apply (Rmult_le_reg_l (20000 * c)); [lra|]. lra.
  - cbn [mom_check] in H. apply andb_prop in H. destruct H as (H1 & H2).
    rewrite mul2_map in H2.
    destruct (IH (S k) (fun i => W i * X i) (Den * D) ltac:(nia)) as (A & B); [|exact H2|].
    { intros i Hi. rewrite !mult_IZR, HW, HX by exact Hi. simpl. ring. }
    split.
    + intros j Hj. destruct (Nat.eq_dec j k) as [->|Hne]; [|apply A; lia].
      apply Z.leb_le in H1. apply IZR_le in H1. rewrite mult_IZR, (E k W Den HDen HW), mult_IZR in H1.
      set (a := Rabs _) in *. set (c := (IZR (Z.of_nat (k + 1)) * IZR Den)%R) in *.
      assert (Hc : (0 < c)%R) by (unfold c; apply Rmult_lt_0_compat; apply IZR_lt; lia).
      apply (Rmult_le_reg_l (c * IZR digits)); [apply Rmult_lt_0_compat; assumption|].
      replace (c * IZR digits * / IZR digits)%R with c by (field; lra). lra.
    + replace (k + S n)%nat with (S k + n)%nat by lia. exact B.
Qed.

(** Sums. *)
Lemma Zsum_ext N f g : (forall i, 0 <= i < N -> f i = g i) -> Zsum N f = Zsum N g.
Proof.
  intros H. unfold Zsum. f_equal. apply map_ext_in. intros i Hi. apply in_zseq in Hi. apply H. lia.
Qed.
Lemma fold_Rplus_add {A} (f g : A -> R) l :
  fold_right Rplus 0%R (map (fun a => f a + g a)%R l) = (fold_right Rplus 0 (map f l) + fold_right Rplus 0 (map g l))%R.
Proof. induction l as [|a l IH]; simpl; [lra|]. rewrite IH. lra. Qed.
Lemma fold_Rplus_scal {A} (f : A -> R) c l :
  fold_right Rplus 0%R (map (fun a => c * f a)%R l) = (c * fold_right Rplus 0 (map f l))%R.
Proof. induction l as [|a l IH]; simpl; [lra|]. rewrite IH. lra. Qed.
Lemma Zsum_add N f g : Zsum N (fun i => f i + g i)%R = (Zsum N f + Zsum N g)%R.
Proof. apply fold_Rplus_add. Qed.
Lemma Zsum_scal N c f : Zsum N (fun i => c * f i)%R = (c * Zsum N f)%R.
Proof. apply fold_Rplus_scal. Qed.
Lemma Zsum_zero N : Zsum N (fun _ => 0%R) = 0%R.
Proof. unfold Zsum. induction (zseq (Z.to_nat N)); simpl; [reflexivity|]. rewrite IHl. lra. Qed.

(** Linear functionals on polynomials. *)
Fixpoint pmom (M : nat -> R) (m : nat) (p : list R) : R :=
  match p with [] => 0%R | c :: p' => (c * M m + pmom M (S m) p')%R end.

Lemma quad_pmom q N p : forall m,
  Zsum N (fun i => wgt q N i * (node q N i ^ m * peval p (node q N i)))%R = pmom (moment q N) m p.
Proof.
  induction p as [|c p IH]; intros m; simpl.
  - rewrite (Zsum_ext _ _ (fun _ => 0%R)); [apply Zsum_zero|]. intros; ring.
  - rewrite <- IH. unfold moment. rewrite <- Zsum_scal, <- Zsum_add. apply Zsum_ext. intros i _. simpl. ring.
Qed.

Lemma pmom_bound (M I : nat -> R) eps p : forall m,
  (forall k, (m <= k < m + length p)%nat -> (Rabs (M k - I k) <= eps)%R) ->
  (Rabs (pmom M m p - pmom I m p) <= eps * norm1 p)%R.
Proof.
  induction p as [|c p IH]; intros m H; simpl.
  - unfold norm1; simpl. rewrite Rminus_0_r, Rabs_R0. lra.
  - unfold norm1; simpl. fold (norm1 p).
    replace (c * M m + pmom M (S m) p - (c * I m + pmom I (S m) p))%R with
      (c * (M m - I m) + (pmom M (S m) p - pmom I (S m) p))%R by ring.
    eapply Rle_trans; [apply Rabs_triang|]. rewrite Rabs_mult, Rmult_plus_distr_l.
    apply Rplus_le_compat.
    + rewrite Rmult_comm. apply Rmult_le_compat_r; [apply Rabs_pos|]. apply H. simpl; lia.
    + apply IH. intros k Hk. apply H. simpl; lia.
Qed.

(** An antiderivative of x^m p(x). *)
Definition prim (m : nat) (p : list R) (x : R) : R := pmom (fun k => x ^ (k + 1) / INR (k + 1))%R m p.
Lemma prim_deriv p : forall m x, derivable_pt_lim (prim m p) x (x ^ m * peval p x)%R.
Proof.
  induction p as [|c p IH]; intros m x; unfold prim; simpl.
  - rewrite Rmult_0_r. apply (derivable_pt_lim_const 0%R).
  - replace (x ^ m * (c + x * peval p x))%R with (c * (/ INR (m + 1) * (INR (m + 1) * x ^ pred (m + 1))) + x ^ S m * peval p x)%R.
    2: { replace (pred (m + 1)) with m by lia. simpl. field. apply not_0_INR. lia. }
    apply (derivable_pt_lim_ext (mult_real_fct c (mult_real_fct (/ INR (m + 1))%R (fun t => (t ^ (m + 1))%R)) + prim (S m) p)%F).
    + intros z. unfold plus_fct, mult_real_fct, prim. unfold Rdiv. ring.
    + apply derivable_pt_lim_plus; [|apply IH]. apply derivable_pt_lim_scal, derivable_pt_lim_scal.
      apply derivable_pt_lim_pow.
Qed.
Lemma pmom_minus (A B : nat -> R) p : forall m, (pmom A m p - pmom B m p)%R = pmom (fun k => A k - B k)%R m p.
Proof. induction p as [|c p IH]; intros m; simpl; [ring|]. rewrite <- IH. ring. Qed.
Lemma pmom_ext (A B : nat -> R) p : (forall k, A k = B k) -> forall m, pmom A m p = pmom B m p.
Proof. intros H. induction p as [|c p IH]; intros m; simpl; [reflexivity|]. rewrite H, IH. reflexivity. Qed.

Lemma same_deriv_diff (f g f' : R -> R) a b :
  (forall x, derivable_pt_lim f x (f' x)) -> (forall x, derivable_pt_lim g x (f' x)) ->
  (f b - f a = g b - g a)%R.
Proof.
  intros Hf Hg.
  assert (HD : forall t, derivable_pt_lim (f - g)%F t 0%R).
  { intros s. replace 0%R with (f' s - f' s)%R by ring. apply derivable_pt_lim_minus; auto. }
  assert (pr : derivable (f - g)%F) by (intros s; exists 0%R; apply HD).
  assert (Hn : constant (f - g)%F).
  { apply (null_derivative_1 _ pr). intros s. rewrite derive_pt_eq. apply HD. }
  specialize (Hn a b). unfold minus_fct in Hn. lra.
Qed.

Lemma integral_pmom p (P : R -> R) : (forall x, derivable_pt_lim P x (peval p x)) ->
  (P 1 - P (-1) = pmom exact_moment 0 p)%R.
Proof.
  intros HP.
  assert (Hq : forall x, derivable_pt_lim (prim 0 p) x (peval p x)).
  { intros x. replace (peval p x) with (x ^ 0 * peval p x)%R by (simpl; ring). apply prim_deriv. }
  rewrite (same_deriv_diff P (prim 0 p) (peval p) (-1)%R 1%R HP Hq). unfold prim. rewrite pmom_minus.
  apply pmom_ext. intros k. unfold exact_moment. rewrite pow1. unfold Rdiv. ring.
Qed.

Lemma rule_points q N : 2 <= N <= rule_max q ->
  Points (weight_ct RNum q N) N (wgt q N) /\ Points (coord_ct RNum (rule_spacing q) N) N (node q N).
Proof.
  intros HN. pose proof (rule_check_true q N HN) as H. unfold rule_check in H.
  repeat (apply andb_prop in H; let K := fresh "K" in destruct H as (H & K)).
  split.
  - apply (Points_hom _ (weight_ct QrawNum q N)); [|exact H]. intros i. apply (weight_hom_ct QrawNum RNum Q2R QrawR_hom).
  - apply (Points_hom _ (coord_ct QrawNum (rule_spacing q) N)); [|exact K4]. intros i. apply (coord_hom_ct QrawNum RNum Q2R QrawR_hom).
Qed.

Lemma rule_moments q N : 2 <= N <= rule_max q ->
  (forall k, Z.of_nat k <= rule_degree q N -> (Rabs (moment q N k - exact_moment k) <= tenth (rule_digits N))%R) /\
  (let k := Z.to_nat (rule_degree q N + 1) in (1 / 20000 <= Rabs (moment q N k - exact_moment k))%R).
Proof.
  intros HN. pose proof (rule_check_true q N HN) as H. unfold rule_check in H.
  apply andb_prop in H. destruct H as (H & HM). apply andb_prop in H. destruct H as (_ & HS).
  assert (Hu : 0 < unit_of N) by (unfold unit_of; destruct (N <=? 5); reflexivity).
  assert (Hd : 0 < rule_degree q N + 1) by (unfold rule_degree; destruct q; lia).
  assert (Hs : forall i, 0 <= i < N -> IZR (zscale (unit_of N) (qweight q N i)) = (wgt q N i * IZR (unit_of N))%R /\
                 IZR (zscale (unit_of N) (qnode q N i)) = (node q N i * IZR (unit_of N))%R).
  { intros i Hi. pose proof (allz_spec _ _ HS i Hi) as K. cbv beta in K. apply andb_prop in K. destruct K as (K1 & K2).
    split; apply zscale_R; solve [assumption | lia]. }
  apply (mom_check_spec N (wgt q N) (node q N)) in HM.
  - destruct HM as (A & B). split.
    + intros k Hk. assert (Ht : tenth (rule_digits N) = (/ IZR (10 ^ Z.of_nat (rule_digits N)))%R).
      { unfold tenth. rewrite <- pow_IZR. reflexivity. }
      rewrite Ht. apply A. lia.
    + exact B.
  - exact Hu.
  - apply Z.pow_pos_nonneg; lia.
  - intros i Hi. apply Hs, Hi.
  - exact Hu.
  - intros i Hi. simpl pow. rewrite Rmult_1_r. apply Hs, Hi.
Qed.
Lemma moment_error q N k : 2 <= N <= rule_max q -> Z.of_nat k <= rule_degree q N ->
  (Rabs (moment q N k - exact_moment k) <= tenth (rule_digits N))%R.
Proof. intros HN. apply (proj1 (rule_moments q N HN)). Qed.

(** Exactness, for the nodes and weights the code delivers. *)
Lemma exactness_lemma q N p P :
  2 <= N <= (match q with QuadratureGaussLegendre => 4 | QuadratureGaussLobatto => 9 end) ->
  Z.of_nat (length p) <= (match q with QuadratureGaussLegendre => 2 * N | QuadratureGaussLobatto => 2 * N - 2 end) ->
  (forall x, derivable_pt_lim P x (peval p x)) ->
  exists w x, Points (weight_ct RNum q N) N w /\ Points (coord_ct RNum (rule_spacing q) N) N x /\
    (Rabs (Zsum N (fun i => w i * peval p (x i)) - (P 1 - P (-1))) <=
       tenth (if N <=? 5 then 33 else 13) * norm1 p)%R.
Proof.
  intros HN Hl HP. assert (HN' : 2 <= N <= rule_max q) by (destruct q; exact HN).
  destruct (rule_points q N HN') as (Hw & Hx). exists (wgt q N), (node q N).
  split; [exact Hw|]. split; [exact Hx|].
  rewrite (integral_pmom p P HP).
  rewrite (Zsum_ext _ _ (fun i => wgt q N i * (node q N i ^ 0 * peval p (node q N i)))%R) by (intros; simpl; ring).
  rewrite quad_pmom. apply pmom_bound. intros k Hk. apply moment_error; [exact HN'|].
  unfold rule_degree. destruct q; lia.
Qed.

(** ... and not for one degree more: the monomial of the next degree. *)
Lemma peval_monomial n x : peval (repeat 0%R n ++ [1%R]) x = (x ^ n)%R.
Proof. induction n as [|n IH]; simpl; [ring|]. rewrite IH. ring. Qed.
Lemma pmom_monomial M n : forall m, pmom M m (repeat 0%R n ++ [1%R]) = M (m + n)%nat.
Proof.
  induction n as [|n IH]; intros m; simpl.
  - rewrite Nat.add_0_r. ring.
  - rewrite IH. replace (S m + n)%nat with (m + S n)%nat by lia. ring.
Qed.

Lemma sharp_lemma q N P :
  2 <= N <= (match q with QuadratureGaussLegendre => 4 | QuadratureGaussLobatto => 9 end) ->
  let n := Z.to_nat (match q with QuadratureGaussLegendre => 2 * N | QuadratureGaussLobatto => 2 * N - 2 end) in
  (forall x, derivable_pt_lim P x (x ^ n)%R) ->
  exists w x, Points (weight_ct RNum q N) N w /\ Points (coord_ct RNum (rule_spacing q) N) N x /\
    (1 / 20000 <= Rabs (Zsum N (fun i => w i * x i ^ n) - (P 1 - P (-1))))%R.
Proof.
  intros HN n HP. assert (HN' : 2 <= N <= rule_max q) by (destruct q; exact HN).
  destruct (rule_points q N HN') as (Hw & Hx). exists (wgt q N), (node q N).
  split; [exact Hw|]. split; [exact Hx|].
  assert (HP' : forall x, derivable_pt_lim P x (peval (repeat 0%R n ++ [1%R]) x)).
  { intros x. rewrite peval_monomial. apply HP. }
  rewrite (integral_pmom _ P HP'), pmom_monomial. change (0 + n)%nat with n.
  change (Zsum N (fun i => wgt q N i * node q N i ^ n)%R) with (moment q N n).
  pose proof (proj2 (rule_moments q N HN')) as K. cbv zeta in K.
  replace (Z.to_nat (rule_degree q N + 1)) with n in K by (unfold n, rule_degree; destruct q; lia).
  exact K.
Qed.

(** * Weights *)
Lemma weights_lemma q N :
  2 <= N <= (match q with QuadratureGaussLegendre => 4 | QuadratureGaussLobatto => 9 end) ->
  exists w, Points (weight_ct RNum q N) N w /\
    (forall i, 0 <= i < N -> (0 < w i < 2)%R) /\
    (Rabs (Zsum N w - 2) <= tenth (if N <=? 5 then 33 else 13))%R /\
    (forall i, 0 <= i < N -> (Rabs (w (N - 1 - i)%Z - w i) <= tenth 13)%R) /\
    (~ (q = QuadratureGaussLobatto /\ N = 8) -> EvenSymmetric N w).
Proof.
  intros HN. assert (HN' : 2 <= N <= rule_max q) by (destruct q; exact HN).
  destruct (rule_points q N HN') as (Hw & _). exists (wgt q N). split; [exact Hw|].
  pose proof (moment_error q N 0 HN' ltac:(unfold rule_degree; destruct q; lia)) as M0.
  pose proof (rule_check_true q N HN') as H. unfold rule_check in H.
  repeat (apply andb_prop in H; let K := fresh "K" in destruct H as (H & K)).
  split. { intros i Hi. pose proof (within_b_spec _ _ _ _ K3 i Hi) as W. rewrite RMicromega.Q2R_0 in W.
           replace (Q2R 2) with 2%R in W by (unfold Q2R; simpl; lra). exact W. }
  split. { unfold moment, exact_moment in M0. simpl in M0. replace ((1 - -1 * 1) / 1)%R with 2%R in M0 by field.
           rewrite (Zsum_ext _ _ (wgt q N)) in M0 by (intros; ring). exact M0. }
  split. { intros i Hi. pose proof (allz_spec _ _ K2 i Hi) as B. cbv beta in B. apply qabs_le_spec in B.
           rewrite Q2R_minus, qtenth_R in B. exact B. }
  intros Hn. apply sym_b_spec. apply orb_prop in K1. destruct K1 as [K1|K1]; [|exact K1].
  destruct q; [discriminate|]. exfalso. apply Hn. split; [reflexivity|lia].
Qed.

Lemma weight_asym_refuted_lemma : exists i wl wr, 0 <= i < 8 /\
  weight_ct RNum QuadratureGaussLobatto 8 i = Ok wl /\
  weight_ct RNum QuadratureGaussLobatto 8 (8 - 1 - i) = Ok wr /\ wl <> wr.
Proof.
  destruct (rule_points QuadratureGaussLobatto 8 ltac:(simpl; lia)) as (Hw & _).
  exists 1, (wgt QuadratureGaussLobatto 8 1), (wgt QuadratureGaussLobatto 8 6).
  split; [lia|]. split; [apply Hw; lia|]. split; [apply Hw; lia|].
  intros E. unfold wgt in E. apply eqR_Qeq in E. apply Qeq_bool_iff in E. vm_compute in E. discriminate.
Qed.

Definition wrt_check (q : rule) (N : Z) : bool :=
  allz N (fun i => match weight_rt QrawNum q N i, weight_ct QrawNum q N i with
                   | Ok a, Ok b => qabs_le (a - b) (qtenth 33) | _, _ => false end).
Lemma weight_rt_lemma q N i :
  2 <= N <= (match q with QuadratureGaussLegendre => 4 | QuadratureGaussLobatto => 5 end) -> 0 <= i < N ->
  exists a b, weight_rt RNum q N i = Ok a /\ weight_ct RNum q N i = Ok b /\ (Rabs (a - b) <= tenth 33)%R.
Proof.
  intros HN Hi.
  assert (H : wrt_check q N = true).
  { destruct q.
    - assert (C : N = 2 \/ N = 3 \/ N = 4) by lia. destruct C as [E|[E|E]]; rewrite E; vm_compute; reflexivity.
    - assert (C : N = 2 \/ N = 3 \/ N = 4 \/ N = 5) by lia.
      destruct C as [E|[E|[E|E]]]; rewrite E; vm_compute; reflexivity. }
  pose proof (allz_spec _ _ H i Hi) as B. cbv beta in B.
  rewrite (weight_hom_ct QrawNum RNum Q2R QrawR_hom), (weight_hom_rt QrawNum RNum Q2R QrawR_hom).
  destruct (weight_rt QrawNum q N i) as [a| | | |], (weight_ct QrawNum q N i) as [b| | | |]; try discriminate.
  exists (Q2R a), (Q2R b). split; [reflexivity|]. split; [reflexivity|].
  apply qabs_le_spec in B. rewrite Q2R_minus, qtenth_R in B. exact B.
Qed.

Lemma weight_rt_exact_refuted_lemma : exists i a b, 0 <= i < 4 /\
  weight_rt RNum QuadratureGaussLobatto 4 i = Ok a /\ weight_ct RNum QuadratureGaussLobatto 4 i = Ok b /\ a <> b.
Proof.
  exists 1. rewrite (weight_hom_ct QrawNum RNum Q2R QrawR_hom), (weight_hom_rt QrawNum RNum Q2R QrawR_hom).
  destruct (weight_rt QrawNum QuadratureGaussLobatto 4 1) as [a| | | |] eqn:Ea; [|vm_compute in Ea; discriminate..].
  destruct (weight_ct QrawNum QuadratureGaussLobatto 4 1) as [b| | | |] eqn:Eb; [|vm_compute in Eb; discriminate..].
  exists (Q2R a), (Q2R b). split; [lia|]. split; [reflexivity|]. split; [reflexivity|].
  intros E. apply eqR_Qeq in E. vm_compute in Ea, Eb. injection Ea as <-. injection Eb as <-. vm_compute in E. discriminate.
Qed.

Lemma weight_unsupported_lemma q N i :
  (~ (2 <= N <= match q with QuadratureGaussLegendre => 4 | QuadratureGaussLobatto => 9 end) ->
     weight_ct RNum q N i = IllFormed) /\
  (~ (2 <= N <= match q with QuadratureGaussLegendre => 4 | QuadratureGaussLobatto => 5 end) ->
     weight_rt RNum q N i = IllFormed).
Proof.
  split; intros H; destruct q; cbn [weight_ct weight_rt];
    unfold legendre_weight_ct, lobatto_weight_ct, legendre_weight_rt, lobatto_weight_rt.
  - replace ((2 <=? N) && (N <=? 4)) with false by lia. reflexivity.
  - replace ((2 <=? N) && (N <=? 9)) with false by lia. reflexivity.
  - replace ((2 <=? N) && (N <=? 4)) with false by lia. reflexivity.
  - replace ((2 <=? N) && (N <=? 5)) with false by lia. reflexivity.
Qed.

Lemma antiderivative_exists p : exists P, forall x, derivable_pt_lim P x (peval p x).
Proof.
  exists (prim 0 p). intros x. replace (peval p x) with (x ^ 0 * peval p x)%R by (simpl; ring). apply prim_deriv.
Qed.
Lemma legendre_2_half : (legendre 2 (1 / 2) = - 1 / 8)%R.
Proof. simpl. field. Qed.
