(** Spacings: equidistant points, Gauss-Legendre and Gauss-Lobatto nodes. *)
From Verif Require Import Base ProofBase Num ModelSpacing SpecNumeric ProofHom.
From Coq Require Import Reals QArith Qreals Qreduction Lra.
Open Scope Z_scope.

(** * Deciding facts about rational tables *)
Definition allz (N : Z) (p : Z -> bool) : bool := forallb p (zseq (Z.to_nat N)).
Lemma allz_spec N p : allz N p = true -> forall i, 0 <= i < N -> p i = true.
Proof. intros H i Hi. unfold allz in H. rewrite forallb_forall in H. apply H. apply in_zseq. lia. Qed.

Definition Qltb (a b : Q) : bool := negb (Qle_bool b a).
Lemma Qltb_R a b : Qltb a b = true -> (Q2R a < Q2R b)%R.
Proof.
  unfold Qltb. intros H. apply Qlt_Rlt. apply Qnot_le_lt. intros C. apply Qle_bool_iff in C.
  rewrite C in H. discriminate.
Qed.
Lemma Qleb_R a b : Qle_bool a b = true -> (Q2R a <= Q2R b)%R.
Proof. intros H. apply Qle_Rle. now apply Qle_bool_iff. Qed.
Lemma Qeqb_R a b : Qeq_bool a b = true -> Q2R a = Q2R b.
Proof. intros H. apply Qeq_eqR. now apply Qeq_bool_iff. Qed.

Definition qtenth (k : nat) : Q := 1 # Z.to_pos (10 ^ Z.of_nat k).
Lemma qtenth_R k : Q2R (qtenth k) = tenth k.
Proof.
  unfold qtenth, tenth, Q2R. simpl Qnum. simpl Qden. rewrite Rmult_1_l. f_equal.
  rewrite Z2Pos.id by (apply Z.pow_pos_nonneg; lia). rewrite <- pow_IZR. reflexivity.
Qed.

Definition qof (m : outcome Q) : Q := match m with Ok q => q | _ => 0%Q end.

Lemma Points_hom (cR : Z -> outcome R) (cQ : Z -> outcome Q) N :
  (forall i, cR i = omap Q2R (cQ i)) -> allz N (fun i => is_ok (cQ i)) = true ->
  Points cR N (fun i => Q2R (qof (cQ i))).
Proof.
  intros Hh H i Hi. rewrite Hh. pose proof (allz_spec _ _ H i Hi) as Hk. simpl in Hk.
  destruct (cQ i); try discriminate. reflexivity.
Qed.

(** Neighbouring entries are at least 1/100 apart. *)
Definition inc_b (N : Z) (x : Z -> Q) : bool :=
  allz (N - 1) (fun i => Qle_bool (1 # 100) (x (i + 1) - x i)).
Lemma inc_b_gap N x i j : inc_b N x = true -> 0 <= i < j -> j < N -> (1 / 100 <= Q2R (x j) - Q2R (x i))%R.
Proof.
  intros H.
  assert (S1 : forall k, 0 <= k -> k + 1 < N -> (1 / 100 <= Q2R (x (k + 1)%Z) - Q2R (x k))%R).
  { intros k Hk Hk'. pose proof (allz_spec _ _ H k ltac:(lia)) as K. cbv beta in K. apply Qleb_R in K.
    rewrite Q2R_minus in K. replace (Q2R (1 # 100)) with (1 / 100)%R in K by (unfold Q2R; simpl; lra). exact K. }
  intros Hij Hj. replace j with (i + 1 + Z.of_nat (Z.to_nat (j - i - 1))) in * by lia.
  remember (Z.to_nat (j - i - 1)) as n eqn:En. clear En.
  induction n as [|n IH].
  - rewrite Z.add_0_r in *. apply S1; lia.
  - pose proof (IH ltac:(lia) ltac:(lia)) as G. pose proof (S1 (i + 1 + Z.of_nat n) ltac:(lia) ltac:(lia)) as G1.
    replace (i + 1 + Z.of_nat (S n)) with (i + 1 + Z.of_nat n + 1) by lia. lra.
Qed.
Lemma inc_b_spec N x : inc_b N x = true -> Increasing N (fun i => Q2R (x i)).
Proof. intros H i j Hij Hj. pose proof (inc_b_gap N x i j H Hij Hj). lra. Qed.
Definition antisym_b (N : Z) (x : Z -> Q) : bool :=
  allz N (fun i => Qeq_bool (x (N - 1 - i)) (- x i)).
Lemma antisym_b_spec N x : antisym_b N x = true -> OddSymmetric N (fun i => Q2R (x i)).
Proof.
  intros H i Hi. pose proof (allz_spec _ _ H i Hi) as K. apply Qeqb_R in K.
  rewrite K, Q2R_opp. reflexivity.
Qed.
Definition sym_b (N : Z) (x : Z -> Q) : bool := allz N (fun i => Qeq_bool (x (N - 1 - i)) (x i)).
Lemma sym_b_spec N x : sym_b N x = true -> EvenSymmetric N (fun i => Q2R (x i)).
Proof. intros H i Hi. exact (Qeqb_R _ _ (allz_spec _ _ H i Hi)). Qed.
Definition within_b (N : Z) (x : Z -> Q) (lo hi : Q) : bool :=
  allz N (fun i => Qltb lo (x i) && Qltb (x i) hi).
Lemma within_b_spec N x lo hi : within_b N x lo hi = true ->
  forall i, 0 <= i < N -> (Q2R lo < Q2R (x i) < Q2R hi)%R.
Proof.
  intros H i Hi. pose proof (allz_spec _ _ H i Hi) as K. simpl in K. apply andb_prop in K.
  destruct K. split; now apply Qltb_R.
Qed.

(** * Legendre polynomials *)
Fixpoint dlegendre (n : nat) (x : R) : R :=
  match n with
  | O => 0
  | S m =>
      match m with
      | O => 1
      | S k => ((2 * INR k + 3) * (legendre m x + x * dlegendre m x) - (INR k + 1) * dlegendre k x) / (INR k + 2)
      end
  end%R.

Lemma legendre_SS k x : legendre (S (S k)) x =
  (((2 * INR k + 3) * x * legendre (S k) x - (INR k + 1) * legendre k x) / (INR k + 2))%R.
Proof. reflexivity. Qed.
Lemma dlegendre_SS k x : dlegendre (S (S k)) x =
  (((2 * INR k + 3) * (legendre (S k) x + x * dlegendre (S k) x) - (INR k + 1) * dlegendre k x) / (INR k + 2))%R.
Proof. reflexivity. Qed.

Lemma pair_ind (P : nat -> Prop) : P O -> P 1%nat -> (forall k, P k -> P (S k) -> P (S (S k))) -> forall n, P n.
Proof.
  intros H0 H1 HS n. assert (H : P n /\ P (S n)); [|tauto].
  induction n as [|n (IH1 & IH2)]; auto.
Qed.

Lemma legendre_deriv n : forall x, derivable_pt_lim (legendre n) x (dlegendre n x).
Proof.
  induction n as [| |k IH0 IH1] using pair_ind; intros x.
  - apply (derivable_pt_lim_const 1).
  - apply derivable_pt_lim_id.
  - apply (derivable_pt_lim_ext
      (mult_real_fct (/ (INR k + 2)) (mult_real_fct (2 * INR k + 3) (id * legendre (S k)) -
                                      mult_real_fct (INR k + 1) (legendre k)))%F).
    + intros z. rewrite legendre_SS. unfold mult_real_fct, minus_fct, mult_fct, id, Rdiv. ring.
    + rewrite dlegendre_SS. unfold Rdiv. rewrite (Rmult_comm _ (/ (INR k + 2))).
      apply derivable_pt_lim_scal. apply derivable_pt_lim_minus.
      * apply derivable_pt_lim_scal.
        replace (legendre (S k) x + x * dlegendre (S k) x)%R with
          (1 * legendre (S k) x + id x * dlegendre (S k) x)%R by (unfold id; ring).
        apply derivable_pt_lim_mult; [apply derivable_pt_lim_id|apply IH1].
      * apply derivable_pt_lim_scal. apply IH0.
Qed.

Lemma legendre_cont n : continuity (legendre n).
Proof. intros x. apply derivable_continuous_pt. exists (dlegendre n x). apply legendre_deriv. Qed.

Lemma continuity_ext (f g : R -> R) x : (forall z, f z = g z) -> continuity_pt f x -> continuity_pt g x.
Proof.
  intros E H eps He. destruct (H eps He) as (d & Hd & K). exists d. split; [exact Hd|].
  intros z Hz. rewrite <- !E. apply K. exact Hz.
Qed.

Lemma dlegendre_cont n : continuity (dlegendre n).
Proof.
  induction n as [| |k IH0 IH1] using pair_ind.
  - apply continuity_const. intros ? ?; reflexivity.
  - apply continuity_const. intros ? ?; reflexivity.
  - intros x.
    assert (C : continuity_pt
      (mult_real_fct (/ (INR k + 2)) (mult_real_fct (2 * INR k + 3) (legendre (S k) + id * dlegendre (S k)) -
                                      mult_real_fct (INR k + 1) (dlegendre k)))%F x).
    { apply continuity_pt_scal. apply continuity_pt_minus; apply continuity_pt_scal; [|apply IH0].
      apply continuity_pt_plus; [apply legendre_cont|]. apply continuity_pt_mult; [|apply IH1].
      apply derivable_continuous_pt. apply derivable_pt_id. }
    eapply continuity_ext; [|exact C]. intros z. rewrite dlegendre_SS.
    unfold mult_real_fct, minus_fct, mult_fct, plus_fct, id, Rdiv. ring.
Qed.

(** n! D^n P_n(X/D) and n! D^n P'_n(X/D), in integers and linear time. *)
Fixpoint zlegs (n : nat) (X D : Z) : Z * Z :=
  match n with
  | O => (1, X)
  | S k => let (a, b) := zlegs k X D in
           let c := Z.of_nat k in (b, (2 * c + 3) * X * b - (c + 1) * (c + 1) * (D * D) * a)
  end.
Fixpoint zdlegs (n : nat) (X D : Z) : (Z * Z) * (Z * Z) :=
  match n with
  | O => ((1, X), (0, D))
  | S k => let '((a, b), (da, db)) := zdlegs k X D in
           let c := Z.of_nat k in
           ((b, (2 * c + 3) * X * b - (c + 1) * (c + 1) * (D * D) * a),
            (db, (2 * c + 3) * (D * b + X * db) - (c + 1) * (c + 1) * (D * D) * da))
  end.
Definition zleg (n : nat) (X D : Z) : Z := fst (zlegs n X D).
Definition zdleg (n : nat) (X D : Z) : Z := fst (snd (zdlegs n X D)).

(** The scale of [zleg]. *)
Definition lscale (n : nat) (D : R) : R := (INR (fact n) * D ^ n)%R.
Lemma lscale_S n D : lscale (S n) D = ((INR n + 1) * D * lscale n D)%R.
Proof. unfold lscale. change (fact (S n)) with (S n * fact n)%nat. rewrite mult_INR, S_INR. simpl pow. ring. Qed.
Lemma lscale_pos n D : (0 < D -> 0 < lscale n D)%R.
Proof. intros H. unfold lscale. apply Rmult_lt_0_compat; [apply INR_fact_lt_0|apply pow_lt; exact H]. Qed.
Lemma INR_pos2 k : (INR k + 2 <> 0)%R.
Proof. pose proof (pos_INR k). lra. Qed.

Lemma zdlegs_R n X D : (0 < D)%Z -> let '((a, b), (da, db)) := zdlegs n X D in
  let x := (IZR X / IZR D)%R in let d := IZR D in
  IZR a = (lscale n d * legendre n x)%R /\ IZR b = (lscale (S n) d * legendre (S n) x)%R /\
  IZR da = (lscale n d * dlegendre n x)%R /\ IZR db = (lscale (S n) d * dlegendre (S n) x)%R.
Proof.
  intros HD. assert (Hd : (0 < IZR D)%R) by (apply IZR_lt; lia).
  induction n as [|k IH].
  - cbn [zdlegs]. cbv zeta. unfold lscale. simpl. repeat split; try ring. field. lra.
  - cbn [zdlegs]. destruct (zdlegs k X D) as ((a, b), (da, db)). cbv zeta in *.
    destruct IH as (E0 & E1 & E2 & E3). split; [exact E1|]. pose proof (INR_pos2 k) as K2.
    split; [|split; [exact E3|]].
    + rewrite minus_IZR, !mult_IZR, !plus_IZR, mult_IZR, E0, E1, <- INR_IZR_INZ, legendre_SS, !lscale_S, S_INR.
      field. split; lra.
    + rewrite minus_IZR, !mult_IZR, !plus_IZR, !mult_IZR, E1, E2, E3, <- INR_IZR_INZ, dlegendre_SS, !lscale_S, S_INR.
      field. split; lra.
Qed.
Lemma zlegs_fst n X D : zlegs n X D = fst (zdlegs n X D).
Proof.
  induction n as [|k IH]; [reflexivity|]. cbn [zlegs zdlegs]. rewrite IH.
  destruct (zdlegs k X D) as ((a, b), (da, db)). reflexivity.
Qed.
Lemma zleg_R n X D : 0 < D -> IZR (zleg n X D) = (lscale n (IZR D) * legendre n (IZR X / IZR D))%R.
Proof.
  intros H. unfold zleg. rewrite zlegs_fst. pose proof (zdlegs_R n X D H) as K.
  destruct (zdlegs n X D) as ((a, b), (da, db)). apply K.
Qed.
Lemma zdleg_R n X D : 0 < D -> IZR (zdleg n X D) = (lscale n (IZR D) * dlegendre n (IZR X / IZR D))%R.
Proof.
  intros H. unfold zdleg. pose proof (zdlegs_R n X D H) as K.
  destruct (zdlegs n X D) as ((a, b), (da, db)). apply K.
Qed.

Lemma mul_le0 a b : (0 <= a -> b <= 0 -> a * b <= 0)%R.
Proof. intros Ha Hb. nra. Qed.

(** A sign change between q - 10^-k and q + 10^-k. *)
Definition root_b (f : Z -> Z -> Z) (k : nat) (q : Q) : bool :=
  let t := 10 ^ Z.of_nat k in
  let D := Zpos (Qden q) * t in
  let X := Qnum q * t in
  let l := f (X - Zpos (Qden q)) D in
  let r := f (X + Zpos (Qden q)) D in
  ((l <=? 0) && (0 <=? r)) || ((0 <=? l) && (r <=? 0)).
Lemma root_b_spec (f : R -> R) (sc : R -> R) (fz : Z -> Z -> Z) k q : continuity f ->
  (forall d, (0 < d)%R -> (0 < sc d)%R) ->
  (forall X D, 0 < D -> IZR (fz X D) = (sc (IZR D) * f (IZR X / IZR D))%R) ->
  root_b fz k q = true -> exists r, f r = 0%R /\ (Rabs (Q2R q - r) <= tenth k)%R.
Proof.
  intros Hc Hsc Hf H. unfold root_b in H. cbv zeta in H.
  set (t := 10 ^ Z.of_nat k) in *.
  assert (Ht : 0 < t) by (apply Z.pow_pos_nonneg; lia).
  set (d := Zpos (Qden q)) in *. assert (Hd : 0 < d) by reflexivity.
  assert (HR : (0 < IZR t)%R) by (apply IZR_lt; exact Ht).
  assert (HdR : (0 < IZR d)%R) by (apply IZR_lt; exact Hd).
  assert (HD : 0 < d * t) by nia.
  assert (HDR : (0 < IZR (d * t))%R) by (apply IZR_lt; exact HD).
  assert (Et : tenth k = (/ IZR t)%R). { unfold tenth, t. rewrite <- pow_IZR. reflexivity. }
  assert (El : (IZR (Qnum q * t - d) / IZR (d * t))%R = (Q2R q - tenth k)%R).
  { rewrite minus_IZR, !mult_IZR, Et. unfold Q2R. fold d. field. split; lra. }
  assert (Er : (IZR (Qnum q * t + d) / IZR (d * t))%R = (Q2R q + tenth k)%R).
  { rewrite plus_IZR, !mult_IZR, Et. unfold Q2R. fold d. field. split; lra. }
  pose proof (Hf (Qnum q * t - d) _ HD) as Fl. rewrite El in Fl.
  pose proof (Hf (Qnum q * t + d) _ HD) as Fr. rewrite Er in Fr.
  specialize (Hsc _ HDR). set (s := sc (IZR (d * t))) in *.
  assert (Hp : (0 < tenth k)%R) by (rewrite Et; apply Rinv_0_lt_compat; exact HR).
  assert (Hs : (f (Q2R q - tenth k) * f (Q2R q + tenth k) <= 0)%R).
  { apply orb_prop in H. destruct H as [H|H]; apply andb_prop in H; destruct H as (H1 & H2);
      apply Z.leb_le in H1, H2; apply IZR_le in H1, H2; rewrite Fl in *; rewrite Fr in *.
    - assert (f (Q2R q - tenth k) <= 0)%R by (apply Rmult_le_reg_l with s; lra).
      assert (0 <= f (Q2R q + tenth k))%R by (apply Rmult_le_reg_l with s; lra).
      rewrite Rmult_comm. apply mul_le0; assumption.
    - assert (0 <= f (Q2R q - tenth k))%R by (apply Rmult_le_reg_l with s; lra).
      assert (f (Q2R q + tenth k) <= 0)%R by (apply Rmult_le_reg_l with s; lra).
      apply mul_le0; assumption. }
  destruct (IVT_cor f (Q2R q - tenth k) (Q2R q + tenth k) Hc ltac:(lra) Hs) as (r & Hr & Hz).
  exists r. split; [exact Hz|]. apply Rabs_le. lra.
Qed.

(** * Gauss-Legendre *)
Definition qcoord (s : spacing) (N i : Z) : Q := qof (coord_ct QrawNum s N i).

Definition legendre_check (N : Z) : bool :=
  let x := qcoord GaussLegendreSpacing N in
  allz N (fun i => is_ok (coord_ct QrawNum GaussLegendreSpacing N i)) &&
  allz N (fun i => is_ok (coord_rt QrawNum GaussLegendreSpacing N i)) &&
  allz N (fun i => Qeq_bool (qof (coord_rt QrawNum GaussLegendreSpacing N i)) (x i)) &&
  inc_b N x && antisym_b N x && within_b N x (-1) 1 &&
  allz N (fun i => root_b (zleg (Z.to_nat N)) 36 (x i)).

Lemma range_cases (P : Z -> Prop) lo n : (forall k, (k < n)%nat -> P (lo + Z.of_nat k)) ->
  forall z, lo <= z < lo + Z.of_nat n -> P z.
Proof. intros H z Hz. replace z with (lo + Z.of_nat (Z.to_nat (z - lo))) by lia. apply H. lia. Qed.

Lemma legendre_check_true N : 2 <= N <= 4 -> legendre_check N = true.
Proof.
  intros H. assert (C : N = 2 \/ N = 3 \/ N = 4) by lia.
  destruct C as [->|[->| ->]]; vm_compute; reflexivity.
Qed.

Lemma legendre_nodes_lemma N : 2 <= N <= 4 ->
  exists x, Points (coord_ct RNum GaussLegendreSpacing N) N x /\
    Points (coord_rt RNum GaussLegendreSpacing N) N x /\
    Increasing N x /\ OddSymmetric N x /\
    (forall i, 0 <= i < N -> (-1 < x i < 1)%R) /\
    (forall i, 0 <= i < N -> exists r, legendre (Z.to_nat N) r = 0%R /\ (Rabs (x i - r) <= tenth 36)%R).
Proof.
  intros HN. pose proof (legendre_check_true N HN) as H. unfold legendre_check in H.
  repeat (apply andb_prop in H; let K := fresh "K" in destruct H as (H & K)).
  exists (fun i => Q2R (qcoord GaussLegendreSpacing N i)).
  split. { apply Points_hom; [|exact H]. intros i. apply (coord_hom_ct QrawNum RNum Q2R QrawR_hom). }
  split. { intros i Hi. rewrite (Points_hom _ _ N (fun i => coord_hom_rt QrawNum RNum Q2R QrawR_hom GaussLegendreSpacing N i) K4 i Hi).
           f_equal. apply Qeqb_R. exact (allz_spec _ _ K3 i Hi). }
  split; [apply inc_b_spec; exact K2|]. split; [apply antisym_b_spec; exact K1|].
  split. { intros i Hi. pose proof (within_b_spec _ _ _ _ K0 i Hi) as W.
           rewrite RMicromega.Q2R_1 in W. replace (Q2R (-1)) with (-1)%R in W by (unfold Q2R; simpl; lra). exact W. }
  intros i Hi. apply (root_b_spec _ (lscale (Z.to_nat N)) (zleg (Z.to_nat N)));
    [apply legendre_cont|intros d; apply lscale_pos|intros X D; apply zleg_R|].
  exact (allz_spec _ _ K i Hi).
Qed.

Lemma legendre_other_lemma N i : ~ (2 <= N <= 4) ->
  coord_ct RNum GaussLegendreSpacing N i = Ok 0%R /\ coord_rt RNum GaussLegendreSpacing N i = Ok 0%R.
Proof.
  intros H. simpl. unfold legendre_ct, legendre_rt.
  destruct (Z.eqb_spec N 2); [lia|]. destruct (Z.eqb_spec N 3); [lia|]. destruct (Z.eqb_spec N 4); [lia|].
  auto.
Qed.

(** * Gauss-Lobatto *)
Definition lobatto_digits (N : Z) : nat := if N <=? 5 then 36 else if N =? 6 then 15 else 13.

Definition lobatto_check (N : Z) : bool :=
  let x := qcoord GaussLobattoSpacing N in
  allz N (fun i => is_ok (coord_ct QrawNum GaussLobattoSpacing N i)) &&
  inc_b N x && antisym_b N x && Qeq_bool (x 0) (-1) && Qeq_bool (x (N - 1)) 1 &&
  allz N (fun i => (i =? 0) || (i =? N - 1) ||
                   root_b (zdleg (Z.to_nat (N - 1))) (lobatto_digits N) (x i)).
Lemma lobatto_check_2 : lobatto_check 2 = true.
Proof. vm_cast_no_check (eq_refl true). Qed.
Lemma lobatto_check_3 : lobatto_check 3 = true.
Proof. vm_cast_no_check (eq_refl true). Qed.
Lemma lobatto_check_4 : lobatto_check 4 = true.
Proof. vm_cast_no_check (eq_refl true). Qed.
Lemma lobatto_check_5 : lobatto_check 5 = true.
Proof. vm_cast_no_check (eq_refl true). Qed.
Lemma lobatto_check_6 : lobatto_check 6 = true.
Proof. vm_cast_no_check (eq_refl true). Qed.
Lemma lobatto_check_7 : lobatto_check 7 = true.
Proof. vm_cast_no_check (eq_refl true). Qed.
Lemma lobatto_check_8 : lobatto_check 8 = true.
Proof. vm_cast_no_check (eq_refl true). Qed.
Lemma lobatto_check_9 : lobatto_check 9 = true.
Proof. vm_cast_no_check (eq_refl true). Qed.
Lemma lobatto_check_true N : 2 <= N <= 9 -> lobatto_check N = true.
Proof.
  intros H. assert (C : N = 2 \/ N = 3 \/ N = 4 \/ N = 5 \/ N = 6 \/ N = 7 \/ N = 8 \/ N = 9) by lia.
  destruct C as [E|[E|[E|[E|[E|[E|[E|E]]]]]]]; rewrite E.
  - exact lobatto_check_2.
  - exact lobatto_check_3.
  - exact lobatto_check_4.
  - exact lobatto_check_5.
  - exact lobatto_check_6.
  - exact lobatto_check_7.
  - exact lobatto_check_8.
  - exact lobatto_check_9.
Qed.

Lemma lobatto_nodes_lemma N : 2 <= N <= 9 ->
  exists x, Points (coord_ct RNum GaussLobattoSpacing N) N x /\
    Increasing N x /\ OddSymmetric N x /\ x 0 = (-1)%R /\ x (N - 1) = 1%R /\
    (forall i, 0 < i < N - 1 ->
       exists r, derivable_pt_lim (legendre (Z.to_nat (N - 1))) r 0%R /\
         (Rabs (x i - r) <= tenth (if N <=? 5 then 36 else if N =? 6 then 15 else 13))%R).
Proof.
  intros HN. pose proof (lobatto_check_true N HN) as H. unfold lobatto_check in H.
  repeat (apply andb_prop in H; let K := fresh "K" in destruct H as (H & K)).
  exists (fun i => Q2R (qcoord GaussLobattoSpacing N i)).
  split. { apply Points_hom; [|exact H]. intros i. apply (coord_hom_ct QrawNum RNum Q2R QrawR_hom). }
  split; [apply inc_b_spec; exact K3|]. split; [apply antisym_b_spec; exact K2|].
  split. { apply Qeqb_R in K1. rewrite K1. unfold Q2R; simpl; lra. }
  split. { apply Qeqb_R in K0. rewrite K0. unfold Q2R; simpl; lra. }
  intros i Hi. pose proof (allz_spec _ _ K i ltac:(lia)) as B. simpl in B.
  destruct (Z.eqb_spec i 0); [lia|]. destruct (Z.eqb_spec i (N - 1)); [lia|]. cbn [orb] in B.
  destruct (root_b_spec (dlegendre (Z.to_nat (N - 1))) _ _ _ _ (dlegendre_cont _)
              (fun d => lscale_pos _ d) (fun X D => zdleg_R _ X D) B) as (r & Hr & Hd).
  exists r. split.
  - rewrite <- Hr. apply legendre_deriv.
  - exact Hd.
Qed.

Lemma lobatto_other_lemma N i : ~ (2 <= N <= 9) ->
  coord_ct RNum GaussLobattoSpacing N i = Ok 0%R /\ coord_rt RNum GaussLobattoSpacing N i = Ok 0%R.
Proof.
  intros H. simpl. unfold lobatto_ct, lobatto_rt.
  repeat match goal with |- context [N =? ?k] => destruct (Z.eqb_spec N k); [lia|] end. auto.
Qed.

(** * Agreement of the accessors *)
Definition agree_b (s : spacing) (N : Z) : bool :=
  allz N (fun i => match coord_rt QrawNum s N i, coord_ct QrawNum s N i with
                   | Ok a, Ok b => Qeq_bool a b | _, _ => false end).
Lemma agree_b_spec s N : agree_b s N = true -> forall i, 0 <= i < N ->
  coord_rt RNum s N i = coord_ct RNum s N i.
Proof.
  intros H i Hi. rewrite (coord_hom_rt QrawNum RNum Q2R QrawR_hom), (coord_hom_ct QrawNum RNum Q2R QrawR_hom).
  pose proof (allz_spec _ _ H i Hi) as K. simpl in K.
  destruct (coord_rt QrawNum s N i), (coord_ct QrawNum s N i); try discriminate.
  unfold omap; cbn [bind]. f_equal. now apply Qeqb_R.
Qed.

Lemma accessors_agree_lemma s N i : 0 <= i < N -> ~ (s = GaussLobattoSpacing /\ 6 <= N <= 9) ->
  coord_rt RNum s N i = coord_ct RNum s N i.
Proof.
  intros Hi Hn. destruct s.
  - reflexivity.
  - destruct (Z_le_dec 2 N) as [H2|H2]; [destruct (Z_le_dec N 4) as [H4|H4]|].
    + assert (C : N = 2 \/ N = 3 \/ N = 4) by lia.
      apply agree_b_spec; [|exact Hi]. destruct C as [->|[->| ->]]; vm_compute; reflexivity.
    + destruct (legendre_other_lemma N i ltac:(lia)) as (-> & ->). reflexivity.
    + destruct (legendre_other_lemma N i ltac:(lia)) as (-> & ->). reflexivity.
  - destruct (Z_le_dec 2 N) as [H2|H2]; [destruct (Z_le_dec N 9) as [H4|H4]|].
    + assert (C : N = 2 \/ N = 3 \/ N = 4 \/ N = 5 \/ 6 <= N <= 9) by lia.
      destruct C as [->|[->|[->|[->|C]]]]; [..|exfalso; apply Hn; split; [reflexivity|exact C]];
        (apply agree_b_spec; [vm_compute; reflexivity|exact Hi]).
    + destruct (lobatto_other_lemma N i ltac:(lia)) as (-> & ->). reflexivity.
    + destruct (lobatto_other_lemma N i ltac:(lia)) as (-> & ->). reflexivity.
Qed.

Lemma accessors_disagree_lemma N i : 6 <= N <= 9 -> 0 <= i < N -> 2 * i <> N - 1 ->
  coord_rt RNum GaussLobattoSpacing N i = Ok 0%R /\
  exists x, coord_ct RNum GaussLobattoSpacing N i = Ok x /\ x <> 0%R.
Proof.
  intros HN Hi Hm. split.
  - simpl. unfold lobatto_rt.
    repeat match goal with |- context [N =? ?k] => destruct (Z.eqb_spec N k); [lia|] end. reflexivity.
  - destruct (lobatto_nodes_lemma N ltac:(lia)) as (x & Hp & Hinc & Hanti & _).
    exists (x i). split; [apply Hp; exact Hi|]. intros E.
    pose proof (Hanti i Hi) as A. rewrite E, Ropp_0 in A.
    assert (C : i < N - 1 - i \/ N - 1 - i < i) by lia.
    destruct C as [C|C]; [pose proof (Hinc i (N - 1 - i) ltac:(lia) ltac:(lia))|pose proof (Hinc (N - 1 - i) i ltac:(lia) ltac:(lia))]; lra.
Qed.

(** * EqualSpacing *)
Lemma equal_spacing_lemma N : 2 <= N <= INT_MAX ->
  exists x h, equal_interval RNum N = Ok h /\ (0 < h)%R /\
    (forall i, coord_ct RNum EqualSpacing N i = Ok (x i) /\ coord_rt RNum EqualSpacing N i = Ok (x i)) /\
    x 0 = (-1)%R /\ x (N - 1) = 1%R /\
    (forall i, (x (i + 1)%Z - x i = h)%R) /\
    Increasing N x /\ OddSymmetric N x.
Proof.
  intros HN.
  assert (Hp : (0 < IZR (N - 1))%R) by (apply IZR_lt; lia).
  set (h := (2 / IZR (N - 1))%R).
  assert (Hh : (0 < h)%R) by (unfold h; apply Rdiv_lt_0_compat; lra).
  assert (Hi : equal_interval RNum N = Ok h).
  { unfold equal_interval. rewrite isub_ok by (unfold INT_MIN; lia). cbn [bind]. simpl. unfold Req0.
    destruct (Req_EM_T (IZR (N - 1)) 0); [lra|reflexivity]. }
  assert (Hm : (IZR (N - 1) * h = 2)%R) by (unfold h; field; lra).
  exists (fun i => (-1 + IZR i * h)%R), h.
  split; [exact Hi|]. split; [exact Hh|].
  split. { intros i. simpl. unfold equal_ct, equal_rt. rewrite Hi. split; reflexivity. }
  split; [lra|]. split; [lra|].
  split. { intros i. rewrite plus_IZR. lra. }
  split.
  - intros i j Hij Hj. apply Rplus_lt_compat_l. apply Rmult_lt_compat_r; [exact Hh|]. apply IZR_lt; lia.
  - intros i Hii. rewrite minus_IZR. lra.
Qed.

Lemma equal_one_lemma i : coord_ct RNum EqualSpacing 1 i = UB DivByZero /\
  coord_rt RNum EqualSpacing 1 i = UB DivByZero.
Proof.
  simpl. unfold equal_ct, equal_rt, equal_interval. simpl. unfold Req0.
  destruct (Req_EM_T 0 0); [split; reflexivity|congruence].
Qed.

(** * All the roots *)
Lemma Rabs_def2' a e : (Rabs a <= e -> - e <= a <= e)%R.
Proof. intros H. pose proof (Rle_abs a). pose proof (Rle_abs (- a)). rewrite Rabs_Ropp in *. lra. Qed.
Lemma finite_choice {A} (P : Z -> A -> Prop) (d : A) (n : nat) :
  (forall i, 0 <= i < Z.of_nat n -> exists r, P i r) ->
  exists f, forall i, 0 <= i < Z.of_nat n -> P i (f i).
Proof.
  induction n as [|n IH]; intros H; [exists (fun _ => d); intros; lia|].
  destruct IH as (f & Hf); [intros i Hi; apply H; lia|].
  destruct (H (Z.of_nat n) ltac:(lia)) as (r & Hr).
  exists (fun i => if i =? Z.of_nat n then r else f i). intros i Hi.
  destruct (Z.eqb_spec i (Z.of_nat n)) as [->|Hne]; [exact Hr|]. apply Hf. lia.
Qed.

Lemma choice_range {A} (P : Z -> A -> Prop) (d : A) lo hi :
  (forall i, lo <= i < hi -> exists r, P i r) -> exists f, forall i, lo <= i < hi -> P i (f i).
Proof.
  intros H. destruct (finite_choice (fun k r => P (lo + k) r) d (Z.to_nat (hi - lo))) as (f & Hf).
  { intros i Hi. apply H. lia. }
  exists (fun i => f (i - lo)). intros i Hi. specialize (Hf (i - lo) ltac:(lia)).
  replace (lo + (i - lo)) with i in Hf by lia. exact Hf.
Qed.

Lemma tenth_small k : (3 <= k)%nat -> (tenth k <= 1 / 1000)%R.
Proof.
  intros H. unfold tenth. replace (1 / 1000)%R with (/ 10 ^ 3)%R by (simpl; field).
  apply Rinv_le_contravar; [apply pow_lt; lra|]. apply Rle_pow; [lra|exact H].
Qed.

Lemma legendre_gap N : 2 <= N <= 4 -> inc_b N (qcoord GaussLegendreSpacing N) = true.
Proof.
  intros HN. pose proof (legendre_check_true N HN) as H. unfold legendre_check in H.
  repeat (apply andb_prop in H; let K := fresh "K" in destruct H as (H & K)). exact K2.
Qed.
Lemma lobatto_gap N : 2 <= N <= 9 -> inc_b N (qcoord GaussLobattoSpacing N) = true.
Proof.
  intros HN. pose proof (lobatto_check_true N HN) as H. unfold lobatto_check in H.
  repeat (apply andb_prop in H; let K := fresh "K" in destruct H as (H & K)). exact K3.
Qed.

Lemma points_gap s N x : Points (coord_ct RNum s N) N x -> inc_b N (qcoord s N) = true ->
  forall i j, 0 <= i < j -> j < N -> (1 / 100 <= x j - x i)%R.
Proof.
  intros Hp Hg i j Hij Hj. pose proof (inc_b_gap _ _ i j Hg Hij Hj) as G.
  assert (E : forall k, 0 <= k < N -> x k = Q2R (qcoord s N k)).
  { intros k Hk. pose proof (Hp k Hk) as Ek. rewrite (coord_hom_ct QrawNum RNum Q2R QrawR_hom) in Ek.
    unfold qcoord. destruct (coord_ct QrawNum s N k) as [a| | | |]; try discriminate.
    unfold omap in Ek; cbn [bind] in Ek. injection Ek as <-. reflexivity. }
  rewrite !E by lia. exact G.
Qed.

Lemma legendre_roots_lemma N : 2 <= N <= 4 ->
  exists x r, Points (coord_ct RNum GaussLegendreSpacing N) N x /\
    Points (coord_rt RNum GaussLegendreSpacing N) N x /\
    Increasing N x /\ OddSymmetric N x /\
    (forall i, 0 <= i < N -> (-1 < x i < 1)%R) /\
    Increasing N r /\
    (forall i, 0 <= i < N -> legendre (Z.to_nat N) (r i) = 0%R /\ (Rabs (x i - r i) <= tenth 36)%R).
Proof.
  intros HN. destruct (legendre_nodes_lemma N HN) as (x & H1 & H2 & H3 & H4 & H5 & H6).
  destruct (choice_range _ 0%R 0 N H6) as (r & Hr).
  exists x, r. do 5 (split; [assumption|]). split; [|exact Hr].
  intros i j Hij Hj. pose proof (points_gap _ _ _ H1 (legendre_gap N HN) i j Hij Hj) as G.
  destruct (Hr i ltac:(lia)) as (_ & Ai). destruct (Hr j ltac:(lia)) as (_ & Aj).
  pose proof (tenth_small 36 ltac:(lia)) as T36.
  apply Rabs_def2' in Ai. apply Rabs_def2' in Aj. lra.
Qed.

Lemma lobatto_roots_lemma N : 2 <= N <= 9 ->
  exists x r, Points (coord_ct RNum GaussLobattoSpacing N) N x /\
    Increasing N x /\ OddSymmetric N x /\ x 0 = (-1)%R /\ x (N - 1) = 1%R /\
    (forall i j, 0 < i < j -> j < N - 1 -> (r i < r j)%R) /\
    (forall i, 0 < i < N - 1 ->
       derivable_pt_lim (legendre (Z.to_nat (N - 1))) (r i) 0%R /\
       (Rabs (x i - r i) <= tenth (if N <=? 5 then 36 else if N =? 6 then 15 else 13))%R).
Proof.
  intros HN. destruct (lobatto_nodes_lemma N HN) as (x & H1 & H2 & H3 & H4 & H5 & H6).
  assert (H6' : forall i, 1 <= i < N - 1 -> exists r, derivable_pt_lim (legendre (Z.to_nat (N - 1))) r 0%R /\
         (Rabs (x i - r) <= tenth (if (N <=? 5)%Z then 36 else if (N =? 6)%Z then 15 else 13))%R).
  { intros i Hi. apply H6. lia. }
  destruct (choice_range _ 0%R 1 (N - 1) H6') as (r & Hr).
  exists x, r. do 5 (split; [assumption|]). split; [|intros i Hi; apply Hr; lia].
  intros i j Hij Hj. pose proof (points_gap _ _ _ H1 (lobatto_gap N HN) i j ltac:(lia) ltac:(lia)) as G.
  destruct (Hr i ltac:(lia)) as (_ & Ai). destruct (Hr j ltac:(lia)) as (_ & Aj).
  pose proof (tenth_small (if N <=? 5 then 36 else if N =? 6 then 15 else 13)
                ltac:(destruct (N <=? 5), (N =? 6); lia)) as T36.
  apply Rabs_def2' in Ai. apply Rabs_def2' in Aj. lra.
Qed.
