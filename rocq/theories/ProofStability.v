(** Bounds for the sum of the absolute values of the basis functions. *)
From Coq Require Import ZArith QArith Qreals Reals Bool List Lia Lra.
From Verif Require Import Base ProofBase Num SpecIndex SpecNumeric SpecBasis ModelB64 ModelSpacing ModelLagrange
  ModelAssert ModelBasisProduct SpecApprox SpecStability ProofPoly ProofSpacing ProofLagrange ProofApprox ProofTensor ProofQuadrature ProofTables.
From Verif Require Import ProofHom ProofBox.
From Verif Require ProofNodes64 ProofNodes32.
Local Open Scope Z_scope.

(** * Products with one factor left out *)
Fixpoint zprod (l : list Z) : Z := match l with [] => 1 | a :: l' => a * zprod l' end.
Definition but (f : Z -> Z) (i : Z) (l : list Z) : Z := zprod (map (fun k => if i =? k then 1 else f k) l).
(** The product of the m, and the sum of the W, each times the product of the other m. *)
Fixpoint both (l : list (Z * Z)) : Z * Z :=
  match l with
  | [] => (1, 0)
  | (m, w) :: l' => let (p, s) := both l' in (m * p, w * p + m * s)
  end.
Lemma but_notin f i l : ~ In i l -> but f i l = zprod (map f l).
Proof.
  unfold but. intros H. f_equal. apply map_ext_in. intros k Hk. destruct (Z.eqb_spec i k) as [->|]; [contradiction|reflexivity].
Qed.
Lemma sumz_scal a f (l : list Z) : sumz (map (fun i => a * f i) l) = a * sumz (map f l).
Proof. induction l as [|k l IH]; cbn [map sumz]; [ring|]. rewrite IH. ring. Qed.
Lemma both_spec (m w : Z -> Z) l : NoDup l ->
  both (map (fun k => (m k, w k)) l) = (zprod (map m l), sumz (map (fun i => w i * but m i l) l)).
Proof.
  induction 1 as [|k l Hk _ IH]; [reflexivity|]. cbn [map both zprod sumz]. rewrite IH. f_equal.
  assert (E1 : but m k (k :: l) = zprod (map m l)).
  { unfold but at 1. cbn [map zprod]. rewrite Z.eqb_refl. fold (but m k l). rewrite but_notin by exact Hk. ring. }
  rewrite E1. f_equal. rewrite <- sumz_scal. f_equal. apply map_ext_in. intros i Hi.
  unfold but at 2. cbn [map zprod]. fold (but m i l).
  destruct (Z.eqb_spec i k) as [->|]; [contradiction|]. ring.
Qed.
Lemma but_pos f i l : (forall k, In k l -> i <> k -> 0 < f k) -> 0 < but f i l.
Proof.
  unfold but. induction l as [|k l IH]; intros H; cbn [map zprod]; [lia|]. apply Z.mul_pos_pos.
  - destruct (Z.eqb_spec i k); [lia|]. apply H; [left; reflexivity|assumption].
  - apply IH. intros j Hj. apply H. right. exact Hj.
Qed.

(** * One cell *)
(** Everything in units of 2^-20; the points [x k] are known up to 4 units. *)
Definition Close (n : nat) (c : Z -> Z) (x : Z -> R) : Prop :=
  forall k, In k (zseq n) -> (Rabs (x k * 1048576 - IZR (c k)) <= 4)%R.
(** Distance of the cell [a,b] to a point, in units of 2^-12. *)
Definition far (a b ck : Z) : Z := (Z.max (Z.abs (a - ck)) (Z.abs (b - ck)) + 4) / 256 + 1.
Definition gap (c : Z -> Z) (i k : Z) : Z := Z.abs (c i - c k) - 8.
Definition scale (n : nat) : Z := 2 ^ (16 * Z.of_nat n).
Definition inv_gaps (n : nat) (c : Z -> Z) (i : Z) : Z :=
  scale n * but (fun _ => 256) i (zseq n) / but (gap c i) i (zseq n) + 1.
Definition gaps_ok (n : nat) (c : Z -> Z) : bool :=
  forallb (fun i => forallb (fun k => (i =? k) || (0 <? gap c i k)) (zseq n)) (zseq n).
Definition cell_ok (cs ws : list Z) (num den s a b : Z) : bool :=
  snd (both (combine (map (far a b) cs) ws)) * den <=? num * s.
Fixpoint cover (depth : nat) (ok : Z -> Z -> bool) (a b : Z) : bool :=
  if ok a b then true
  else match depth with
  | O => false
  | S d => let m := (a + b) / 2 in if cover d ok a m then cover d ok m b else false
  end.
Definition stable_check (n : nat) (c : Z -> Z) (num den : Z) : bool :=
  let cs := map c (zseq n) in
  let ws := map (inv_gaps n c) (zseq n) in
  (0 <? den) && gaps_ok n c && cover 12 (cell_ok cs ws num den (scale n)) (-1048576) 1048576.

Lemma cover_spec depth ok : forall a b (t : R), cover depth ok a b = true -> (IZR a <= t <= IZR b)%R ->
  exists a' b', ok a' b' = true /\ (IZR a' <= t <= IZR b')%R.
Proof.
  induction depth as [|d IH]; intros a b t H Ht; cbn [cover] in H; (destruct (ok a b) eqn:Ho; [|cbv zeta in H]).
  - exists a, b. auto.
  - discriminate.
  - exists a, b. auto.
  - destruct (cover d ok a ((a + b) / 2)) eqn:H1; [|discriminate]. rename H into H2.
    destruct (Rle_or_lt t (IZR ((a + b) / 2))) as [L|L].
    + apply (IH _ _ t H1). split; [apply Ht|exact L].
    + apply (IH _ _ t H2). split; [left; exact L|apply Ht].
Qed.

Lemma scale_pos n : 0 < scale n.
Proof. apply Z.pow_pos_nonneg; lia. Qed.
Lemma sumR_IZR (f : Z -> Z) l : sumR (fun i => IZR (f i)) l = IZR (sumz (map f l)).
Proof. induction l as [|k l IH]; [reflexivity|]. rewrite sumR_cons, IH. cbn [map sumz]. rewrite plus_IZR. reflexivity. Qed.
Section Cell.
Context (n : nat) (c : Z -> Z) (x : Z -> R) (Hx : Close n c x) (Hg : gaps_ok n c = true).
Context (a b : Z) (y : R) (Hy : (IZR a <= y * 1048576 <= IZR b)%R).

Lemma far_spec k : In k (zseq n) -> (Rabs (y - x k) * 1048576 <= 256 * IZR (far a b (c k)))%R /\ 0 < far a b (c k).
Proof using Hx Hy.
  intros Hk. pose proof (Hx k Hk) as C. set (M := Z.max (Z.abs (a - c k)) (Z.abs (b - c k))).
  assert (F : M + 4 <= 256 * far a b (c k)).
  { unfold far. fold M. pose proof (Z.div_mod (M + 4) 256 ltac:(lia)). pose proof (Z.mod_pos_bound (M + 4) 256 ltac:(lia)). lia. }
  split; [|assert (0 <= M) by (unfold M; lia); lia].
  apply IZR_le in F. rewrite plus_IZR, mult_IZR in F. eapply Rle_trans; [|exact F].
  assert (M1 : (- IZR M <= IZR a - IZR (c k))%R). { rewrite <- minus_IZR, <- opp_IZR. apply IZR_le. unfold M. lia. }
  assert (M2 : (IZR b - IZR (c k) <= IZR M)%R). { rewrite <- minus_IZR. apply IZR_le. unfold M. lia. }
  rewrite <- (Rabs_pos_eq 1048576) at 1 by lra. rewrite <- Rabs_mult. apply abs_le_inv in C. apply Rabs_le. lra.
Qed.
Lemma gap_spec i k : In i (zseq n) -> In k (zseq n) -> i <> k ->
  (IZR (gap c i k) <= Rabs (x i - x k) * 1048576)%R /\ 0 < gap c i k.
Proof using Hx Hg.
  intros Hi Hk Hik. split.
  - pose proof (Hx i Hi) as Ci. pose proof (Hx k Hk) as Ck. unfold gap. rewrite minus_IZR, abs_IZR, minus_IZR.
    rewrite <- (Rabs_pos_eq 1048576) by lra. rewrite <- Rabs_mult. revert Ci Ck. unfold Rabs. repeat destruct Rcase_abs; lra.
  - unfold gaps_ok in Hg. rewrite forallb_forall in Hg. pose proof (Hg i Hi) as H. rewrite forallb_forall in H.
    specialize (H k Hk). apply orb_prop in H as [H|H]; [apply Z.eqb_eq in H; contradiction|]. apply Z.ltb_lt. exact H.
Qed.
Lemma product_bound i l : In i (zseq n) -> (forall k, In k l -> In k (zseq n)) ->
  (Rabs (prodR (fun k => term x i k y) l) * IZR (but (gap c i) i l)
   <= IZR (but (fun _ => 256%Z) i l) * IZR (but (fun k => far a b (c k)) i l))%R.
Proof using Hx Hg Hy.
  intros Hi. induction l as [|k l IH]; intros Hl.
  - cbn. rewrite Rabs_R1. lra.
  - specialize (IH (fun j Hj => Hl j (or_intror Hj))). rewrite prodR_cons, Rabs_mult. unfold but in *. cbn [map zprod].
    rewrite !mult_IZR. unfold term at 1. set (P := Rabs (prodR (fun k => term x i k y) l)) in *.
    set (G := zprod (map (fun k0 => if i =? k0 then 1 else gap c i k0) l)) in *.
    set (K := zprod (map (fun k0 => if i =? k0 then 1 else 256) l)) in *.
    set (M := zprod (map (fun k0 => if i =? k0 then 1 else far a b (c k0)) l)) in *.
    assert (P0 : (0 <= P)%R) by apply Rabs_pos.
    assert (G0 : 0 < G). { apply but_pos. intros j Hj Hij. apply gap_spec; [exact Hi|apply Hl; right; exact Hj|exact Hij]. }
    apply IZR_lt in G0. destruct (Z.eqb_spec i k) as [E|E].
    + rewrite Rabs_R1. lra.
    + assert (Hk : In k (zseq n)) by (apply Hl; left; reflexivity).
      destruct (far_spec k Hk) as (F1 & F2). destruct (gap_spec i k Hi Hk E) as (D1 & D2). apply IZR_lt in F2, D2.
      rewrite Rabs_mult. set (u := Rabs (y - x k)) in *. set (v := Rabs (x i - x k)) in *.
      assert (v0 : (0 < v)%R) by lra. assert (u0 : (0 <= u)%R) by apply Rabs_pos.
      assert (E1 : (Rabs (1 / (x i - x k)) = / v)%R).
      { unfold Rdiv. rewrite Rmult_1_l. apply Rabs_inv. }
      rewrite E1. set (g := IZR (gap c i k)) in *. set (f := IZR (far a b (c k))) in *.
      assert (T : (u * / v * g <= 256 * f)%R).
      { apply Rle_trans with (u * / v * (v * 1048576))%R.
        - apply Rmult_le_compat_l; [|exact D1]. apply Rmult_le_pos; [exact u0|]. left. apply Rinv_0_lt_compat. exact v0.
        - replace (u * / v * (v * 1048576))%R with (u * 1048576)%R by (field; lra). exact F1. }
      replace (u * / v * P * (g * IZR G))%R with ((u * / v * g) * (P * IZR G))%R by ring.
      replace (256 * IZR K * (f * IZR M))%R with ((256 * f) * (IZR K * IZR M))%R by ring.
      apply Rmult_le_compat; [|apply Rmult_le_pos; lra|exact T|exact IH].
      apply Rmult_le_pos; [|lra]. apply Rmult_le_pos; [exact u0|]. left. apply Rinv_0_lt_compat. exact v0.
Qed.
Lemma value_bound i : In i (zseq n) ->
  (Rabs (prodR (fun k => term x i k y) (zseq n)) * IZR (scale n)
   <= IZR (inv_gaps n c i * but (fun k => far a b (c k)) i (zseq n)))%R.
Proof using Hx Hg Hy.
  intros Hi. pose proof (product_bound i (zseq n) Hi (fun k Hk => Hk)) as H.
  set (G := but (gap c i) i (zseq n)) in *. set (K := but (fun _ => 256) i (zseq n)) in *.
  set (M := but (fun k => far a b (c k)) i (zseq n)) in *. set (P := Rabs _) in *.
  assert (G0 : 0 < G). { apply but_pos. intros j Hj Hij. apply gap_spec; assumption. }
  assert (M0 : 0 < M). { apply but_pos. intros j Hj _. apply far_spec. exact Hj. }
  assert (W : scale n * K <= inv_gaps n c i * G).
  { unfold inv_gaps. fold G K. pose proof (Z.div_mod (scale n * K) G ltac:(lia)). pose proof (Z.mod_pos_bound (scale n * K) G G0). nia. }
  apply IZR_le in W. rewrite !mult_IZR in *. apply IZR_lt in G0, M0. pose proof (scale_pos n) as S0. apply IZR_lt in S0.
  apply Rmult_le_reg_r with (IZR G); [exact G0|].
  apply Rle_trans with (IZR (scale n) * (IZR K * IZR M))%R.
  - replace (P * IZR (scale n) * IZR G)%R with (IZR (scale n) * (P * IZR G))%R by ring.
    apply Rmult_le_compat_l; [lra|exact H].
  - replace (IZR (scale n) * (IZR K * IZR M))%R with ((IZR (scale n) * IZR K) * IZR M)%R by ring.
    replace (IZR (inv_gaps n c i) * IZR M * IZR G)%R with ((IZR (inv_gaps n c i) * IZR G) * IZR M)%R by ring.
    apply Rmult_le_compat_r; [lra|exact W].
Qed.
Lemma cell_bound num den : 0 < den ->
  cell_ok (map c (zseq n)) (map (inv_gaps n c) (zseq n)) num den (scale n) a b = true ->
  (sumR (fun i => Rabs (prodR (fun k => term x i k y) (zseq n))) (zseq n) <= IZR num / IZR den)%R.
Proof using Hx Hg Hy.
  intros Hd H. unfold cell_ok in H. apply Z.leb_le in H.
  assert (E : combine (map (far a b) (map c (zseq n))) (map (inv_gaps n c) (zseq n)) =
              map (fun k => (far a b (c k), inv_gaps n c k)) (zseq n)).
  { rewrite map_map. generalize (zseq n). intros l. induction l as [|k l IH]; [reflexivity|]. cbn [map combine]. rewrite IH. reflexivity. }
  rewrite E in H. rewrite (both_spec (fun k => far a b (c k)) (inv_gaps n c) _ (NoDup_zseq n)) in H. cbn [snd] in H.
  apply IZR_le in H. rewrite !mult_IZR in H. apply IZR_lt in Hd. pose proof (scale_pos n) as S0. apply IZR_lt in S0.
  assert (B : (sumR (fun i => Rabs (prodR (fun k => term x i k y) (zseq n))) (zseq n) * IZR (scale n)
     <= IZR (sumz (map (fun i => inv_gaps n c i * but (fun k => far a b (c k)) i (zseq n))%Z (zseq n))))%R).
  { rewrite <- sumR_IZR, <- sumR_scal_r. apply sumR_le. intros i Hi. apply value_bound. exact Hi. }
  set (A := sumR _ _) in *. set (B' := IZR (sumz _)) in *.
  apply Rmult_le_reg_r with (IZR den * IZR (scale n))%R; [apply Rmult_lt_0_compat; assumption|].
  replace (IZR num / IZR den * (IZR den * IZR (scale n)))%R with (IZR num * IZR (scale n))%R by (field; lra).
  replace (A * (IZR den * IZR (scale n)))%R with (A * IZR (scale n) * IZR den)%R by ring.
  apply Rle_trans with (B' * IZR den)%R; [|exact H]. apply Rmult_le_compat_r; [lra|exact B].
Qed.
End Cell.

Lemma stable_check_spec n c num den x y : stable_check n c num den = true -> Close n c x -> (-1 <= y <= 1)%R ->
  (sumR (fun i => Rabs (prodR (fun k => term x i k y) (zseq n))) (zseq n) <= IZR num / IZR den)%R.
Proof.
  intros H Hx Hy. unfold stable_check in H. cbv zeta in H. apply andb_prop in H as (H & Hc). apply andb_prop in H as (Hd & Hg).
  apply Z.ltb_lt in Hd. destruct (cover_spec _ _ _ _ (y * 1048576) Hc) as (a & b & Hab & Hyab); [lra|].
  exact (cell_bound n c x Hx Hg a b y Hyab num den Hd Hab).
Qed.

(** The functions of a direction are the products. *)
Lemma direction_values d i y : Nodal d -> Distinct (npts d) (pt d) -> 0 <= i < npts d -> npts d <= INT_MAX ->
  fval d i y = prodR (fun k => term (pt d) i k y) (zseq (Z.to_nat (npts d))).
Proof.
  intros HN HD Hi HM. set (O := npts d - 1). assert (EO : O + 1 = npts d) by (unfold O; lia).
  destruct (lagrange_basis_lemma O (fun k => Ok (pt d k)) (pt d)) as (_ & _ & HB); [lia|intros k _; reflexivity|rewrite EO; exact HD|].
  rewrite EO in HB. destruct (nb_degree _ _ _ _ HB i Hi) as (p & Hp & Ep).
  pose proof (nb_reproduce _ _ _ _ HN p y ltac:(lia)) as R. rewrite <- Ep in R. unfold lval1 in R. rewrite EO in R. rewrite <- R.
  rewrite Zsum_sumR. symmetry. rewrite (sumR_ext _ (fun j => if i =? j then fval d j y else 0%R)).
  - rewrite <- (Z2Nat.id (npts d)) in Hi by lia. generalize (NoDup_zseq (Z.to_nat (npts d))).
    apply in_zseq in Hi. revert Hi. generalize (zseq (Z.to_nat (npts d))). intros l. induction l as [|k l IH]; [intros []|].
    intros Hin HND. inversion HND as [|? ? Hk HND']; subst. rewrite sumR_cons. destruct (Z.eqb_spec i k) as [->|E].
    + rewrite (sumR_ext _ (fun _ => 0%R)); [rewrite sumR_zero by reflexivity; ring|]. intros j Hj.
      destruct (Z.eqb_spec k j) as [->|]; [contradiction|reflexivity].
    + destruct Hin as [Hin|Hin]; [congruence|]. rewrite IH by assumption. ring.
  - intros j Hj. apply in_zseq in Hj. rewrite <- Ep. rewrite (nb_nodal _ _ _ _ HB i j Hi) by lia.
    destruct (i =? j); ring.
Qed.

(** * The bundled points *)
Definition refp (s : spacing) (N k : Z) : Z := let q := qcoord s N k in Qnum q * 1048576 / Zpos (Qden q).
Definition bound_num (s : spacing) (ORDER : Z) : Z := match s with EqualSpacing => 8 ^ ORDER | _ => 3 end.
Definition bound_den (s : spacing) (ORDER : Z) : Z := match s with EqualSpacing => 5 ^ ORDER | _ => 1 end.
Definition order_check (s : spacing) (ORDER : Z) : bool :=
  let cs := map (refp s (ORDER + 1)) (zseq (Z.to_nat (ORDER + 1))) in
  stable_check (Z.to_nat (ORDER + 1)) (fun k => nth (Z.to_nat k) cs 0) (bound_num s ORDER) (bound_den s ORDER).

Definition valid_orders : list (spacing * Z) :=
  map (fun o => (EqualSpacing, Z.succ o)) (zseq 15) ++ map (fun o => (GaussLegendreSpacing, Z.succ o)) (zseq 3) ++
  map (fun o => (GaussLobattoSpacing, Z.succ o)) (zseq 8).
Lemma valid_orders_spec s ORDER : ValidOrder (s, ORDER) -> ORDER <= 15 -> In (s, ORDER) valid_orders.
Proof.
  intros H H15. unfold ValidOrder in H. cbn in H. unfold valid_orders. rewrite !in_app_iff, !in_map_iff.
  destruct s; [left|right; left|right; right]; exists (Z.pred ORDER); (split; [f_equal; lia|apply in_zseq; cbn; lia]).
Qed.
Lemma orders_checked : forallb (fun so => order_check (fst so) (snd so)) valid_orders = true.
Proof. vm_compute. reflexivity. Qed.
Definition cached (s : spacing) (ORDER k : Z) : Z :=
  nth (Z.to_nat k) (map (refp s (ORDER + 1)) (zseq (Z.to_nat (ORDER + 1)))) 0.
Lemma cached_spec s ORDER k : In k (zseq (Z.to_nat (ORDER + 1))) -> cached s ORDER k = refp s (ORDER + 1) k.
Proof.
  intros Hk. unfold cached. apply in_zseq in Hk. unfold zseq. rewrite map_map.
  rewrite (nth_indep _ 0 (refp s (ORDER + 1) (Z.of_nat 0))) by (rewrite map_length, seq_length; lia).
  rewrite (map_nth (fun j => refp s (ORDER + 1) (Z.of_nat j))), seq_nth by lia. f_equal. lia.
Qed.
Lemma order_stable s ORDER x y : ValidOrder (s, ORDER) -> ORDER <= 15 ->
  Close (Z.to_nat (ORDER + 1)) (refp s (ORDER + 1)) x -> (-1 <= y <= 1)%R ->
  (sumR (fun i => Rabs (prodR (fun k => term x i k y) (zseq (Z.to_nat (ORDER + 1))))) (zseq (Z.to_nat (ORDER + 1)))
   <= IZR (bound_num s ORDER) / IZR (bound_den s ORDER))%R.
Proof.
  intros HV H15 HC Hy. pose proof orders_checked as H. rewrite forallb_forall in H.
  specialize (H _ (valid_orders_spec _ _ HV H15)). cbn [fst snd] in H. unfold order_check in H. cbv zeta in H.
  apply (stable_check_spec _ _ _ _ x y H); [|exact Hy]. intros k Hk. fold (cached s ORDER k). rewrite cached_spec by exact Hk. now apply HC.
Qed.
Lemma bounds_stability s ORDER : ValidOrder (s, ORDER) -> ORDER <= 15 ->
  (IZR (bound_num s ORDER) / IZR (bound_den s ORDER))%R = Stability (s, ORDER).
Proof.
  intros HV H15. unfold Stability, bound_num, bound_den. cbn [fst snd]. unfold ValidOrder in HV. cbn in HV. destruct s; [|lra|lra].
  rewrite (proj2 (Z.leb_le _ _) H15). unfold Rdiv at 2. rewrite Rpow_mult_distr, pow_inv. rewrite !pow_IZR, Z2Nat.id by lia. reflexivity.
Qed.
Lemma refp_close s N x : Points (coord_ct RNum s N) N x -> Close (Z.to_nat N) (refp s N) x.
Proof.
  intros Hp k Hk. apply in_zseq in Hk. pose proof (Hp k ltac:(lia)) as Ek. rewrite (ProofHom.coord_hom_ct QrawNum RNum Q2R ProofHom.QrawR_hom) in Ek.
  unfold refp, qcoord. destruct (coord_ct QrawNum s N k) as [q| | | |]; try discriminate.
  unfold omap in Ek; cbn [bind] in Ek. injection Ek as <-. cbn [qof]. destruct q as [p d]. cbn [Qnum Qden]. unfold Q2R. cbn [Qnum Qden].
  pose proof (Z.div_mod (p * 1048576) (Zpos d) ltac:(lia)) as E. pose proof (Z.mod_pos_bound (p * 1048576) (Zpos d) ltac:(lia)) as B.
  set (f := p * 1048576 / Zpos d) in *. set (r := (p * 1048576) mod Zpos d) in *.
  assert (D : (0 < IZR (Zpos d))%R) by (apply IZR_lt; lia).
  assert (X : (IZR p * / IZR (Zpos d) * 1048576 - IZR f = IZR r * / IZR (Zpos d))%R).
  { apply (f_equal IZR) in E. rewrite plus_IZR, !mult_IZR in E. apply Rmult_eq_reg_r with (IZR (Zpos d)); [|lra].
    replace ((IZR p * / IZR (Zpos d) * 1048576 - IZR f) * IZR (Zpos d))%R with (IZR p * 1048576 - IZR f * IZR (Zpos d))%R by (field; lra).
    replace (IZR r * / IZR (Zpos d) * IZR (Zpos d))%R with (IZR r) by (field; lra). lra. }
  rewrite X. destruct B as (B1 & B2). apply IZR_le in B1. apply IZR_lt in B2. rewrite Rabs_pos_eq.
  - apply Rle_trans with (IZR (Zpos d) * / IZR (Zpos d))%R; [|rewrite Rinv_r; lra].
    apply Rmult_le_compat_r; [left; apply Rinv_0_lt_compat; exact D|lra].
  - apply Rmult_le_pos; [exact B1|left; apply Rinv_0_lt_compat; exact D].
Qed.

(** * Any number of equally spaced points *)
Lemma fact_prod a b : (fact (S a) * fact (S b) <= fact (S (a + b)))%nat.
Proof.
  induction a as [|a IH]; [cbn [Nat.add]; change (fact 1) with 1%nat; lia|].
  change (fact (S (S a))) with (S (S a) * fact (S a))%nat. change (fact (S (S a + b))) with (S (S (a + b)) * fact (S (a + b)))%nat. nia.
Qed.
Lemma zseq_split a b : zseq (a + b) = zseq a ++ map (fun k => Z.of_nat a + k) (zseq b).
Proof.
  unfold zseq. rewrite seq_app, map_app. f_equal. rewrite map_map. cbn [Nat.add]. revert b.
  induction b as [|b IH]; [reflexivity|]. rewrite !seq_S, !map_app, IH. cbn [map]. do 2 f_equal. lia.
Qed.
Lemma prodR_app {A} (f : A -> R) l m : prodR f (l ++ m) = (prodR f l * prodR f m)%R.
Proof. induction l as [|u l IH]; [change (prodR f m = 1 * prodR f m)%R; ring|]. cbn [app]. rewrite !prodR_cons, IH. ring. Qed.
Lemma prod_up a : prodR (fun k => IZR (1 + k)) (zseq a) = INR (fact a).
Proof.
  induction a as [|a IH]; [reflexivity|]. rewrite zseq_S, prodR_app, IH, prodR_cons. change (prodR (fun k : Z => IZR (1 + k)) []) with 1%R.
  change (fact (S a)) with (S a * fact a)%nat. rewrite mult_INR, S_INR, (INR_IZR_INZ a), plus_IZR. ring.
Qed.
Lemma prod_down a : prodR (fun k => IZR (Z.of_nat a - k)) (zseq a) = INR (fact a).
Proof.
  induction a as [|a IH]; [reflexivity|]. rewrite zseq_S_l, prodR_cons, prodR_map.
  rewrite (prodR_ext _ (fun k => IZR (Z.of_nat a - k))) by (intros; f_equal; lia). rewrite IH.
  change (fact (S a)) with (S a * fact a)%nat. rewrite mult_INR. rewrite (INR_IZR_INZ (S a)), Z.sub_0_r. reflexivity.
Qed.
Lemma prodR_abs {A} (f : A -> R) l : Rabs (prodR f l) = prodR (fun a => Rabs (f a)) l.
Proof. induction l as [|u l IH]; [apply Rabs_R1|]. rewrite !prodR_cons, Rabs_mult, IH. reflexivity. Qed.
Lemma prodR_le {A} (f g : A -> R) l : (forall a, In a l -> 0 <= f a <= g a)%R -> (0 <= prodR f l <= prodR g l)%R.
Proof.
  induction l as [|u l IH]; intros H; [cbn; lra|]. rewrite !prodR_cons. specialize (IH (fun a Ha => H a (or_intror Ha))).
  destruct (H u (or_introl eq_refl)) as (H1 & H2). split; [apply Rmult_le_pos; lra|apply Rmult_le_compat; lra].
Qed.
(** The product of the distances of a point of [j, j+1] to the numbers 0, ..., n. *)
Lemma distances_fact n j (t : R) (p : Z -> bool) : (j < n)%nat -> (INR j <= t <= INR (S j))%R ->
  (prodR (fun k => if p k then 1 else Rabs (t - IZR k))%R (zseq (S n)) <= INR (fact n))%R.
Proof.
  intros Hj Ht. rewrite INR_IZR_INZ, (INR_IZR_INZ (S j)) in Ht.
  apply Rle_trans with (prodR (fun k => if k <? Z.of_nat (S j) then IZR (Z.of_nat (S j) - k) else IZR (1 + (k - Z.of_nat (S j)))) (zseq (S n))).
  - apply prodR_le. intros k Hk. apply in_zseq in Hk. destruct (Z.ltb_spec k (Z.of_nat (S j))) as [L|L].
    + assert (1 <= IZR (Z.of_nat (S j) - k))%R by (apply IZR_le; lia). destruct (p k); [lra|]. split; [apply Rabs_pos|].
      assert (IZR k <= IZR (Z.of_nat j))%R by (apply IZR_le; lia). rewrite minus_IZR. rewrite Rabs_pos_eq by lra. lra.
    + assert (1 <= IZR (1 + (k - Z.of_nat (S j))))%R by (apply IZR_le; lia). destruct (p k); [lra|]. split; [apply Rabs_pos|].
      assert (IZR (Z.of_nat (S j)) <= IZR k)%R by (apply IZR_le; lia). rewrite plus_IZR, minus_IZR.
      rewrite Rabs_minus_sym, Rabs_pos_eq by lra.
      assert (E : (IZR (Z.of_nat (S j)) = IZR (Z.of_nat j) + 1)%R) by (rewrite <- plus_IZR; f_equal; lia). lra.
  - replace (S n) with (S j + (n - j))%nat by lia. rewrite zseq_split, prodR_app, prodR_map.
    rewrite (prodR_ext _ (fun k => IZR (Z.of_nat (S j) - k)) (zseq (S j))).
    2: { intros k Hk. apply in_zseq in Hk. rewrite (proj2 (Z.ltb_lt _ _)) by lia. reflexivity. }
    rewrite prod_down. rewrite (prodR_ext _ (fun k => IZR (1 + k)) (zseq (n - j))).
    2: { intros k Hk. apply in_zseq in Hk. rewrite (proj2 (Z.ltb_ge _ _)) by lia. f_equal. lia. }
    rewrite prod_up, <- mult_INR. apply le_INR. pose proof (fact_prod j (n - j - 1)) as F.
    replace (S (n - j - 1)) with (n - j)%nat in F by lia. replace (S (j + (n - j - 1))) with n in F by lia. exact F.
Qed.
Lemma gaps_fact n i : 0 <= i <= Z.of_nat n ->
  prodR (fun k => if i =? k then 1 else Rabs (IZR i - IZR k))%R (zseq (S n)) = (INR (fact (Z.to_nat i)) * INR (fact (n - Z.to_nat i)))%R.
Proof.
  intros Hi. set (a := Z.to_nat i). assert (Ei : i = Z.of_nat a) by lia. replace (S n) with (a + S (n - a))%nat by lia.
  rewrite zseq_split, prodR_app, prodR_map. f_equal.
  - rewrite <- prod_down. apply prodR_ext. intros k Hk. apply in_zseq in Hk. rewrite (proj2 (Z.eqb_neq _ _)) by lia.
    rewrite <- minus_IZR, Rabs_pos_eq by (apply IZR_le; lia). f_equal. lia.
  - rewrite zseq_S_l, prodR_cons, prodR_map, (proj2 (Z.eqb_eq _ _)) by lia. rewrite Rmult_1_l, <- prod_up. apply prodR_ext.
    intros k Hk. apply in_zseq in Hk. rewrite (proj2 (Z.eqb_neq _ _)) by lia.
    rewrite Rabs_minus_sym, <- minus_IZR, Rabs_pos_eq by (apply IZR_le; lia). f_equal. lia.
Qed.

Lemma equal_points N x : 2 <= N <= INT_MAX -> Points (coord_ct RNum EqualSpacing N) N x ->
  forall k, 0 <= k < N -> x k = (-1 + IZR k * (2 / IZR (N - 1)))%R.
Proof.
  intros HN Hp. destruct (equal_spacing_lemma N HN) as (x' & h & _ & _ & Hx & X0 & X1 & Hh & _).
  assert (E : forall m : nat, x' (Z.of_nat m) = (-1 + INR m * h)%R).
  { induction m as [|m IH]; [cbn; rewrite X0; ring|]. pose proof (Hh (Z.of_nat m)) as H.
    replace (Z.of_nat m + 1) with (Z.of_nat (S m)) in H by lia. rewrite S_INR. lra. }
  assert (HN1 : (0 < IZR (N - 1))%R) by (apply IZR_lt; lia).
  assert (Eh : (h = 2 / IZR (N - 1))%R).
  { pose proof (E (Z.to_nat (N - 1))) as H. rewrite INR_IZR_INZ, Z2Nat.id, X1 in H by lia.
    apply Rmult_eq_reg_r with (IZR (N - 1)); [|lra]. field_simplify; lra. }
  intros k Hk. pose proof (Hp k Hk) as P. rewrite (proj1 (Hx k)) in P. injection P as P.
  pose proof (E (Z.to_nat k)) as H. rewrite INR_IZR_INZ, Z2Nat.id in H by lia. rewrite <- P, H, Eh. reflexivity.
Qed.
Lemma sumR_sum_f (f : Z -> R) n : sumR f (zseq (S n)) = sum_f_R0 (fun i => f (Z.of_nat i)) n.
Proof.
  induction n as [|n IH]; [cbn; ring|]. rewrite zseq_S, sumR_app, IH. cbn [sum_f_R0]. rewrite sumR_cons.
  change (sumR f []) with 0%R. ring.
Qed.
Lemma floor_cell n (t : R) : (0 < n)%nat -> (0 <= t <= INR n)%R -> exists j, (j < n)%nat /\ (INR j <= t <= INR (S j))%R.
Proof.
  induction n as [|n IH]; [lia|]. intros _ Ht. destruct (Rle_or_lt (INR n) t) as [L|L].
  - exists n. split; [lia|]. split; [exact L|apply Ht].
  - destruct n as [|n]; [cbn in L; lra|]. destruct (IH ltac:(lia) ltac:(split; [apply Ht|lra])) as (j & Hj & H). exists j. split; [lia|exact H].
Qed.
Lemma cleared n x y t i : (forall k, 0 <= k <= Z.of_nat n -> x k = (-1 + IZR k * (2 / INR n))%R) -> 0 <= i <= Z.of_nat n ->
  y = (-1 + t * (2 / INR n))%R ->
  (Rabs (prodR (fun k => term x i k y) (zseq (S n))) * prodR (fun k => if i =? k then 1 else Rabs (IZR i - IZR k)) (zseq (S n)) =
   prodR (fun k => if i =? k then 1 else Rabs (t - IZR k)) (zseq (S n)))%R.
Proof.
  intros Hx Hi Hy. rewrite prodR_abs.
  assert (H : forall l, (forall k, In k l -> In k (zseq (S n))) ->
     (prodR (fun a => Rabs (term x i a y)) l * prodR (fun k => if i =? k then 1 else Rabs (IZR i - IZR k)) l =
      prodR (fun k => if i =? k then 1 else Rabs (t - IZR k)) l)%R); [|apply H; auto].
  induction l as [|k l IH]; intros Hl; [cbn; ring|]. rewrite !prodR_cons. rewrite <- IH by (intros q Hq; apply Hl; right; exact Hq).
  assert (Hk : 0 <= k <= Z.of_nat n). { pose proof (Hl k (or_introl eq_refl)) as Q. apply in_zseq in Q. lia. }
  assert (T : (Rabs (term x i k y) * (if i =? k then 1 else Rabs (IZR i - IZR k)) = if i =? k then 1 else Rabs (t - IZR k))%R).
  { unfold term. destruct (Z.eqb_spec i k) as [e|e]; [rewrite Rabs_R1; ring|].
    assert (Nn : (0 < INR n)%R) by (apply lt_0_INR; lia).
    rewrite <- Rabs_mult. f_equal. rewrite (Hx i Hi), (Hx k Hk), Hy.
    assert (Dk : (IZR i - IZR k <> 0)%R) by (rewrite <- minus_IZR; apply IZR_neq; lia). field. split; [|lra].
    intros Q. apply Dk. apply Rmult_eq_reg_r with 2%R; [|lra]. lra. }
  rewrite <- T. ring.
Qed.
Lemma equal_value_bound n x y i : (0 < n)%nat -> Z.of_nat n < INT_MAX ->
  (forall k, 0 <= k <= Z.of_nat n -> x k = (-1 + IZR k * (2 / INR n))%R) -> (-1 <= y <= 1)%R -> 0 <= i <= Z.of_nat n ->
  (Rabs (prodR (fun k => term x i k y) (zseq (S n))) <= Binomial.C n (Z.to_nat i))%R.
Proof.
  intros Hn HM Hx Hy Hi. assert (Nn : (0 < INR n)%R) by (apply lt_0_INR; exact Hn).
  set (t := ((y + 1) * INR n / 2)%R).
  assert (Ht : (0 <= t <= INR n)%R) by (unfold t; split; nra).
  destruct (floor_cell n t Hn Ht) as (j & Hj & Hjt). pose proof (distances_fact n j t (fun k => i =? k) Hj Hjt) as D. pose proof (gaps_fact n i Hi) as G.
  set (A := prodR (fun k => if i =? k then 1 else Rabs (t - IZR k))%R (zseq (S n))) in *.
  set (B := prodR (fun k => if i =? k then 1 else Rabs (IZR i - IZR k))%R (zseq (S n))) in *.
  assert (E : (Rabs (prodR (fun k => term x i k y) (zseq (S n))) * B = A)%R).
  { apply (cleared n x y t i Hx Hi). unfold t. field. lra. }
  assert (B0 : (0 < B)%R). { rewrite G. apply Rmult_lt_0_compat; apply INR_fact_lt_0. }
  apply Rmult_le_reg_r with B; [exact B0|]. rewrite E. unfold Binomial.C. rewrite <- G. unfold Rdiv. rewrite Rmult_assoc, Rinv_l by lra. lra.
Qed.
Lemma equal_stable n x y : (0 < n)%nat -> Z.of_nat n < INT_MAX ->
  (forall k, 0 <= k <= Z.of_nat n -> x k = (-1 + IZR k * (2 / INR n))%R) -> (-1 <= y <= 1)%R ->
  (sumR (fun i => Rabs (prodR (fun k => term x i k y) (zseq (S n)))) (zseq (S n)) <= 2 ^ n)%R.
Proof.
  intros Hn HM Hx Hy. apply Rle_trans with (sumR (fun i => Binomial.C n (Z.to_nat i)) (zseq (S n))).
  - apply sumR_le. intros i Hi. apply in_zseq in Hi. apply equal_value_bound; try assumption; lia.
  - rewrite sumR_sum_f. replace (2 ^ n)%R with ((1 + 1) ^ n)%R by (f_equal; lra). rewrite Binomial.binomial.
    right. apply sum_eq. intros i _. rewrite Nat2Z.id, !pow1. ring.
Qed.

(** * Directions and elements *)
Lemma nodal_distinct d : Nodal d -> Distinct (npts d) (pt d).
Proof.
  intros HN i j Hi Hj E. destruct (Z.eq_dec i j) as [|Hij]; [assumption|].
  pose proof (nb_nodal _ _ _ _ HN i j Hi Hj) as V. pose proof (nb_nodal _ _ _ _ HN i i Hi Hi) as W.
  rewrite (proj2 (Z.eqb_neq _ _)) in V by assumption. rewrite Z.eqb_refl, E in W. lra.
Qed.
Lemma direction_stable s ORDER d y : ValidOrder (s, ORDER) -> Nodal d -> npts d = ORDER + 1 ->
  Points (coord_ct RNum s (ORDER + 1)) (ORDER + 1) (pt d) -> (-1 <= y <= 1)%R ->
  (Zsum (npts d) (fun i => Rabs (fval d i y)) <= Stability (s, ORDER))%R.
Proof.
  intros HV HN Hn Hp Hy. assert (HO : 1 <= ORDER < INT_MAX) by (unfold ValidOrder, INT_MAX in *; cbn in HV; destruct s; lia).
  rewrite Zsum_sumR. rewrite (sumR_ext _ (fun i => Rabs (prodR (fun k => term (pt d) i k y) (zseq (Z.to_nat (npts d)))))).
  2: { intros i Hi. apply in_zseq in Hi. rewrite direction_values; [reflexivity|exact HN|now apply nodal_distinct|lia|lia]. }
  rewrite Hn. destruct (Z.leb_spec ORDER 15) as [L|L].
  - rewrite <- bounds_stability by assumption. apply order_stable; try assumption. now apply refp_close.
  - destruct s; unfold ValidOrder in HV; cbn in HV; [|lia|lia]. unfold Stability. cbn [fst snd]. rewrite (proj2 (Z.leb_gt _ _)) by lia.
    replace (Z.to_nat (ORDER + 1)) with (S (Z.to_nat ORDER)) by lia. apply equal_stable; [lia|lia| |exact Hy].
    intros k Hk. rewrite (equal_points (ORDER + 1) (pt d) ltac:(lia) Hp k ltac:(lia)). rewrite INR_IZR_INZ, Z2Nat.id by lia. replace (ORDER + 1 - 1) with ORDER by lia. reflexivity.
Qed.
Lemma sum_nonneg {A} (f : A -> R) l : (forall a, In a l -> 0 <= f a)%R -> (0 <= sumR f l)%R.
Proof. intros H. rewrite <- (sumR_zero (fun _ : A => 0%R) l) by reflexivity. apply sumR_le. exact H. Qed.
Lemma tensor_abs ds : forall L xi, Amplifies ds L xi -> (length ds <= length xi)%nat ->
  (0 <= BoxSum (counts ds) (fun t => Rabs (tensor ds t xi)) <= fold_right Rmult 1 L)%R.
Proof.
  induction ds as [|d ds IH]; intros L xi HA Hl.
  - destruct L; [|destruct HA]. cbn. rewrite Rabs_R1. lra.
  - destruct L as [|l L]; [destruct HA|]. destruct xi as [|x xi]; [destruct HA|]. destruct HA as (H1 & H2). cbn [fold_right].
    specialize (IH L xi H2 ltac:(cbn in Hl; lia)). change (counts (d :: ds)) with (npts d :: counts ds). cbn [BoxSum tensor].
    rewrite Zsum_sumR in *. rewrite (sumR_ext _ (fun i => Rabs (fval d i x) * BoxSum (counts ds) (fun t => Rabs (tensor ds t xi)))%R).
    2: { intros i _. rewrite <- BoxSum_scal. apply BoxSum_ext. intros t _. apply Rabs_mult. }
    rewrite sumR_scal_r. set (S := sumR _ _) in *. assert (0 <= S)%R by (apply sum_nonneg; intros; apply Rabs_pos).
    split; [apply Rmult_le_pos; lra|apply Rmult_le_compat; lra].
Qed.
Lemma interp_difference ds L xi u w eps : Amplifies ds L xi -> (length ds <= length xi)%nat ->
  (0 <= eps)%R -> (forall t, InRange (counts ds) t -> (Rabs (u t - w t) <= eps)%R) ->
  (Rabs (interp ds u xi - interp ds w xi) <= fold_right Rmult 1 L * eps)%R.
Proof.
  intros HA Hl He H. unfold interp. rewrite !BoxSum_sumR, <- sumR_minus. eapply Rle_trans; [apply sumR_abs|].
  apply Rle_trans with (sumR (fun t => Rabs (tensor ds t xi) * eps) (zbox (counts ds)))%R.
  - apply sumR_le. intros t Ht. apply in_zbox in Ht. replace (tensor ds t xi * u t - tensor ds t xi * w t)%R with (tensor ds t xi * (u t - w t))%R by ring.
    rewrite Rabs_mult. apply Rmult_le_compat_l; [apply Rabs_pos|now apply H].
  - rewrite sumR_scal_r, <- BoxSum_sumR. apply Rmult_le_compat_r; [exact He|]. apply tensor_abs; assumption.
Qed.

Lemma points_eq c N x z : Points c N x -> Points c N z -> forall i, 0 <= i < N -> x i = z i.
Proof. intros Hx Hz i Hi. pose proof (Hx i Hi) as A. rewrite (Hz i Hi) in A. injection A as A. symmetry. exact A. Qed.
Lemma points_in_cube s ORDER x : ValidOrder (s, ORDER) -> Points (coord_ct RNum s (ORDER + 1)) (ORDER + 1) x ->
  forall i, 0 <= i < ORDER + 1 -> (-1 <= x i <= 1)%R.
Proof.
  intros HV Hp i Hi. unfold ValidOrder in HV. cbn in HV. destruct s.
  - rewrite (equal_points (ORDER + 1) x) by (assumption || lia). replace (ORDER + 1 - 1) with ORDER by lia.
    assert (0 < IZR ORDER)%R by (apply IZR_lt; lia). assert (0 <= IZR i <= IZR ORDER)%R by (split; apply IZR_le; lia).
    assert (E : (IZR i * (2 / IZR ORDER) = 2 * (IZR i / IZR ORDER))%R) by (field; lra). rewrite E.
    assert (0 <= IZR i / IZR ORDER)%R by (apply Rmult_le_pos; [lra|left; apply Rinv_0_lt_compat; lra]).
    assert (IZR i / IZR ORDER <= 1)%R by (apply Rmult_le_reg_r with (IZR ORDER); [lra|]; unfold Rdiv; rewrite Rmult_assoc, Rinv_l; lra). lra.
  - destruct (legendre_roots_lemma (ORDER + 1) ltac:(lia)) as (z & _ & Hz & _ & _ & _ & Hb & _).
    rewrite (points_eq _ _ _ _ Hp Hz i Hi). specialize (Hb i Hi). lra.
  - destruct (lobatto_roots_lemma (ORDER + 1) ltac:(lia)) as (z & _ & Hz & Hinc & _ & Z0 & Z1 & _).
    rewrite (points_eq _ _ _ _ Hp Hz i Hi). split.
    + destruct (Z.eq_dec i 0) as [->|Hne]; [lra|]. pose proof (Hinc 0%Z i ltac:(lia) ltac:(lia)). lra.
    + destruct (Z.eq_dec i (ORDER + 1 - 1)) as [->|Hne]; [lra|]. pose proof (Hinc i (ORDER + 1 - 1)%Z ltac:(lia) ltac:(lia)). lra.
Qed.
Lemma grids_exist specs : Forall ValidOrder specs ->
  exists ds, Forall2 Evaluates (map (fun so => LagrangeBasis RNum (snd so) (fst so)) specs) ds /\ Forall2 GridR specs ds.
Proof.
  induction 1 as [|[s o] l H _ (ds & H1 & H2)].
  - exists []. repeat constructor.
  - destruct (lagrange_direction s o H) as (d & D1 & D2 & D3 & D4). exists (d :: ds).
    split; [now constructor|]. constructor; [|exact H2]. split; [exact D3|]. split; [exact D4|exact D2].
Qed.
Lemma grids_facts specs ds : Forall ValidOrder specs -> Forall2 GridR specs ds ->
  length ds = length specs /\ Forall Nodal ds /\ counts ds = map (fun so => snd so + 1) specs /\ PointsIn (-1) 1 ds /\
  forall xi, length xi = length specs -> InCube (-1) 1 xi -> Amplifies ds (map Stability specs) xi.
Proof.
  intros HV HG. induction HG as [|[s o] d specs ds (Hn & Hp & HN) _ IH].
  - repeat split; try constructor.
  - inversion HV as [|? ? V1 V2]; subst. destruct (IH V2) as (I1 & I2 & I3 & I4 & I5). cbn [fst snd] in *.
    split; [cbn; lia|]. split; [now constructor|]. split; [cbn; rewrite Hn; f_equal; exact I3|]. split.
    + constructor; [|exact I4]. intros i Hi. rewrite Hn in Hi. exact (points_in_cube s o _ V1 Hp i Hi).
    + intros xi Hl HC. destruct xi as [|x xi]; [discriminate|]. inversion HC as [|? ? Hx HC']; subst. cbn [map Amplifies]. split.
      * now apply direction_stable.
      * apply I5; [cbn in Hl; lia|exact HC'].
Qed.
Lemma stability_lemma specs u w var1 var2 eps xi : Forall ValidOrder specs -> specs <> [] ->
  length xi = length specs -> InCube (-1) 1 xi ->
  (forall t, InRange (map (fun so => snd so + 1) specs) t -> var1 t = Ok (u t) /\ var2 t = Ok (w t) /\ (Rabs (u t - w t) <= eps)%R) ->
  exists p q, parent_value RNum (Z.of_nat (length specs)) (map (fun so => LagrangeBasis RNum (snd so) (fst so)) specs) var1 xi = Ok p /\
    parent_value RNum (Z.of_nat (length specs)) (map (fun so => LagrangeBasis RNum (snd so) (fst so)) specs) var2 xi = Ok q /\
    (Rabs (p - q) <= ElementStability specs * eps)%R.
Proof.
  intros HV Hne Hl HC H. destruct (grids_exist specs HV) as (ds & HE & HG).
  destruct (grids_facts specs ds HV HG) as (Ld & HN & Hc & HP & HA). rewrite <- Hc in H.
  assert (Lx : (length ds <= length xi)%nat) by (rewrite Ld; apply Nat.eq_le_incl; symmetry; exact Hl).
  assert (Hds : ds <> []) by (intros ->; destruct specs; [congruence|discriminate]).
  exists (interp ds u xi), (interp ds w xi).
  split; [|split].
  - apply (parent_value_ok _ _ ds); try assumption; [rewrite Ld; reflexivity|intros t Ht; apply H, Ht].
  - apply (parent_value_ok _ _ ds); try assumption; [rewrite Ld; reflexivity|intros t Ht; apply H, Ht].
  - apply interp_difference; [apply HA; assumption|exact Lx| |intros t Ht; apply H, Ht].
    destruct specs as [|so specs]; [congruence|]. destruct ds as [|d ds]; [congruence|].
    assert (Hz : InRange (counts (d :: ds)) (map (fun _ => 0) (d :: ds))).
    { rewrite Hc. clear -HV HG. revert HG. generalize (d :: ds). induction HV as [|[s o] l Hv _ IH]; intros ds' HG; inversion HG; subst; [constructor|].
      cbn [map]. constructor; [unfold ValidOrder in Hv; cbn in *; destruct s; lia|]. now apply IH. }
    eapply Rle_trans; [apply Rabs_pos|]. apply (proj2 (proj2 (H _ Hz))).
Qed.
Lemma near_best_lemma specs : Forall ValidOrder specs -> specs <> [] ->
  exists ds, Forall2 GridR specs ds /\
  forall f c var xi eps, length xi = length specs -> InCube (-1) 1 xi ->
  (forall t, InRange (counts ds) t -> var t = Ok (f (gridpoint ds t))) ->
  (forall p, length p = length specs -> InCube (-1) 1 p -> (Rabs (f p - tpoly (counts ds) c p) <= eps)%R) ->
  exists v, parent_value RNum (Z.of_nat (length specs)) (map (fun so => LagrangeBasis RNum (snd so) (fst so)) specs) var xi = Ok v /\
    (Rabs (f xi - v) <= (1 + ElementStability specs) * eps)%R.
Proof.
  intros HV Hne. destruct (grids_exist specs HV) as (ds & HE & HG). exists ds. split; [exact HG|].
  destruct (grids_facts specs ds HV HG) as (Ld & HN & Hc & HP & HA). intros f c var xi eps Hl HC Hv Hf.
  assert (Lx : (length ds <= length xi)%nat) by (rewrite Ld; apply Nat.eq_le_incl; symmetry; exact Hl).
  assert (Hds : ds <> []) by (intros ->; destruct specs; [congruence|discriminate]).
  exists (interp ds (fun t => f (gridpoint ds t)) xi). split.
  - apply (parent_value_ok _ _ ds); try assumption; [rewrite Ld; reflexivity].
  - pose proof (Hf xi Hl HC) as F1.
    assert (F2 : (Rabs (interp ds (fun t => tpoly (counts ds) c (gridpoint ds t)) xi - interp ds (fun t => f (gridpoint ds t)) xi) <= ElementStability specs * eps)%R).
    { apply interp_difference; [apply HA; assumption|exact Lx|eapply Rle_trans; [apply Rabs_pos|exact F1]|].
      intros t Ht. rewrite Rabs_minus_sym. apply Hf; [rewrite gridpoint_length by assumption; exact Ld|now apply gridpoint_cube]. }
    rewrite interp_tpoly in F2 by assumption.
    set (v := interp ds (fun t => f (gridpoint ds t)) xi) in *. set (p := tpoly (counts ds) c xi) in *.
    replace (f xi - v)%R with ((f xi - p) + (p - v))%R by ring. eapply Rle_trans; [apply Rabs_triang|]. lra.
Qed.
Lemma element_error_lemma specs : Forall ValidOrder specs -> specs <> [] ->
  exists ds, Forall2 GridR specs ds /\
  forall (D : nat -> nat -> list R -> R) f M var xi,
  length xi = length specs -> length M = length specs -> InCube (-1) 1 xi ->
  (forall t, InRange (counts ds) t -> var t = Ok (f (gridpoint ds t))) ->
  (forall j p, (j < length ds)%nat -> length p = length ds -> InCube (-1) 1 p -> D j 0%nat p = f p) ->
  (forall j k d p, nth_error ds j = Some d -> (k < Z.to_nat (npts d))%nat -> length p = length ds -> InCube (-1) 1 p ->
     Partial (D j k) j p (D j (S k) p)) ->
  (forall j d p, nth_error ds j = Some d -> length p = length ds -> InCube (-1) 1 p ->
     (Rabs (D j (Z.to_nat (npts d)) p) <= nth j M 0)%R) ->
  exists v, parent_value RNum (Z.of_nat (length specs)) (map (fun so => LagrangeBasis RNum (snd so) (fst so)) specs) var xi = Ok v /\
    (Rabs (f xi - v) <= error_bound ds (map Stability specs) M xi)%R.
Proof.
  intros HV Hne. destruct (grids_exist specs HV) as (ds & HE & HG). exists ds. split; [exact HG|].
  destruct (grids_facts specs ds HV HG) as (Ld & HN & Hc & HP & HA). intros D f M var xi Hl HM HC Hv D0 DS DM.
  assert (Hds : ds <> []) by (intros ->; destruct specs; [congruence|discriminate]).
  rewrite <- Ld. apply (parent_error (-1) 1 _ ds D f (map Stability specs) M var xi); try assumption; try (now apply HA).
  - etransitivity; [exact Hl|symmetry; exact Ld].
  - etransitivity; [exact HM|symmetry; exact Ld].
Qed.

(** * Equally spaced points amplify exponentially *)
Lemma distances_low m i : 0 <= i <= Z.of_nat (S m) ->
  (INR (fact m) / 4 <= INR (S m) * prodR (fun k => if i =? k then 1 else Rabs (INR m + / 2 - IZR k))%R (zseq (S (S m))))%R.
Proof.
  intros Hi. set (t := (INR m + / 2)%R).
  assert (E : (prodR (fun k => Rabs (t - IZR k)) (zseq (S (S m))) =
               Rabs (t - IZR i) * prodR (fun k => if i =? k then 1 else Rabs (t - IZR k)) (zseq (S (S m))))%R).
  { assert (Hin : In i (zseq (S (S m)))) by (apply in_zseq; lia). revert Hin. generalize (NoDup_zseq (S (S m))). generalize (zseq (S (S m))).
    induction l as [|k l IH]; intros ND Hin; [destruct Hin|]. inversion ND as [|? ? Hk ND']; subst. rewrite !prodR_cons. destruct (Z.eqb_spec i k) as [->|e].
    - rewrite Rmult_1_l. f_equal. apply prodR_ext. intros j Hj. destruct (Z.eqb_spec k j) as [->|]; [contradiction|reflexivity].
    - destruct Hin as [Hin|Hin]; [congruence|]. rewrite IH by assumption. ring. }
  set (P := prodR (fun k => if i =? k then 1 else Rabs (t - IZR k))%R (zseq (S (S m)))) in *.
  assert (P0 : (0 <= P)%R). { unfold P. eapply proj1. apply prodR_le with (g := fun k => if i =? k then 1%R else Rabs (t - IZR k)). intros k _.
    destruct (i =? k); split; try lra; apply Rabs_pos. }
  assert (L : (INR (fact m) / 4 <= prodR (fun k => Rabs (t - IZR k)) (zseq (S (S m))))%R).
  { rewrite !zseq_S, !prodR_app, !prodR_cons. rewrite <- prod_down. unfold t.
    change (prodR (fun k => Rabs (INR m + / 2 - IZR k)) [])%R with 1%R.
    rewrite <- (INR_IZR_INZ m), <- (INR_IZR_INZ (S m)), S_INR.
    replace (INR m + / 2 - INR m)%R with (/ 2)%R by ring. replace (INR m + / 2 - (INR m + 1))%R with (- / 2)%R by field.
    rewrite Rabs_Ropp, (Rabs_pos_eq (/ 2)) by lra.
    assert (Q : (prodR (fun k => IZR (Z.of_nat m - k)) (zseq m) <= prodR (fun k => Rabs (INR m + / 2 - IZR k)) (zseq m))%R).
    { apply prodR_le. intros k Hk. apply in_zseq in Hk. rewrite minus_IZR, <- INR_IZR_INZ.
      assert (IZR k <= INR m)%R by (rewrite INR_IZR_INZ; apply IZR_le; lia). rewrite Rabs_pos_eq by lra. lra. }
    lra. }
  rewrite E in L. eapply Rle_trans; [exact L|]. apply Rmult_le_compat_r; [exact P0|].
  assert (0 <= IZR i <= INR (S m))%R by (rewrite INR_IZR_INZ; split; apply IZR_le; lia). rewrite S_INR in *. pose proof (pos_INR m).
  apply Rabs_le. unfold t. lra.
Qed.
Lemma growth_value m x i : Z.of_nat (S m) < INT_MAX -> (forall k, 0 <= k <= Z.of_nat (S m) -> x k = (-1 + IZR k * (2 / INR (S m)))%R) ->
  0 <= i <= Z.of_nat (S m) -> let y := (-1 + (INR m + / 2) * (2 / INR (S m)))%R in
  (Binomial.C (S m) (Z.to_nat i) / (4 * (INR (S m) * INR (S m))) <= Rabs (prodR (fun k => term x i k y) (zseq (S (S m)))))%R.
Proof.
  intros HM Hx Hi y. set (n := S m) in *. assert (Nn : (0 < INR n)%R) by (apply lt_0_INR; lia).
  pose proof (distances_low m i Hi) as D. pose proof (gaps_fact n i Hi) as G. fold n in D.
  set (A := prodR (fun k => if i =? k then 1 else Rabs (INR m + / 2 - IZR k))%R (zseq (S n))) in *.
  set (B := prodR (fun k => if i =? k then 1 else Rabs (IZR i - IZR k))%R (zseq (S n))) in *.
  assert (E : (Rabs (prodR (fun k => term x i k y) (zseq (S n))) * B = A)%R).
  { apply (cleared n x y (INR m + / 2) i Hx Hi). unfold y. field. lra. }
  assert (B0 : (0 < B)%R). { rewrite G. apply Rmult_lt_0_compat; apply INR_fact_lt_0. }
  apply Rmult_le_reg_r with B; [exact B0|]. rewrite E. unfold Binomial.C. rewrite <- G.
  replace (INR (fact n) / B / (4 * (INR n * INR n)) * B)%R with (INR (fact n) / (4 * (INR n * INR n)))%R by (field; lra).
  apply Rmult_le_reg_l with (INR n); [exact Nn|]. eapply Rle_trans; [|exact D].
  change (fact n) with (S m * fact m)%nat. rewrite mult_INR. fold n. right. field. lra.
Qed.
Lemma growth_lemma ORDER : 1 <= ORDER < INT_MAX ->
  exists (y : R) (u : list Z -> R) v, (-1 <= y <= 1)%R /\ (forall t, (u t = 1 \/ u t = -1)%R) /\
    parent_value RNum 1 [LagrangeBasis RNum ORDER EqualSpacing] (fun t => Ok (u t)) [y] = Ok v /\
    (2 ^ Z.to_nat ORDER / (4 * (IZR ORDER * IZR ORDER)) <= v)%R.
Proof.
  intros HO. destruct (lagrange_direction EqualSpacing ORDER HO) as (d & HE & HN & Hn & Hp).
  set (m := Z.to_nat (ORDER - 1)). assert (EO : ORDER = Z.of_nat (S m)) by lia.
  set (y := (-1 + (INR m + / 2) * (2 / INR (S m)))%R).
  set (u := fun t : list Z => if Rle_dec 0 (fval d (nth 0 t 0) y) then 1%R else (-1)%R).
  assert (Hx : forall k, 0 <= k <= Z.of_nat (S m) -> pt d k = (-1 + IZR k * (2 / INR (S m)))%R).
  { intros k Hk. rewrite (equal_points (ORDER + 1) (pt d) ltac:(lia) Hp k ltac:(lia)).
    replace (ORDER + 1 - 1) with (Z.of_nat (S m)) by lia. rewrite <- INR_IZR_INZ. reflexivity. }
  exists y, u, (interp [d] u [y]). split; [|split; [|split]].
  - assert (Nn : (0 < INR (S m))%R) by (apply lt_0_INR; lia). assert (M0 := pos_INR m). rewrite S_INR in *.
    assert (Q : ((INR m + / 2) * (2 / (INR m + 1)) = 2 - 1 / (INR m + 1))%R) by (field; lra). unfold y. rewrite S_INR, Q.
    assert (0 < 1 / (INR m + 1) <= 1)%R.
    { split; [apply Rdiv_lt_0_compat; lra|]. apply Rmult_le_reg_r with (INR m + 1)%R; [lra|]. unfold Rdiv. rewrite Rmult_assoc, Rinv_l; lra. }
    lra.
  - intros t. unfold u. destruct Rle_dec; auto.
  - assert (HF : Forall2 Evaluates [LagrangeBasis RNum ORDER EqualSpacing] [d]) by (constructor; [exact HE|constructor]).
    apply (parent_value_ok 1 _ [d] _ u); [exact HF|discriminate|reflexivity|reflexivity|cbn; lia].
  - rewrite interp_cons. rewrite Hn.
    rewrite (sumR_ext _ (fun i => Rabs (prodR (fun k => term (pt d) i k y) (zseq (S (S m)))))).
    2: { intros i Hi. apply in_zseq in Hi. unfold interp. cbn [counts map BoxSum tensor]. unfold u. cbn [nth].
         pose proof (direction_values d i y HN (nodal_distinct d HN) ltac:(lia) ltac:(lia)) as V.
         replace (Z.to_nat (npts d)) with (S (S m)) in V by lia. rewrite <- V.
         destruct Rle_dec as [L|L]; [rewrite Rabs_pos_eq by exact L; ring|]. rewrite Rabs_left by lra. ring. }
    replace (Z.to_nat (ORDER + 1)) with (S (S m)) by lia. replace (Z.to_nat ORDER) with (S m) by lia.
    apply Rle_trans with (sumR (fun i => Binomial.C (S m) (Z.to_nat i) / (4 * (INR (S m) * INR (S m))))%R (zseq (S (S m)))).
    + unfold Rdiv. rewrite sumR_scal_r, sumR_sum_f. rewrite EO, <- INR_IZR_INZ. right. f_equal.
      replace (2 ^ S m)%R with ((1 + 1) ^ S m)%R by (f_equal; lra). rewrite Binomial.binomial.
      apply sum_eq. intros i _. rewrite Nat2Z.id, !pow1. ring.
    + apply sumR_le. intros i Hi. apply in_zseq in Hi. apply growth_value; [lia|exact Hx|lia].
Qed.
