(** The error of interpolation and of quadrature. *)
From Verif Require Import Base ProofBase Num SpecIndex SpecNumeric SpecBasis SpecApprox ModelSpacing ModelLagrange ProofPoly ProofLagrange ProofSpacing ProofTensor.
From Coq Require Import Reals Lra Sorted Permutation.
Open Scope R_scope.

(** Zeros of a function and of its derivatives (Rolle). *)
Lemma rolle_between f g x y : x < y -> (forall t, x <= t <= y -> derivable_pt_lim f t (g t)) -> f x = 0 -> f y = 0 ->
  exists c, x < c < y /\ g c = 0.
Proof.
  intros Hxy Hd Hx Hy.
  assert (pr : forall t, x < t < y -> derivable_pt f t) by (intros t Ht; exists (g t); apply Hd; lra).
  assert (Hc : forall t, x <= t <= y -> continuity_pt f t).
  { intros t Ht. apply derivable_continuous_pt. exists (g t). apply Hd. exact Ht. }
  destruct (Rolle f x y pr Hc Hxy ltac:(congruence)) as (c & P & Hz). exists c. split; [exact P|].
  rewrite <- Hz. symmetry. apply derive_pt_eq_0. apply Hd. lra.
Qed.
Lemma rolle_list f g a b : (forall t, a <= t <= b -> derivable_pt_lim f t (g t)) -> forall r x, StronglySorted Rlt (x :: r) ->
  Forall (fun t => a <= t <= b /\ f t = 0) (x :: r) ->
  exists l, length l = length r /\ StronglySorted Rlt l /\ Forall (fun t => x < t) l /\ Forall (fun t => a <= t <= b /\ g t = 0) l.
Proof.
  intros Hd r. induction r as [|y r IH]; intros x HS HF.
  - exists []. repeat constructor.
  - inversion HS as [|? ? HS' HL]; subst. inversion HL as [|? ? Hxy _]; subst. inversion HF as [|? ? [Hx Zx] HF']; subst.
    inversion HF' as [|? ? [Hy Zy] _]; subst.
    destruct (IH y HS' HF') as (l & L & S & Gy & Z).
    destruct (rolle_between f g x y Hxy) as (c & Hc & Zc); [intros t Ht; apply Hd; lra|exact Zx|exact Zy|].
    exists (c :: l). split; [cbn; lia|]. split; [constructor; [exact S|]|].
    { eapply Forall_impl; [|exact Gy]. cbv beta. intros t Ht. lra. }
    split; constructor; try lra.
    + eapply Forall_impl; [|exact Gy]. cbv beta. intros t Ht. lra.
    + exact Z.
Qed.
Lemma rolle_chain (G : nat -> R -> R) a b : forall m l, length l = S m ->
  (forall k t, (k < m)%nat -> a <= t <= b -> derivable_pt_lim (G k) t (G (S k) t)) ->
  StronglySorted Rlt l -> Forall (fun t => a <= t <= b /\ G 0%nat t = 0) l -> exists xi, a <= xi <= b /\ G m xi = 0.
Proof.
  intros m. revert G. induction m as [|m IH]; intros G l L HD HS HF; (destruct l as [|x r]; [discriminate|]).
  - inversion HF as [|? ? H _]; subst. exists x. exact H.
  - destruct (rolle_list (G 0%nat) (G 1%nat) a b ltac:(intros t Ht; apply HD; [lia|exact Ht]) r x HS HF) as (l' & L' & S' & _ & F').
    apply (IH (fun k => G (S k)) l'); [cbn in L; lia| |exact S'|exact F'].
    intros k t Hk Ht. apply HD; [lia|exact Ht].
Qed.

(** Sorting distinct numbers. *)
Fixpoint insertR (x : R) (l : list R) : list R :=
  match l with
  | [] => [x]
  | y :: l' => if Rlt_dec x y then x :: l else y :: insertR x l'
  end.
Lemma insertR_perm x l : Permutation (x :: l) (insertR x l).
Proof.
  induction l as [|y l IH]; cbn; [apply Permutation_refl|]. destruct (Rlt_dec x y); [apply Permutation_refl|].
  eapply perm_trans; [apply perm_swap|]. constructor. exact IH.
Qed.
Lemma insertR_sorted x l : StronglySorted Rlt l -> ~ In x l -> StronglySorted Rlt (insertR x l).
Proof.
  induction 1 as [|y l HS IH HL]; intros Hn; cbn; [repeat constructor|].
  destruct (Rlt_dec x y) as [L|L].
  - constructor; [constructor; assumption|]. constructor; [exact L|]. eapply Forall_impl; [|exact HL]. cbv beta. intros z Hz. lra.
  - assert (Hyx : y < x) by (destruct (Req_dec x y) as [E|E]; [exfalso; apply Hn; left; congruence|lra]).
    constructor; [apply IH; intros Hi; apply Hn; right; exact Hi|].
    eapply Permutation_Forall; [apply insertR_perm|]. constructor; [exact Hyx|exact HL].
Qed.
Lemma sort_exists l : NoDup l -> exists l', Permutation l l' /\ StronglySorted Rlt l'.
Proof.
  induction 1 as [|x l Hx Hl (l' & P & S)]; [exists []; repeat constructor|].
  exists (insertR x l'). split.
  - eapply perm_trans; [apply perm_skip; exact P|apply insertR_perm].
  - apply insertR_sorted; [exact S|]. intros Hi. apply Hx. eapply Permutation_in; [apply Permutation_sym; exact P|exact Hi].
Qed.

(** The derivatives of (t - r_1) ... (t - r_m). *)
Fixpoint nodal_poly (l : list R) (k : nat) (t : R) : R :=
  match l with
  | [] => match k with O => 1 | S _ => 0 end
  | r :: l' => (t - r) * nodal_poly l' k t + match k with O => 0 | S k' => INR k * nodal_poly l' k' t end
  end.
Lemma nodal_deriv l : forall k t, derivable_pt_lim (nodal_poly l k) t (nodal_poly l (S k) t).
Proof.
  induction l as [|r l IH]; intros k t.
  - cbn. destruct k; [apply (derivable_pt_lim_const 1)|apply (derivable_pt_lim_const 0)].
  - assert (D1 : derivable_pt_lim (fun t => (t - r) * nodal_poly l k t) t (1 * nodal_poly l k t + (t - r) * nodal_poly l (S k) t)).
    { apply (derivable_pt_lim_mult (fun t => t - r) (nodal_poly l k)); [|apply IH].
      replace 1 with (1 - 0) by ring. apply (derivable_pt_lim_minus id (fct_cte r)); [apply derivable_pt_lim_id|apply derivable_pt_lim_const]. }
    destruct k as [|k].
    + eapply deriv_ext; [intros s; cbn [nodal_poly]; symmetry; apply Rplus_0_r|].
      replace (nodal_poly (r :: l) 1 t) with (1 * nodal_poly l 0 t + (t - r) * nodal_poly l 1 t) by (cbn [nodal_poly INR]; ring). exact D1.
    + pose proof (derivable_pt_lim_scal (nodal_poly l k) (INR (S k)) t _ (IH k t)) as D2.
      pose proof (derivable_pt_lim_plus _ _ _ _ _ D1 D2) as D3.
      replace (nodal_poly (r :: l) (S (S k)) t) with ((1 * nodal_poly l (S k) t + (t - r) * nodal_poly l (S (S k)) t) + INR (S k) * nodal_poly l (S k) t).
      * exact D3.
      * cbn [nodal_poly]. rewrite (S_INR (S k)). ring.
Qed.
Lemma nodal_top l : (forall k t, (length l < k)%nat -> nodal_poly l k t = 0) /\ (forall t, nodal_poly l (length l) t = INR (fact (length l))).
Proof.
  induction l as [|r l (I1 & I2)].
  - split; [intros k t Hk; destruct k; [cbn in Hk; lia|reflexivity]|reflexivity].
  - split.
    + intros k t Hk. cbn [length] in Hk. cbn [nodal_poly]. destruct k as [|k]; [lia|]. rewrite !I1 by lia. ring.
    + intros t. cbn [length nodal_poly]. rewrite I1 by lia. rewrite I2. change (fact (S (length l))) with (S (length l) * fact (length l))%nat.
      rewrite mult_INR. ring.
Qed.
Lemma nodal_value l t : nodal_poly l 0 t = prodR (fun r => t - r) l.
Proof. induction l as [|r l IH]; [reflexivity|]. rewrite prodR_cons, <- IH. cbn [nodal_poly]. ring. Qed.

(** Derivatives of polynomials, without trailing zeros. *)
Fixpoint pd (p : list R) : list R :=
  match p with
  | [] => []
  | _ :: p' => match p' with [] => [] | _ => padd p' (0 :: pd p') end
  end.
Lemma pd_pderiv p x : peval (pd p) x = peval (pderiv p) x.
Proof.
  induction p as [|a p IH]; [reflexivity|]. cbn [pderiv]. rewrite peval_padd. cbn [peval]. rewrite <- IH.
  destruct p as [|b p]; [cbn; ring|]. change (pd (a :: b :: p)) with (padd (b :: p) (0 :: pd (b :: p))). rewrite peval_padd. cbn [peval]. ring.
Qed.
Lemma pd_deriv p x : derivable_pt_lim (peval p) x (peval (pd p) x).
Proof. rewrite pd_pderiv. apply peval_deriv. Qed.
Lemma pd_length p : length (pd p) = Nat.pred (length p).
Proof.
  induction p as [|a p IH]; [reflexivity|]. destruct p as [|b p]; [reflexivity|].
  change (pd (a :: b :: p)) with (padd (b :: p) (0 :: pd (b :: p))). rewrite padd_length. cbn [length] in *. rewrite IH. cbn. lia.
Qed.
Lemma pd_iter_length k : forall p, length (Nat.iter k pd p) = (length p - k)%nat.
Proof. induction k as [|k IH]; intros p; [cbn; lia|]. change (Nat.iter (S k) pd p) with (pd (Nat.iter k pd p)). rewrite pd_length, IH. lia. Qed.

(** The remainder formula. *)
Lemma remainder (x : list R) (p : list R) (F : nat -> R -> R) a b y : NoDup x -> (length p <= length x)%nat ->
  Forall (fun t => a <= t <= b /\ F 0%nat t = peval p t) x -> a <= y <= b ->
  (forall k t, (k < length x)%nat -> a <= t <= b -> derivable_pt_lim (F k) t (F (S k) t)) ->
  exists xi, a <= xi <= b /\ F 0%nat y - peval p y = F (length x) xi / INR (fact (length x)) * prodR (fun r => y - r) x.
Proof.
  intros HN HP HF Hy HD.
  destruct (in_dec Req_EM_T y x) as [Hin|Hout].
  - exists y. split; [exact Hy|]. rewrite (proj2 (proj1 (Forall_forall _ _) HF y Hin)).
    rewrite (prodR_zero (fun r => y - r) x y Hin) by ring. ring.
  - set (w := prodR (fun r => y - r) x).
    assert (Hw : w <> 0).
    { unfold w. clear - Hout. induction x as [|r x IH]; cbn; [lra|].
      apply Rmult_integral_contrapositive_currified; [intros E; apply Hout; left; lra|apply IH; intros Hi; apply Hout; right; exact Hi]. }
    set (K := (F 0%nat y - peval p y) / w).
    set (G := fun k t => F k t - peval (Nat.iter k pd p) t - K * nodal_poly x k t).
    destruct (sort_exists (y :: x) ltac:(constructor; assumption)) as (l & HPm & HS).
    destruct (rolle_chain G a b (length x) l) as (xi & Hxi & HG).
    + rewrite <- (Permutation_length HPm). reflexivity.
    + intros k t Hk Ht. unfold G.
      apply derivable_pt_lim_minus; [apply derivable_pt_lim_minus; [apply HD; assumption|apply pd_deriv]|].
      apply (derivable_pt_lim_scal (nodal_poly x k) K). apply nodal_deriv.
    + exact HS.
    + eapply Permutation_Forall; [exact HPm|]. constructor.
      * split; [exact Hy|]. unfold G. cbn [Nat.iter nat_rect]. rewrite nodal_value. fold w. unfold K. field. exact Hw.
      * apply Forall_forall. intros t Ht. destruct (proj1 (Forall_forall _ _) HF t Ht) as (H1 & H2). split; [exact H1|].
        unfold G. cbn [Nat.iter nat_rect]. rewrite H2, nodal_value, (prodR_zero (fun r => t - r) x t Ht) by ring. ring.
    + exists xi. split; [exact Hxi|]. unfold G in HG. rewrite (proj2 (nodal_top x)) in HG.
      assert (Hnil : Nat.iter (length x) pd p = []).
      { apply length_zero_iff_nil. rewrite pd_iter_length. lia. }
      rewrite Hnil in HG. cbn [peval] in HG.
      assert (Hf : INR (fact (length x)) <> 0) by apply INR_fact_neq_0.
      assert (HK : K = F (length x) xi / INR (fact (length x))) by (field_simplify_eq; [lra|exact Hf]).
      rewrite <- HK. unfold K. field. exact Hw.
Qed.

(** The interpolant as a polynomial. *)
Lemma interpolant_poly N (x : Z -> R) v g (c : Z -> R) : NodalBasis N x v g -> forall l, (forall i, In i l -> (0 <= i < N)%Z) ->
  exists p, (length p <= Z.to_nat N)%nat /\ forall y, sumR (fun i => c i * v i y) l = peval p y.
Proof.
  intros HB l. induction l as [|i l IH]; intros Hl.
  - exists []. split; [cbn; lia|reflexivity].
  - destruct IH as (p & Lp & Ep); [intros j Hj; apply Hl; right; exact Hj|].
    destruct (nb_degree _ _ _ _ HB i (Hl i ltac:(left; reflexivity))) as (q & Lq & Eq).
    exists (padd (pscal (c i) q) p). split.
    + rewrite padd_length, pscal_length. lia.
    + intros y. rewrite sumR_cons, Ep, peval_padd, peval_pscal, Eq. reflexivity.
Qed.
Lemma NoDup_points N (x : Z -> R) : Distinct N x -> NoDup (map x (zseq (Z.to_nat N))).
Proof.
  intros HD. assert (Hl : forall i, In i (zseq (Z.to_nat N)) -> (0 <= i < N)%Z) by (intros i Hi; apply in_zseq in Hi; lia).
  pose proof (NoDup_zseq (Z.to_nat N)) as HN. induction HN as [|i l Hi HN IH]; [constructor|].
  cbn [map]. constructor.
  - intros Hin. apply in_map_iff in Hin. destruct Hin as (j & E & Hj). apply HD in E; [|apply Hl; right; exact Hj|apply Hl; left; reflexivity].
    subst. contradiction.
  - apply IH. intros j Hj. apply Hl. right. exact Hj.
Qed.
Lemma Zprod_prodR n f : Zprod n f = prodR f (zseq (Z.to_nat n)).
Proof. unfold Zprod, prodR. induction (zseq (Z.to_nat n)) as [|a l IH]; cbn; [reflexivity|]. rewrite IH. reflexivity. Qed.
Lemma Nodal_distinct N x v g : NodalBasis N x v g -> Distinct N x.
Proof.
  intros HB i j Hi Hj E. destruct (Z.eq_dec i j) as [H|H]; [exact H|exfalso].
  pose proof (nb_nodal _ _ _ _ HB i i Hi Hi) as H1. pose proof (nb_nodal _ _ _ _ HB i j Hi Hj) as H2.
  rewrite Z.eqb_refl in H1. apply Z.eqb_neq in H. rewrite H in H2. rewrite E in H1. lra.
Qed.
Lemma nodal_remainder N x v g (F : nat -> R -> R) a b y : NodalBasis N x v g ->
  (forall i, (0 <= i < N)%Z -> a <= x i <= b) -> a <= y <= b ->
  (forall k t, (k < Z.to_nat N)%nat -> a <= t <= b -> derivable_pt_lim (F k) t (F (S k) t)) ->
  exists xi, a <= xi <= b /\
    F O y - Zsum N (fun i => F O (x i) * v i y) = F (Z.to_nat N) xi / INR (fact (Z.to_nat N)) * Zprod N (fun i => y - x i).
Proof.
  intros HB Hx Hy HD. set (l := zseq (Z.to_nat N)).
  assert (Hl : forall i, In i l -> (0 <= i < N)%Z) by (intros i Hi; apply in_zseq in Hi; lia).
  destruct (interpolant_poly N x v g (fun i => F O (x i)) HB l Hl) as (p & Lp & Ep).
  assert (Ll : length (map x l) = Z.to_nat N) by (rewrite map_length; apply zseq_length).
  destruct (remainder (map x l) p F a b y) as (xi & Hxi & E).
  - apply NoDup_points, (Nodal_distinct _ _ _ _ HB).
  - rewrite Ll. exact Lp.
  - apply Forall_forall. intros t Ht. apply in_map_iff in Ht. destruct Ht as (j & <- & Hj). split; [apply Hx, Hl, Hj|].
    rewrite <- Ep. rewrite (sumR_one _ l j).
    + rewrite (nb_nodal _ _ _ _ HB) by (apply Hl, Hj). rewrite Z.eqb_refl. ring.
    + apply NoDup_zseq.
    + exact Hj.
    + intros i Hi Hne. rewrite (nb_nodal _ _ _ _ HB) by (apply Hl; assumption). apply Z.eqb_neq in Hne. rewrite Hne. ring.
  - exact Hy.
  - rewrite Ll. exact HD.
  - exists xi. split; [exact Hxi|]. rewrite Ll in E. rewrite Zsum_sumR, Zprod_prodR. fold l. rewrite Ep, E, prodR_map. reflexivity.
Qed.
Lemma prodR_abs {A} (f : A -> R) l : Rabs (prodR f l) = prodR (fun a => Rabs (f a)) l.
Proof. induction l as [|a l IH]; [apply Rabs_R1|]. rewrite !prodR_cons, Rabs_mult, IH. reflexivity. Qed.
Lemma prodR_pos {A} (f : A -> R) l : (forall a, 0 <= f a) -> 0 <= prodR f l.
Proof. intros H. induction l as [|a l IH]; [cbn; lra|]. rewrite prodR_cons. apply Rmult_le_pos; [apply H|exact IH]. Qed.
Lemma nodal_bound N x v g (F : nat -> R -> R) a b y M : NodalBasis N x v g ->
  (forall i, (0 <= i < N)%Z -> a <= x i <= b) -> a <= y <= b ->
  (forall k t, (k < Z.to_nat N)%nat -> a <= t <= b -> derivable_pt_lim (F k) t (F (S k) t)) ->
  (forall t, a <= t <= b -> Rabs (F (Z.to_nat N) t) <= M) ->
  Rabs (F O y - Zsum N (fun i => F O (x i) * v i y)) <= M / INR (fact (Z.to_nat N)) * Zprod N (fun i => Rabs (y - x i)).
Proof.
  intros HB Hx Hy HD HM. destruct (nodal_remainder N x v g F a b y HB Hx Hy HD) as (xi & Hxi & E). rewrite E.
  rewrite !Zprod_prodR, Rabs_mult, prodR_abs. apply Rmult_le_compat_r; [apply prodR_pos; intros i; apply Rabs_pos|].
  assert (Hf : 0 < INR (fact (Z.to_nat N))) by apply INR_fact_lt_0.
  unfold Rdiv. rewrite Rabs_mult. rewrite (Rabs_right (/ _)) by (apply Rle_ge, Rlt_le, Rinv_0_lt_compat, Hf).
  apply Rmult_le_compat_r; [apply Rlt_le, Rinv_0_lt_compat, Hf|apply HM, Hxi].
Qed.
