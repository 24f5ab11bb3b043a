(** Symmetry of the interpolation basis, and its mass and differentiation matrices under
    quadrature. *)
From Verif Require Import Base ProofBase Num SpecIndex ModelSpacing ModelQuadrature ModelLagrange SpecNumeric SpecBasis
  SpecIntegral ProofBox ProofSpacing ProofQuadrature ProofPoly ProofLagrange ProofTensor ProofIntegral.
From Coq Require Import Reals Lra.
Open Scope Z_scope.

(** * Reflection *)
Fixpoint pflip (p : list R) : list R :=
  match p with [] => [] | c :: p' => c :: pscal (-1) (pflip p') end.
Lemma peval_pflip p x : peval (pflip p) x = peval p (- x).
Proof. induction p as [|c p IH]; cbn [pflip peval]; [reflexivity|]. rewrite peval_pscal, IH. ring. Qed.
Lemma pflip_length p : length (pflip p) = length p.
Proof. induction p as [|c p IH]; cbn; [reflexivity|]. now rewrite pscal_length, IH. Qed.

Lemma Zsum_pick N (f : Z -> R) i : 0 <= i < N -> (forall j, 0 <= j < N -> j <> i -> f j = 0%R) -> Zsum N f = f i.
Proof.
  intros Hi H. rewrite Zsum_sumR. apply sumR_one; [apply NoDup_zseq|apply in_zseq; lia|].
  intros j Hj. apply in_zseq in Hj. apply H. lia.
Qed.

(** A polynomial of the right degree with the nodal values of the i-th basis function is it. *)
Lemma basis_unique N x v g i p : NodalBasis N x v g -> 0 <= i < N -> Z.of_nat (length p) <= N ->
  (forall j, 0 <= j < N -> peval p (x j) = if i =? j then 1%R else 0%R) -> forall y, v i y = peval p y.
Proof.
  intros HB Hi Hl Hp y. rewrite <- (nb_reproduce _ _ _ _ HB p y Hl). rewrite (Zsum_pick N _ i Hi).
  - rewrite Hp by exact Hi. rewrite Z.eqb_refl. ring.
  - intros j Hj Hne. rewrite Hp by exact Hj. destruct (Z.eqb_spec i j); [congruence|ring].
Qed.

Lemma basis_symmetric N x v g i y : NodalBasis N x v g -> OddSymmetric N x -> 0 <= i < N ->
  v (N - 1 - i) (- y)%R = v i y /\ g (N - 1 - i) (- y)%R = (- g i y)%R.
Proof.
  intros HB HO Hi.
  assert (V : forall t, v (N - 1 - i) (- t)%R = v i t).
  { intros t. destruct (nb_degree _ _ _ _ HB (N - 1 - i) ltac:(lia)) as (p & Hl & Hp).
    rewrite Hp, <- peval_pflip. symmetry. apply (basis_unique N x v g i (pflip p) HB Hi).
    - rewrite pflip_length. lia.
    - intros j Hj. rewrite peval_pflip, <- Hp, <- HO by exact Hj. rewrite (nb_nodal _ _ _ _ HB) by lia.
      destruct (Z.eqb_spec (N - 1 - i) (N - 1 - j)), (Z.eqb_spec i j); try reflexivity; lia. }
  split; [apply V|].
  assert (D1 : derivable_pt_lim (v i) y (g i y)) by (now apply (nb_deriv _ _ _ _ HB)).
  assert (D2 : derivable_pt_lim (v (N - 1 - i)) (- y)%R (g (N - 1 - i) (- y)%R)) by (apply (nb_deriv _ _ _ _ HB); lia).
  pose proof (derivable_pt_lim_comp Ropp (v (N - 1 - i)) y (-1)%R (g (N - 1 - i) (- y)%R)) as C.
  assert (D3 : derivable_pt_lim Ropp y (-1)%R).
  { apply (derivable_pt_lim_opp id y 1%R). apply derivable_pt_lim_id. }
  specialize (C D3 D2). assert (E : g i y = (g (N - 1 - i)%Z (- y) * -1)%R).
  { apply (deriv_unique (v i) y); [exact D1|]. refine (deriv_ext _ _ _ _ _ C). intros t. unfold comp. apply V. }
  rewrite E. ring.
Qed.

Lemma spacing_symmetric s ORDER x : order_supported s ORDER -> Points (coord_ct RNum s (ORDER + 1)) (ORDER + 1) x ->
  OddSymmetric (ORDER + 1) x.
Proof.
  intros H Hx.
  assert (G : exists z, Points (coord_ct RNum s (ORDER + 1)) (ORDER + 1) z /\ OddSymmetric (ORDER + 1) z).
  { destruct s; simpl in H.
    - destruct (equal_spacing_lemma (ORDER + 1) ltac:(lia)) as (z & h & _ & _ & Hc & _ & _ & _ & _ & Ho).
      exists z. split; [|exact Ho]. intros i _. apply Hc.
    - destruct (legendre_nodes_lemma (ORDER + 1) ltac:(lia)) as (z & Hc & _ & _ & Ho & _). exists z. now split.
    - destruct (lobatto_nodes_lemma (ORDER + 1) ltac:(lia)) as (z & Hc & _ & Ho & _). exists z. now split. }
  destruct G as (z & Hz & Ho).
  assert (E : forall i, 0 <= i < ORDER + 1 -> x i = z i).
  { intros i Hi. specialize (Hx i Hi). specialize (Hz i Hi). rewrite Hx in Hz. now injection Hz. }
  intros i Hi. rewrite !E by lia. now apply Ho.
Qed.

Lemma symmetric_lemma s ORDER i y :
  (match s with
   | EqualSpacing => 1 <= ORDER < INT_MAX
   | GaussLegendreSpacing => 1 <= ORDER <= 3
   | GaussLobattoSpacing => 1 <= ORDER <= 8
   end) -> 0 <= i <= ORDER ->
  exists a d, bvalue (LagrangeBasis RNum ORDER s) i y = Ok a /\
    bvalue (LagrangeBasis RNum ORDER s) (ORDER - i) (- y)%R = Ok a /\
    bgradient (LagrangeBasis RNum ORDER s) i y = Ok d /\
    bgradient (LagrangeBasis RNum ORDER s) (ORDER - i) (- y)%R = Ok (- d)%R.
Proof.
  intros H Hi. destruct (bundled_lemma s ORDER H) as (x & v & g & Hx & _ & Hv & Hg & HB).
  pose proof (spacing_symmetric s ORDER x H Hx) as HO.
  destruct (basis_symmetric _ _ _ _ i y HB HO ltac:(lia)) as (V & G).
  replace (ORDER + 1 - 1 - i) with (ORDER - i) in V, G by lia.
  exists (v i y), (g i y). rewrite !Hv, !Hg by lia. rewrite V, G. auto.
Qed.

(** * Products and derivatives of polynomials *)
Fixpoint pmul (p q : list R) : list R :=
  match p with [] => [] | a :: p' => padd (pscal a q) (match p' with [] => [] | _ => 0%R :: pmul p' q end) end.
Lemma peval_pmul p q x : peval (pmul p q) x = (peval p x * peval q x)%R.
Proof.
  induction p as [|a p IH]; cbn [pmul peval]; [ring|]. rewrite peval_padd, peval_pscal.
  destruct p as [|b p]; [cbn [peval]; ring|]. cbn [peval] in *. rewrite IH. ring.
Qed.
Lemma pmul_length p q : (length (pmul p q) <= length p + length q - 1)%nat.
Proof.
  induction p as [|a p IH]; [cbn; lia|]. cbn [pmul]. rewrite padd_length, pscal_length.
  destruct p as [|b p]; [cbn; lia|]. cbn [length] in *. lia.
Qed.
Lemma norm1_cons a p : norm1 (a :: p) = (Rabs a + norm1 p)%R.
Proof. reflexivity. Qed.
Lemma norm1_nonneg p : (0 <= norm1 p)%R.
Proof. induction p as [|a p IH]; [unfold norm1; cbn; lra|]. rewrite norm1_cons. pose proof (Rabs_pos a). lra. Qed.
Lemma norm1_padd p : forall q, (norm1 (padd p q) <= norm1 p + norm1 q)%R.
Proof.
  induction p as [|a p IH]; intros [|b q]; cbn [padd]; rewrite ?norm1_cons; try (unfold norm1; cbn; lra).
  specialize (IH q). pose proof (Rabs_triang a b). lra.
Qed.
Lemma norm1_pscal c p : norm1 (pscal c p) = (Rabs c * norm1 p)%R.
Proof.
  induction p as [|a p IH]; [unfold norm1; cbn; ring|]. change (pscal c (a :: p)) with ((c * a)%R :: pscal c p).
  rewrite !norm1_cons, IH, Rabs_mult. ring.
Qed.
Lemma norm1_pmul p q : (norm1 (pmul p q) <= norm1 p * norm1 q)%R.
Proof.
  induction p as [|a p IH]; [unfold norm1 at 1 2; cbn; lra|]. cbn [pmul].
  eapply Rle_trans; [apply norm1_padd|]. rewrite norm1_pscal, norm1_cons, Rmult_plus_distr_r.
  apply Rplus_le_compat_l. destruct p as [|b p]; [|rewrite norm1_cons, Rabs_R0; lra].
  unfold norm1 at 1 2; cbn. lra.
Qed.

Fixpoint pder (p : list R) : list R :=
  match p with
  | [] => []
  | _ :: p' => match p' with [] => [] | _ => padd p' (match p' with [_] => [] | _ => 0%R :: pder p' end) end
  end.
Lemma peval_pder p x : peval (pder p) x = peval (pderiv p) x.
Proof.
  induction p as [|a p IH]; [reflexivity|]. destruct p as [|b p]; [cbn; ring|].
  change (pderiv (a :: b :: p)) with (padd (b :: p) (0%R :: pderiv (b :: p))).
  change (pder (a :: b :: p)) with (padd (b :: p) (match p with [] => [] | _ => 0%R :: pder (b :: p) end)).
  rewrite !peval_padd. f_equal.
  change (peval (0%R :: pderiv (b :: p)) x) with (0 + x * peval (pderiv (b :: p)) x)%R. rewrite <- IH.
  destruct p as [|c p]; cbn [peval pder]; ring.
Qed.
Lemma pder_length p : length (pder p) = Nat.pred (length p).
Proof.
  induction p as [|a p IH]; [reflexivity|]. destruct p as [|b p]; [reflexivity|].
  change (pder (a :: b :: p)) with (padd (b :: p) (match p with [] => [] | _ => 0%R :: pder (b :: p) end)).
  rewrite padd_length. destruct p as [|c p]; [cbn; lia|]. cbn [length] in *. rewrite IH. lia.
Qed.
Lemma norm1_pder p : (norm1 (pder p) <= INR (length p) * norm1 p)%R.
Proof.
  induction p as [|a p IH]; [unfold norm1; cbn; lra|]. destruct p as [|b p].
  { change (norm1 (pder [a])) with 0%R. apply Rmult_le_pos; [apply pos_INR|apply norm1_nonneg]. }
  change (pder (a :: b :: p)) with (padd (b :: p) (match p with [] => [] | _ => 0%R :: pder (b :: p) end)).
  eapply Rle_trans; [apply norm1_padd|]. rewrite (norm1_cons a). remember (b :: p) as q eqn:E.
  change (length (a :: q)) with (S (length q)). rewrite S_INR.
  assert (norm1 (match p with [] => [] | _ => 0%R :: pder q end) <= INR (length q) * norm1 q)%R.
  { destruct p as [|c p].
    - change (norm1 []) with 0%R. apply Rmult_le_pos; [apply pos_INR|apply norm1_nonneg].
    - rewrite norm1_cons, Rabs_R0. lra. }
  pose proof (norm1_nonneg q). pose proof (Rabs_pos a). pose proof (pos_INR (length q)). nra.
Qed.

(** * Quadrature of products *)
Lemma rule_exact r w x p P : supported r -> Rule r w x -> Z.of_nat (length p) <= degree r + 1 ->
  (forall t, derivable_pt_lim P t (peval p t)) ->
  (Rabs (Zsum (snd r) (fun i => w i * peval p (x i)) - (P 1 - P (-1))) <= tenth (digits r) * norm1 p)%R.
Proof.
  intros Hs HR Hl HP. destruct (exactness_lemma (fst r) (snd r) p P) as (w' & x' & Hw & Hx & HE).
  - exact Hs.
  - unfold degree in Hl. destruct (fst r); lia.
  - exact HP.
  - rewrite (Zsum_ext _ _ (fun i => w' i * peval p (x' i))%R); [exact HE|].
    intros i Hi. destruct (Rule_unique r w x Hs HR i Hi) as (-> & ->).
    destruct (Rule_unique r w' x' Hs (conj Hw Hx) i Hi) as (-> & ->). reflexivity.
Qed.

Lemma product_lemma r w x p q P : supported r -> Rule r w x ->
  Z.of_nat (length p) + Z.of_nat (length q) <= degree r + 2 ->
  (forall t, derivable_pt_lim P t (peval p t * peval q t)%R) ->
  (Rabs (Zsum (snd r) (fun i => w i * (peval p (x i) * peval q (x i))) - (P 1 - P (-1))) <=
     tenth (digits r) * (norm1 p * norm1 q))%R.
Proof.
  intros Hs HR Hl HP.
  rewrite (Zsum_ext _ _ (fun i => w i * peval (pmul p q) (x i))%R) by (intros; now rewrite peval_pmul).
  eapply Rle_trans; [apply (rule_exact r w x (pmul p q)); try assumption|].
  - pose proof (pmul_length p q). assert (0 <= degree r) by (unfold degree, supported in *; destruct (fst r); lia). lia.
  - intros t. rewrite peval_pmul. apply HP.
  - apply Rmult_le_compat_l; [left; apply tenth_pos|apply norm1_pmul].
Qed.

(** ** Collocated nodes and quadrature points *)
Section Collocated.
Context (r : rule * Z) (w x : Z -> R) (v g : Z -> R -> R).
Context (Hs : supported r) (HR : Rule r w x) (HB : NodalBasis (snd r) x v g).

Lemma weight_pick i f : 0 <= i < snd r -> Zsum (snd r) (fun q => w q * (v i (x q) * f q))%R = (w i * f i)%R.
Proof.
  intros Hi. rewrite (Zsum_pick _ _ i Hi).
  - rewrite (nb_nodal _ _ _ _ HB), Z.eqb_refl by exact Hi. ring.
  - intros j Hj Hne. rewrite (nb_nodal _ _ _ _ HB) by assumption. destruct (Z.eqb_spec i j); [congruence|ring].
Qed.

Lemma mass_diag i j : 0 <= i < snd r -> 0 <= j < snd r ->
  Zsum (snd r) (fun q => w q * (v i (x q) * v j (x q)))%R = (if i =? j then w i else 0)%R.
Proof.
  intros Hi Hj. rewrite (weight_pick i (fun q => v j (x q)) Hi). rewrite (nb_nodal _ _ _ _ HB) by assumption.
  rewrite Z.eqb_sym. destruct (i =? j); ring.
Qed.

Lemma weight_integral i p P : 0 <= i < snd r -> Z.of_nat (length p) = snd r -> (forall y, v i y = peval p y) ->
  (forall t, derivable_pt_lim P t (v i t)) ->
  (Rabs (w i - (P 1 - P (-1))) <= tenth (digits r) * norm1 p)%R.
Proof.
  intros Hi Hl Hp HP. replace (w i) with (Zsum (snd r) (fun q => w q * peval p (x q)))%R.
  - apply rule_exact; try assumption.
    + unfold degree, supported in *. destruct (fst r); lia.
    + intros t. rewrite <- Hp. apply HP.
  - transitivity (w i * 1)%R; [|ring]. rewrite <- (weight_pick i (fun _ => 1%R) Hi). apply Zsum_ext. intros q _. rewrite Hp. ring.
Qed.

Lemma mass_integral i j p q P : fst r = QuadratureGaussLegendre -> 0 <= i < snd r -> 0 <= j < snd r ->
  Z.of_nat (length p) = snd r -> (forall y, v i y = peval p y) ->
  Z.of_nat (length q) = snd r -> (forall y, v j y = peval q y) ->
  (forall t, derivable_pt_lim P t (v i t * v j t)%R) ->
  (Rabs ((if i =? j then w i else 0) - (P 1 - P (-1))) <= tenth (digits r) * (norm1 p * norm1 q))%R.
Proof.
  intros Hq Hi Hj Lp Ep Lq Eq HP. rewrite <- (mass_diag i j Hi Hj).
  rewrite (Zsum_ext _ _ (fun k => w k * (peval p (x k) * peval q (x k)))%R) by (intros; now rewrite Ep, Eq).
  apply product_lemma; try assumption.
  - unfold degree. rewrite Hq. lia.
  - intros t. rewrite <- Ep, <- Eq. apply HP.
Qed.

(** Discrete integration by parts. *)
Lemma sbp i j p q : 0 <= i < snd r -> 0 <= j < snd r ->
  Z.of_nat (length p) = snd r -> (forall y, v i y = peval p y) ->
  Z.of_nat (length q) = snd r -> (forall y, v j y = peval q y) ->
  (Rabs (w i * g j (x i) + w j * g i (x j) - (v i 1 * v j 1 - v i (-1) * v j (-1))) <=
     2 * IZR (snd r) * tenth (digits r) * (norm1 p * norm1 q))%R.
Proof.
  intros Hi Hj Lp Ep Lq Eq.
  assert (D : forall t, peval (pder (pmul p q)) t = (v i t * g j t + v j t * g i t)%R).
  { intros t. rewrite peval_pder. apply (deriv_unique (peval (pmul p q)) t); [apply peval_deriv|].
    apply (deriv_ext (fun y => v i y * v j y)%R).
    - intros y. now rewrite peval_pmul, Ep, Eq.
    - replace (v i t * g j t + v j t * g i t)%R with (g i t * v j t + v i t * g j t)%R by ring.
      apply (derivable_pt_lim_mult (v i) (v j)); now apply (nb_deriv _ _ _ _ HB). }
  pose proof (pmul_length p q) as L1. pose proof (pder_length (pmul p q)) as L2.
  pose proof (rule_exact r w x (pder (pmul p q)) (peval (pmul p q)) Hs HR) as E.
  rewrite (Zsum_ext _ _ (fun k => w k * (v i (x k) * g j (x k)) + w k * (v j (x k) * g i (x k)))%R) in E by (intros; rewrite D; ring).
  rewrite Zsum_add, (weight_pick i (fun k => g j (x k)) Hi), (weight_pick j (fun k => g i (x k)) Hj), !peval_pmul, <- !Ep, <- !Eq in E.
  assert (S2 : 2 <= snd r) by (unfold supported in Hs; destruct (fst r); lia).
  eapply Rle_trans; [apply E|].
  - unfold degree, supported in *. destruct (fst r); lia.
  - intros t. rewrite peval_pder. apply peval_deriv.
  - eapply Rle_trans; [apply Rmult_le_compat_l; [left; apply tenth_pos|apply norm1_pder]|].
    replace (2 * IZR (snd r) * tenth (digits r) * (norm1 p * norm1 q))%R with
      (tenth (digits r) * (2 * IZR (snd r) * (norm1 p * norm1 q)))%R by ring.
    apply Rmult_le_compat_l; [left; apply tenth_pos|].
    apply Rmult_le_compat; [apply pos_INR|apply norm1_nonneg| |apply norm1_pmul].
    rewrite INR_IZR_INZ. rewrite <- (mult_IZR 2). apply IZR_le. lia.
Qed.
End Collocated.

Lemma collocated_basis r : supported r ->
  exists w x v g, Rule r w x /\
    numSupportPoints (LagrangeBasis RNum (snd r - 1) (rule_spacing (fst r))) = Ok (snd r) /\
    (forall i y, 0 <= i < snd r -> bvalue (LagrangeBasis RNum (snd r - 1) (rule_spacing (fst r))) i y = Ok (v i y) /\
       bgradient (LagrangeBasis RNum (snd r - 1) (rule_spacing (fst r))) i y = Ok (g i y)) /\
    NodalBasis (snd r) x v g.
Proof.
  intros Hs. destruct (bundled_lemma (rule_spacing (fst r)) (snd r - 1)) as (x & v & g & Hx & Hn & Hv & Hg & HB).
  { unfold supported in Hs. destruct (fst r); cbn; lia. }
  replace (snd r - 1 + 1) with (snd r) in * by lia.
  destruct (rule_points (fst r) (snd r)) as (Hw & _). { unfold supported in Hs. destruct (fst r); exact Hs. }
  exists (wgt (fst r) (snd r)), x, v, g. split; [split; assumption|]. split; [exact Hn|]. split; [|exact HB].
  intros i y Hi. split; [now apply Hv|now apply Hg].
Qed.

Lemma collocated_nodal r w x v g : supported r -> Collocated r w x v g -> NodalBasis (snd r) x v g.
Proof.
  intros Hs (HR & HC). destruct (collocated_basis r Hs) as (w' & x' & v' & g' & HR' & _ & HC' & HB).
  assert (Ex : forall i, 0 <= i < snd r -> x i = x' i).
  { intros i Hi. destruct (Rule_unique r w x Hs HR i Hi) as (_ & ->). now destruct (Rule_unique r w' x' Hs HR' i Hi) as (_ & ->). }
  assert (Ev : forall i y, 0 <= i < snd r -> v i y = v' i y).
  { intros i y Hi. destruct (HC i y Hi) as (A & _), (HC' i y Hi) as (B & _).
    assert (F : Ok (v i y) = Ok (v' i y)) by exact (eq_trans (eq_sym A) B). now injection F. }
  assert (Eg : forall i y, 0 <= i < snd r -> g i y = g' i y).
  { intros i y Hi. destruct (HC i y Hi) as (_ & A), (HC' i y Hi) as (_ & B).
    assert (F : Ok (g i y) = Ok (g' i y)) by exact (eq_trans (eq_sym A) B). now injection F. }
  split.
  - intros i j Hi Hj. rewrite Ev, Ex by assumption. now apply (nb_nodal _ _ _ _ HB).
  - intros i Hi. destruct (nb_degree _ _ _ _ HB i Hi) as (p & Hl & Hp). exists p. split; [exact Hl|].
    intros y. rewrite Ev by assumption. apply Hp.
  - intros y. rewrite <- (nb_unity _ _ _ _ HB y). apply Zsum_ext. intros i Hi. now apply Ev.
  - intros p y Hl. rewrite <- (nb_reproduce _ _ _ _ HB p y Hl). apply Zsum_ext. intros i Hi. now rewrite Ev, Ex.
  - intros i y Hi. rewrite Eg by assumption. apply (deriv_ext (v' i)); [intros t; symmetry; now apply Ev|].
    now apply (nb_deriv _ _ _ _ HB).
  - intros y. rewrite <- (nb_zero _ _ _ _ HB y). apply Zsum_ext. intros i Hi. now apply Eg.
Qed.

Lemma collocated_exists r : supported r -> exists w x v g, Collocated r w x v g.
Proof.
  intros Hs. destruct (collocated_basis r Hs) as (w & x & v & g & HR & _ & HC & _).
  exists w, x, v, g. split; assumption.
Qed.

Lemma collocated_mass_lemma r w x v g i j : supported r -> Collocated r w x v g ->
  0 <= i < snd r -> 0 <= j < snd r ->
  Zsum (snd r) (fun q => w q * (v i (x q) * v j (x q)))%R = (if i =? j then w i else 0)%R.
Proof. intros Hs HC. apply (mass_diag r w x v g (collocated_nodal r w x v g Hs HC)). Qed.

Lemma collocated_degree_lemma r w x v g i : supported r -> Collocated r w x v g -> 0 <= i < snd r ->
  exists p, Z.of_nat (length p) = snd r /\ forall y, v i y = peval p y.
Proof. intros Hs HC Hi. apply (nb_degree _ _ _ _ (collocated_nodal r w x v g Hs HC) i Hi). Qed.

Lemma collocated_weight_lemma r w x v g i p P : supported r -> Collocated r w x v g -> 0 <= i < snd r ->
  Z.of_nat (length p) = snd r -> (forall y, v i y = peval p y) ->
  (forall t, derivable_pt_lim P t (v i t)) ->
  (Rabs (w i - (P 1 - P (-1))) <= tenth (digits r) * norm1 p)%R.
Proof. intros Hs HC. apply (weight_integral r w x v g Hs (proj1 HC) (collocated_nodal r w x v g Hs HC)). Qed.

Lemma collocated_mass_integral_lemma N w x v g i j p q P : 2 <= N <= 4 ->
  Collocated (QuadratureGaussLegendre, N) w x v g -> 0 <= i < N -> 0 <= j < N ->
  Z.of_nat (length p) = N -> (forall y, v i y = peval p y) ->
  Z.of_nat (length q) = N -> (forall y, v j y = peval q y) ->
  (forall t, derivable_pt_lim P t (v i t * v j t)%R) ->
  (Rabs ((if i =? j then w i else 0) - (P 1 - P (-1))) <= tenth 33 * (norm1 p * norm1 q))%R.
Proof.
  intros HN HC Hi Hj Lp Ep Lq Eq HP. set (r := (QuadratureGaussLegendre, N)) in *.
  assert (Hs : supported r) by exact HN.
  replace (tenth 33) with (tenth (digits r)) by (unfold digits; cbn; destruct (Z.leb_spec N 5); [reflexivity|lia]).
  apply (mass_integral r w x v g Hs (proj1 HC) (collocated_nodal r w x v g Hs HC)); auto.
Qed.

Lemma collocated_parts_lemma r w x v g i j p q : supported r -> Collocated r w x v g ->
  0 <= i < snd r -> 0 <= j < snd r ->
  Z.of_nat (length p) = snd r -> (forall y, v i y = peval p y) ->
  Z.of_nat (length q) = snd r -> (forall y, v j y = peval q y) ->
  (Rabs (w i * g j (x i) + w j * g i (x j) - (v i 1 * v j 1 - v i (-1) * v j (-1))) <=
     2 * IZR (snd r) * tenth (digits r) * (norm1 p * norm1 q))%R.
Proof. intros Hs HC. apply (sbp r w x v g Hs (proj1 HC) (collocated_nodal r w x v g Hs HC)). Qed.

(** For Gauss-Lobatto the boundary terms are 1, -1 and 0. *)
Lemma lobatto_boundary_lemma N w x v g i : 2 <= N <= 9 -> Collocated (QuadratureGaussLobatto, N) w x v g -> 0 <= i < N ->
  v i (-1)%R = (if i =? 0 then 1 else 0)%R /\ v i 1%R = (if i =? N - 1 then 1 else 0)%R.
Proof.
  intros HN HC Hi. set (r := (QuadratureGaussLobatto, N)) in *. assert (Hs : supported r) by exact HN.
  pose proof (collocated_nodal r w x v g Hs HC) as HB. cbn [snd r] in HB.
  destruct (lobatto_nodes_lemma N HN) as (z & Hz & _ & _ & Z0 & Z1 & _).
  assert (Ex : forall k, 0 <= k < N -> x k = z k).
  { intros k Hk. destruct HC as ((_ & Hx) & _). specialize (Hx k Hk). specialize (Hz k Hk). 
    assert (F : Ok (x k) = Ok (z k)) by exact (eq_trans (eq_sym Hx) Hz). now injection F. }
  pose proof (nb_nodal _ _ _ _ HB i 0 ltac:(lia) ltac:(lia)) as A.
  pose proof (nb_nodal _ _ _ _ HB i (N - 1) ltac:(lia) ltac:(lia)) as B.
  rewrite Ex in A, B by lia. rewrite Z0 in A. rewrite Z1 in B. now split.
Qed.
