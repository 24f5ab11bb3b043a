(** Tensor-product quadrature of polynomials. *)
From Verif Require Import Base ProofBase Num SpecIndex ModelSpacing ModelQuadrature SpecNumeric SpecBasis SpecIntegral
  ProofBox ProofQuadrature ProofPoly ProofTensor.
From Coq Require Import Reals Lra.
Open Scope Z_scope.

Lemma Forall2_len {A B} (P : A -> B -> Prop) l m : Forall2 P l m -> length l = length m.
Proof. induction 1; cbn; congruence. Qed.

Lemma Rule_unique r w x : supported r -> Rule r w x ->
  forall i, 0 <= i < snd r -> w i = wgt (fst r) (snd r) i /\ x i = node (fst r) (snd r) i.
Proof.
  intros Hs (Hw & Hx) i Hi. destruct (rule_points (fst r) (snd r)) as (Kw & Kx).
  { unfold supported in Hs. destruct (fst r); exact Hs. }
  split.
  - specialize (Hw i Hi). specialize (Kw i Hi). rewrite Hw in Kw. now injection Kw.
  - specialize (Hx i Hi). specialize (Kx i Hi). rewrite Hx in Kx. now injection Kx.
Qed.

Lemma rule_moment r w x e : supported r -> Rule r w x -> 0 <= e <= degree r ->
  (Rabs (Zsum (snd r) (fun i => w i * x i ^ Z.to_nat e) - exact_moment (Z.to_nat e)) <= tenth (digits r))%R.
Proof.
  intros Hs HR He.
  rewrite (Zsum_ext _ _ (fun i => wgt (fst r) (snd r) i * node (fst r) (snd r) i ^ Z.to_nat e)%R).
  2:{ intros i Hi. destruct (Rule_unique r w x Hs HR i Hi) as (-> & ->). reflexivity. }
  apply (moment_error (fst r) (snd r) (Z.to_nat e)).
  - unfold supported in Hs. destruct (fst r); exact Hs.
  - unfold degree in He. unfold rule_degree. destruct (fst r); lia.
Qed.

Lemma tenth_pos k : (0 < tenth k)%R.
Proof. unfold tenth. apply Rinv_0_lt_compat, pow_lt. lra. Qed.
Lemma tenth_le a b : (a <= b)%nat -> (tenth b <= tenth a)%R.
Proof. intros H. unfold tenth. apply Rinv_le_contravar; [apply pow_lt; lra|]. apply Rle_pow; [lra|exact H]. Qed.
Lemma tenth_small k : (1 <= k)%nat -> (tenth k <= 1 / 10)%R.
Proof. intros H. apply Rle_trans with (tenth 1); [now apply tenth_le|]. unfold tenth. simpl. lra. Qed.

Lemma exact_moment_abs k : (Rabs (exact_moment k) <= 2)%R.
Proof.
  unfold exact_moment. rewrite m1_pow.
  assert (H : (1 <= INR (k + 1))%R). { change 1%R with (INR 1). apply le_INR. lia. }
  assert (Hi : (0 < / INR (k + 1) <= 1)%R).
  { split; [apply Rinv_0_lt_compat; lra|]. rewrite <- Rinv_1. apply Rinv_le_contravar; lra. }
  unfold Rdiv. destruct (Nat.even (k + 1)); apply Rabs_le; nra.
Qed.

(** ** Integrals of polynomials are determined *)
Fixpoint imono (e : list Z) : R :=
  match e with [] => 1%R | k :: e' => (exact_moment (Z.to_nat k) * imono e')%R end.
Definition isparse (ts : list (R * list Z)) : R := fold_right (fun t s => fst t * imono (snd t) + s)%R 0%R ts.

Lemma exact_moment_deriv k : exists P, (forall x, derivable_pt_lim P x (x ^ k)%R) /\ (P 1 - P (-1) = exact_moment k)%R.
Proof.
  destruct (antiderivative_exists (repeat 0%R k ++ [1%R])) as (P & HP). exists P. split.
  - intros x. rewrite <- peval_monomial. apply HP.
  - rewrite (integral_pmom _ P HP), pmom_monomial. reflexivity.
Qed.

(** Freezing the first coordinate. *)
Definition freeze (x : R) (ts : list (R * list Z)) : list (R * list Z) :=
  map (fun t => (fst t * x ^ Z.to_nat (hd 0%Z (snd t)), tl (snd t))%R) ts.
Lemma sparse_freeze x ts t : Forall (fun t => snd t <> []) ts -> sparse ts (x :: t) = sparse (freeze x ts) t.
Proof.
  induction 1 as [|[a e] ts H _ IH]; [reflexivity|].
  change (sparse ((a, e) :: ts) (x :: t)) with (a * monomial e (x :: t) + sparse ts (x :: t))%R.
  change (sparse (freeze x ((a, e) :: ts)) t) with
    (a * x ^ Z.to_nat (hd 0%Z e) * monomial (tl e) t + sparse (freeze x ts) t)%R.
  rewrite IH. f_equal. cbn in H. destruct e as [|k e]; [congruence|]. cbn [monomial hd tl]. ring.
Qed.

Definition prim_sparse (Ps : nat -> R -> R) (ts : list (R * list Z)) (x : R) : R :=
  fold_right (fun t s => fst t * Ps (Z.to_nat (hd 0%Z (snd t))) x * imono (tl (snd t)) + s)%R 0%R ts.

Lemma freeze_deriv Ps ts x : (forall k x, derivable_pt_lim (Ps k) x (x ^ k)%R) ->
  derivable_pt_lim (prim_sparse Ps ts) x (isparse (freeze x ts)).
Proof.
  intros HP. induction ts as [|[a e] ts IH]; cbn.
  - apply derivable_pt_lim_const.
  - apply (derivable_pt_lim_plus (fun x => a * Ps (Z.to_nat (hd 0%Z e)) x * imono (tl e))%R (prim_sparse Ps ts)); [|exact IH].
    apply (deriv_scal_r (fun x => a * Ps (Z.to_nat (hd 0%Z e)) x)%R).
    apply (derivable_pt_lim_scal (Ps (Z.to_nat (hd 0%Z e))) a). apply HP.
Qed.

Lemma Integral_ext d : forall f g v, (forall t, length t = d -> f t = g t) -> Integral d f v -> Integral d g v.
Proof.
  induction d as [|d IH]; intros f g v E H; cbn [Integral] in *.
  - rewrite H. apply E. reflexivity.
  - destruct H as (h & G & H1 & H2 & H3). exists h, G. split; [|auto]. intros x.
    apply (IH (fun t => f (x :: t))); [|apply H1]. intros t Ht. apply E. cbn. now rewrite Ht.
Qed.

Lemma moment_prims : exists Ps : nat -> R -> R, (forall k x, derivable_pt_lim (Ps k) x (x ^ k)%R) /\
  forall k, (Ps k 1 - Ps k (-1) = exact_moment k)%R.
Proof.
  exists (fun k => prim 0 (repeat 0%R k ++ [1%R])).
  assert (HP : forall k x, derivable_pt_lim (prim 0 (repeat 0%R k ++ [1%R])) x (peval (repeat 0%R k ++ [1%R]) x)).
  { intros k x. replace (peval _ x) with (x ^ 0 * peval (repeat 0%R k ++ [1%R]) x)%R by (simpl; ring). apply prim_deriv. }
  split.
  - intros k x. rewrite <- peval_monomial. apply HP.
  - intros k. rewrite (integral_pmom _ _ (HP k)), pmom_monomial. reflexivity.
Qed.

Lemma prim_sparse_diff Ps ts : (forall k, (Ps k 1 - Ps k (-1) = exact_moment k)%R) ->
  Forall (fun t => snd t <> []) ts -> (prim_sparse Ps ts 1 - prim_sparse Ps ts (-1) = isparse ts)%R.
Proof.
  intros HD. induction 1 as [|[a e] ts H _ IH]; cbn; [ring|]. fold (isparse ts). rewrite <- IH.
  cbn in H. destruct e as [|k e]; [congruence|]. cbn. rewrite <- HD. fold (prim_sparse Ps ts 1%R) (prim_sparse Ps ts (-1)%R). ring.
Qed.

Lemma lens_freeze d x ts : Forall (fun t : R * list Z => length (snd t) = S d) ts ->
  Forall (fun t : R * list Z => length (snd t) = d) (freeze x ts).
Proof.
  induction 1 as [|[a e] ts H _ IH]; constructor; [|exact IH]. cbn in *. destruct e; [discriminate|]. cbn in *. lia.
Qed.
Lemma lens_ne d ts : Forall (fun t : R * list Z => length (snd t) = S d) ts -> Forall (fun t : R * list Z => snd t <> []) ts.
Proof. apply Forall_impl. intros [a e] H E. cbn in *. subst e. discriminate. Qed.

Lemma Integral_sparse d : forall ts, Forall (fun t => length (snd t) = d) ts ->
  Integral d (sparse ts) (isparse ts) /\ forall V, Integral d (sparse ts) V -> V = isparse ts.
Proof.
  induction d as [|d IH]; intros ts HL.
  - assert (E : sparse ts [] = isparse ts).
    { induction HL as [|[a e] ts H _ IH]; [reflexivity|]. cbn in H.
      change (a * monomial e [] + sparse ts [] = a * imono e + isparse ts)%R. rewrite IH. f_equal. destruct e; [reflexivity|discriminate]. }
    cbn [Integral]. rewrite E. auto.
  - destruct moment_prims as (Ps & HP & HD). pose proof (lens_ne d ts HL) as Hne. split.
    + cbn [Integral]. exists (fun x => isparse (freeze x ts)), (prim_sparse Ps ts). split; [|split].
      * intros x. apply (Integral_ext d (sparse (freeze x ts))).
        -- intros t _. symmetry. now apply sparse_freeze.
        -- apply IH. now apply lens_freeze.
      * intros x. now apply freeze_deriv.
      * symmetry. now apply prim_sparse_diff.
    + intros V (g & G & H1 & H2 & ->). rewrite <- (prim_sparse_diff Ps ts HD Hne).
      apply (same_deriv_diff _ _ g); [exact H2|]. intros x.
      assert (E : g x = isparse (freeze x ts)).
      { apply (IH (freeze x ts)); [now apply lens_freeze|].
        apply (Integral_ext d (fun t => sparse ts (x :: t))); [|apply H1]. intros t _. now apply sparse_freeze. }
      rewrite E. now apply freeze_deriv.
Qed.

(** ** Quadrature of monomials *)
Lemma quadrature_cons r rs w ws x xs f :
  quadrature (r :: rs) (w :: ws) (x :: xs) f =
  Zsum (snd r) (fun i => w i * quadrature rs ws xs (fun t => f (x i :: t)))%R.
Proof.
  unfold quadrature. cbn [map BoxSum weights_at point_at]. apply Zsum_ext. intros i _.
  rewrite <- BoxSum_scal. apply BoxSum_ext. intros t _. ring.
Qed.
Lemma quadrature_ext rs ws xs f g : (forall q, InRange (map snd rs) q -> f (point_at xs q) = g (point_at xs q)) ->
  quadrature rs ws xs f = quadrature rs ws xs g.
Proof. intros H. unfold quadrature. apply BoxSum_ext. intros q Hq. now rewrite H. Qed.
Lemma quadrature_scal rs ws xs c f : quadrature rs ws xs (fun t => c * f t)%R = (c * quadrature rs ws xs f)%R.
Proof. unfold quadrature. rewrite <- BoxSum_scal. apply BoxSum_ext. intros; ring. Qed.
Lemma quadrature_plus rs ws xs f g :
  quadrature rs ws xs (fun t => f t + g t)%R = (quadrature rs ws xs f + quadrature rs ws xs g)%R.
Proof. unfold quadrature. rewrite <- BoxSum_plus. apply BoxSum_ext. intros; ring. Qed.

Lemma Rules_cons r rs w ws x xs : Rules (r :: rs) (w :: ws) (x :: xs) -> Rule r w x /\ Rules rs ws xs.
Proof.
  intros (H1 & H2 & H3). split; [now apply (H3 0%nat)|]. split; [now injection H1|]. split; [now injection H2|].
  intros k. apply (H3 (S k)).
Qed.
Lemma Rules_inv r rs ws xs : Rules (r :: rs) ws xs ->
  exists w ws' x xs', ws = w :: ws' /\ xs = x :: xs' /\ Rule r w x /\ Rules rs ws' xs'.
Proof.
  intros H. destruct H as (H1 & H2 & H3). destruct ws as [|w ws]; [discriminate|]. destruct xs as [|x xs]; [discriminate|].
  exists w, ws, x, xs. split; [reflexivity|]. split; [reflexivity|]. apply Rules_cons. now split.
Qed.

Lemma imono_abs e : (Rabs (imono e) <= 2 ^ length e)%R.
Proof.
  induction e as [|k e IH]; cbn [imono length]; [rewrite Rabs_R1; simpl; lra|].
  rewrite Rabs_mult. cbn [pow]. apply Rmult_le_compat; try apply Rabs_pos; [apply exact_moment_abs|exact IH].
Qed.

(** error after d coordinates *)
Fixpoint cerr (eps : R) (d : nat) : R :=
  match d with O => 0 | S d' => (2 + eps) * cerr eps d' + eps * 2 ^ d' end%R.
Lemma cerr_nonneg eps d : (0 <= eps)%R -> (0 <= cerr eps d)%R.
Proof.
  intros H. induction d as [|d IH]; cbn [cerr]; [lra|].
  assert (0 < 2 ^ d)%R by (apply pow_lt; lra). nra.
Qed.
Lemma cerr_bound eps d : (0 <= eps <= 1 / 10)%R -> (cerr eps d <= 3 ^ d * eps)%R.
Proof.
  intros H.
  assert (B : (cerr eps d <= eps * (3 ^ d - 2 ^ d))%R).
  { induction d as [|d IH]; cbn [cerr pow]; [lra|].
    assert (H2 : (2 ^ d <= 3 ^ d)%R) by (apply pow_incr; lra).
    assert (H0 : (0 < 2 ^ d)%R) by (apply pow_lt; lra).
    pose proof (cerr_nonneg eps d ltac:(lra)) as Hc.
    assert ((2 + eps) * cerr eps d <= (2 + eps) * (eps * (3 ^ d - 2 ^ d)))%R by (apply Rmult_le_compat_l; lra).
    assert (0 <= eps * (3 ^ d - 2 ^ d))%R by nra. nra. }
  assert (H0 : (0 < 2 ^ d)%R) by (apply pow_lt; lra). nra.
Qed.

Lemma quad_monomial eps rs : (0 <= eps)%R -> Forall supported rs -> Forall (fun r => tenth (digits r) <= eps)%R rs ->
  forall ws xs e, Rules rs ws xs -> Forall2 (fun k r => 0 <= k <= degree r) e rs ->
  (Rabs (quadrature rs ws xs (monomial e) - imono e) <= cerr eps (length rs))%R.
Proof.
  intros He Hs Hd. induction Hs as [|r rs Hr Hrs IH]; intros ws xs e HR HE.
  - inversion HE; subst. unfold quadrature. cbn [map BoxSum length cerr imono].
    replace (weights_at ws []) with 1%R by (destruct ws; reflexivity).
    replace (monomial [] (point_at xs [])) with 1%R by reflexivity.
    replace (1 * 1 - 1)%R with 0%R by ring. rewrite Rabs_R0. lra.
  - apply Rules_inv in HR. destruct HR as (w & ws' & x & xs' & -> & -> & H1 & H2).
    inversion HE as [|k ? e' ? Hk He']; subst. inversion Hd as [|? ? Hd1 Hd2]; subst.
    specialize (IH Hd2 ws' xs' e' H2 He').
    rewrite quadrature_cons. cbn [imono length cerr].
    rewrite (Zsum_ext _ _ (fun i => quadrature rs ws' xs' (monomial e') * (w i * x i ^ Z.to_nat k))%R).
    2:{ intros i _. rewrite (quadrature_ext _ _ _ _ (fun t => x i ^ Z.to_nat k * monomial e' t)%R) by reflexivity.
        rewrite quadrature_scal. ring. }
    rewrite Zsum_scal.
    pose proof (rule_moment r w x k Hr H1 Hk) as HM.
    set (Q := quadrature rs ws' xs' (monomial e')) in *. set (S := Zsum _ _) in *.
    set (M := exact_moment (Z.to_nat k)) in *. set (I := imono e') in *.
    replace (Q * S - M * I)%R with ((Q - I) * S + I * (S - M))%R by ring.
    eapply Rle_trans; [apply Rabs_triang|]. rewrite !Rabs_mult.
    assert (HS : (Rabs S <= 2 + eps)%R).
    { replace S with ((S - M) + M)%R by ring. eapply Rle_trans; [apply Rabs_triang|].
      pose proof (exact_moment_abs (Z.to_nat k)) as HK. fold M in HK. lra. }
    assert (HI : (Rabs I <= 2 ^ length rs)%R).
    { pose proof (Forall2_len _ _ _ He') as EL. rewrite <- EL. apply imono_abs. }
    apply Rplus_le_compat.
    + rewrite Rmult_comm. apply Rmult_le_compat; try apply Rabs_pos; assumption.
    + rewrite Rmult_comm. apply Rmult_le_compat; try apply Rabs_pos; [lra|]. exact HI.
Qed.

Lemma quad_sparse_abs C rs ws xs ts :
  (forall t, In t ts -> (Rabs (quadrature rs ws xs (monomial (snd t)) - imono (snd t)) <= C)%R) ->
  (Rabs (quadrature rs ws xs (sparse ts) - isparse ts) <= C * size ts)%R.
Proof.
  induction ts as [|[a e] ts IH]; intros H.
  - rewrite (quadrature_ext _ _ _ _ (fun t => 0 * 1)%R) by (intros; cbn; ring). rewrite quadrature_scal. cbn.
    replace (0 * _ - 0)%R with 0%R by ring. rewrite Rabs_R0. lra.
  - specialize (IH (fun t Ht => H t (or_intror Ht))). specialize (H _ (or_introl eq_refl)). cbn [snd] in H.
    change (quadrature rs ws xs (sparse ((a, e) :: ts))) with
      (quadrature rs ws xs (fun t => a * monomial e t + sparse ts t)%R).
    rewrite (quadrature_plus rs ws xs (fun t => a * monomial e t)%R), quadrature_scal.
    change (isparse ((a, e) :: ts)) with (a * imono e + isparse ts)%R.
    change (size ((a, e) :: ts)) with (Rabs a + size ts)%R.
    match goal with |- (Rabs ?u <= _)%R => replace u with (a * (quadrature rs ws xs (monomial e) - imono e) +
      (quadrature rs ws xs (sparse ts) - isparse ts))%R by ring end.
    eapply Rle_trans; [apply Rabs_triang|]. rewrite Rabs_mult. pose proof (Rabs_pos a). nra.
Qed.

Lemma size_nonneg ts : (0 <= size ts)%R.
Proof. induction ts as [|t ts IH]; cbn; [lra|]. pose proof (Rabs_pos (fst t)). fold (size ts). lra. Qed.

Lemma tensor_quadrature_lemma rs ws xs ts V n :
  Forall supported rs -> Rules rs ws xs -> (1 <= n)%nat -> Forall (fun r => (n <= digits r)%nat) rs ->
  Forall (fun t => Forall2 (fun k r => 0 <= k <= degree r) (snd t) rs) ts ->
  Integral (length rs) (sparse ts) V ->
  (Rabs (quadrature rs ws xs (sparse ts) - V) <= 3 ^ length rs * tenth n * size ts)%R.
Proof.
  intros Hs HR Hn Hd HT HV.
  assert (HL : Forall (fun t : R * list Z => length (snd t) = length rs) ts).
  { revert HT. apply Forall_impl. intros t H. exact (Forall2_len _ _ _ H). }
  apply (proj2 (Integral_sparse _ ts HL)) in HV. subst V.
  pose proof (tenth_pos n). pose proof (tenth_small n Hn).
  eapply Rle_trans; [apply (quad_sparse_abs (cerr (tenth n) (length rs)))|].
  - intros t Ht. apply quad_monomial; try assumption; try lra.
    + revert Hd. apply Forall_impl. intros r. apply tenth_le.
    + rewrite Forall_forall in HT. now apply HT.
  - apply Rmult_le_compat_r; [apply size_nonneg|]. apply cerr_bound. lra.
Qed.

(** Every choice of supported rules has weights and points, and every polynomial an integral. *)
Lemma rules_exist_lemma rs : Forall supported rs -> exists ws xs, Rules rs ws xs.
Proof.
  induction 1 as [|r rs Hr _ (ws & xs & H1 & H2 & H3)].
  - exists [], []. split; [reflexivity|]. split; [reflexivity|]. intros [|k] ? ? ? E; discriminate E.
  - destruct (rule_points (fst r) (snd r)) as (Hw & Hx). { unfold supported in Hr. destruct (fst r); exact Hr. }
    exists (wgt (fst r) (snd r) :: ws), (node (fst r) (snd r) :: xs). split; [cbn; lia|]. split; [cbn; lia|].
    intros [|k] r' w x E1 E2 E3; cbn in *; [|now apply (H3 k)].
    injection E1 as <-. injection E2 as <-. injection E3 as <-. now split.
Qed.
Lemma integral_exists_lemma d ts : Forall (fun t => length (snd t) = d) ts -> exists V, Integral d (sparse ts) V.
Proof. intros H. exists (isparse ts). now apply Integral_sparse. Qed.
