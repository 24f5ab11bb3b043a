(** Lagrange bases in doubles with contraction. *)
From Coq Require Import ZArith Reals Bool List Lia Lra Psatz.
From Flocq Require Import Core IEEE754.BinarySingleNaN.
From Verif Require Import Base ProofBase Num ModelB64 ModelFma SpecB64 ModelSequence ModelSpacing ModelLagrange SpecNumeric SpecAccuracy
  ProofPoly ProofLagrange ProofB64 ProofErr64 ProofErrFma ProofLagrange64 ProofNodes64 ProofGeneric ProofSum64 ProofSumFma ProofGrad64.
Local Open Scope R_scope.

Lemma csub_plain c x y : Plain x -> Plain y -> cval (csub c x y) = Bminus mode_NE (cval x) (cval y).
Proof. unfold Plain. intros Hx Hy. unfold csub, computed; cbn [cval]. rewrite Hx, Hy. now destruct (c OSub x y). Qed.
Lemma cadd_plain c x y : Plain x -> Plain y -> cval (cadd c x y) = Bplus mode_NE (cval x) (cval y).
Proof. unfold Plain. intros Hx Hy. unfold cadd, computed; cbn [cval]. rewrite Hx, Hy. now destruct (c OAdd x y). Qed.

Section Grad.
Context (c : contraction) (ORDER q : Z) (coordinate : Z -> outcome cdouble) (x : Z -> b64).
Context (HO : (0 <= ORDER < INT_MAX)%Z) (Hq : (0 <= q <= 1000)%Z).
Context (Hp : forall k, (0 <= k < ORDER + 1)%Z -> coordinate k = Ok (plain (x k))).
Context (Hf : forall k, (0 <= k < ORDER + 1)%Z -> is_finite (x k) = true /\ Rabs (B2R (x k)) <= 1).
Context (Hsep : forall i k, (0 <= i < ORDER + 1)%Z -> (0 <= k < ORDER + 1)%Z -> i <> k ->
  pow2 (- q) <= Rabs (B2R (x i) - B2R (x k))).
Let coordinate64 := fun k => Ok (x k).
Let Hp64 : forall k, (0 <= k < ORDER + 1)%Z -> coordinate64 k = Ok (x k) := fun k _ => eq_refl.
Let pts := zseq (Z.to_nat (ORDER + 1)).
Let X := fun k => B2R (x k).

Definition dC (i k : Z) : cdouble := cdiv (plain (b64_ofZ 1)) (csub c (plain (x i)) (plain (x k))).
Definition tC (i k : Z) (y : cdouble) : cdouble :=
  if (i =? k)%Z then plain (b64_ofZ 1) else cmul (csub c y (plain (x k))) (dC i k).
Definition gC (i a : Z) : cdouble := if (i =? a)%Z then plain (b64_ofZ 0) else dC i a.
Definition fC (i a k : Z) (y : cdouble) : cdouble := if (k =? a)%Z then plain (b64_ofZ 1) else tC i k y.
Definition valC (i : Z) (y : cdouble) : cdouble := mulR (N := FmaNum c) (map (fun k => tC i k y) pts).
Definition gradC (i : Z) (y : cdouble) : cdouble :=
  sumC c (fun a => cmul (gC i a) (mulR (N := FmaNum c) (map (fun k => fC i a k y) pts))) pts.

Lemma cval_dC i k : cval (dC i k) = d64 x i k.
Proof. unfold dC, cdiv, computed; cbn [cval plain given]. rewrite csub_plain by reflexivity. reflexivity. Qed.
Lemma cval_tC i k y : Plain y -> cval (tC i k y) = t64 x i k (cval y).
Proof.
  intros Hy. unfold tC, t64. destruct (i =? k)%Z; [reflexivity|]. cbn [cmul cval].
  rewrite csub_plain by (exact Hy || reflexivity). rewrite cval_dC. reflexivity.
Qed.
Lemma cval_gC i a : cval (gC i a) = g64 x i a.
Proof. unfold gC, g64. destruct (i =? a)%Z; [reflexivity|apply cval_dC]. Qed.
Lemma cval_fC i a k y : Plain y -> cval (fC i a k y) = f64 x i a k (cval y).
Proof. intros Hy. unfold fC, f64. destruct (k =? a)%Z; [reflexivity|now apply cval_tC]. Qed.

Lemma termC i k y : (0 <= i < ORDER + 1)%Z -> (0 <= k < ORDER + 1)%Z ->
  valueProductTerm (FmaNum c) coordinate i k y = Ok (tC i k y).
Proof.
  intros Hi Hk. pose proof (valueProductTerm64 ORDER q coordinate64 x Hq Hp64 Hf Hsep i k (b64_ofZ 0) Hi Hk) as V.
  unfold valueProductTerm in *. unfold tC. destruct (i =? k)%Z; [reflexivity|].
  rewrite !Hp by assumption. unfold coordinate64 in V. cbn [bind constexpr_] in *.
  unfold ndiv_const in *. cbn [nis0 FmaNum ndiv nsub nofZ nmul] in *. rewrite csub_plain by reflexivity.
  cbn [nis0 B64Num ndiv nsub plain given cval] in *.
  destruct (Beqb (Bminus mode_NE (x i) (x k)) b64_zero); [discriminate|]. reflexivity.
Qed.
Lemma fold_mulC (l : list Z) (e : Z -> outcome cdouble) (f : Z -> cdouble) : l <> [] ->
  (forall k, In k l -> e k = Ok (f k)) -> fold_unary_right (nmulM (FmaNum c)) (map e l) = Ok (mulR (N := FmaNum c) (map f l)).
Proof.
  intros Hne H. rewrite (map_ext_in e (fun k => Ok (f k)) l H), <- (map_map f Ok).
  apply (fold_mulR (FmaNum c)). intros E. apply Hne. now apply map_eq_nil in E.
Qed.
Lemma fold_addC (l : list Z) (e : Z -> outcome cdouble) (f : Z -> cdouble) : l <> [] ->
  (forall k, In k l -> e k = Ok (f k)) -> fold_unary_right (naddM (FmaNum c)) (map e l) = Ok (sumC c f l).
Proof.
  induction l as [|a l IH]; intros Hne H; [congruence|].
  destruct l as [|b l].
  - cbn. apply H. left; reflexivity.
  - change (map e (a :: b :: l)) with (e a :: map e (b :: l)).
    change (map e (b :: l)) with (e b :: map e l). rewrite fold_unary_right_cons.
    change (e b :: map e l) with (map e (b :: l)).
    rewrite H by (left; reflexivity). cbn [bind].
    rewrite IH; [reflexivity|discriminate|]. intros k Hk. apply H. right; exact Hk.
Qed.
Lemma valueC i y : (0 <= i < ORDER + 1)%Z -> bvalue (lagrange_of (FmaNum c) ORDER coordinate) i y = Ok (valC i y).
Proof.
  intros Hi. cbn [bvalue lagrange_of]. unfold lagrange_value. rewrite nSupport_ok by exact HO. cbn [bind].
  rewrite exec_pack by lia. fold pts. apply fold_mulC; [apply zseq_ne; lia|]. intros k Hk. apply termC; [exact Hi|].
  unfold pts in Hk. apply in_zseq in Hk. lia.
Qed.
Lemma gradientC i y : (0 <= i < ORDER + 1)%Z -> bgradient (lagrange_of (FmaNum c) ORDER coordinate) i y = Ok (gradC i y).
Proof.
  intros Hi. cbn [bgradient lagrange_of]. unfold lagrange_gradient. rewrite nSupport_ok by exact HO. cbn [bind].
  assert (InP : forall k, In k pts -> (0 <= k < ORDER + 1)%Z) by (intros k Hk; unfold pts in Hk; apply in_zseq in Hk; lia).
  rewrite exec_pack by lia. fold pts. rewrite (sequenceM_Ok pts _ (fun k => tC i k y)).
  2: { intros k Hk. apply termC; [exact Hi|now apply InP]. }
  cbn [bind]. cbv zeta. apply fold_addC; [apply zseq_ne; lia|]. intros a Ha.
  rewrite exec_cons by lia. fold pts.
  assert (Eg : gradientOfValueTerm (FmaNum c) coordinate i a = Ok (gC i a)).
  { unfold gradientOfValueTerm, gC. destruct (Z.eqb_spec i a) as [E|E]; [reflexivity|].
    apply InP in Ha. rewrite !Hp by assumption. reflexivity. }
  rewrite Eg. cbn [bind]. rewrite (fold_mulC pts _ (fun k => fC i a k y)); [reflexivity|apply zseq_ne; lia|].
  intros k Hk. unfold valueProductFactor, fC. destruct (Z.eqb_spec k a); [reflexivity|].
  unfold pts. apply (rd_map_zseq (fun k => tC i k y)). apply InP in Hk. lia.
Qed.

(** Values are products: contraction changes nothing. *)
Lemma cval_valC i y : Plain y -> cval (valC i y) = prod64 (fun k => t64 x i k (cval y)) pts.
Proof.
  intros Hy. unfold valC. rewrite cval_mulR, map_map, prod64_mulR. f_equal. apply map_ext. intros k. now apply cval_tC.
Qed.

Context (Hb : ((ORDER + 2) * (q + 5) < 1024)%Z).
Notation gmagX := (gmag ORDER x).
Notation rfacX := (rfac x).

Lemma summandC i a y : (0 <= i < ORDER + 1)%Z -> (0 <= a < ORDER + 1)%Z -> Plain y -> InReference (cval y) ->
  Fpw (cmul (gC i a) (mulR (N := FmaNum c) (map (fun k => fC i a k y) pts)))
    (dterm X i a * prodR (fun k => rfacX i a k (CR y)) pts)
    (Rabs (dterm X i a) * prodR (fun k => Rabs (rfacX i a k (CR y))) pts)
    (Z.to_nat (5 * ORDER)) (pow2 ((q + 4) * (ORDER + 1) - 1075)).
Proof.
  intros Hi Ha Py Hy.
  pose proof (product_apw ORDER q coordinate64 x HO Hq Hp64 Hf Hsep Hb i a (cval y) Hi Ha Hy) as P.
  assert (EM : cval (mulR (N := FmaNum c) (map (fun k => fC i a k y) pts)) = mulR (N := B64Num) (map (fun k => f64 x i a k (cval y)) pts)).
  { rewrite cval_mulR, map_map. f_equal. apply map_ext. intros k. now apply cval_fC. }
  fold pts in P. rewrite <- EM in P. pose proof eta_pos as Et.
  destruct (Z.eqb_spec i a) as [E|E].
  - unfold dterm. rewrite (proj2 (Z.eqb_eq i a) E), Rabs_R0, !Rmult_0_l.
    assert (EG : cval (gC i a) = b64_ofZ 0) by (unfold gC; rewrite (proj2 (Z.eqb_eq i a) E); reflexivity).
    destruct (b64_ofZ_exact 0 ltac:(lia)) as [F0 E0].
    apply fap_zero; [rewrite EG; exact E0|rewrite EG; exact F0|apply P|lra|apply Rel_nonneg|apply bpow_ge_0].
  - set (M := prodR (fun k => Rabs (rfacX i a k (CR y))) pts) in *.
    assert (MB : 0 <= M <= pow2 (q + 1) ^ length pts).
    { apply prodR_bound. intros k Hk. unfold pts in Hk. apply in_zseq in Hk. split; [apply Rabs_pos|].
      apply (rfac_bound ORDER q coordinate64 x); try assumption; [lia|apply Hy]. }
    assert (Len : Z.of_nat (length pts) = (ORDER + 1)%Z) by (unfold pts; rewrite zseq_length; lia).
    rewrite pow2_pow, Len in MB.
    assert (DB : Rabs (dterm X i a) <= pow2 q).
    { unfold dterm. destruct (Z.eqb_spec i a); [contradiction|]. now apply (diff_bound ORDER q x Hsep). }
    assert (HD : App (cval (gC i a)) (dterm X i a) (Rabs (dterm X i a)) (Rel 2) 0).
    { rewrite cval_gC. unfold g64. destruct (Z.eqb_spec i a); [contradiction|]. now apply (apw_d64 ORDER q coordinate64 x). }
    pose proof (Rabs_pos (dterm X i a)) as D0.
    set (dt := dterm X i a) in *. set (e := pow2 ((q + 4) * ORDER - 1075)) in *.
    assert (e0 : 0 < e) by apply bpow_gt_0.
    assert (QE : pow2 q * e * 4 <= pow2 ((q + 4) * (ORDER + 1) - 1075)).
    { unfold e. rewrite <- bpow_plus. change 4 with (pow2 2). rewrite <- bpow_plus. apply bpow_le. nia. }
    assert (Q0 : 1 <= pow2 q) by (change 1 with (pow2 0); apply bpow_le; lia).
    assert (ee : eta <= e) by (apply bpow_le; nia).
    eapply fpw_weaken; [apply (fpw_mult _ _ _ _ _ _ _ _ _ _ (1 + q + (q + 1) * (ORDER + 1) + 1) HD P)|lra| |].
    + nia. + lia. + nia.
    + rewrite Rplus_0_r. assert (e1 : e <= pow2 ((q + 1) * (ORDER + 1))) by (apply bpow_le; nia).
      replace (1 + q + (q + 1) * (ORDER + 1) + 1)%Z with (2 + q + (q + 1) * (ORDER + 1))%Z by lia.
      rewrite (bpow_plus radix2 (2 + q)), (bpow_plus radix2 2). change (pow2 2) with 4.
      set (Z1 := pow2 ((q + 1) * (ORDER + 1))) in *.
      apply Rle_trans with (5 / 4 * pow2 q * (9 / 4 * Z1)); [apply Rmult_le_compat; lra|].
      assert (0 <= pow2 q * Z1) by (apply Rmult_le_pos; lra). nra.
    + apply Nat2Z.inj_le. rewrite Nat2Z.inj_succ, Nat2Z.inj_add. lia.
    + eapply Rle_trans; [|exact QE]. rewrite Rmult_0_r, Rmult_0_l, !Rplus_0_r.
      assert (Rabs dt * e <= pow2 q * e) by (apply Rmult_le_compat_r; lra).
      assert (1 * e <= pow2 q * e) by (apply Rmult_le_compat_r; lra). lra.
Qed.

Lemma gradient_fpw i y : (0 <= i < ORDER + 1)%Z -> Plain y -> InReference (cval y) ->
  Fpw (gradC i y) (lgrad1 ORDER X i (CR y)) (gmagX i (CR y)) (Z.to_nat (6 * ORDER + 1))
    (pow2 (-1073 + (ORDER + 1) * (q + 5))).
Proof.
  intros Hi Py Hy. pose proof (gmag_bound ORDER q coordinate64 x HO Hq Hp64 Hf Hsep i (CR y) Hi (proj2 Hy)) as [G0 G1].
  assert (Len : Z.of_nat (length pts) = (ORDER + 1)%Z) by (unfold pts; rewrite zseq_length; lia).
  set (e := pow2 ((q + 4) * (ORDER + 1) - 1075)).
  assert (e0 : eta <= e) by (apply bpow_le; nia). pose proof eta_pos as Et.
  assert (L1 : (1 + u) ^ length pts <= 2).
  { pose proof (Rel_small (length pts)) as R. rewrite Len in R. specialize (R ltac:(nia)). unfold Rel in R. lra. }
  assert (P0 : 0 < (1 + u) ^ length pts) by (apply pow_lt; pose proof u_pos; lra).
  assert (EB : (1 + u) ^ length pts * (INR (length pts) * (2 * e)) <= pow2 (-1073 + (ORDER + 1) * (q + 5))).
  { replace (-1073 + (ORDER + 1) * (q + 5))%Z with (1 + (ORDER + 1 + (1 + ((q + 4) * (ORDER + 1) - 1075))))%Z by lia.
    rewrite (bpow_plus radix2 1 (ORDER + 1 + _)), (bpow_plus radix2 (ORDER + 1)), (bpow_plus radix2 1). fold e. change (pow2 1) with 2.
    pose proof (INR_pow2 (length pts)) as L. rewrite Len in L. pose proof (pos_INR (length pts)).
    apply Rmult_le_compat; [lra|apply Rmult_le_pos; lra|exact L1|]. apply Rmult_le_compat_r; lra. }
  assert (Hn : (Z.to_nat (5 * ORDER) + length pts = Z.to_nat (6 * ORDER + 1))%nat) by lia.
  pose proof (fpw_sumC c (fun a => cmul (gC i a) (mulR (N := FmaNum c) (map (fun k => fC i a k y) pts)))
    (fun a => dterm X i a * prodR (fun k => rfacX i a k (CR y)) pts)
    (fun a => Rabs (dterm X i a) * prodR (fun k => Rabs (rfacX i a k (CR y))) pts)
    (Z.to_nat (5 * ORDER)) e (2 * e) ((ORDER + 2) * (q + 5)) pts ltac:(lra)) as A.
  rewrite Hn in A. eapply fpw_weaken; [apply A|apply Rle_refl|lia|exact EB].
  - nia.
  - apply zseq_ne. lia.
  - intros a Ha. unfold pts in Ha. apply in_zseq in Ha. apply summandC; try assumption. lia.
  - fold (gmagX i (CR y)). pose proof (Rel_small (Z.to_nat (6 * ORDER + 1)) ltac:(nia)) as R.
    pose proof (Rel_nonneg (Z.to_nat (6 * ORDER + 1))) as R0.
    set (Z1 := pow2 ((ORDER + 1) * (q + 2) + q)) in *.
    assert (Z4 : 4 * Z1 <= pow2 ((ORDER + 2) * (q + 5))).
    { unfold Z1. change 4 with (pow2 2). rewrite <- bpow_plus. apply bpow_le. nia. }
    assert (ZE : pow2 (-1073 + (ORDER + 1) * (q + 5)) <= Z1) by (apply bpow_le; nia).
    assert ((1 + Rel (Z.to_nat (6 * ORDER + 1))) * gmagX i (CR y) <= 5 / 4 * Z1) by (apply Rmult_le_compat; lra).
    change (sumR (fun a => Rabs (dterm X i a) * prodR (fun k => Rabs (rfacX i a k (CR y))) pts) pts) with (gmagX i (CR y)). lra.
Qed.
End Grad.
