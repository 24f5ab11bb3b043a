(** Accuracy of the Lagrange gradient in binary64. *)
From Coq Require Import ZArith Reals Bool List Lia Lra Psatz.
From Flocq Require Import Core IEEE754.BinarySingleNaN.
From Verif Require Import Base ProofBase Num ModelB64 SpecB64 ModelSequence ModelSpacing ModelLagrange SpecNumeric SpecAccuracy
  ProofPoly ProofLagrange ProofB64 ProofErr64 ProofLagrange64 ProofNodes64 ProofGeneric ProofSum64.
Local Open Scope R_scope.

Lemma fold_add64 (l : list Z) (e : Z -> outcome b64) (f : Z -> b64) : l <> [] ->
  (forall k, In k l -> e k = Ok (f k)) ->
  fold_unary_right (naddM B64Num) (map e l) = Ok (sum64 f l).
Proof.
  induction l as [|a l IH]; intros Hne H; [congruence|].
  destruct l as [|b l].
  - cbn. apply H. left; reflexivity.
  - change (map e (a :: b :: l)) with (e a :: map e (b :: l)).
    change (map e (b :: l)) with (e b :: map e l). rewrite fold_unary_right_cons.
    change (e b :: map e l) with (map e (b :: l)).
    rewrite H by (left; reflexivity). cbn [bind].
    rewrite IH; [reflexivity|discriminate|]. intros k Hk. apply H. right; exact Hk.
Qed.
Lemma prod64_mulR f l : prod64 f l = mulR (N := B64Num) (map f l).
Proof.
  induction l as [|a l IH]; [reflexivity|]. destruct l as [|b l]; [reflexivity|].
  rewrite prod64_cons, IH. reflexivity.
Qed.

Lemma facs_map (l : list Z) (t : Z -> b64) (r A : Z -> R) (c : Z -> Z) a e :
  (forall k, In k l -> (1 <= c k)%Z /\ Apw (t k) (r k) (A k) (Z.to_nat (c k - 1)) e /\ A k <= a) ->
  Facs a e (map t l) (map r l) (map A l) (Z.to_nat (sumZ c l)).
Proof.
  induction l as [|k l IH]; intros H; [constructor|].
  destruct (H k (or_introl eq_refl)) as (Hc & HA & Ha).
  assert (S0 : (0 <= sumZ c l)%Z) by (apply sumZ_nonneg; intros j Hj; destruct (H j (or_intror Hj)); lia).
  cbn [map sumZ]. replace (Z.to_nat (c k + sumZ c l)) with (S (Z.to_nat (c k - 1) + Z.to_nat (sumZ c l))) by lia.
  constructor; [exact HA|exact Ha|]. apply IH. intros j Hj. apply H. now right.
Qed.
Lemma prodR_list {A} (f : A -> R) l : fold_right Rmult 1 (map f l) = prodR f l.
Proof. induction l as [|a l IH]; [reflexivity|]. cbn [map fold_right]. rewrite IH. reflexivity. Qed.
Lemma prodR_abs {A} (f : A -> R) l : Rabs (prodR f l) = prodR (fun a => Rabs (f a)) l.
Proof.
  induction l as [|a l IH]; [unfold prodR; cbn; apply Rabs_R1|]. rewrite !prodR_cons, Rabs_mult, IH. reflexivity.
Qed.
Lemma prodR_bound {A} (f : A -> R) a l : (forall k, In k l -> 0 <= f k <= a) -> 0 <= prodR f l <= a ^ length l.
Proof.
  induction l as [|k l IH]; intros H; [unfold prodR; cbn; lra|]. rewrite prodR_cons. cbn [length pow].
  pose proof (H k (or_introl eq_refl)). specialize (IH (fun j Hj => H j (or_intror Hj))).
  split; [apply Rmult_le_pos; lra|apply Rmult_le_compat; lra].
Qed.
Lemma sumR_bound {A} (f : A -> R) a l : (forall k, In k l -> f k <= a) -> sumR f l <= INR (length l) * a.
Proof.
  induction l as [|k l IH]; intros H; [unfold sumR; cbn; lra|]. rewrite sumR_cons. cbn [length]. rewrite S_INR.
  pose proof (H k (or_introl eq_refl)). specialize (IH (fun j Hj => H j (or_intror Hj))). lra.
Qed.
Lemma INR_pow2 n : INR n <= pow2 (Z.of_nat n).
Proof.
  induction n as [|n IH]; [cbn; lra|]. rewrite S_INR, Nat2Z.inj_succ.
  unfold Z.succ. rewrite bpow_plus. change (pow2 1) with 2.
  assert (1 <= pow2 (Z.of_nat n)) by (change 1 with (pow2 0); apply bpow_le; lia). lra.
Qed.
Lemma pow2_pow a n : pow2 a ^ n = pow2 (a * Z.of_nat n).
Proof.
  induction n as [|n IH]; [rewrite Z.mul_0_r; reflexivity|]. cbn [pow]. rewrite IH, <- bpow_plus. f_equal. lia.
Qed.
Lemma rel_of_pow x r f b p : is_finite x = true -> (1 - u) ^ p <= f <= (1 + u) ^ p -> Rabs b <= eta ->
  B2R x = r * f + b -> Apw x r (Rabs r) p eta.
Proof.
  intros F Hf Hb E. pose proof eta_pos. split; [exact F|]. split; [|split; [lra|split; [apply Rel_nonneg|lra]]].
  rewrite E. replace (r * f + b - r) with ((f - 1) * r + b) by ring.
  eapply Rle_trans; [apply Rabs_triang|]. rewrite Rabs_mult. apply Rplus_le_compat; [|exact Hb].
  apply Rmult_le_compat_r; [apply Rabs_pos|]. unfold Rel. destruct (pow_pair p) as [P1 P2]. apply Rabs_le. lra.
Qed.
Lemma apw_one p : Apw (b64_ofZ 1) 1 1 p 0.
Proof.
  destruct (b64_ofZ_exact 1 ltac:(lia)) as [F1 E1]. pose proof (apw_exact _ p F1) as H. rewrite E1, Rabs_R1 in H. exact H.
Qed.

Section Grad64.
Context (ORDER q : Z) (coordinate : Z -> outcome b64) (x : Z -> b64).
Context (HO : (0 <= ORDER < INT_MAX)%Z) (Hq : (0 <= q <= 1000)%Z).
Context (Hp : forall k, (0 <= k < ORDER + 1)%Z -> coordinate k = Ok (x k)).
Context (Hf : forall k, (0 <= k < ORDER + 1)%Z -> is_finite (x k) = true /\ Rabs (B2R (x k)) <= 1).
Context (Hsep : forall i k, (0 <= i < ORDER + 1)%Z -> (0 <= k < ORDER + 1)%Z -> i <> k ->
  pow2 (- q) <= Rabs (B2R (x i) - B2R (x k))).
Context (Hb : ((ORDER + 2) * (q + 5) < 1024)%Z).
Let pts := zseq (Z.to_nat (ORDER + 1)).
Let X := fun k => B2R (x k).

Definition g64 (i a : Z) : b64 := if (i =? a)%Z then b64_ofZ 0 else d64 x i a.
Definition f64 (i a k : Z) (y : b64) : b64 := if (k =? a)%Z then b64_ofZ 1 else t64 x i k y.
Definition grad64 (i : Z) (y : b64) : b64 :=
  sum64 (fun a => Bmult mode_NE (g64 i a) (mulR (N := B64Num) (map (fun k => f64 i a k y) pts))) pts.

Lemma in_ptsg k : In k pts <-> (0 <= k < ORDER + 1)%Z.
Proof. unfold pts. rewrite in_zseq. lia. Qed.
Lemma length_ptsg : Z.of_nat (length pts) = (ORDER + 1)%Z.
Proof. unfold pts. rewrite zseq_length. lia. Qed.

Lemma lagrange_gradient64 i y : (0 <= i < ORDER + 1)%Z ->
  bgradient (lagrange_of B64Num ORDER coordinate) i y = Ok (grad64 i y).
Proof.
  intros Hi. cbn [bgradient lagrange_of]. unfold lagrange_gradient. rewrite nSupport_ok by exact HO. cbn [bind].
  rewrite exec_pack by lia. fold pts. rewrite (sequenceM_Ok pts _ (fun k => t64 x i k y)).
  2: { intros k Hk. apply (valueProductTerm64 ORDER q coordinate x); try assumption. now apply in_ptsg. }
  cbn [bind]. cbv zeta. apply (fold_add64 pts); [apply zseq_ne; lia|]. intros a Ha.
  rewrite exec_cons by lia. fold pts.
  assert (Eg : gradientOfValueTerm B64Num coordinate i a = Ok (g64 i a)).
  { unfold gradientOfValueTerm, g64. destruct (Z.eqb_spec i a) as [E|E]; [reflexivity|].
    apply in_ptsg in Ha. rewrite !Hp by assumption. reflexivity. }
  rewrite Eg. cbn [bind].
  rewrite (fold_mul64 pts _ (fun k => f64 i a k y)).
  - cbn [bind]. rewrite prod64_mulR. reflexivity.
  - apply zseq_ne. lia.
  - intros k Hk. unfold valueProductFactor, f64. destruct (Z.eqb_spec k a); [reflexivity|].
    unfold pts. apply (rd_map_zseq (fun k => t64 x i k y)). apply in_ptsg in Hk. lia.
Qed.

(** The factors. *)
Lemma apw_t64 i k y : (0 <= i < ORDER + 1)%Z -> (0 <= k < ORDER + 1)%Z -> i <> k -> InReference y ->
  Apw (t64 x i k y) (term X i k (B2R y)) (Rabs (term X i k (B2R y))) 4 eta.
Proof.
  intros Hi Hk Hne [Fy By]. destruct (t64_rel ORDER q coordinate x Hq Hp Hf Hsep i k y Hi Hk Hne Fy By) as (f & b & Bf & Bb & E).
  destruct (t64_bound ORDER q coordinate x Hq Hp Hf Hsep i k y Hi Hk Fy By) as [F _].
  apply (rel_of_pow _ _ f b); assumption.
Qed.
Lemma diff_bound i k : (0 <= i < ORDER + 1)%Z -> (0 <= k < ORDER + 1)%Z -> i <> k ->
  X i - X k <> 0 /\ Rabs (1 / (X i - X k)) <= pow2 q.
Proof.
  intros Hi Hk Hne. pose proof (Hsep i k Hi Hk Hne) as S. pose proof (bpow_gt_0 radix2 (- q)) as P.
  assert (D : X i - X k <> 0) by (intros E; unfold X in E; rewrite E, Rabs_R0 in S; lra).
  split; [exact D|]. unfold Rdiv. rewrite Rmult_1_l, Rabs_inv.
  replace (pow2 q) with (/ pow2 (- q)) by (rewrite bpow_opp; apply Rinv_inv). apply Rinv_le; assumption.
Qed.
Lemma term_bound i k y : (0 <= i < ORDER + 1)%Z -> (0 <= k < ORDER + 1)%Z -> Rabs y <= 1 ->
  Rabs (term X i k y) <= pow2 (q + 1).
Proof.
  intros Hi Hk By. unfold term. destruct (Z.eqb_spec i k) as [E|E].
  - rewrite Rabs_R1. change 1 with (pow2 0). apply bpow_le. lia.
  - destruct (diff_bound i k Hi Hk E) as [_ D]. rewrite Rabs_mult, Z.add_comm, bpow_plus.
    apply Rmult_le_compat; try apply Rabs_pos; [|exact D]. change (pow2 1) with 2.
    destruct (Hf k Hk) as [_ Bk]. apply Rabs_le_inv in By. apply Rabs_le_inv in Bk. unfold X. apply Rabs_le. lra.
Qed.
Lemma apw_d64 i k : (0 <= i < ORDER + 1)%Z -> (0 <= k < ORDER + 1)%Z -> i <> k ->
  Apw (d64 x i k) (dterm X i k) (Rabs (dterm X i k)) 2 0.
Proof.
  intros Hi Hk Hne.
  destruct (s64_ok ORDER q coordinate x Hq Hp Hf Hsep i k Hi Hk Hne) as (Fs & Es & L & B).
  destruct (d64_ok ORDER q coordinate x Hq Hp Hf Hsep i k Hi Hk Hne) as (Fd & Ed & Bd).
  destruct (rel_minus (B2R (x i)) (B2R (x k)) (fmt_B (x i)) (fmt_B (x k))) as (e2 & H2 & E2).
  destruct (diff_bound i k Hi Hk Hne) as [D0 _].
  pose proof u_pos as Up. pose proof u_small as Us.
  assert (U1 : 0 < u / (1 + u) < 1).
  { split; [apply Rdiv_lt_0_compat; lra|]. apply Rmult_lt_reg_r with (1 + u); [lra|].
    unfold Rdiv. rewrite Rmult_assoc, Rinv_l by lra. lra. }
  apply Rabs_le_inv in H2.
  assert (G : u / (1 + u) <= u).
  { apply Rmult_le_reg_r with (1 + u); [lra|]. unfold Rdiv. rewrite Rmult_assoc, Rinv_l by lra. nra. }
  destruct (rnd_rel (1 / B2R (s64 x i k))) as (e3 & H3 & E3).
  { unfold Rdiv. rewrite Rmult_1_l, Rabs_inv. rewrite (bpow_opp radix2 1022 : pow2 (-1022) = / pow2 1022).
    apply Rinv_le.
    - pose proof (bpow_gt_0 radix2 (- q)). lra.
    - apply Rle_trans with (1 := B). apply bpow_le. lia. }
  apply Rabs_le_inv in H3.
  assert (I2 : 1 - u <= / (1 + e2) <= 1 + u).
  { split.
    - apply Rmult_le_reg_r with (1 + e2); [lra|]. rewrite Rinv_l by lra. assert (e2 <= u) by lra. nra.
    - apply Rmult_le_reg_r with (1 + e2); [lra|]. rewrite Rinv_l by lra.
      apply Rle_trans with ((1 + u) * (1 - u / (1 + u))).
      + apply Req_le. field. lra.
      + apply Rmult_le_compat_l; lra. }
  split; [exact Fd|]. split; [|split; [lra|split; [apply Rel_nonneg|lra]]].
  unfold dterm. destruct (Z.eqb_spec i k); [contradiction|].
  rewrite Ed, E3, Es, E2. fold (X i) (X k). set (w := / (1 + e2)) in *.
  replace (1 / ((X i - X k) * (1 + e2)) * (1 + e3) - 1 / (X i - X k)) with ((w * (1 + e3) - 1) * (1 / (X i - X k))).
  - rewrite Rabs_mult, Rplus_0_r. apply Rmult_le_compat_r; [apply Rabs_pos|].
    unfold Rel. cbn [pow]. apply Rabs_le. split; nra.
  - unfold w. field. split; [exact D0|lra].
Qed.

Let eight : 8 * pow2 (q + 1) = pow2 (q + 4).
Proof. replace (q + 4)%Z with (3 + (q + 1))%Z by lia. rewrite (bpow_plus radix2 3). reflexivity. Qed.

Definition rfac (i a k : Z) (y : R) : R := if (k =? a)%Z then 1 else term X i k y.
Lemma rfac_bound i a k y : (0 <= i < ORDER + 1)%Z -> (0 <= k < ORDER + 1)%Z -> Rabs y <= 1 ->
  Rabs (rfac i a k y) <= pow2 (q + 1).
Proof.
  intros Hi Hk By. unfold rfac. destruct (k =? a)%Z; [|now apply term_bound].
  rewrite Rabs_R1. change 1 with (pow2 0). apply bpow_le. lia.
Qed.
Lemma product_apw i a y : (0 <= i < ORDER + 1)%Z -> (0 <= a < ORDER + 1)%Z -> InReference y ->
  Apw (mulR (N := B64Num) (map (fun k => f64 i a k y) pts)) (prodR (fun k => rfac i a k (B2R y)) pts)
    (prodR (fun k => Rabs (rfac i a k (B2R y))) pts)
    (Z.to_nat (if (i =? a)%Z then 5 * ORDER + 1 else 5 * ORDER - 3)) (pow2 ((q + 4) * ORDER - 1075)).
Proof.
  intros Hi Ha Hy. pose proof (proj2 Hy) as By.
  set (oth := fun j k => if (j =? k)%Z then 0%Z else 1%Z).
  assert (So : forall j, (0 <= j < ORDER + 1)%Z -> sumZ (oth j) pts = ORDER).
  { intros j Hj. unfold oth. rewrite sumZ_others by (unfold pts; apply NoDup_zseq). rewrite length_ptsg.
    destruct (in_dec Z.eq_dec j pts) as [|N]; [lia|]. exfalso. apply N. now apply in_ptsg. }
  set (c := fun k => (1 + 4 * (oth a k * oth i k))%Z).
  assert (Sc : sumZ c pts = if (i =? a)%Z then (5 * ORDER + 1)%Z else (5 * ORDER - 3)%Z).
  { assert (L : forall l, sumZ c l = (Z.of_nat (length l) + 4 * sumZ (fun k => oth a k * oth i k) l)%Z).
    { induction l as [|k l IH]; [reflexivity|]. cbn [sumZ length]. rewrite IH. unfold c. lia. }
    rewrite L, length_ptsg. destruct (Z.eqb_spec i a) as [<-|Hne].
    - replace (sumZ (fun k => oth i k * oth i k)%Z pts) with (sumZ (oth i) pts); [rewrite So by exact Hi; lia|].
      assert (W : forall k, (oth i k * oth i k = oth i k)%Z) by (intros k; unfold oth; destruct (i =? k)%Z; reflexivity).
      clear - W. induction pts as [|k l IH]; [reflexivity|]. cbn [sumZ]. rewrite <- IH, W. reflexivity.
    - assert (W : forall k, (oth a k * oth i k = oth a k + oth i k - 1)%Z)
        by (intros k; unfold oth; destruct (Z.eqb_spec a k), (Z.eqb_spec i k); lia).
      assert (E : forall l, sumZ (fun k => oth a k * oth i k)%Z l = (sumZ (oth a) l + sumZ (oth i) l - Z.of_nat (length l))%Z).
      { induction l as [|k l IH]; [reflexivity|]. cbn [sumZ length]. rewrite IH, W. lia. }
      rewrite E, !So, length_ptsg by assumption. lia. }
  pose proof eta_pos as Et. assert (Q1 : 1 <= pow2 (q + 1)) by (change 1 with (pow2 0); apply bpow_le; lia).
  assert (Fa := facs_map pts (fun k => f64 i a k y) (fun k => rfac i a k (B2R y)) (fun k => Rabs (rfac i a k (B2R y))) c (pow2 (q + 1)) eta).
  rewrite <- !prodR_list, <- Sc.
  replace (pow2 ((q + 4) * ORDER - 1075)) with ((8 * pow2 (q + 1)) ^ (length (map (fun k => f64 i a k y) pts) - 1) * eta).
  - apply (apw_mulR _ _ ((q + 4) * (ORDER + 1))).
    + exact Q1. + lra. + change 1 with (pow2 0). apply (bpow_le radix2 (-1075) 0). lia. + nia.
    + rewrite Sc. destruct (i =? a)%Z; nia.
    + apply Fa. intros k Hk. apply in_ptsg in Hk. split; [unfold c, oth; destruct (a =? k)%Z, (i =? k)%Z; lia|].
      split; [|now apply rfac_bound].
      unfold f64, rfac, c, oth. rewrite (Z.eqb_sym k a). destruct (Z.eqb_spec a k) as [E|E].
      * rewrite Rabs_R1. eapply apw_weaken; [apply (apw_one 0)|lra|lia|lra].
      * destruct (Z.eqb_spec i k) as [E'|E'].
        -- unfold t64, term. rewrite (proj2 (Z.eqb_eq i k) E'), Rabs_R1. eapply apw_weaken; [apply (apw_one 0)|lra|lia|lra].
        -- change (Z.to_nat (1 + 4 * (1 * 1) - 1)) with 4%nat. now apply apw_t64.
    + intros E. apply map_eq_nil in E. revert E. apply zseq_ne. lia.
    + rewrite map_length, eight, pow2_pow, length_ptsg. apply Rle_refl.
  - rewrite map_length, eight, pow2_pow, Nat2Z.inj_sub, length_ptsg.
    + change eta with (pow2 (-1075)). rewrite <- bpow_plus. f_equal. lia.
    + pose proof length_ptsg. lia.
Qed.

Lemma summand_apw i a y : (0 <= i < ORDER + 1)%Z -> (0 <= a < ORDER + 1)%Z -> InReference y ->
  Apw (Bmult mode_NE (g64 i a) (mulR (N := B64Num) (map (fun k => f64 i a k y) pts)))
    (dterm X i a * prodR (fun k => rfac i a k (B2R y)) pts)
    (Rabs (dterm X i a) * prodR (fun k => Rabs (rfac i a k (B2R y))) pts)
    (Z.to_nat (5 * ORDER)) (pow2 ((q + 4) * (ORDER + 1) - 1075)).
Proof.
  intros Hi Ha Hy. pose proof (product_apw i a y Hi Ha Hy) as P. pose proof eta_pos as Et.
  unfold g64. destruct (Z.eqb_spec i a) as [E|E].
  - unfold dterm. rewrite (proj2 (Z.eqb_eq i a) E), Rabs_R0, !Rmult_0_l.
    destruct (b64_ofZ_exact 0 ltac:(lia)) as [F0 E0]. destruct P as (Fp & _).
    destruct (B_mult (b64_ofZ 0) _ 0 F0 Fp) as (F & Ev & _); [lia|rewrite E0, Rmult_0_l, Rabs_R0; apply bpow_ge_0|].
    split; [exact F|]. rewrite Ev, E0, Rmult_0_l, rnd_0, Rminus_0_r, Rabs_R0.
    pose proof (Rel_nonneg (Z.to_nat (5 * ORDER))). pose proof (bpow_gt_0 radix2 ((q + 4) * (ORDER + 1) - 1075)).
    split; [lra|]. split; [lra|]. split; lra.
  - set (M := prodR (fun k => Rabs (rfac i a k (B2R y))) pts) in *.
    assert (MB : 0 <= M <= pow2 (q + 1) ^ length pts).
    { apply prodR_bound. intros k Hk. apply in_ptsg in Hk. split; [apply Rabs_pos|]. apply rfac_bound; [assumption|assumption|apply Hy]. }
    rewrite pow2_pow, length_ptsg in MB.
    assert (DB : Rabs (dterm X i a) <= pow2 q).
    { unfold dterm. destruct (Z.eqb_spec i a); [contradiction|]. now apply diff_bound. }
    pose proof (apw_d64 i a Hi Ha E) as HD. pose proof (Rabs_pos (dterm X i a)) as D0.
    set (dt := dterm X i a) in *. set (e := pow2 ((q + 4) * ORDER - 1075)) in *.
    assert (e0 : 0 < e) by apply bpow_gt_0.
    assert (QE : pow2 q * e * 4 <= pow2 ((q + 4) * (ORDER + 1) - 1075)).
    { unfold e. rewrite <- bpow_plus. change 4 with (pow2 2). rewrite <- bpow_plus. apply bpow_le. nia. }
    assert (Q0 : 1 <= pow2 q) by (change 1 with (pow2 0); apply bpow_le; lia).
    assert (ee : eta <= e) by (apply bpow_le; nia).
    eapply apw_weaken; [apply (apw_mult _ _ _ _ _ _ _ _ _ _ (1 + q + (q + 1) * (ORDER + 1) + 1) HD P)|lra| |].
    + nia. + lia. + nia.
    + rewrite Rplus_0_r. assert (e1 : e <= pow2 ((q + 1) * (ORDER + 1))) by (apply bpow_le; nia).
      replace (1 + q + (q + 1) * (ORDER + 1) + 1)%Z with (2 + q + (q + 1) * (ORDER + 1))%Z by lia.
      rewrite (bpow_plus radix2 (2 + q)), (bpow_plus radix2 2). change (pow2 2) with 4.
      set (Z1 := pow2 ((q + 1) * (ORDER + 1))) in *.
      apply Rle_trans with (5 / 4 * pow2 q * (9 / 4 * Z1)); [apply Rmult_le_compat; lra|].
      assert (0 <= pow2 q * Z1) by (apply Rmult_le_pos; lra). nra.
    + apply Nat2Z.inj_le. destruct (Z.eqb_spec i a); [contradiction|]. rewrite Nat2Z.inj_succ, Nat2Z.inj_add. lia.
    + eapply Rle_trans; [|exact QE]. rewrite Rmult_0_r, Rmult_0_l, !Rplus_0_r.
      assert (Rabs dt * e <= pow2 q * e) by (apply Rmult_le_compat_r; lra).
      assert (1 * e <= pow2 q * e) by (apply Rmult_le_compat_r; lra). lra.
Qed.

Definition gmag (i : Z) (y : R) : R := sumR (fun a => Rabs (dterm X i a) * prodR (fun k => Rabs (rfac i a k y)) pts) pts.
Lemma gmag_bound i y : (0 <= i < ORDER + 1)%Z -> Rabs y <= 1 ->
  0 <= gmag i y <= pow2 ((ORDER + 1) * (q + 2) + q).
Proof.
  intros Hi By. unfold gmag.
  assert (S : forall a, In a pts -> 0 <= Rabs (dterm X i a) * prodR (fun k => Rabs (rfac i a k y)) pts <= pow2 (q + (q + 1) * (ORDER + 1))).
  { intros a Ha. apply in_ptsg in Ha.
    assert (MB : 0 <= prodR (fun k => Rabs (rfac i a k y)) pts <= pow2 (q + 1) ^ length pts).
    { apply prodR_bound. intros k Hk. apply in_ptsg in Hk. split; [apply Rabs_pos|]. now apply rfac_bound. }
    rewrite pow2_pow, length_ptsg in MB. rewrite bpow_plus.
    assert (DB : Rabs (dterm X i a) <= pow2 q).
    { unfold dterm. destruct (Z.eqb_spec i a) as [E|E]; [rewrite Rabs_R0; apply bpow_ge_0|]. now apply diff_bound. }
    pose proof (Rabs_pos (dterm X i a)). split; [apply Rmult_le_pos; lra|apply Rmult_le_compat; lra]. }
  split; [apply sumR_nonneg; intros a Ha; now apply S|].
  eapply Rle_trans; [apply sumR_bound; intros a Ha; apply (proj2 (S a Ha))|].
  replace ((ORDER + 1) * (q + 2) + q)%Z with (ORDER + 1 + (q + (q + 1) * (ORDER + 1)))%Z by lia.
  rewrite (bpow_plus radix2 (ORDER + 1)). apply Rmult_le_compat_r; [apply bpow_ge_0|].
  pose proof (INR_pow2 (length pts)) as L. rewrite length_ptsg in L. exact L.
Qed.

Lemma gradient_apw i y : (0 <= i < ORDER + 1)%Z -> InReference y ->
  Apw (grad64 i y) (lgrad1 ORDER X i (B2R y)) (gmag i (B2R y)) (Z.to_nat (6 * ORDER + 1))
    (pow2 (-1074 + (ORDER + 1) * (q + 5))).
Proof.
  intros Hi Hy. pose proof (gmag_bound i (B2R y) Hi (proj2 Hy)) as [G0 G1].
  set (e := pow2 ((q + 4) * (ORDER + 1) - 1075)).
  assert (e0 : 0 < e) by apply bpow_gt_0.
  assert (L1 : (1 + u) ^ length pts <= 2).
  { pose proof (Rel_small (length pts)) as R. rewrite length_ptsg in R. specialize (R ltac:(nia)). unfold Rel in R. lra. }
  assert (P0 : 0 < (1 + u) ^ length pts) by (apply pow_lt; pose proof u_pos; lra).
  assert (EB : (1 + u) ^ length pts * (INR (length pts) * e) <= pow2 (-1074 + (ORDER + 1) * (q + 5))).
  { replace (-1074 + (ORDER + 1) * (q + 5))%Z with (1 + (ORDER + 1 + ((q + 4) * (ORDER + 1) - 1075)))%Z by lia.
    rewrite (bpow_plus radix2 1), (bpow_plus radix2 (ORDER + 1)). fold e. change (pow2 1) with 2.
    pose proof (INR_pow2 (length pts)) as L. rewrite length_ptsg in L. pose proof (pos_INR (length pts)).
    apply Rmult_le_compat; [lra|apply Rmult_le_pos; lra|exact L1|]. apply Rmult_le_compat_r; lra. }
  assert (Hn : (Z.to_nat (5 * ORDER) + length pts = Z.to_nat (6 * ORDER + 1))%nat) by (pose proof length_ptsg; lia).
  pose proof (apw_sum64 (fun a => Bmult mode_NE (g64 i a) (mulR (N := B64Num) (map (fun k => f64 i a k y) pts)))
    (fun a => dterm X i a * prodR (fun k => rfac i a k (B2R y)) pts)
    (fun a => Rabs (dterm X i a) * prodR (fun k => Rabs (rfac i a k (B2R y))) pts)
    (Z.to_nat (5 * ORDER)) e ((ORDER + 2) * (q + 5)) pts) as A.
  rewrite Hn in A. eapply apw_weaken; [apply A|apply Rle_refl|lia|exact EB].
  - nia.
  - apply zseq_ne. lia.
  - intros a Ha. apply in_ptsg in Ha. now apply summand_apw.
  - fold (gmag i (B2R y)). pose proof (Rel_small (Z.to_nat (6 * ORDER + 1)) ltac:(nia)) as R.
    pose proof (Rel_nonneg (Z.to_nat (6 * ORDER + 1))) as R0.
    set (Z1 := pow2 ((ORDER + 1) * (q + 2) + q)) in *.
    assert (Z4 : 4 * Z1 <= pow2 ((ORDER + 2) * (q + 5))).
    { unfold Z1. change 4 with (pow2 2). rewrite <- bpow_plus. apply bpow_le. nia. }
    assert (ZE : pow2 (-1074 + (ORDER + 1) * (q + 5)) <= Z1) by (apply bpow_le; nia).
    assert ((1 + Rel (Z.to_nat (6 * ORDER + 1))) * gmag i (B2R y) <= 5 / 4 * Z1) by (apply Rmult_le_compat; lra).
    lra.
Qed.

Lemma gmag_size i y : (0 <= i < ORDER + 1)%Z -> gmag i y = gradient_size (ORDER + 1) X i y.
Proof.
  intros Hi. unfold gradient_size. rewrite Zsum_sumR. fold pts. unfold gmag. apply sumR_ext. intros a Ha. apply in_ptsg in Ha.
  unfold dterm. rewrite (Z.eqb_sym a i). destruct (Z.eqb_spec i a) as [E|E]; [rewrite Rabs_R0; ring|].
  unfold Rdiv at 1. rewrite Rmult_1_l, Rabs_inv. f_equal. unfold Zprod. fold pts. rewrite prodR_list. apply prodR_ext.
  intros k Hk. unfold rfac, term. rewrite (Z.eqb_sym k i). destruct (k =? a)%Z; [apply Rabs_R1|]. cbn [orb].
  destruct (i =? k)%Z; [apply Rabs_R1|]. f_equal. unfold Rdiv. ring.
Qed.
End Grad64.

Lemma gradient64_lemma ORDER q coordinate x i y :
  (0 <= ORDER < INT_MAX)%Z -> (0 <= q <= 1000)%Z -> ((ORDER + 2) * (q + 5) < 1024)%Z ->
  Points64 coordinate (ORDER + 1) x -> Separated q (ORDER + 1) x ->
  (0 <= i < ORDER + 1)%Z -> InReference y ->
  exists g dphi, bgradient (lagrange_of B64Num ORDER coordinate) i y = Ok g /\
    bgradient (lagrange_of RNum ORDER (fun k => Ok (B2R (x k)))) i (B2R y) = Ok dphi /\
    is_finite g = true /\
    Rabs (B2R g - dphi) <= IZR (6 * ORDER + 2) * pow2 (-53) * gradient_size (ORDER + 1) (fun k => B2R (x k)) i (B2R y)
      + pow2 (-1074 + (ORDER + 1) * (q + 5)).
Proof.
  intros HO Hq Hb Hp [Hf Hs] Hi Hy.
  exists (grad64 ORDER x i y), (lgrad1 ORDER (fun k => B2R (x k)) i (B2R y)).
  split; [now apply (lagrange_gradient64 ORDER q)|]. split.
  { apply lagrange_gradient_ok; [exact HO| | |exact Hi].
    - intros k Hk. reflexivity.
    - intros a b Ha Hb' E. destruct (Z.eq_dec a b) as [|Hne]; [assumption|].
      pose proof (Hs a b Ha Hb' Hne) as S. cbv beta in E. rewrite E in S.
      rewrite Rminus_diag_eq, Rabs_R0 in S by reflexivity. pose proof (bpow_gt_0 radix2 (- q)). lra. }
  pose proof (gradient_apw ORDER q coordinate x HO Hq Hp Hf Hs Hb i y Hi Hy) as (F & E & _).
  assert (GS : gmag ORDER x i (B2R y) = gradient_size (ORDER + 1) (fun k => B2R (x k)) i (B2R y)) by (eapply gmag_size; eassumption).
  split; [exact F|]. eapply Rle_trans; [exact E|]. apply Rplus_le_compat_r.
  rewrite GS. apply Rmult_le_compat_r.
  - rewrite <- GS. eapply gmag_bound; eassumption || apply Hy.
  - pose proof (Rel_upper (Z.to_nat (6 * ORDER + 1)) ltac:(nia)) as R. eapply Rle_trans; [exact R|].
    apply Req_le. f_equal. rewrite INR_IZR_INZ, Z2Nat.id by lia. rewrite <- plus_IZR. f_equal. lia.
Qed.
Lemma bundled_gradient64_lemma s ORDER i y : supported64 s ORDER -> (ORDER <= 15)%Z ->
  (0 <= i < ORDER + 1)%Z -> InReference y ->
  exists x g dphi, Points64 (coord_ct B64Num s (ORDER + 1)) (ORDER + 1) x /\
    bgradient (LagrangeBasis B64Num ORDER s) i y = Ok g /\
    bgradient (lagrange_of RNum ORDER (fun k => Ok (B2R (x k)))) i (B2R y) = Ok dphi /\
    is_finite g = true /\
    Rabs (B2R g - dphi) <= IZR (6 * ORDER + 2) * pow2 (-53) * gradient_size (ORDER + 1) (fun k => B2R (x k)) i (B2R y)
      + pow2 (-930).
Proof.
  intros H HO15 Hi Hy. destruct (bundled_nodes64 s ORDER H) as (q & x & HO & Hq & Hb & Q4 & P & S).
  specialize (Q4 HO15). subst q.
  destruct (gradient64_lemma ORDER 4 (fun i => n <- nSupport ORDER ;; coord_ct B64Num s n i) x i y)
    as (v & phi & Ev & Ep & F & B).
  - exact HO. - lia. - lia.
  - intros k Hk. rewrite LagrangeBasis_coordinate by exact HO. now apply P.
  - exact S. - exact Hi. - exact Hy.
  - exists x, v, phi. split; [exact P|]. split; [exact Ev|]. split; [exact Ep|]. split; [exact F|].
    eapply Rle_trans; [exact B|]. apply Rplus_le_compat_l. apply bpow_le. lia.
Qed.
