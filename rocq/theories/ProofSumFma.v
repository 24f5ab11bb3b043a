(** Error propagation through the sums and products of tensor-product elements, with contraction. *)
From Coq Require Import ZArith Reals Bool List Lia Lra Psatz.
From Flocq Require Import Core IEEE754.BinarySingleNaN.
From Verif Require Import Base ProofBase Num ModelB64 ModelFma ProofPoly ProofB64 ProofErr64 ProofErrFma ProofLagrange64 ProofGeneric ProofSum64.
Local Open Scope R_scope.
Notation Fpw x r A p e := (Fap x r A (Rel p) e).
Section C.
Context (c : contraction).

Lemma fpw_weaken x r A p e A' p' e' : Fpw x r A p e -> A <= A' -> (p <= p')%nat -> e <= e' -> Fpw x r A' p' e'.
Proof. intros H HA Hp He. eapply fap_weaken; [exact H|exact HA|now apply Rel_mono|exact He]. Qed.
Lemma fpw_exact x p : Plain x -> is_finite (cval x) = true -> Fpw x (CR x) (Rabs (CR x)) p 0.
Proof. intros Px F. eapply fap_weaken; [now apply fap_exact|lra|apply Rel_nonneg|lra]. Qed.
Lemma fap_nonneg x r A g e : Fap x r A g e -> 0 <= A /\ 0 <= e.
Proof. intros [(_ & _ & H & _ & He) _]. pose proof (Rabs_pos r). lra. Qed.

Lemma fpw_mult x y r s A B p q e f k : App (cval x) r A (Rel p) e -> App (cval y) s B (Rel q) f -> (-1074 <= k < 1024)%Z ->
  (Z.of_nat p < 2 ^ 26)%Z -> (Z.of_nat q < 2 ^ 26)%Z ->
  (5 / 4 * A + e) * (5 / 4 * B + f) <= pow2 k ->
  Fpw (cmul x y) (r * s) (A * B) (S (p + q)) (2 * (A * f + B * e + e * f) + eta).
Proof.
  intros Hx Hy Hk Hp Hq Hb. pose proof (app_nonneg _ _ _ _ _ Hx) as [A0 e0]. pose proof (app_nonneg _ _ _ _ _ Hy) as [B0 f0].
  pose proof (Rel_small p Hp) as P. pose proof (Rel_small q Hq) as Q. pose proof (Rel_nonneg p). pose proof (Rel_nonneg q).
  assert (PA : (1 + Rel p) * A <= 5 / 4 * A) by (apply Rmult_le_compat_r; lra).
  assert (QB : (1 + Rel q) * B <= 5 / 4 * B) by (apply Rmult_le_compat_r; lra).
  assert (0 <= (1 + Rel p) * A) by (apply Rmult_le_pos; lra). assert (0 <= (1 + Rel q) * B) by (apply Rmult_le_pos; lra).
  assert (AM := fap_mult x y r s A B (Rel p) (Rel q) e f k Hx Hy Hk).
  assert (E : (1 + Rel p) * (1 + Rel q) * (1 + u) - 1 = Rel (S (p + q))) by (rewrite Rel_add, Rel_S; ring).
  rewrite E in AM. eapply fap_weaken; [apply AM|lra|lra|].
  - eapply Rle_trans; [|exact Hb]. apply Rmult_le_compat; lra.
  - pose proof u_pos. pose proof u_small. apply Rplus_le_compat_r.
    assert (I1 : (1 + Rel p) * A * f <= 5 / 4 * (A * f)) by (rewrite <- Rmult_assoc; apply Rmult_le_compat_r; lra).
    assert (I2 : (1 + Rel q) * B * e <= 5 / 4 * (B * e)) by (rewrite <- Rmult_assoc; apply Rmult_le_compat_r; lra).
    assert (0 <= A * f) by (apply Rmult_le_pos; lra). assert (0 <= B * e) by (apply Rmult_le_pos; lra).
    assert (0 <= e * f) by (apply Rmult_le_pos; lra).
    set (a := A * f) in *. set (b := B * e) in *. set (d := e * f) in *.
    apply Rle_trans with ((1 + u) * (5 / 4 * a + 5 / 4 * b + d)); [apply Rmult_le_compat_l; lra|]. nra.
Qed.

Lemma fpw_plus x y r s A B p e f k : Fpw x r A p e -> Fpw y s B p f -> (-1074 <= k < 1024)%Z ->
  (1 + Rel p) * (A + B) + e + f <= pow2 k ->
  Fpw (cadd c x y) (r + s) (A + B) (S p) ((1 + u) * (e + f + eta)).
Proof.
  intros Hx Hy Hk Hb. assert (AP := fap_plus c x y r s A B (Rel p) (Rel p) e f k Hx Hy Hk eq_refl Hb).
  replace ((1 + Rel p) * (1 + u) - 1) with (Rel (S p)) in AP by (rewrite Rel_S; ring). exact AP.
Qed.

(** * Sums from the left *)
Section Sums.
Context {B : Type} (f : B -> cdouble) (r A : B -> R) (p : nat) (e d : R) (Hd : e + eta <= d) (k : Z) (Hk : (-1074 <= k < 1024)%Z).

Lemma fpw_addL l : forall n acc r0 A0 e0,
  Fpw acc r0 A0 (p + n) e0 -> (forall t, In t l -> Fpw (f t) (r t) (A t) p e) ->
  (1 + Rel (p + n + length l)) * (A0 + sumR A l) + (1 + u) ^ length l * (e0 + INR (length l) * d) <= pow2 k ->
  Fpw (addL (N := FmaNum c) f l acc) (r0 + sumR r l) (A0 + sumR A l) (p + n + length l)
    ((1 + u) ^ length l * (e0 + INR (length l) * d)).
Proof.
  induction l as [|t l IH]; intros n acc r0 A0 e0 Ha Hf Hb.
  - cbn [length pow INR]. unfold sumR; cbn [fold_right]. rewrite Nat.add_0_r.
    replace (1 * (e0 + 0 * d)) with e0 by ring. replace (r0 + 0) with r0 by ring. replace (A0 + 0) with A0 by ring. exact Ha.
  - change (addL (N := FmaNum c) f (t :: l) acc) with (addL (N := FmaNum c) f l (cadd c acc (f t))).
    pose proof (Hf t (or_introl eq_refl)) as Ht.
    pose proof (fap_nonneg _ _ _ _ _ Ha) as [A00 e00]. pose proof (fap_nonneg _ _ _ _ _ Ht) as [At0 et0].
    assert (SA : 0 <= sumR A l).
    { clear - Hf. induction l as [|b l IH]; [cbn; lra|]. rewrite sumR_cons.
      pose proof (fap_nonneg _ _ _ _ _ (Hf b (or_intror (or_introl eq_refl)))) as [H _].
      assert (0 <= sumR A l); [|lra]. apply IH. intros s [<-|Hs]; apply Hf; [now left|right; now right]. }
    rewrite !sumR_cons in *. cbn [length] in *. rewrite S_INR in *.
    pose proof u_pos as Up. pose proof eta_pos as Et. pose proof (pos_INR (length l)) as Ln.
    assert (PW : 1 <= (1 + u) ^ length l) by (apply pow_R1_Rle; lra).
    assert (Le : 0 <= INR (length l) * d) by (apply Rmult_le_pos; lra).
    assert (Hstep : (1 + Rel (p + n)) * (A0 + A t) + e0 + e <= pow2 k).
    { eapply Rle_trans; [|exact Hb]. pose proof (Rel_nonneg (p + n)).
      assert (M : Rel (p + n) <= Rel (p + n + S (length l))) by (apply Rel_mono; lia).
      assert ((1 + Rel (p + n)) * (A0 + A t) <= (1 + Rel (p + n + S (length l))) * (A0 + (A t + sumR A l))) by (apply Rmult_le_compat; lra).
      assert (1 * (e0 + d) <= (1 + u) ^ S (length l) * (e0 + (INR (length l) + 1) * d)).
      { apply Rmult_le_compat; [lra|lra|apply pow_R1_Rle; lra|]. lra. }
      lra. }
    assert (Hp1 : Fpw (cadd c acc (f t)) (r0 + r t) (A0 + A t) (p + S n) ((1 + u) * (e0 + d))).
    { replace (p + S n)%nat with (S (p + n)) by lia. eapply fpw_weaken; [apply (fpw_plus acc (f t) r0 (r t) A0 (A t) (p + n) e0 e k Ha); [|exact Hk|exact Hstep]|lra|lia|].
      - eapply fpw_weaken; [exact Ht|lra|lia|lra].
      - apply Rmult_le_compat_l; lra. }
    assert (L : (1 + u) ^ length l * ((1 + u) * (e0 + d) + INR (length l) * d)
      <= (1 + u) ^ S (length l) * (e0 + (INR (length l) + 1) * d)).
    { cbn [pow]. set (P := (1 + u) ^ length l) in *.
      replace ((1 + u) * P * (e0 + (INR (length l) + 1) * d)) with (P * ((1 + u) * (e0 + d) + (1 + u) * (INR (length l) * d))) by ring.
      apply Rmult_le_compat_l; [lra|]. assert (0 <= u * (INR (length l) * d)) by (apply Rmult_le_pos; lra). lra. }
    replace (r0 + (r t + sumR r l)) with (r0 + r t + sumR r l) by ring.
    replace (A0 + (A t + sumR A l)) with (A0 + A t + sumR A l) by ring.
    replace (p + n + S (length l))%nat with (p + S n + length l)%nat in * by lia.
    eapply fpw_weaken; [apply (IH (S n) _ _ _ _ Hp1)|lra|lia|exact L].
    + intros s Hs. apply Hf. now right.
    + eapply Rle_trans; [|exact Hb]. replace (A0 + (A t + sumR A l)) with (A0 + A t + sumR A l) by ring. lra.
Qed.
End Sums.

(** * Sums from the right *)
Fixpoint sumC {B} (f : B -> cdouble) (l : list B) : cdouble :=
  match l with
  | [] => plain (b64_ofZ 0)
  | a :: l' => match l' with [] => f a | _ => cadd c (f a) (sumC f l') end
  end.
Lemma fpw_sumC {B} (f : B -> cdouble) (r A : B -> R) p e d k l : e + eta <= d -> (-1074 <= k < 1024)%Z -> l <> [] ->
  (forall t, In t l -> Fpw (f t) (r t) (A t) p e) ->
  (1 + Rel (p + length l)) * sumR A l + (1 + u) ^ length l * (INR (length l) * d) <= pow2 k ->
  Fpw (sumC f l) (sumR r l) (sumR A l) (p + length l) ((1 + u) ^ length l * (INR (length l) * d)).
Proof.
  intros Hd Hk. pose proof u_pos as Up. pose proof eta_pos as Et. induction l as [|a l IH]; intros Hne Hf Hb; [congruence|].
  pose proof (Hf a (or_introl eq_refl)) as Ha. pose proof (fap_nonneg _ _ _ _ _ Ha) as [Aa0 e0].
  destruct l as [|b l].
  - cbn [sumC]. rewrite !sumR_cons. unfold sumR at 1 2. cbn [fold_right length pow INR].
    replace (r a + 0) with (r a) by ring. replace (A a + 0) with (A a) by ring.
    eapply fpw_weaken; [exact Ha|lra|lia|nra].
  - assert (Hf' : forall t, In t (b :: l) -> Fpw (f t) (r t) (A t) p e) by (intros t Ht; apply Hf; now right).
    assert (SA : 0 <= sumR A (b :: l)) by (apply sumR_nonneg; intros t Ht; exact (proj1 (fap_nonneg _ _ _ _ _ (Hf' t Ht)))).
    change (sumC f (a :: b :: l)) with (cadd c (f a) (sumC f (b :: l))).
    rewrite (sumR_cons r a), (sumR_cons A a) in *. change (length (a :: b :: l)) with (S (length (b :: l))) in *. rewrite S_INR in *.
    set (n := length (b :: l)) in *. pose proof (pos_INR n) as Ln.
    assert (PW : 1 <= (1 + u) ^ n) by (apply pow_R1_Rle; lra).
    assert (Le : 0 <= INR n * d) by (apply Rmult_le_pos; lra).
    assert (PLe : 0 <= (1 + u) ^ n * (INR n * d)) by (apply Rmult_le_pos; lra).
    assert (M : Rel (p + n) <= Rel (p + S n)) by (apply Rel_mono; lia). pose proof (Rel_nonneg (p + n)).
    assert (Q : (1 + u) ^ n * (INR n * d) + d <= (1 + u) ^ S n * ((INR n + 1) * d)).
    { cbn [pow]. set (P := (1 + u) ^ n) in *. set (q := INR n * d) in *.
      replace ((1 + u) * P * ((INR n + 1) * d)) with ((1 + u) * P * q + (1 + u) * P * d) by (unfold q; ring).
      assert (P * q <= (1 + u) * P * q).
      { apply Rmult_le_compat_r; [exact Le|]. nra. }
      assert (1 * d <= (1 + u) * P * d) by (apply Rmult_le_compat_r; [lra|]; nra). lra. }
    assert (Hb' : (1 + Rel (p + n)) * sumR A (b :: l) + (1 + u) ^ n * (INR n * d) <= pow2 k).
    { eapply Rle_trans; [|exact Hb].
      assert ((1 + Rel (p + n)) * sumR A (b :: l) <= (1 + Rel (p + S n)) * (A a + sumR A (b :: l))) by (apply Rmult_le_compat; lra).
      lra. }
    specialize (IH ltac:(discriminate) Hf' Hb').
    replace (p + S n)%nat with (S (p + n)) in * by lia.
    eapply fpw_weaken; [eapply (fpw_plus _ _ _ _ _ _ (p + n) e _ k); [eapply fpw_weaken; [exact Ha|apply Rle_refl|lia|apply Rle_refl]|exact IH|exact Hk|]|lra|lia|].
    + eapply Rle_trans; [|exact Hb].
      assert ((1 + Rel (p + n)) * (A a + sumR A (b :: l)) <= (1 + Rel (S (p + n))) * (A a + sumR A (b :: l))) by (apply Rmult_le_compat_r; lra).
      lra.
    + cbn [pow]. set (P := (1 + u) ^ n) in *. set (q := INR n * d) in *.
      replace ((1 + u) * P * ((INR n + 1) * d)) with ((1 + u) * (P * d + P * q)) by (unfold q; ring).
      apply Rmult_le_compat_l; [lra|]. assert (1 * d <= P * d) by (apply Rmult_le_compat_r; lra). lra.
Qed.


(** * Products *)
Lemma cval_mulR vs : cval (mulR (N := FmaNum c) vs) = mulR (N := B64Num) (map cval vs).
Proof.
  induction vs as [|a vs IH]; [reflexivity|]. destruct vs as [|b vs]; [reflexivity|].
  change (cval (mulR (N := FmaNum c) (a :: b :: vs))) with (Bmult mode_NE (cval a) (cval (mulR (N := FmaNum c) (b :: vs)))).
  rewrite IH. reflexivity.
Qed.
(** The exact product of two factors, one of them 0. *)
Lemma fap_zero x y A g e : CR x = 0 -> is_finite (cval x) = true -> is_finite (cval y) = true -> 0 <= A -> 0 <= g -> 0 <= e ->
  Fap (cmul x y) 0 A g e.
Proof.
  intros Z Fx Fy HA Hg He.
  assert (0 <= g * A) by now apply Rmult_le_pos.
  destruct (B_mult (cval x) (cval y) 0 Fx Fy) as (F & Ev & _); [lia|rewrite Z, Rmult_0_l, Rabs_R0; apply bpow_ge_0|].
  split.
  - split; [exact F|]. cbn [cmul cval]. rewrite Ev, Z, Rmult_0_l, rnd_0, Rminus_0_r, Rabs_R0. lra.
  - intros a b E. cbn [cmul cprod] in E. injection E as <- <-. split; [exact Fx|]. split; [exact Fy|].
    rewrite Z, Rmult_0_l, Rminus_0_r, Rabs_R0. lra.
Qed.
End C.
