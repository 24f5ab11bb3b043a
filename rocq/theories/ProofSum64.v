(** Error propagation through the sums and products of tensor-product elements. *)
From Coq Require Import ZArith Reals Bool List Lia Lra Psatz.
From Flocq Require Import Core IEEE754.BinarySingleNaN.
From Verif Require Import Base ProofBase Num ModelB64 ProofPoly ProofB64 ProofErr64 ProofLagrange64 ProofGeneric.
Local Open Scope R_scope.

(** The relative error of [p] roundings. *)
Definition Rel (p : nat) : R := (1 + u) ^ p - 1.
Lemma Rel_nonneg p : 0 <= Rel p.
Proof. unfold Rel. destruct (pow_pair p) as [_ [_ H]]. lra. Qed.
Lemma Rel_mono p q : (p <= q)%nat -> Rel p <= Rel q.
Proof. intros H. unfold Rel. pose proof u_pos. assert ((1 + u) ^ p <= (1 + u) ^ q) by (apply Rle_pow; [lra|exact H]). lra. Qed.
Lemma Rel_add p q : (1 + Rel p) * (1 + Rel q) = 1 + Rel (p + q).
Proof. unfold Rel. rewrite pow_add. ring. Qed.
Lemma Rel_S p : (1 + Rel p) * (1 + u) = 1 + Rel (S p).
Proof. unfold Rel. cbn [pow]. ring. Qed.
Lemma Rel_0 : Rel 0 = 0.
Proof. unfold Rel. cbn. ring. Qed.
(** Bernoulli. *)
Lemma Rel_lower p : INR p * u <= Rel p.
Proof.
  unfold Rel. pose proof u_pos. induction p as [|p IH]; [cbn; lra|]. rewrite S_INR. cbn [pow].
  pose proof (pos_INR p). assert (1 + INR p * u <= (1 + u) ^ p) by lra.
  assert (0 <= INR p * u * u) by (repeat apply Rmult_le_pos; lra). nra.
Qed.
(** For fewer than 2^26 roundings. *)
Lemma Rel_upper p : (Z.of_nat p < 2 ^ 26)%Z -> Rel p <= (INR p + 1) * u.
Proof.
  intros H. pose proof u_pos as Up. assert (Hp : 0 <= INR p <= 67108863).
  { rewrite INR_IZR_INZ. split; [apply (IZR_le 0); lia|apply IZR_le; lia]. }
  assert (Uv := u_val). assert (S : INR p * u <= / 100000).
  { apply Rle_trans with (67108863 * u); [apply Rmult_le_compat_r; lra|]. rewrite Uv. lra. }
  pose proof (pow_hi p) as PH. rewrite <- INR_IZR_INZ in PH. specialize (PH ltac:(lra)). unfold Rel.
  destruct (pow_pair p) as [_ [_ H1]]. set (h := (1 + u) ^ p) in *.
  assert (Q : INR p * (INR p + 1) * u <= 1).
  { apply Rle_trans with (67108863 * 67108864 * u); [|rewrite Uv; lra]. apply Rmult_le_compat_r; [lra|].
    apply Rmult_le_compat; lra. }
  destruct (Rle_or_lt (h - 1) ((INR p + 1) * u)) as [|C]; [assumption|]. exfalso.
  assert (L : (1 + (INR p + 1) * u) * (1 - INR p * u) < h * (1 - INR p * u)) by (apply Rmult_lt_compat_r; lra).
  assert (0 <= u * (1 - INR p * (INR p + 1) * u)) by (apply Rmult_le_pos; lra). nra.
Qed.
Lemma Rel_small p : (Z.of_nat p < 2 ^ 26)%Z -> 1 + Rel p <= 5 / 4.
Proof.
  intros H. pose proof (Rel_upper p H). assert (INR p + 1 <= 67108864).
  { rewrite INR_IZR_INZ. rewrite <- plus_IZR. apply IZR_le. lia. }
  pose proof u_pos. assert ((INR p + 1) * u <= 67108864 * u) by (apply Rmult_le_compat_r; lra). rewrite u_val in *. lra.
Qed.

Notation Apw x r A p e := (App x r A (Rel p) e).

Lemma apw_weaken x r A p e A' p' e' : Apw x r A p e -> A <= A' -> (p <= p')%nat -> e <= e' -> Apw x r A' p' e'.
Proof. intros H HA Hp He. eapply app_weaken; [exact H|exact HA|now apply Rel_mono|exact He]. Qed.
Lemma apw_exact x p : is_finite x = true -> Apw x (B2R x) (Rabs (B2R x)) p 0.
Proof. intros F. eapply app_weaken; [now apply app_exact|lra|apply Rel_nonneg|lra]. Qed.
Lemma app_nonneg x r A g e : App x r A g e -> 0 <= A /\ 0 <= e.
Proof. intros (_ & _ & H & _ & He). pose proof (Rabs_pos r). lra. Qed.

Lemma apw_mult x y r s A B p q e f k : Apw x r A p e -> Apw y s B q f -> (-1074 <= k < 1024)%Z ->
  (Z.of_nat p < 2 ^ 26)%Z -> (Z.of_nat q < 2 ^ 26)%Z ->
  (5 / 4 * A + e) * (5 / 4 * B + f) <= pow2 k ->
  Apw (Bmult mode_NE x y) (r * s) (A * B) (S (p + q)) (2 * (A * f + B * e + e * f) + eta).
Proof.
  intros Hx Hy Hk Hp Hq Hb. pose proof (app_nonneg _ _ _ _ _ Hx) as [A0 e0]. pose proof (app_nonneg _ _ _ _ _ Hy) as [B0 f0].
  pose proof (Rel_small p Hp) as P. pose proof (Rel_small q Hq) as Q. pose proof (Rel_nonneg p). pose proof (Rel_nonneg q).
  assert (PA : (1 + Rel p) * A <= 5 / 4 * A) by (apply Rmult_le_compat_r; lra).
  assert (QB : (1 + Rel q) * B <= 5 / 4 * B) by (apply Rmult_le_compat_r; lra).
  assert (0 <= (1 + Rel p) * A) by (apply Rmult_le_pos; lra). assert (0 <= (1 + Rel q) * B) by (apply Rmult_le_pos; lra).
  assert (AM := app_mult x y r s A B (Rel p) (Rel q) e f k Hx Hy Hk).
  assert (E : (1 + Rel p) * (1 + Rel q) * (1 + u) - 1 = Rel (S (p + q))) by (rewrite Rel_add, Rel_S; ring).
  rewrite E in AM. eapply app_weaken; [apply AM|lra|lra|].
  - eapply Rle_trans; [|exact Hb]. apply Rmult_le_compat; lra.
  - pose proof u_pos. pose proof u_small. apply Rplus_le_compat_r.
    assert (I1 : (1 + Rel p) * A * f <= 5 / 4 * (A * f)) by (rewrite <- Rmult_assoc; apply Rmult_le_compat_r; lra).
    assert (I2 : (1 + Rel q) * B * e <= 5 / 4 * (B * e)) by (rewrite <- Rmult_assoc; apply Rmult_le_compat_r; lra).
    assert (0 <= A * f) by (apply Rmult_le_pos; lra). assert (0 <= B * e) by (apply Rmult_le_pos; lra).
    assert (0 <= e * f) by (apply Rmult_le_pos; lra).
    set (a := A * f) in *. set (b := B * e) in *. set (c := e * f) in *.
    apply Rle_trans with ((1 + u) * (5 / 4 * a + 5 / 4 * b + c)); [apply Rmult_le_compat_l; lra|]. nra.
Qed.

Lemma apw_plus x y r s A B p e f k : Apw x r A p e -> Apw y s B p f -> (-1074 <= k < 1024)%Z ->
  (1 + Rel p) * (A + B) + e + f <= pow2 k ->
  Apw (Bplus mode_NE x y) (r + s) (A + B) (S p) ((1 + u) * (e + f)).
Proof.
  intros Hx Hy Hk Hb. assert (AP := app_plus x y r s A B (Rel p) (Rel p) e f k Hx Hy Hk eq_refl Hb).
  replace ((1 + Rel p) * (1 + u) - 1) with (Rel (S p)) in AP by (rewrite Rel_S; ring). exact AP.
Qed.

(** * Sums from the left *)
Section Sums.
Context {B : Type} (f : B -> b64) (r A : B -> R) (p : nat) (e : R) (k : Z) (Hk : (-1074 <= k < 1024)%Z).

Lemma apw_addL l : forall n acc r0 A0 e0,
  Apw acc r0 A0 (p + n) e0 -> (forall t, In t l -> Apw (f t) (r t) (A t) p e) ->
  (1 + Rel (p + n + length l)) * (A0 + sumR A l) + (1 + u) ^ length l * (e0 + INR (length l) * e) <= pow2 k ->
  Apw (addL (N := B64Num) f l acc) (r0 + sumR r l) (A0 + sumR A l) (p + n + length l)
    ((1 + u) ^ length l * (e0 + INR (length l) * e)).
Proof.
  induction l as [|t l IH]; intros n acc r0 A0 e0 Ha Hf Hb.
  - cbn [length pow INR]. unfold sumR; cbn [fold_right]. rewrite Nat.add_0_r.
    replace (1 * (e0 + 0 * e)) with e0 by ring. replace (r0 + 0) with r0 by ring. replace (A0 + 0) with A0 by ring. exact Ha.
  - change (addL (N := B64Num) f (t :: l) acc) with (addL (N := B64Num) f l (Bplus mode_NE acc (f t))).
    pose proof (Hf t (or_introl eq_refl)) as Ht.
    pose proof (app_nonneg _ _ _ _ _ Ha) as [A00 e00]. pose proof (app_nonneg _ _ _ _ _ Ht) as [At0 et0].
    assert (SA : 0 <= sumR A l).
    { clear - Hf. induction l as [|b l IH]; [cbn; lra|]. rewrite sumR_cons.
      pose proof (app_nonneg _ _ _ _ _ (Hf b (or_intror (or_introl eq_refl)))) as [H _].
      assert (0 <= sumR A l); [|lra]. apply IH. intros s [<-|Hs]; apply Hf; [now left|right; now right]. }
    rewrite !sumR_cons in *. cbn [length] in *. rewrite S_INR in *.
    pose proof u_pos as Up. pose proof (pos_INR (length l)) as Ln.
    assert (PW : 1 <= (1 + u) ^ length l) by (apply pow_R1_Rle; lra).
    assert (Le : 0 <= INR (length l) * e) by (apply Rmult_le_pos; lra).
    assert (Hstep : (1 + Rel (p + n)) * (A0 + A t) + e0 + e <= pow2 k).
    { eapply Rle_trans; [|exact Hb]. pose proof (Rel_nonneg (p + n)).
      assert (M : Rel (p + n) <= Rel (p + n + S (length l))) by (apply Rel_mono; lia).
      assert ((1 + Rel (p + n)) * (A0 + A t) <= (1 + Rel (p + n + S (length l))) * (A0 + (A t + sumR A l))) by (apply Rmult_le_compat; lra).
      assert (1 * (e0 + e) <= (1 + u) ^ S (length l) * (e0 + (INR (length l) + 1) * e)).
      { apply Rmult_le_compat; [lra|lra|apply pow_R1_Rle; lra|]. lra. }
      lra. }
    assert (Hp1 : Apw (Bplus mode_NE acc (f t)) (r0 + r t) (A0 + A t) (p + S n) ((1 + u) * (e0 + e))).
    { replace (p + S n)%nat with (S (p + n)) by lia. apply (apw_plus _ _ _ _ _ _ _ _ _ k Ha); [|exact Hk|exact Hstep].
      eapply apw_weaken; [exact Ht|lra|lia|lra]. }
    assert (L : (1 + u) ^ length l * ((1 + u) * (e0 + e) + INR (length l) * e)
      <= (1 + u) ^ S (length l) * (e0 + (INR (length l) + 1) * e)).
    { cbn [pow]. set (P := (1 + u) ^ length l) in *.
      replace ((1 + u) * P * (e0 + (INR (length l) + 1) * e)) with (P * ((1 + u) * (e0 + e) + (1 + u) * (INR (length l) * e))) by ring.
      apply Rmult_le_compat_l; [lra|]. assert (0 <= u * (INR (length l) * e)) by (apply Rmult_le_pos; lra). lra. }
    replace (r0 + (r t + sumR r l)) with (r0 + r t + sumR r l) by ring.
    replace (A0 + (A t + sumR A l)) with (A0 + A t + sumR A l) by ring.
    replace (p + n + S (length l))%nat with (p + S n + length l)%nat in * by lia.
    eapply apw_weaken; [apply (IH (S n) _ _ _ _ Hp1)|lra|lia|exact L].
    + intros s Hs. apply Hf. now right.
    + eapply Rle_trans; [|exact Hb]. replace (A0 + (A t + sumR A l)) with (A0 + A t + sumR A l) by ring. lra.
Qed.
End Sums.

(** * Sums from the right *)
Fixpoint sum64 {B} (f : B -> b64) (l : list B) : b64 :=
  match l with
  | [] => b64_ofZ 0
  | a :: l' => match l' with [] => f a | _ => Bplus mode_NE (f a) (sum64 f l') end
  end.
Lemma sumR_nonneg {B} (A : B -> R) l : (forall t, In t l -> 0 <= A t) -> 0 <= sumR A l.
Proof.
  induction l as [|a l IH]; intros H; [cbn; lra|]. rewrite sumR_cons.
  pose proof (H a (or_introl eq_refl)). specialize (IH (fun t Ht => H t (or_intror Ht))). lra.
Qed.
Lemma apw_sum64 {B} (f : B -> b64) (r A : B -> R) p e k l : (-1074 <= k < 1024)%Z -> l <> [] ->
  (forall t, In t l -> Apw (f t) (r t) (A t) p e) ->
  (1 + Rel (p + length l)) * sumR A l + (1 + u) ^ length l * (INR (length l) * e) <= pow2 k ->
  Apw (sum64 f l) (sumR r l) (sumR A l) (p + length l) ((1 + u) ^ length l * (INR (length l) * e)).
Proof.
  intros Hk. pose proof u_pos as Up. induction l as [|a l IH]; intros Hne Hf Hb; [congruence|].
  pose proof (Hf a (or_introl eq_refl)) as Ha. pose proof (app_nonneg _ _ _ _ _ Ha) as [Aa0 e0].
  destruct l as [|b l].
  - cbn [sum64]. rewrite !sumR_cons. unfold sumR at 1 2. cbn [fold_right length pow INR].
    replace (r a + 0) with (r a) by ring. replace (A a + 0) with (A a) by ring.
    eapply apw_weaken; [exact Ha|lra|lia|nra].
  - assert (Hf' : forall t, In t (b :: l) -> Apw (f t) (r t) (A t) p e) by (intros t Ht; apply Hf; now right).
    assert (SA : 0 <= sumR A (b :: l)) by (apply sumR_nonneg; intros t Ht; exact (proj1 (app_nonneg _ _ _ _ _ (Hf' t Ht)))).
    change (sum64 f (a :: b :: l)) with (Bplus mode_NE (f a) (sum64 f (b :: l))).
    rewrite (sumR_cons r a), (sumR_cons A a) in *. change (length (a :: b :: l)) with (S (length (b :: l))) in *. rewrite S_INR in *.
    set (n := length (b :: l)) in *. pose proof (pos_INR n) as Ln.
    assert (PW : 1 <= (1 + u) ^ n) by (apply pow_R1_Rle; lra).
    assert (Le : 0 <= INR n * e) by (apply Rmult_le_pos; lra).
    assert (PLe : 0 <= (1 + u) ^ n * (INR n * e)) by (apply Rmult_le_pos; lra).
    assert (M : Rel (p + n) <= Rel (p + S n)) by (apply Rel_mono; lia). pose proof (Rel_nonneg (p + n)).
    assert (Q : (1 + u) ^ n * (INR n * e) + e <= (1 + u) ^ S n * ((INR n + 1) * e)).
    { cbn [pow]. set (P := (1 + u) ^ n) in *. set (c := INR n * e) in *.
      replace ((1 + u) * P * ((INR n + 1) * e)) with ((1 + u) * P * c + (1 + u) * P * e) by (unfold c; ring).
      assert (P * c <= (1 + u) * P * c).
      { apply Rmult_le_compat_r; [exact Le|]. nra. }
      assert (1 * e <= (1 + u) * P * e) by (apply Rmult_le_compat_r; [lra|]; nra). lra. }
    assert (Hb' : (1 + Rel (p + n)) * sumR A (b :: l) + (1 + u) ^ n * (INR n * e) <= pow2 k).
    { eapply Rle_trans; [|exact Hb].
      assert ((1 + Rel (p + n)) * sumR A (b :: l) <= (1 + Rel (p + S n)) * (A a + sumR A (b :: l))) by (apply Rmult_le_compat; lra).
      lra. }
    specialize (IH ltac:(discriminate) Hf' Hb').
    replace (p + S n)%nat with (S (p + n)) in * by lia.
    eapply apw_weaken; [eapply (apw_plus _ _ _ _ _ _ (p + n) e _ k); [eapply apw_weaken; [exact Ha|apply Rle_refl|lia|apply Rle_refl]|exact IH|exact Hk|]|lra|lia|].
    + eapply Rle_trans; [|exact Hb].
      assert ((1 + Rel (p + n)) * (A a + sumR A (b :: l)) <= (1 + Rel (S (p + n))) * (A a + sumR A (b :: l))) by (apply Rmult_le_compat_r; lra).
      lra.
    + cbn [pow]. set (P := (1 + u) ^ n) in *. set (c := INR n * e) in *.
      replace ((1 + u) * P * ((INR n + 1) * e)) with ((1 + u) * (P * e + P * c)) by (unfold c; ring).
      apply Rmult_le_compat_l; [lra|]. assert (1 * e <= P * e) by (apply Rmult_le_compat_r; lra). lra.
Qed.

(** * Products *)
Inductive Facs (a e : R) : list b64 -> list R -> list R -> nat -> Prop :=
  | F_nil : Facs a e [] [] [] 0
  | F_cons x r A p xs rs As P : Apw x r A p e -> A <= a -> Facs a e xs rs As P ->
      Facs a e (x :: xs) (r :: rs) (A :: As) (S (p + P)).
Notation prodl := (fold_right Rmult 1).

Lemma facs_lengths a e xs rs As P : Facs a e xs rs As P -> length rs = length xs /\ length As = length xs.
Proof. induction 1; simpl; intuition congruence. Qed.
Lemma facs_prod a e xs rs As P : 1 <= a -> Facs a e xs rs As P -> 0 <= prodl As <= a ^ length xs.
Proof.
  intros Ha. induction 1 as [|x r A p xs rs As P Hx HA _ IH]; cbn; [lra|].
  pose proof (app_nonneg _ _ _ _ _ Hx) as [A0 _]. split; [apply Rmult_le_pos; lra|]. apply Rmult_le_compat; lra.
Qed.
Lemma apw_mulR a e k xs rs As P : 1 <= a -> eta <= e -> e <= 1 -> (-1074 <= k < 1024)%Z -> (Z.of_nat P < 2 ^ 26)%Z ->
  Facs a e xs rs As P -> xs <> [] -> (8 * a) ^ length xs <= pow2 k ->
  Apw (mulR (N := B64Num) xs) (prodl rs) (prodl As) P ((8 * a) ^ (length xs - 1) * e).
Proof.
  intros Ha He He1 Hk HP HF. revert HP. induction HF as [|x r A p xs rs As P Hx HA HF IH]; intros HP Hne Hb; [congruence|].
  pose proof eta_pos as Et. pose proof (app_nonneg _ _ _ _ _ Hx) as [A0 _].
  destruct xs as [|y xs].
  - inversion HF; subst. cbn [mulR fold_right length Nat.sub pow]. rewrite !Rmult_1_r, Rmult_1_l.
    eapply apw_weaken; [exact Hx|lra|lia|lra].
  - pose proof (facs_prod _ _ _ _ _ _ Ha HF) as [Q0 Q1].
    assert (Hb' : (8 * a) ^ length (y :: xs) <= pow2 k).
    { eapply Rle_trans; [|exact Hb]. apply Rle_pow; [lra|simpl; lia]. }
    specialize (IH ltac:(lia) ltac:(discriminate) Hb').
    change (mulR (N := B64Num) (x :: y :: xs)) with (Bmult mode_NE x (mulR (N := B64Num) (y :: xs))).
    change (length (x :: y :: xs)) with (S (length (y :: xs))) in *.
    set (n := length (y :: xs)) in *. assert (Hn : (n = S (n - 1))%nat) by (unfold n; simpl; lia).
    replace (S n - 1)%nat with n by lia.
    change (prodl (r :: rs)) with (r * prodl rs). change (prodl (A :: As)) with (A * prodl As).
    set (K := (8 * a) ^ (n - 1)) in *.
    assert (HK : (8 * a) ^ n = 8 * a * K) by (rewrite Hn at 1; reflexivity).
    assert (K1 : 1 <= K) by (apply pow_R1_Rle; lra).
    assert (aK : a ^ n <= a * K).
    { rewrite Hn at 1. cbn [pow]. apply Rmult_le_compat_l; [lra|]. unfold K. rewrite Rpow_mult_distr.
      rewrite <- (Rmult_1_l (a ^ (n - 1))) at 1. apply Rmult_le_compat_r; [apply pow_le; lra|]. apply pow_R1_Rle. lra. }
    set (Q := prodl As) in *. assert (QK : Q <= a * K) by lra.
    assert (K0 : 0 <= K * e) by (apply Rmult_le_pos; lra).
    assert (Ke : K * e <= K) by (rewrite <- (Rmult_1_r K) at 2; apply Rmult_le_compat_l; lra).
    eapply apw_weaken; [apply (apw_mult _ _ _ _ _ _ _ _ _ _ k Hx IH Hk); [lia|lia|]|lra|lia|].
    + cbn [pow] in Hb. rewrite HK in Hb. eapply Rle_trans; [|exact Hb].
      assert (X1 : 5 / 4 * A + e <= 9 / 4 * a) by lra.
      assert (X2 : 5 / 4 * Q + K * e <= 9 / 4 * (a * K)) by nra.
      apply Rle_trans with (9 / 4 * a * (9 / 4 * (a * K))).
      * apply Rmult_le_compat; lra.
      * assert (0 <= a * (a * K)) by (repeat apply Rmult_le_pos; lra). nra.
    + rewrite HK.
      assert (Y1 : A * (K * e) <= a * K * e) by (rewrite Rmult_assoc; apply Rmult_le_compat_r; lra).
      assert (Y2 : Q * e <= a * K * e) by (apply Rmult_le_compat_r; lra).
      assert (Y3 : e * (K * e) <= a * K * e).
      { rewrite Rmult_assoc. apply Rmult_le_compat_r; lra. }
      assert (Y4 : eta <= a * K * e).
      { apply Rle_trans with (1 * e); [lra|]. apply Rmult_le_compat_r; [lra|]. nra. }
      lra.
Qed.
