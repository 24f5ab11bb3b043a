(** Powers, factorials and binomial coefficients in every standard integer type. *)
From Verif Require Import Base ProofBase ModelMath ModelInteger SpecMath SpecInteger ProofCount.
From Coq Require Import Factorial.
Open Scope Z_scope.

Lemma std_cases t : Standard t -> bits t = 8 \/ bits t = 16 \/ bits t = 32 \/ bits t = 64.
Proof. unfold Standard. simpl. intuition. Qed.

Ltac std t H :=
  let b := fresh "b" in let s := fresh "s" in
  destruct t as [b s]; apply std_cases in H; cbn [bits signed] in H;
  destruct H as [->|[->|[->| ->]]]; destruct s.

Lemma fits_Value t z : Standard t -> fits t z = true <-> Value t z.
Proof.
  intros H. unfold fits, Value, tmin, tmax. destruct (signed t); lia.
Qed.
Lemma fits_tmax t z : Standard t -> 0 <= z -> fits t z = (z <=? tmax t).
Proof.
  intros H Hz. unfold fits. replace (tmin t <=? z) with true; [reflexivity|].
  symmetry. apply Z.leb_le. std t H; unfold tmin; cbn [signed bits]; lia.
Qed.
Lemma convert_id t z : Standard t -> Value t z -> convert t z = z.
Proof.
  intros H. unfold Value, convert. std t H; cbn [signed bits]; intros Hz; change (8 - 1) with 7 in *;
    change (16 - 1) with 15 in *; change (32 - 1) with 31 in *; change (64 - 1) with 63 in *;
    rewrite Z.mod_small; lia.
Qed.
Lemma convert_rem t z : Standard t -> Remainder t z (convert t z).
Proof.
  intros H. unfold Remainder, Value, convert.
  assert (Hp : 0 < 2 ^ bits t) by (std t H; cbn [bits]; lia).
  assert (Hh : 2 ^ bits t = 2 * 2 ^ (bits t - 1)) by (std t H; reflexivity).
  destruct (signed t).
  - pose proof (Z.mod_pos_bound (z + 2 ^ (bits t - 1)) _ Hp) as Hb. split; [lia|].
    exists ((z + 2 ^ (bits t - 1)) / 2 ^ bits t).
    pose proof (Z.div_mod (z + 2 ^ (bits t - 1)) (2 ^ bits t) ltac:(lia)). lia.
  - pose proof (Z.mod_pos_bound z _ Hp) as Hb. split; [lia|].
    exists (z / 2 ^ bits t). pose proof (Z.div_mod z (2 ^ bits t) ltac:(lia)). lia.
Qed.
(** Two values of the type that differ by a multiple of 2^bits are equal. *)
Lemma rem_unique t z v w : Standard t -> Remainder t z v -> Remainder t z w -> v = w.
Proof.
  intros H (Hv & k & Ek) (Hw & l & El).
  assert (E : v - w = (l - k) * 2 ^ bits t) by lia.
  assert (Hb : - 2 ^ bits t < v - w < 2 ^ bits t).
  { revert Hv Hw. unfold Value. std t H; cbn [signed bits]; change (8 - 1) with 7 in *;
    change (16 - 1) with 15 in *; change (32 - 1) with 31 in *; change (64 - 1) with 63 in *; lia. }
  assert (Hp : 0 < 2 ^ bits t) by (std t H; cbn [bits]; lia).
  revert E Hb Hp. generalize (2 ^ bits t). intros P E Hb Hp.
  assert (Hq : l - k = 0) by nia. rewrite Hq in E. lia.
Qed.
Lemma convert_of_rem t z v : Standard t -> Remainder t z v -> convert t z = v.
Proof. intros H Hr. exact (rem_unique t z _ _ H (convert_rem t z H) Hr). Qed.
Lemma promote_std t : Standard t -> Standard (promote t).
Proof. intros H. unfold promote. destruct (bits t <? 32); [right; right; left; reflexivity | exact H]. Qed.
Lemma promote_wide t : Standard t -> 32 <= bits (promote t).
Proof. intros H. unfold promote. destruct (Z.ltb_spec (bits t) 32); cbn [bits Int]; lia. Qed.
Lemma promote_tmax t : Standard t -> tmax t <= tmax (promote t).
Proof. intros H. std t H; unfold promote, tmax; cbn; lia. Qed.
Lemma promote_value t z : Standard t -> Value t z -> Value (promote t) z.
Proof. intros H. std t H; unfold promote, Value; cbn; lia. Qed.

Lemma arith_ok t z : Standard t -> Value t z -> arith t z = Ok z.
Proof.
  intros H Hz. unfold arith. destruct (signed t) eqn:E.
  - now rewrite (proj2 (fits_Value t z H) Hz).
  - now rewrite convert_id.
Qed.

(** * Factorials *)
Lemma zfact_nonneg_value t z : Standard t -> 0 <= z -> z <= tmax t -> Value t z.
Proof. intros H H0 H1. apply fits_Value; [exact H|]. rewrite fits_tmax by assumption. lia. Qed.

Lemma fact_fold_in p n : Standard p -> Z.of_nat n <= tmax p ->
  fold_binary_left (fun a b => arith p (a * b)) (Ok 1) (map (fun i => arith p (i + 1)) (zseq n)) =
  arith p (zfact n).
Proof.
  intros Hs. induction n as [|n IH]; intros Hn.
  - symmetry. apply arith_ok; [exact Hs|]. std p Hs; unfold Value; cbn; lia.
  - rewrite zseq_S, map_app, fold_binary_left_app, IH by lia. cbn [map fold_binary_left].
    rewrite (arith_ok p (Z.of_nat n + 1)) by (try exact Hs; apply zfact_nonneg_value; try exact Hs; lia).
    rewrite zfact_S. pose proof (zfact_pos n) as Hp. unfold arith at 1. destruct (signed p) eqn:E.
    + destruct (fits p (zfact n)) eqn:Ef; cbn [bind].
      * unfold arith. rewrite E, (Z.mul_comm (zfact n)). reflexivity.
      * rewrite fits_tmax in Ef by (try exact Hs; lia). unfold arith. rewrite E, fits_tmax by (try exact Hs; nia).
        destruct (Z.leb_spec ((Z.of_nat n + 1) * zfact n) (tmax p)) as [H|_]; [nia|reflexivity].
    + cbn [bind]. unfold arith. rewrite E. f_equal.
      apply convert_of_rem; [exact Hs|].
      assert (R : Remainder p (convert p (zfact n) * (Z.of_nat n + 1)) (convert p ((Z.of_nat n + 1) * zfact n))).
      { destruct (convert_rem p (zfact n) Hs) as (_ & k & Ek).
        destruct (convert_rem p ((Z.of_nat n + 1) * zfact n) Hs) as (Hv & l & El).
        split; [exact Hv|]. exists (l - k * (Z.of_nat n + 1)).
        replace (convert p (zfact n)) with (zfact n - k * 2 ^ bits p) by lia.
        replace (convert p ((Z.of_nat n + 1) * zfact n)) with ((Z.of_nat n + 1) * zfact n - l * 2 ^ bits p) by lia. ring. }
      exact R.
Qed.

Lemma factorial_in_eq t n : Standard t -> Value t (Z.of_nat n) ->
  factorial_in t (Z.of_nat n) = (x <- constexpr_ (arith (promote t) (zfact n)) ;; Ok (convert t x)).
Proof.
  intros H Hn. unfold factorial_in. rewrite (proj2 (fits_Value t _ H) Hn).
  unfold make_integer_sequence. destruct (Z.ltb_spec (Z.of_nat n) 0) as [?|_]; [lia|]. cbn [bind].
  rewrite Nat2Z.id, fact_fold_in; [reflexivity | apply promote_std; exact H |].
  pose proof (promote_tmax t H). apply fits_Value in Hn; [|exact H]. rewrite fits_tmax in Hn by (try exact H; lia). lia.
Qed.

Lemma zfact_values : zfact 5 = 120 /\ zfact 6 = 720 /\ zfact 7 = 5040 /\ zfact 8 = 40320 /\ zfact 9 = 362880 /\
  zfact 20 = 2432902008176640000 /\ zfact 21 = 51090942171709440000.
Proof.
  assert (E0 : zfact 0 = 1) by reflexivity.
  assert (E5 : zfact 5 = 120) by (rewrite !zfact_S, E0; reflexivity).
  assert (E6 : zfact 6 = 720) by (rewrite zfact_S, E5; reflexivity).
  assert (E7 : zfact 7 = 5040) by (rewrite zfact_S, E6; reflexivity).
  assert (E8 : zfact 8 = 40320) by (rewrite zfact_S, E7; reflexivity).
  assert (E9 : zfact 9 = 362880) by (rewrite zfact_S, E8; reflexivity).
  assert (E20 : zfact 20 = 2432902008176640000) by (do 7 rewrite zfact_S; rewrite zfact_13; reflexivity).
  assert (E21 : zfact 21 = 51090942171709440000) by (rewrite zfact_S, E20; reflexivity).
  auto 10.
Qed.

Lemma fact_limit t n : Standard t -> zfact n <= tmax t <-> Z.of_nat n <= last_factorial t.
Proof.
  intros H. destruct zfact_values as (E5 & E6 & E7 & E8 & E9 & E20 & E21).
  pose proof zfact_12 as E12. pose proof zfact_13 as E13.
  assert (G : forall k, zfact k <= tmax t -> tmax t < zfact (S k) -> (zfact n <= tmax t <-> Z.of_nat n <= Z.of_nat k)).
  { intros k H1 H2. split; intros Hn.
    - destruct (Nat.le_gt_cases n k) as [|Hlt]; [lia|]. pose proof (zfact_mono (S k) n ltac:(lia)). lia.
    - pose proof (zfact_mono n k ltac:(lia)). lia. }
  std t H; unfold last_factorial; cbn [bits signed];
    [apply (G 5%nat)|apply (G 5%nat)|apply (G 7%nat)|apply (G 8%nat)|apply (G 12%nat)|apply (G 12%nat)|apply (G 20%nat)|apply (G 20%nat)];
    rewrite ?E5, ?E6, ?E7, ?E8, ?E9, ?E12, ?E13, ?E20, ?E21; unfold tmax; cbn [signed bits]; lia.
Qed.

Lemma factorial_in_lemma t N : Standard t ->
  let f := Z.of_nat (fact (Z.to_nat N)) in
  (0 <= N <= last_factorial t -> factorial_in t N = Ok f /\ Value t f) /\
  (Value t N -> last_factorial t < N -> Checked t -> factorial_in t N = IllFormed) /\
  (Value t N -> last_factorial t < N -> ~ Checked t ->
     (bits t < 32 -> 12 < N -> factorial_in t N = IllFormed) /\
     (bits t < 32 /\ N <= 12 \/ 32 <= bits t ->
        exists v, factorial_in t N = Ok v /\ Remainder t f v /\ v <> f)) /\
  (~ (0 <= N /\ Value t N) -> factorial_in t N = IllFormed).
Proof.
  intros H f.
  assert (Hl0 : 5 <= last_factorial t <= tmax t /\ 0 <= last_factorial t)
    by (std t H; unfold last_factorial, tmax; cbn [bits signed]; lia).
  assert (Hpre : forall n, N = Z.of_nat n -> f = zfact n) by (intros n ->; unfold f; now rewrite Nat2Z.id).
  pose proof (promote_std t H) as Hps.
  assert (Hbig : forall n, N = Z.of_nat n -> last_factorial t < N -> ~ Value t (zfact n)).
  { intros n En Hn Hv. apply fits_Value in Hv; [|exact H]. pose proof (zfact_pos n). rewrite fits_tmax in Hv by (try exact H; lia).
    apply Z.leb_le in Hv. apply fact_limit in Hv; [lia|exact H]. }
  assert (Hill : forall n, N = Z.of_nat n -> Value t N -> signed (promote t) = true -> tmax (promote t) < zfact n ->
            factorial_in t N = IllFormed).
  { intros n En Hv Hsg Hm. rewrite En in *. rewrite factorial_in_eq by assumption. unfold arith. rewrite Hsg.
    pose proof (zfact_pos n). rewrite fits_tmax by (try exact Hps; lia).
    destruct (Z.leb_spec (zfact n) (tmax (promote t))) as [?|_]; [lia|]. reflexivity. }
  assert (Hval : forall n, N = Z.of_nat n -> Value t N -> (signed (promote t) = false \/ zfact n <= tmax (promote t)) ->
            exists v, factorial_in t N = Ok v /\ Remainder t f v).
  { intros n En Hv Hc. pose proof (Hpre n En) as Ef. rewrite En in *. rewrite factorial_in_eq by assumption. pose proof (zfact_pos n).
    destruct (signed (promote t)) eqn:Es.
    - destruct Hc as [Hc|Hc]; [discriminate|].
      rewrite arith_ok by (try exact Hps; apply zfact_nonneg_value; try exact Hps; lia). cbn [constexpr_ bind].
      eexists. split; [reflexivity|]. rewrite Ef. apply convert_rem. exact H.
    - unfold arith. rewrite Es. cbn [constexpr_ bind].
      assert (Ep : promote t = t) by (revert Es; std t H; cbn; congruence).
      rewrite Ep. eexists. split; [reflexivity|]. rewrite Ef.
      destruct (convert_rem t (zfact n) H) as (_ & k & Ek).
      destruct (convert_rem t (convert t (zfact n)) H) as (Hv' & l & El).
      split; [exact Hv'|]. exists (k + l). lia. }
  split; [|split; [|split]].
  - intros HN. assert (En : N = Z.of_nat (Z.to_nat N)) by lia.
    assert (Hz : zfact (Z.to_nat N) <= tmax t) by (apply fact_limit; [exact H|lia]).
    pose proof (promote_tmax t H) as Hpt. pose proof (zfact_pos (Z.to_nat N)) as Hp1.
    assert (Hv : Value t (zfact (Z.to_nat N))) by (apply zfact_nonneg_value; try exact H; lia).
    assert (HvN : Value t N) by (apply zfact_nonneg_value; try exact H; lia).
    rewrite (Hpre _ En). split; [|exact Hv].
    rewrite En at 1. rewrite factorial_in_eq by (try exact H; now rewrite <- En).
    rewrite arith_ok by (try exact Hps; apply promote_value; assumption). cbn [constexpr_ bind].
    now rewrite convert_id.
  - intros Hv Hn (Hsg & Hb). assert (En : N = Z.of_nat (Z.to_nat N)) by lia.
    assert (Ep : promote t = t) by (unfold promote; destruct (Z.ltb_spec (bits t) 32); [lia|reflexivity]).
    apply (Hill _ En Hv); rewrite Ep; [exact Hsg|].
    destruct (Z.lt_ge_cases (tmax t) (zfact (Z.to_nat N))) as [|Hge]; [assumption|].
    apply fact_limit in Hge; [lia|exact H].
  - intros Hv Hn Hnc. assert (En : N = Z.of_nat (Z.to_nat N)) by lia. split.
    + intros Hb H12.
      apply (Hill _ En Hv); unfold promote; replace (bits t <? 32) with true by lia; [reflexivity|].
      pose proof (zfact_mono 13 (Z.to_nat N) ltac:(lia)) as Hm. rewrite zfact_13 in Hm.
      unfold tmax, Int; cbn [signed bits]. lia.
    + intros Hc. destruct (Hval _ En Hv) as (v & Ev & Hr).
      { destruct Hc as [(Hb & H12)|Hb].
        - right. unfold promote. replace (bits t <? 32) with true by lia.
          pose proof (zfact_mono (Z.to_nat N) 12 ltac:(lia)) as Hm. rewrite zfact_12 in Hm. unfold tmax, Int; cbn [signed bits]. lia.
        - left. unfold promote. replace (bits t <? 32) with false by lia.
          destruct (signed t) eqn:Es; [|reflexivity]. exfalso. apply Hnc. split; [exact Es | exact Hb]. }
      exists v. split; [exact Ev|]. split; [exact Hr|]. intros ->. destruct Hr as (Hr & _).
      rewrite (Hpre _ En) in Hr. exact (Hbig _ En Hn Hr).
  - intros Hno. unfold factorial_in. destruct (fits t N) eqn:Ef; [|reflexivity].
    apply fits_Value in Ef; [|exact H]. unfold make_integer_sequence.
    destruct (Z.ltb_spec N 0) as [_|Hge]; [reflexivity|]. exfalso. apply Hno. auto.
Qed.

(** * Binomial coefficients *)
Lemma binomial_in_lemma t N K : Standard t ->
  (0 <= K <= N -> N <= last_factorial t ->
     exists v, binomialCoefficient_in t N K = Ok v /\ Count (Subset N K) v) /\
  (Checked t -> ~ (0 <= K <= N /\ N <= last_factorial t) -> binomialCoefficient_in t N K = IllFormed) /\
  (~ (0 <= K <= N /\ Value t N) -> binomialCoefficient_in t N K = IllFormed).
Proof.
  intros H. pose proof (promote_std t H) as Hps. pose proof (promote_tmax t H) as Hpt.
  assert (Hl0 : 5 <= last_factorial t <= tmax t)
    by (std t H; unfold last_factorial, tmax; cbn [bits signed]; lia).
  assert (Hbad : ~ (0 <= K <= N /\ Value t N) -> binomialCoefficient_in t N K = IllFormed).
  { intros Hn. unfold binomialCoefficient_in. destruct (fits t N && fits t K && (0 <=? K) && (K <=? N)) eqn:E; [|reflexivity].
    exfalso. apply Hn. apply andb_prop in E as (E & E3). apply andb_prop in E as (E & E2). apply andb_prop in E as (E0 & E1).
    split; [lia|]. apply fits_Value; assumption. }
  split; [|split; [|exact Hbad]].
  - intros HK HN. set (n := Z.to_nat N). set (k := Z.to_nat K).
    assert (En : N = Z.of_nat n) by (subst n; lia). assert (Ek : K = Z.of_nat k) by (subst k; lia).
    assert (Hfl : forall m, Z.of_nat m <= last_factorial t -> factorial_in t (Z.of_nat m) = Ok (zfact m)).
    { intros m Hm. destruct (factorial_in_lemma t (Z.of_nat m) H) as (G & _). destruct G as (G & _); [lia|].
      now rewrite Nat2Z.id in G. }
    exists (Z.of_nat (choose n k)). rewrite En, Ek. split; [|apply Count_subsets].
    assert (Hf : zfact n <= tmax t) by (apply fact_limit; [exact H|lia]).
    unfold binomialCoefficient_in. rewrite !fits_tmax by (try exact H; lia).
    replace ((Z.of_nat n <=? tmax t) && (Z.of_nat k <=? tmax t) && (0 <=? Z.of_nat k) && (Z.of_nat k <=? Z.of_nat n)) with true by lia.
    rewrite !Hfl by lia. cbn [bind].
    rewrite arith_ok by (try exact Hps; apply zfact_nonneg_value; try exact Hps; lia). cbn [constexpr_ bind].
    rewrite <- Nat2Z.inj_sub by lia. rewrite Hfl by lia. cbn [bind].
    pose proof (choose_fact n k ltac:(lia)) as Hcf.
    pose proof (zfact_pos k) as Pk. pose proof (zfact_pos (n - k)) as Pnk. pose proof (zfact_pos n) as Pn.
    assert (Hc1 : 1 <= Z.of_nat (choose n k)) by nia.
    assert (Hd : 1 <= zfact k * zfact (n - k) <= zfact n) by (split; nia).
    rewrite arith_ok by (try exact Hps; apply zfact_nonneg_value; try exact Hps; lia). cbn [bind].
    destruct (Z.eqb_spec (zfact k * zfact (n - k)) 0) as [?|_]; [lia|].
    rewrite Hcf, Z.quot_mul by lia.
    assert (Hle : Z.of_nat (choose n k) <= zfact n) by nia.
    rewrite arith_ok by (try exact Hps; apply zfact_nonneg_value; try exact Hps; lia). cbn [constexpr_ bind].
    rewrite convert_id; [reflexivity | exact H | apply zfact_nonneg_value; try exact H; lia].
  - intros Hch Hno.
    assert (Hd : 0 <= K <= N /\ Value t N \/ ~ (0 <= K <= N /\ Value t N)).
    { destruct (fits t N) eqn:E; [apply fits_Value in E; [|exact H]|]; [|right; intros (_ & Hv); apply fits_Value in Hv; [congruence|exact H]].
      destruct (Z.le_gt_cases 0 K); [|right; lia]. destruct (Z.le_gt_cases K N); [left; auto|right; lia]. }
    destruct Hd as [(HK & Hv)|Hd]; [|exact (Hbad Hd)].
    unfold binomialCoefficient_in. destruct (fits t N && fits t K && (0 <=? K) && (K <=? N)); [|reflexivity].
    destruct (factorial_in_lemma t N H) as (_ & G & _). rewrite G; [reflexivity | exact Hv | lia | exact Hch].
Qed.

(** * Powers *)
Lemma value_pow_step t b k : Standard t -> Value t b -> Value t (b ^ Z.of_nat (S k)) -> Value t (b ^ Z.of_nat k).
Proof.
  intros H Hb Hv. unfold Value in *. rewrite Nat2Z.inj_succ, Z.pow_succ_r in Hv by lia.
  assert (Hpos : 2 <= 2 ^ bits t /\ 64 <= 2 ^ (bits t - 1)) by (std t H; cbn [bits]; split; lia).
  destruct (Z.eq_dec b 0) as [->|Hb0].
  { assert (E : 0 ^ Z.of_nat k = 0 \/ 0 ^ Z.of_nat k = 1)
      by (destruct k as [|k]; [right; reflexivity|left; apply Z.pow_0_l; lia]). destruct (signed t); lia. }
  assert (Hle : Z.abs b < 2 \/ 2 <= Z.abs b) by lia. destruct Hle as [Hle|Hle].
  { assert (E : b = 1 \/ b = -1) by lia. destruct E as [-> | ->].
    - rewrite Z.pow_1_l by lia. destruct (signed t); lia.
    - assert (E : (-1) ^ Z.of_nat k = 1 \/ (-1) ^ Z.of_nat k = -1).
      { clear. induction k as [|k IH]; [left; reflexivity|].
        rewrite Nat2Z.inj_succ, Z.pow_succ_r by lia. lia. }
      destruct (signed t); lia. }
  destruct (signed t); nia.
Qed.
Lemma value_pow_down t b n : Standard t -> Value t b -> forall k, Value t (b ^ Z.of_nat (k + n)) -> Value t (b ^ Z.of_nat k).
Proof.
  intros H Hb. induction n as [|n IH]; intros k Hv; [now rewrite Nat.add_0_r in Hv|].
  apply value_pow_step; [exact H|exact Hb|]. apply IH. now replace (S k + n)%nat with (k + S n)%nat by lia.
Qed.

Lemma pow_fits_loop t b n : Standard t -> Value t b -> forall k, Value t (b ^ Z.of_nat (k + n)) ->
  pow_loop (fun result base => x <- arith (promote t) (result * base) ;; Ok (convert t x)) b n (b ^ Z.of_nat k) =
  Ok (b ^ Z.of_nat (k + n)).
Proof.
  intros H Hb. induction n as [|n IH]; intros k Hv; simpl pow_loop; [now rewrite Nat.add_0_r|].
  replace (b ^ Z.of_nat k * b) with (b ^ Z.of_nat (S k)) by (rewrite Nat2Z.inj_succ, Z.pow_succ_r by lia; ring).
  replace (k + S n)%nat with (S k + n)%nat in * by lia.
  pose proof (value_pow_down t b n H Hb (S k) Hv) as Hk.
  rewrite arith_ok by (try (apply promote_std; exact H); apply promote_value; assumption). cbn [bind].
  rewrite convert_id by assumption. apply IH. exact Hv.
Qed.

Lemma pow_checked_loop t b n : Standard t -> Checked t -> Value t b -> forall k, Value t (b ^ Z.of_nat k) ->
  ~ Value t (b ^ Z.of_nat (k + n)) ->
  pow_loop (fun result base => x <- arith (promote t) (result * base) ;; Ok (convert t x)) b n (b ^ Z.of_nat k) =
  UB IntOverflow.
Proof.
  intros H (Hsg & Hbits) Hb. assert (Ep : promote t = t) by (unfold promote; destruct (Z.ltb_spec (bits t) 32); [lia|reflexivity]).
  induction n as [|n IH]; intros k Hk Hv; simpl pow_loop; [now rewrite Nat.add_0_r in Hv|].
  replace (b ^ Z.of_nat k * b) with (b ^ Z.of_nat (S k)) by (rewrite Nat2Z.inj_succ, Z.pow_succ_r by lia; ring).
  replace (k + S n)%nat with (S k + n)%nat in * by lia. rewrite Ep in *.
  destruct (fits t (b ^ Z.of_nat (S k))) eqn:E.
  - apply fits_Value in E; [|exact H]. rewrite arith_ok by assumption. cbn [bind]. rewrite convert_id by assumption.
    apply IH; assumption.
  - unfold arith. rewrite Hsg, E. reflexivity.
Qed.

(** Products that cannot overflow: always, except for two [unsigned short]s. *)
Definition product_safe (t : ity) (b : Z) : Prop :=
  signed t = false /\ 32 <= bits t \/
  bits t < 32 /\ (t <> Ushort \/ b <= 32768).
Lemma product_step t b r : Standard t -> product_safe t b -> Value t b -> Value t r ->
  exists x, arith (promote t) (r * b) = Ok x /\ Remainder t (r * b) (convert t x).
Proof.
  intros H Hs Hb Hr. destruct Hs as [(Hsg & Hbits)|(Hbits & Hs)].
  - assert (Ep : promote t = t) by (unfold promote; destruct (Z.ltb_spec (bits t) 32); [lia|reflexivity]).
    rewrite Ep. unfold arith. rewrite Hsg. eexists. split; [reflexivity|].
    destruct (convert_rem t (r * b) H) as (_ & k & Ek).
    destruct (convert_rem t (convert t (r * b)) H) as (Hv' & l & El).
    split; [exact Hv'|]. exists (k + l). lia.
  - assert (Hf : Value (promote t) (r * b)).
    { unfold promote. replace (bits t <? 32) with true by lia. unfold Value, Int in *. cbn [signed bits].
      change (32 - 1) with 31. change (2 ^ 31) with 2147483648.
      destruct t as [bt st]. cbn [bits signed] in *. apply std_cases in H. cbn [bits] in H.
      destruct H as [->|[->|[->| ->]]]; try lia; destruct st; cbn in Hb, Hr; try nia.
      destruct Hs as [Hs|Hs]; [now elim Hs|]. nia. }
    rewrite arith_ok by (try (apply promote_std; exact H); exact Hf). eexists. split; [reflexivity|]. apply convert_rem. exact H.
Qed.
Lemma pow_wrap_loop t b n : Standard t -> product_safe t b -> Value t b -> forall k r, Remainder t (b ^ Z.of_nat k) r ->
  exists v, pow_loop (fun result base => x <- arith (promote t) (result * base) ;; Ok (convert t x)) b n r = Ok v /\
    Remainder t (b ^ Z.of_nat (k + n)) v.
Proof.
  intros H Hs Hb. induction n as [|n IH]; intros k r Hr; simpl pow_loop.
  - exists r. rewrite Nat.add_0_r. auto.
  - destruct (product_step t b r H Hs Hb (proj1 Hr)) as (x & -> & Hx). cbn [bind].
    replace (k + S n)%nat with (S k + n)%nat by lia. apply IH.
    rewrite Nat2Z.inj_succ, Z.pow_succ_r by lia. destruct Hr as (_ & j & Ej). destruct Hx as (Hv & l & El).
    split; [exact Hv|]. exists (l + j * b). rewrite Ej. lia.
Qed.

Lemma value_1 t : Standard t -> Value t 1.
Proof. intros H. std t H; unfold Value; cbn; lia. Qed.

Lemma pow_in_lemma t E b : Standard t -> Value t b -> 0 <= E ->
  (Value t (b ^ E) -> pow_in t E b = Ok (b ^ E)) /\
  (~ Value t (b ^ E) -> Checked t -> pow_in t E b = UB IntOverflow) /\
  (~ Checked t -> t <> Ushort \/ b <= 32768 -> exists v, pow_in t E b = Ok v /\ Remainder t (b ^ E) v).
Proof.
  intros H Hb HE. unfold pow_in, pow.
  assert (EE : b ^ E = b ^ Z.of_nat (0 + Z.to_nat E)) by (f_equal; lia). rewrite EE.
  pose proof (value_1 t H) as H1. split; [|split].
  - intros Hv. exact (pow_fits_loop t b _ H Hb 0 Hv).
  - intros Hv Hc. exact (pow_checked_loop t b _ H Hc Hb 0 H1 Hv).
  - intros Hc Hs. apply (pow_wrap_loop t b (Z.to_nat E) H) with (k := 0%nat); [|exact Hb|].
    + unfold product_safe, Checked in *. destruct (Z.lt_ge_cases (bits t) 32) as [Hlt|Hge]; [right; auto|left].
      destruct (signed t); [exfalso; apply Hc; split; [reflexivity|lia]|]. split; [reflexivity|lia].
    + split; [exact H1|]. exists 0. change (b ^ Z.of_nat 0) with 1. lia.
Qed.

(** * The type [int] *)
Lemma std_Int : Standard Int.
Proof. right; right; left; reflexivity. Qed.
Lemma value_Int z : Value Int z <-> is_int z.
Proof. unfold Value, is_int, INT_MIN, INT_MAX, Int. cbn [signed bits]. change (2 ^ (32 - 1)) with 2147483648. lia. Qed.

Lemma int_lemma : (forall N, is_int N -> factorial_in Int N = factorial N) /\
  (forall N K, is_int N -> is_int K -> binomialCoefficient_in Int N K = binomialCoefficient N K) /\
  (forall E b, is_int b -> pow_in Int E b = pow_int E b).
Proof.
  assert (Hc : Checked Int) by (split; [reflexivity|unfold Int; cbn [bits]; lia]).
  split; [|split].
  - intros N HN. destruct (factorial_in_lemma Int N std_Int) as (G1 & G2 & _ & G4).
    destruct (factorial_lemma N) as (F1 & F2). change (last_factorial Int) with 12 in *.
    assert (D : 0 <= N <= 12 \/ N < 0 \/ 12 < N) by lia. destruct D as [D|[D|D]].
    + rewrite F1, (proj1 (G1 D)) by exact D. reflexivity.
    + rewrite F2, G4; [reflexivity|lia|lia].
    + rewrite F2, G2; [reflexivity|apply value_Int; exact HN|exact D|exact Hc|lia].
  - intros N K HN HK. destruct (binomial_in_lemma Int N K std_Int) as (G1 & G2 & _). destruct (binomial_lemma N K) as (F0 & F1 & F2).
    change (last_factorial Int) with 12 in *.
    assert (D : 0 <= K <= N /\ N <= 12 \/ ~ (0 <= K <= N /\ N <= 12)) by lia. destruct D as [(D1 & D2)|D].
    + destruct (F1 D1 D2) as (v & Ev). destruct (G1 D1 D2) as (w & Ew & Cw). rewrite Ev, Ew. f_equal.
      exact (Count_unique _ _ _ Cw (F0 _ Ev)).
    + rewrite F2, G2 by assumption. reflexivity.
  - intros E b Hb. destruct (pow_int_lemma E b Hb) as (F1 & F2).
    destruct (Z.le_gt_cases 0 E) as [HE|HE].
    + destruct (pow_in_lemma Int E b std_Int (proj2 (value_Int b) Hb) HE) as (G1 & G2 & _). destruct (F1 HE) as (F3 & F4).
      destruct (mkint_cases (b ^ E)) as [(Hi & _)|(Hi & _)].
      * rewrite F3 by exact Hi. apply G1. apply value_Int. exact Hi.
      * rewrite F4 by exact Hi. apply G2; [|exact Hc]. rewrite value_Int. exact Hi.
    + rewrite F2 by exact HE. unfold pow_in, pow. replace (Z.to_nat E) with 0%nat by lia. reflexivity.
Qed.

(** * Wrong values that are accepted *)
Lemma std_by (t : ity) : existsb (Z.eqb (bits t)) [8; 16; 32; 64] = true -> Standard t.
Proof. intros H. apply existsb_exists in H as (z & Hz & E). apply Z.eqb_eq in E. unfold Standard. now rewrite E. Qed.

Lemma factorial_silent : exists t N v, Standard t /\ 32 <= bits t /\ Value t N /\
  factorial_in t N = Ok v /\ v <> Z.of_nat (fact (Z.to_nat N)).
Proof.
  exists Uint, 13, 1932053504. split; [apply std_by; reflexivity|]. split; [unfold Uint; cbn [bits]; lia|].
  split; [unfold Value, Uint; cbn [bits signed]; lia|]. split; [reflexivity|].
  assert (E : forall n, Z.of_nat (fact n) = zfact n) by (intros n; reflexivity).
  rewrite E. assert (E' : Z.to_nat 13 = 13%nat) by reflexivity. rewrite E', zfact_13. discriminate.
Qed.
Lemma binomial_silent : exists t N K v w, Standard t /\ 0 <= K <= N /\ Value t N /\ Count (Subset N K) w /\ Value t w /\
  binomialCoefficient_in t N K = Ok v /\ v <> w.
Proof.
  exists Uint, 13, 1, 4, 13. split; [apply std_by; reflexivity|]. split; [lia|].
  split; [unfold Value, Uint; cbn [bits signed]; lia|]. split; [change 13 with (Z.of_nat (choose 13 1)) at 2; exact (Count_subsets 13 1)|].
  split; [unfold Value, Uint; cbn [bits signed]; lia|]. split; [reflexivity|lia].
Qed.
Lemma ushort_overflow : exists b E, Value Ushort b /\ 0 <= E /\ pow_in Ushort E b = UB IntOverflow.
Proof. exists 65535, 2. split; [unfold Value, Ushort; cbn [bits signed]; lia|]. split; [lia|reflexivity]. Qed.
