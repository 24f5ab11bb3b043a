(** The Lagrange basis in binary32: nodality, range and accuracy. *)
From Coq Require Import ZArith Reals Bool List Lia Lra Psatz.
From Flocq Require Import Core IEEE754.BinarySingleNaN.
Require Import Flocq.Prop.Plus_error Flocq.Prop.Relative.
From Verif Require Import Base ProofBase Num ModelF32 ModelSequence ModelSpacing ModelLagrange SpecNumeric
  ProofPoly ProofLagrange ProofF32 ProofCheck32.
Local Open Scope R_scope.

(** Product of a non-empty list, right to left. *)
Fixpoint prod32 (f : Z -> b32) (l : list Z) : b32 :=
  match l with
  | [] => b32_ofZ 1
  | [a] => f a
  | a :: l' => Bmult mode_NE (f a) (prod32 f l')
  end.
Lemma prod32_cons f a b l : prod32 f (a :: b :: l) = Bmult mode_NE (f a) (prod32 f (b :: l)).
Proof. reflexivity. Qed.

Lemma fold_mul32 (l : list Z) (e : Z -> outcome b32) (f : Z -> b32) : l <> [] ->
  (forall k, In k l -> e k = Ok (f k)) ->
  fold_unary_right (nmulM F32Num) (map e l) = Ok (prod32 f l).
Proof.
  induction l as [|a l IH]; intros Hne H; [congruence|].
  destruct l as [|b l].
  - cbn. apply H. left; reflexivity.
  - change (map e (a :: b :: l)) with (e a :: map e (b :: l)).
    change (map e (b :: l)) with (e b :: map e l). rewrite fold_unary_right_cons.
    change (e b :: map e l) with (map e (b :: l)).
    rewrite H by (left; reflexivity). cbn [bind].
    rewrite IH; [reflexivity|discriminate|]. intros k Hk. apply H. right; exact Hk.
Qed.

(** Sum of integer weights. *)
Fixpoint sumZ (c : Z -> Z) (l : list Z) : Z :=
  match l with [] => 0 | a :: l' => c a + sumZ c l' end%Z.
Lemma sumZ_nonneg c l : (forall k, In k l -> 0 <= c k)%Z -> (0 <= sumZ c l)%Z.
Proof.
  induction l as [|a l IH]; intros H; cbn [sumZ]; [lia|].
  pose proof (H a (or_introl eq_refl)). specialize (IH (fun k Hk => H k (or_intror Hk))). lia.
Qed.
Lemma sumZ_others i l : NoDup l ->
  sumZ (fun k => if (i =? k)%Z then 0 else 1)%Z l = (Z.of_nat (length l) - (if in_dec Z.eq_dec i l then 1 else 0))%Z.
Proof.
  induction 1 as [|a l Ha Hn IH]; [reflexivity|]. cbn [sumZ length].
  rewrite IH. destruct (in_dec Z.eq_dec i (a :: l)) as [H1|H1], (in_dec Z.eq_dec i l) as [H2|H2];
    destruct (Z.eqb_spec i a) as [E|E]; try lia; exfalso;
    cbn in H1; subst; intuition congruence.
Qed.

(** Factors in [1 - c u, 1]. *)
Lemma prod_near1 f c l : l <> [] ->
  (forall k, In k l -> (0 <= c k)%Z /\ is_finite (f k) = true /\ 1 - IZR (c k) * u <= B2R (f k) <= 1) ->
  (sumZ c l <= 2 ^ 23)%Z ->
  is_finite (prod32 f l) = true /\ 1 - IZR (sumZ c l) * u <= B2R (prod32 f l) <= 1.
Proof.
  pose proof u_pos as Up.
  induction l as [|a l IH]; intros Hne H Hs; [congruence|].
  assert (Ha := H a (or_introl eq_refl)). destruct Ha as (Ca & Fa & La & Ua).
  destruct l as [|b l].
  - cbn [sumZ prod32] in *. rewrite Z.add_0_r. split; [exact Fa|]. split; assumption.
  - assert (Hr : forall k, In k (b :: l) -> (0 <= c k)%Z /\ is_finite (f k) = true /\
                   1 - IZR (c k) * u <= B2R (f k) <= 1) by (intros k Hk; apply H; now right).
    assert (Cr : (0 <= sumZ c (b :: l))%Z) by (apply sumZ_nonneg; intros k Hk; now apply Hr).
    change (sumZ c (a :: b :: l)) with (c a + sumZ c (b :: l))%Z in *.
    destruct (IH ltac:(discriminate) Hr ltac:(lia)) as (Fp & Lp & Upp).
    rewrite prod32_cons. set (p := prod32 f (b :: l)) in *. set (m := sumZ c (b :: l)) in *.
    assert (C0 : 0 <= IZR (c a)) by (apply (IZR_le 0); lia).
    assert (M0 : 0 <= IZR m) by (apply (IZR_le 0); lia).
    assert (S : IZR (c a) * u + IZR m * u <= / 2).
    { rewrite <- Rmult_plus_distr_r, <- plus_IZR.
      apply Rle_trans with (IZR (2 ^ 23) * u).
      - apply Rmult_le_compat_r; [lra|]. now apply IZR_le.
      - rewrite u_val. cbn -[Rmult Rinv Rle]. lra. }
    assert (A0 : 0 <= IZR (c a) * u) by nra. assert (P0 : 0 <= IZR m * u) by nra.
    assert (L : 1 - (IZR (c a) * u + IZR m * u) <= B2R (f a) * B2R p).
    { set (al := IZR (c a) * u) in *. set (be := IZR m * u) in *. nra. }
    assert (U1 : B2R (f a) * B2R p <= 1) by nra.
    assert (Pos : 0 <= B2R (f a) * B2R p) by nra.
    destruct (B_mult (f a) p 0 Fa Fp) as (F & E & _); [lia| |].
    { rewrite Rabs_pos_eq by exact Pos. exact U1. }
    split; [exact F|]. rewrite E. rewrite plus_IZR, Rmult_plus_distr_r.
    assert (F1 : fmt (1 - (IZR (c a) * u + IZR m * u))).
    { replace (1 - (IZR (c a) * u + IZR m * u)) with (IZR (2 ^ 24 - (c a + m)) * pow2 (-24)).
      - destruct (Z.eq_dec (c a + m) 0) as [E0|E0].
        + rewrite E0. replace (IZR (2 ^ 24 - 0) * pow2 (-24)) with (pow2 0).
          * apply fmt_pow2. lia.
          * cbn -[Rmult Rinv]. lra.
        + apply fmt_int; lia.
      - rewrite minus_IZR, plus_IZR, u_val. cbn -[Rmult Rinv]. lra. }
    split.
    + rewrite <- (rnd_id _ F1). now apply rnd_le.
    + apply Rle_trans with (rnd 1); [now apply rnd_le|]. apply Req_le, rnd_id.
      replace 1 with (pow2 0) by reflexivity. apply fmt_pow2. lia.
Qed.

(** Bounded factors. *)
Lemma prod_bounded f e l : l <> [] -> (0 <= e)%Z -> (Z.of_nat (length l) * e < 128)%Z ->
  (forall k, In k l -> is_finite (f k) = true /\ Rabs (B2R (f k)) <= pow2 e) ->
  is_finite (prod32 f l) = true /\ Rabs (B2R (prod32 f l)) <= pow2 (Z.of_nat (length l) * e) /\
  ((exists k, In k l /\ B2R (f k) = 0) -> B2R (prod32 f l) = 0).
Proof.
  intros Hne He. induction l as [|a l IH]; intros Hl H; [congruence|].
  destruct (H a (or_introl eq_refl)) as [Fa Ba].
  destruct l as [|b l].
  - cbn [prod32 length]. rewrite Z.mul_1_l. split; [exact Fa|]. split; [exact Ba|].
    intros (k & [<-|[]] & E). exact E.
  - change (length (a :: b :: l)) with (S (length (b :: l))) in Hl.
    rewrite Nat2Z.inj_succ, Z.mul_succ_l in Hl.
    destruct IH as (Fp & Bp & Zp); [discriminate|lia|intros k Hk; apply H; now right|].
    rewrite prod32_cons. set (p := prod32 f (b :: l)) in *.
    change (length (a :: b :: l)) with (S (length (b :: l))). rewrite Nat2Z.inj_succ.
    set (m := Z.of_nat (length (b :: l))) in *.
    replace (Z.succ m * e)%Z with (e + m * e)%Z by lia.
    destruct (B_mult (f a) p (e + m * e) Fa Fp) as (F & E & B); [nia| |].
    { rewrite Rabs_mult, bpow_plus. apply Rmult_le_compat; try apply Rabs_pos; assumption. }
    split; [exact F|]. split; [exact B|]. rewrite E. intros (k & [<-|Hk] & Ek).
    + rewrite Ek, Rmult_0_l. apply rnd_0.
    + rewrite (Zp (ex_intro _ k (conj Hk Ek))), Rmult_0_r. apply rnd_0.
Qed.

(** Subtraction never underflows. *)
Lemma rel_minus a b : fmt a -> fmt b ->
  exists e, Rabs e <= u / (1 + u) /\ rnd (a - b) = (a - b) * (1 + e).
Proof.
  intros Fa Fb.
  destruct (FLT_plus_error_N_ex radix2 (-149) 24 (fun t => negb (Z.even t)) a (- b) Fa
              (generic_format_opp _ _ _ Fb)) as (e & He & E).
  exists e. split; [|exact E].
  replace u with (u_ro radix2 24); [exact He|]. unfold u_ro. cbn -[Rmult Rinv]. lra.
Qed.

Lemma pow_pair n : 2 <= (1 - u) ^ n + (1 + u) ^ n /\ (1 - u) ^ n <= 1 <= (1 + u) ^ n.
Proof.
  pose proof u_pos. assert (u <= / 1000) by (rewrite u_val; lra).
  induction n as [|n [IH1 IH2]]; cbn [pow]; [lra|].
  assert (0 < (1 - u) ^ n) by (apply pow_lt; lra). nra.
Qed.
Lemma pow_hi n : IZR (Z.of_nat n) * u <= 1 -> (1 + u) ^ n * (1 - IZR (Z.of_nat n) * u) <= 1.
Proof.
  pose proof u_pos as Up.
  induction n as [|n IH]; intros Hn; [cbn; lra|].
  rewrite Nat2Z.inj_succ, succ_IZR in *. cbn [pow].
  assert (N0 : 0 <= IZR (Z.of_nat n)) by (apply (IZR_le 0); lia).
  set (m := IZR (Z.of_nat n)) in *.
  assert (IH' := IH ltac:(nra)).
  assert (P : 0 < (1 + u) ^ n) by (apply pow_lt; lra).
  set (h := (1 + u) ^ n) in *.
  replace ((1 + u) * h * (1 - (m + 1) * u)) with (h * (1 - m * u) - h * ((m + 1) * u * u)) by ring.
  assert (0 <= h * ((m + 1) * u * u)) by (repeat apply Rmult_le_pos; lra). lra.
Qed.

Section Basis32.
Context (ORDER q : Z) (coordinate : Z -> outcome b32) (x : Z -> b32).
Context (HO : (0 <= ORDER < INT_MAX)%Z) (Hq : (0 <= q <= 120)%Z).
Context (Hp : forall k, (0 <= k < ORDER + 1)%Z -> coordinate k = Ok (x k)).
Context (Hf : forall k, (0 <= k < ORDER + 1)%Z -> is_finite (x k) = true /\ Rabs (B2R (x k)) <= 1).
Context (Hsep : forall i k, (0 <= i < ORDER + 1)%Z -> (0 <= k < ORDER + 1)%Z -> i <> k ->
  pow2 (- q) <= Rabs (B2R (x i) - B2R (x k))).
Let pts := zseq (Z.to_nat (ORDER + 1)).

Definition s32 (i k : Z) : b32 := Bminus mode_NE (x i) (x k).
Definition d32 (i k : Z) : b32 := fdiv (b32_ofZ 1) (s32 i k).
Definition t32 (i k : Z) (y : b32) : b32 :=
  if (i =? k)%Z then b32_ofZ 1 else Bmult mode_NE (Bminus mode_NE y (x k)) (d32 i k).

Lemma in_pts32 k : In k pts <-> (0 <= k < ORDER + 1)%Z.
Proof. unfold pts. rewrite in_zseq. lia. Qed.
Lemma length_pts32 : Z.of_nat (length pts) = (ORDER + 1)%Z.
Proof. unfold pts. rewrite zseq_length. lia. Qed.

Lemma diff_le2 (a b : b32) : Rabs (B2R a) <= 1 -> Rabs (B2R b) <= 1 -> Rabs (B2R a - B2R b) <= pow2 1.
Proof.
  intros A B. change (pow2 1) with 2. apply Rabs_le_inv in A. apply Rabs_le_inv in B.
  apply Rabs_le. lra.
Qed.

Lemma s32_ok i k : (0 <= i < ORDER + 1)%Z -> (0 <= k < ORDER + 1)%Z -> i <> k ->
  is_finite (s32 i k) = true /\ B2R (s32 i k) = rnd (B2R (x i) - B2R (x k)) /\
  pow2 (- q) <= Rabs (B2R (s32 i k)) <= pow2 1.
Proof.
  intros Hi Hk Hne. destruct (Hf i Hi) as [Fi Bi]. destruct (Hf k Hk) as [Fk Bk].
  destruct (B_minus (x i) (x k) 1 Fi Fk) as (F & E & B); [lia|now apply diff_le2|].
  split; [exact F|]. split; [exact E|]. split; [|exact B].
  unfold s32. rewrite E, <- rnd_abs. rewrite <- (rnd_id (pow2 (- q))) by (apply fmt_pow2; lia).
  apply rnd_le. now apply Hsep.
Qed.

Lemma d32_ok i k : (0 <= i < ORDER + 1)%Z -> (0 <= k < ORDER + 1)%Z -> i <> k ->
  is_finite (d32 i k) = true /\ B2R (d32 i k) = rnd (1 / B2R (s32 i k)) /\
  Rabs (B2R (d32 i k)) <= pow2 q.
Proof.
  intros Hi Hk Hne. destruct (s32_ok i k Hi Hk Hne) as (Fs & _ & L & _).
  destruct (b32_ofZ_exact 1 ltac:(lia)) as [F1 E1].
  assert (Hs : B2R (s32 i k) <> 0).
  { intros E. rewrite E, Rabs_R0 in L. pose proof (bpow_gt_0 radix2 (- q)). lra. }
  destruct (B_div (b32_ofZ 1) (s32 i k) q F1 Fs Hs) as (F & E & B); [lia| |].
  { rewrite E1. unfold Rdiv. rewrite Rmult_1_l, Rabs_inv.
    replace (pow2 q) with (/ pow2 (- q)) by (rewrite bpow_opp; apply Rinv_inv).
    apply Rinv_le; [apply bpow_gt_0|exact L]. }
  rewrite E1 in E. repeat split; assumption.
Qed.

Lemma valueProductTerm32 i k y : (0 <= i < ORDER + 1)%Z -> (0 <= k < ORDER + 1)%Z ->
  valueProductTerm F32Num coordinate i k y = Ok (t32 i k y).
Proof.
  intros Hi Hk. unfold valueProductTerm, t32. destruct (Z.eqb_spec i k) as [E|E]; [reflexivity|].
  rewrite !Hp by assumption. cbn [constexpr_ bind]. unfold ndiv_const.
  destruct (s32_ok i k Hi Hk E) as (Fs & _ & L & _).
  replace (nis0 F32Num (nsub F32Num (x i) (x k))) with false; [reflexivity|].
  symmetry. apply not_true_is_false. intros H. apply (b32_nis0 (s32 i k) Fs) in H.
  rewrite H, Rabs_R0 in L. pose proof (bpow_gt_0 radix2 (- q)). lra.
Qed.

Lemma lagrange_value32 i y : (0 <= i < ORDER + 1)%Z ->
  bvalue (lagrange_of F32Num ORDER coordinate) i y = Ok (prod32 (fun k => t32 i k y) pts).
Proof.
  intros Hi. cbn [bvalue lagrange_of]. unfold lagrange_value. rewrite nSupport_ok by exact HO. cbn [bind].
  rewrite exec_pack by lia.
  apply (fold_mul32 pts).
  - apply zseq_ne. lia.
  - intros k Hk. apply valueProductTerm32; [exact Hi|now apply in_pts32].
Qed.

(** At its own point the function is 1 up to one unit roundoff per factor. *)
Lemma t32_own i k : (0 <= i < ORDER + 1)%Z -> (0 <= k < ORDER + 1)%Z -> i <> k ->
  is_finite (t32 i k (x i)) = true /\ 1 - u <= B2R (t32 i k (x i)) <= 1.
Proof.
  intros Hi Hk Hne. destruct (s32_ok i k Hi Hk Hne) as (Fs & _ & L & B).
  destruct (d32_ok i k Hi Hk Hne) as (Fd & Ed & _).
  unfold t32. destruct (Z.eqb_spec i k); [contradiction|]. fold (s32 i k).
  assert (R : 1 - u <= rnd (B2R (s32 i k) * rnd (1 / B2R (s32 i k))) <= 1).
  { apply rnd_recip. split.
    - apply Rle_trans with (2 := L). apply bpow_le. lia.
    - apply Rle_trans with (1 := B). apply bpow_le. lia. }
  generalize (Bmult_correct prec32 emax32 _ _ mode_NE (s32 i k) (d32 i k)).
  change (round_mode mode_NE) with ZnearestE. rewrite Ed.
  rewrite Rlt_bool_true.
  - intros (E & F & _). rewrite Fs, Fd in F. split; [exact F|]. rewrite E. exact R.
  - apply Rle_lt_trans with (pow2 0); [|apply bpow_lt; reflexivity].
    change (pow2 0) with 1. apply Rabs_le. pose proof u_pos. rewrite u_val in R. lra.
Qed.

Lemma own_value i : (ORDER <= 2 ^ 23)%Z -> (0 <= i < ORDER + 1)%Z ->
  let v := prod32 (fun k => t32 i k (x i)) pts in
  is_finite v = true /\ 1 - IZR ORDER * u <= B2R v <= 1.
Proof.
  intros H23 Hi v. 
  assert (Sum : sumZ (fun k => if (i =? k)%Z then 0 else 1)%Z pts = ORDER).
  { rewrite sumZ_others.
    - rewrite length_pts32. destruct (in_dec Z.eq_dec i pts) as [|N]; [lia|].
      exfalso. apply N. now apply in_pts32.
    - unfold pts. apply NoDup_zseq. }
  destruct (prod_near1 (fun k => t32 i k (x i)) (fun k => if (i =? k)%Z then 0 else 1)%Z pts) as [F B].
  - apply zseq_ne. lia.
  - intros k Hk. apply in_pts32 in Hk. destruct (Z.eqb_spec i k) as [E|E].
    + unfold t32. rewrite (proj2 (Z.eqb_eq i k) E).
      destruct (b32_ofZ_exact 1 ltac:(lia)) as [F1 E1]. rewrite E1. split; [lia|]. split; [exact F1|]. lra.
    + destruct (t32_own i k Hi Hk E) as [F B]. split; [lia|]. split; [exact F|]. lra.
  - rewrite Sum. unfold INT_MAX in HO. lia.
  - rewrite Sum in B. split; [exact F|exact B].
Qed.

(** Inside [-1, 1] nothing overflows; at another point of the basis the value is zero. *)
Lemma t32_bound i k y : (0 <= i < ORDER + 1)%Z -> (0 <= k < ORDER + 1)%Z ->
  is_finite y = true -> Rabs (B2R y) <= 1 ->
  is_finite (t32 i k y) = true /\ Rabs (B2R (t32 i k y)) <= pow2 (q + 1).
Proof.
  intros Hi Hk Fy By. unfold t32. destruct (Z.eqb_spec i k) as [E|E].
  - destruct (b32_ofZ_exact 1 ltac:(lia)) as [F1 E1]. split; [exact F1|].
    rewrite E1, Rabs_R1. change 1 with (pow2 0). apply bpow_le. lia.
  - destruct (Hf k Hk) as [Fk Bk].
    destruct (B_minus y (x k) 1 Fy Fk) as (Fs & _ & Bs); [lia|now apply diff_le2|].
    destruct (d32_ok i k Hi Hk E) as (Fd & _ & Bd).
    destruct (B_mult (Bminus mode_NE y (x k)) (d32 i k) (q + 1) Fs Fd) as (F & _ & B); [lia| |].
    + rewrite Rabs_mult, Z.add_comm, bpow_plus. apply Rmult_le_compat; try apply Rabs_pos; assumption.
    + split; [exact F|exact B].
Qed.

Lemma value_bound i y : ((ORDER + 1) * (q + 1) < 128)%Z -> (0 <= i < ORDER + 1)%Z ->
  is_finite y = true -> Rabs (B2R y) <= 1 ->
  let v := prod32 (fun k => t32 i k y) pts in
  is_finite v = true /\ Rabs (B2R v) <= pow2 ((ORDER + 1) * (q + 1)) /\
  (forall j, (0 <= j < ORDER + 1)%Z -> j <> i -> y = x j -> B2R v = 0).
Proof.
  intros Hb Hi Fy By v.
  destruct (prod_bounded (fun k => t32 i k y) (q + 1) pts) as (F & B & Zr).
  - apply zseq_ne. lia.
  - lia.
  - rewrite length_pts32. exact Hb.
  - intros k Hk. apply in_pts32 in Hk. now apply t32_bound.
  - rewrite length_pts32 in B. split; [exact F|]. split; [exact B|].
    intros j Hj Hne ->. apply Zr. exists j. split; [now apply in_pts32|].
    unfold t32. destruct (Z.eqb_spec i j); [congruence|].
    destruct (Hf j Hj) as [Fj _]. destruct (minus_self (x j) Fj) as [Fm Em].
    destruct (d32_ok i j Hi Hj ltac:(congruence)) as (Fd & _ & _).
    destruct (B_mult (Bminus mode_NE (x j) (x j)) (d32 i j) 0 Fm Fd) as (_ & E & _); [lia| |].
    + rewrite Em, Rmult_0_l, Rabs_R0. apply bpow_ge_0.
    + rewrite E, Em, Rmult_0_l. apply rnd_0.
Qed.

(** Forward error: four roundings per factor and one per multiplication. *)
Lemma t32_rel i k y : (0 <= i < ORDER + 1)%Z -> (0 <= k < ORDER + 1)%Z -> i <> k ->
  is_finite y = true -> Rabs (B2R y) <= 1 ->
  exists f b, (1 - u) ^ 4 <= f <= (1 + u) ^ 4 /\ Rabs b <= pow2 (-150) /\
    B2R (t32 i k y) = term (fun k => B2R (x k)) i k (B2R y) * f + b.
Proof.
  intros Hi Hk Hne Fy By.
  destruct (s32_ok i k Hi Hk Hne) as (Fs & Es & L & B).
  destruct (d32_ok i k Hi Hk Hne) as (Fd & Ed & Bd).
  destruct (Hf k Hk) as [Fk Bk].
  destruct (B_minus y (x k) 1 Fy Fk) as (Fm & Em & Bm); [lia|now apply diff_le2|].
  unfold t32, term. destruct (Z.eqb_spec i k); [contradiction|].
  destruct (B_mult (Bminus mode_NE y (x k)) (d32 i k) (q + 1) Fm Fd) as (_ & E & _); [lia| |].
  { rewrite Rabs_mult, Z.add_comm, bpow_plus. apply Rmult_le_compat; try apply Rabs_pos; assumption. }
  rewrite E, Em.
  destruct (rel_minus (B2R y) (B2R (x k)) (fmt_B y) (fmt_B (x k))) as (e1 & H1 & ->).
  destruct (rel_minus (B2R (x i)) (B2R (x k)) (fmt_B (x i)) (fmt_B (x k))) as (e2 & H2 & E2).
  pose proof (Hsep i k Hi Hk Hne) as S0.
  assert (D0 : B2R (x i) - B2R (x k) <> 0).
  { intros E0. rewrite E0, Rabs_R0 in S0. pose proof (bpow_gt_0 radix2 (- q)). lra. }
  pose proof u_pos as Up. assert (Us : u <= / 1000) by (rewrite u_val; lra).
  assert (U1 : 0 < u / (1 + u) < 1).
  { split; [apply Rdiv_lt_0_compat; lra|]. apply Rmult_lt_reg_r with (1 + u); [lra|].
    unfold Rdiv. rewrite Rmult_assoc, Rinv_l by lra. lra. }
  apply Rabs_le_inv in H1. apply Rabs_le_inv in H2.
  assert (G : u / (1 + u) <= u).
  { apply Rmult_le_reg_r with (1 + u); [lra|].
    unfold Rdiv. rewrite Rmult_assoc, Rinv_l by lra. nra. }
  destruct (rnd_rel (1 / B2R (s32 i k))) as (e3 & H3 & E3).
  { unfold Rdiv. rewrite Rmult_1_l, Rabs_inv.
    rewrite (bpow_opp radix2 126 : pow2 (-126) = / pow2 126).
    apply Rinv_le.
    - pose proof (bpow_gt_0 radix2 (- q)). lra.
    - apply Rle_trans with (1 := B). apply bpow_le. lia. }
  rewrite Ed, E3, Es, E2. 
  apply Rabs_le_inv in H3.
  match goal with |- context [rnd ?z] => destruct (rnd_mixed z) as (e4 & r & H4 & Hr & _ & E4) end.
  rewrite E4. apply Rabs_le_inv in H4.
  exists ((1 + e1) * / (1 + e2) * (1 + e3) * (1 + e4)), r.
  assert (I2 : 1 - u <= / (1 + e2) <= 1 + u).
  { split.
    - apply Rmult_le_reg_r with (1 + e2); [lra|]. rewrite Rinv_l by lra.
      assert (e2 <= u) by lra. nra.
    - apply Rmult_le_reg_r with (1 + e2); [lra|]. rewrite Rinv_l by lra.
      apply Rle_trans with ((1 + u) * (1 - u / (1 + u))).
      + apply Req_le. field. lra.
      + apply Rmult_le_compat_l; lra. }
  split; [|split; [exact Hr|]].
  - set (v := / (1 + e2)) in *.
    assert (A1 : 0 <= 1 - u) by lra.
    split.
    + replace ((1 - u) ^ 4) with ((1 - u) * (1 - u) * (1 - u) * (1 - u)) by ring.
      repeat apply Rmult_le_compat; repeat apply Rmult_le_pos; lra.
    + replace ((1 + u) ^ 4) with ((1 + u) * (1 + u) * (1 + u) * (1 + u)) by ring.
      repeat apply Rmult_le_compat; repeat apply Rmult_le_pos; lra.
  - cbv beta. field. split; [lra|exact D0].
Qed.

Lemma prod_rel i y l : l <> [] -> (forall k, In k l -> (0 <= k < ORDER + 1)%Z) ->
  (Z.of_nat (length l) * (q + 1) < 128)%Z -> (0 <= i < ORDER + 1)%Z ->
  is_finite y = true -> Rabs (B2R y) <= 1 ->
  let w := Z.to_nat (sumZ (fun k => if (i =? k)%Z then 0 else 1)%Z l) in
  exists f b, (1 - u) ^ (5 * w) <= f <= (1 + u) ^ (5 * w) /\
    Rabs b <= pow2 (-149 + Z.of_nat (length l) * (q + 3)) /\
    B2R (prod32 (fun k => t32 i k y) l) =
      prodR (fun k => term (fun k => B2R (x k)) i k (B2R y)) l * f + b.
Proof.
  intros Hne Hin Hl Hi Fy By. cbv zeta.
  pose proof u_pos as Up. assert (Us : u <= / 1000) by (rewrite u_val; lra).
  assert (One : forall k, i = k -> is_finite (t32 i k y) = true /\ B2R (t32 i k y) = 1 /\
                 term (fun k => B2R (x k)) i k (B2R y) = 1).
  { intros k ->. unfold t32, term. rewrite Z.eqb_refl.
    destruct (b32_ofZ_exact 1 ltac:(lia)) as [F1 E1]. repeat split; assumption. }
  induction l as [|a l IH]; [congruence|].
  assert (Ha := Hin a (or_introl eq_refl)).
  destruct l as [|b l].
  - cbn [prod32 sumZ length prodR fold_right]. unfold prodR. cbn [fold_right]. rewrite Rmult_1_r.
    destruct (Z.eqb_spec i a) as [E|E].
    + destruct (One a E) as (_ & -> & ->). exists 1, 0. change (5 * Z.to_nat (0 + 0))%nat with 0%nat. cbn [pow].
      split; [lra|]. split; [rewrite Rabs_R0; apply bpow_ge_0|ring].
    + destruct (t32_rel i a y Hi Ha E Fy By) as (f & b & Bf & Bb & Ef).
      exists f, b. change (5 * Z.to_nat (1 + 0))%nat with 5%nat.
      split; [|split; [|exact Ef]].
      * assert (0 < (1 - u) ^ 4) by (apply pow_lt; lra).
        assert (0 < (1 + u) ^ 4) by (apply pow_lt; lra).
        change ((1 - u) ^ 5) with ((1 - u) * (1 - u) ^ 4).
        change ((1 + u) ^ 5) with ((1 + u) * (1 + u) ^ 4). nra.
      * apply Rle_trans with (1 := Bb). apply bpow_le. lia.
  - assert (Hin' : forall k, In k (b :: l) -> (0 <= k < ORDER + 1)%Z) by (intros k Hk; apply Hin; now right).
    change (length (a :: b :: l)) with (S (length (b :: l))) in *.
    rewrite Nat2Z.inj_succ in *.
    set (m := Z.of_nat (length (b :: l))) in *.
    assert (Hm : (0 <= m)%Z) by lia.
    assert (Hl' : (m * (q + 1) < 128)%Z) by nia.
    destruct (IH ltac:(discriminate) Hin' Hl') as (F & rho & BF & Brho & EF).
    destruct (prod_bounded (fun k => t32 i k y) (q + 1) (b :: l)) as (Fp & Bp & _).
    { discriminate. } { lia. } { exact Hl'. }
    { intros k Hk. apply t32_bound; auto. }
    fold m in Bp.
    rewrite prod32_cons. set (p := prod32 (fun k => t32 i k y) (b :: l)) in *.
    rewrite prodR_cons.
    set (P := prodR (fun k => term (fun k => B2R (x k)) i k (B2R y)) (b :: l)) in *.
    change (sumZ (fun k => if (i =? k)%Z then 0%Z else 1%Z) (a :: b :: l))
      with ((if (i =? a)%Z then 0%Z else 1%Z) + sumZ (fun k => if (i =? k)%Z then 0%Z else 1%Z) (b :: l))%Z.
    set (w := sumZ (fun k => if (i =? k)%Z then 0%Z else 1%Z) (b :: l)) in *.
    assert (Hw : (0 <= w)%Z) by (apply sumZ_nonneg; intros k _; destruct (i =? k)%Z; lia).
    destruct (t32_bound i a y Hi Ha Fy By) as [Fa Ba].
    destruct (B_mult (t32 i a y) p (q + 1 + m * (q + 1)) Fa Fp) as (_ & E & _); [nia| |].
    { rewrite Rabs_mult, bpow_plus. apply Rmult_le_compat; try apply Rabs_pos; assumption. }
    rewrite E. destruct (Z.eqb_spec i a) as [Eq|Ne].
    + destruct (One a Eq) as (_ & -> & ->). rewrite !Rmult_1_l, Z.add_0_l.
      rewrite rnd_id by apply fmt_B. exists F, rho. split; [exact BF|]. split; [|exact EF].
      apply Rle_trans with (1 := Brho). apply bpow_le. nia.
    + destruct (t32_rel i a y Hi Ha Ne Fy By) as (f & bb & Bf & Bb & Ef).
      destruct (rnd_mixed (B2R (t32 i a y) * B2R p)) as (d & r & Hd & Hr & _ & Er).
      rewrite Er. set (T := term (fun k => B2R (x k)) i a (B2R y)) in *.
      set (t := B2R (t32 i a y)) in *. set (pp := B2R p) in *.
      exists (f * F * (1 + d)), ((T * f * rho + bb * pp) * (1 + d) + r).
      apply Rabs_le_inv in Hd.
      replace (Z.to_nat (1 + w)) with (S (Z.to_nat w)) by lia.
      replace (5 * S (Z.to_nat w))%nat with (4 + 5 * Z.to_nat w + 1)%nat by lia.
      rewrite !pow_add, !pow_1.
      assert (0 < (1 - u) ^ 4) by (apply pow_lt; lra).
      assert (0 < (1 - u) ^ (5 * Z.to_nat w)) by (apply pow_lt; lra).
      split; [|split].
      * split; repeat apply Rmult_le_compat; repeat apply Rmult_le_pos; lra.
      * (* the accumulated underflow *)
        set (g := (q + 3)%Z) in *.
        replace (-149 + Z.succ m * g)%Z with (-149 + m * g + (q + 3))%Z by (unfold g; lia).
        rewrite (bpow_plus radix2 (-149 + m * g)).
        assert (Q3 : pow2 (q + 3) = 4 * pow2 (q + 1)).
        { replace (q + 3)%Z with (2 + (q + 1))%Z by lia. rewrite bpow_plus. reflexivity. }
        assert (Q1 : 2 <= pow2 (q + 1)).
        { change 2 with (pow2 1). apply bpow_le. lia. }
        assert (M0 : 0 < pow2 (-149 + m * g)) by apply bpow_gt_0.
        assert (R0 : pow2 (-150) <= / 2 * pow2 (-149 + m * g)).
        { change (/ 2) with (pow2 (-1)). rewrite <- bpow_plus. apply bpow_le. unfold g. nia. }
        assert (R1 : pow2 (-150) * pow2 (m * (q + 1)) <= / 2 * pow2 (-149 + m * g)).
        { change (/ 2) with (pow2 (-1)). rewrite <- !bpow_plus. apply bpow_le. unfold g. nia. }
        assert (R2 : pow2 (-150) <= pow2 (q + 1)) by (apply bpow_le; lia).
        set (M := pow2 (-149 + m * g)) in *. set (Q := pow2 (q + 1)) in *.
        assert (Tf : Rabs (T * f) <= 2 * Q).
        { replace (T * f) with (t - bb) by lra.
          apply Rle_trans with (Rabs t + Rabs bb); [|lra].
          unfold Rminus. rewrite <- (Rabs_Ropp bb). apply Rabs_triang. }
        assert (X1 : Rabs (T * f * rho) <= 2 * Q * M).
        { rewrite Rabs_mult. apply Rmult_le_compat; try apply Rabs_pos; assumption. }
        assert (X2 : Rabs (bb * pp) <= / 2 * M).
        { rewrite Rabs_mult. apply Rle_trans with (2 := R1).
          apply Rmult_le_compat; try apply Rabs_pos; assumption. }
        apply Rle_trans with (Rabs ((T * f * rho + bb * pp) * (1 + d)) + Rabs r); [apply Rabs_triang|].
        rewrite Rabs_mult, (Rabs_pos_eq (1 + d)) by lra.
        assert (X3 : Rabs (T * f * rho + bb * pp) <= 2 * Q * M + / 2 * M).
        { apply Rle_trans with (1 := Rabs_triang _ _). lra. }
        assert (X4 : Rabs (T * f * rho + bb * pp) * (1 + d) <= (2 * Q * M + / 2 * M) * (1 + / 1000)).
        { apply Rmult_le_compat; [apply Rabs_pos|lra|exact X3|lra]. }
        rewrite Q3. nra.
      * rewrite EF, Ef. ring.
Qed.
End Basis32.
