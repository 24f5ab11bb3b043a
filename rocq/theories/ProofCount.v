(** Counting: powers, factorials, binomial coefficients, faces of cubes and simplices. *)
From Verif Require Import Base ProofBase Num ModelMath ModelShapes SpecMath.
From Coq Require Import Reals Factorial.
Open Scope Z_scope.

(** * pow *)
Lemma pow_loop_ub {A} (mul : A -> A -> outcome A) b n r :
  pow_loop mul b (S n) r = (x <- mul r b ;; pow_loop mul b n x).
Proof. reflexivity. Qed.

Lemma imul_mkint a b : imul a b = mkint (a * b).
Proof. reflexivity. Qed.

Lemma mkint_neg z : ~ is_int z -> mkint z = UB IntOverflow.
Proof. unfold mkint, is_int, int_ok. intros H. destruct ((INT_MIN <=? z) && (z <=? INT_MAX)) eqn:E; [lia|reflexivity]. Qed.
Lemma mkint_cases z : (is_int z /\ mkint z = Ok z) \/ (~ is_int z /\ mkint z = UB IntOverflow).
Proof.
  unfold mkint, is_int, int_ok.
  destruct ((INT_MIN <=? z) && (z <=? INT_MAX)) eqn:E; [left|right]; split; auto; lia.
Qed.

(** Powers never come back into range once they left it. *)
Lemma pow_step b k : is_int b -> is_int (b ^ Z.of_nat (S k)) -> is_int (b ^ Z.of_nat k).
Proof.
  unfold is_int, INT_MIN, INT_MAX. intros Hb H.
  rewrite Nat2Z.inj_succ, Z.pow_succ_r in H by lia.
  destruct (Z.eq_dec b 0) as [->|Hb0].
  { destruct k as [|k]; [simpl; lia|]. rewrite Z.pow_0_l by lia. lia. }
  assert (Hle : Z.abs b < 2 \/ 2 <= Z.abs b) by lia. destruct Hle as [Hle|Hle].
  { assert (E : b = 1 \/ b = -1) by lia. destruct E as [-> | ->].
    - rewrite Z.pow_1_l by lia. lia.
    - assert (E : (-1) ^ Z.of_nat k = 1 \/ (-1) ^ Z.of_nat k = -1).
      { clear. induction k as [|k IH]; [left; reflexivity|].
        rewrite Nat2Z.inj_succ, Z.pow_succ_r by lia. lia. }
      lia. }
  nia.
Qed.

Lemma pow_int_loop b n : forall k, is_int b -> is_int (b ^ Z.of_nat k) ->
  pow_loop imul b n (b ^ Z.of_nat k) = mkint (b ^ Z.of_nat (k + n)).
Proof.
  induction n as [|n IH]; intros k Hb Hk; simpl pow_loop.
  - rewrite Nat.add_0_r. symmetry. apply mkint_ok. exact Hk.
  - rewrite imul_mkint.
    replace (b ^ Z.of_nat k * b) with (b ^ Z.of_nat (S k))
      by (rewrite Nat2Z.inj_succ, Z.pow_succ_r by lia; ring).
    replace (k + S n)%nat with (S k + n)%nat by lia.
    destruct (mkint_cases (b ^ Z.of_nat (S k))) as [(Hi & ->)|(Hi & ->)]; cbn [bind].
    + apply IH; assumption.
    + symmetry. apply mkint_neg. intros H. apply Hi.
      revert H. generalize (S k) as j. clear -Hb. induction n as [|n IH]; intros j H.
      * now rewrite Nat.add_0_r in H.
      * apply IH. apply pow_step; [exact Hb|]. now replace (S (j + n)) with (j + S n)%nat by lia.
Qed.

Lemma pow_int_lemma E b : is_int b ->
  (0 <= E -> (is_int (b ^ E) -> pow_int E b = Ok (b ^ E)) /\
             (~ is_int (b ^ E) -> pow_int E b = UB IntOverflow)) /\
  (E < 0 -> pow_int E b = Ok 1).
Proof.
  intros Hb. unfold pow_int, ModelMath.pow.
  assert (H1 : is_int 1) by (unfold is_int, INT_MIN, INT_MAX; lia).
  pose proof (pow_int_loop b (Z.to_nat E) 0 Hb H1) as H. simpl Z.of_nat in H.
  change (b ^ 0) with 1 in H. rewrite H. clear H. change (0 + Z.to_nat E)%nat with (Z.to_nat E). split.
  - intros HE. rewrite Z2Nat.id by exact HE. split; [apply mkint_ok | apply mkint_neg].
  - intros HE. replace (Z.to_nat E) with 0%nat by lia. simpl. apply mkint_ok. exact H1.
Qed.

Lemma pow_real_lemma E (x : R) :
  (0 <= E -> pow_real RNum E x = Ok (x ^ Z.to_nat E)%R) /\ (E < 0 -> pow_real RNum E x = Ok 1%R).
Proof.
  unfold pow_real, ModelMath.pow.
  assert (H : forall n r, pow_loop (nmulM RNum) x n r = Ok (r * x ^ n)%R).
  { induction n as [|n IH]; intros r; simpl.
    - now rewrite Rmult_1_r.
    - rewrite IH. f_equal. ring. }
  split; intros HE; rewrite H; simpl; f_equal.
  - now rewrite Rmult_1_l.
  - replace (Z.to_nat E) with 0%nat by lia. simpl. ring.
Qed.

(** * factorial *)
Definition zfact (n : nat) : Z := Z.of_nat (fact n).

Lemma zfact_S n : zfact (S n) = (Z.of_nat n + 1) * zfact n.
Proof. unfold zfact. simpl fact. lia. Qed.
Lemma zfact_pos n : 1 <= zfact n.
Proof. unfold zfact. pose proof (lt_O_fact n). lia. Qed.
Lemma zfact_mono m n : (m <= n)%nat -> zfact m <= zfact n.
Proof. intros H. unfold zfact. apply fact_le in H. lia. Qed.

Lemma fold_left_ub {A} (op : A -> A -> outcome A) es f : fold_binary_left op (UB f) es = UB f.
Proof. induction es as [|e es IH]; simpl; auto. Qed.

Lemma fold_binary_left_app {A} (op : A -> A -> outcome A) es1 : forall i es2,
  fold_binary_left op i (es1 ++ es2) = fold_binary_left op (fold_binary_left op i es1) es2.
Proof. induction es1 as [|e es1 IH]; simpl; auto. Qed.

Lemma fact_fold n : fold_binary_left imul (Ok 1) (map (fun i => iadd i 1) (zseq n)) =
  mkint (zfact n) \/ (INT_MAX < Z.of_nat n).
Proof.
  induction n as [|n IH]; [left; reflexivity|].
  destruct (Z.ltb_spec INT_MAX (Z.of_nat (S n))) as [Hb|Hb]; [right; exact Hb|left].
  destruct IH as [IH|IH]; [|lia].
  rewrite zseq_S, map_app, fold_binary_left_app, IH. cbn [map fold_binary_left].
  rewrite iadd_ok by (unfold INT_MIN; lia).
  rewrite zfact_S. pose proof (zfact_pos n) as Hp.
  destruct (mkint_cases (zfact n)) as [(Hi & ->)|(Hi & ->)]; cbn [bind].
  - rewrite imul_mkint. f_equal. ring.
  - symmetry. apply mkint_neg. unfold is_int, INT_MIN in *. nia.
Qed.

Lemma fold_prefix_ub n m : (m <= n)%nat ->
  fold_binary_left imul (Ok 1) (map (fun i => iadd i 1) (zseq m)) = UB IntOverflow ->
  fold_binary_left imul (Ok 1) (map (fun i => iadd i 1) (zseq n)) = UB IntOverflow.
Proof.
  intros Hmn H. induction Hmn as [|n Hmn IH]; [exact H|].
  rewrite zseq_S, map_app, fold_binary_left_app, IH. reflexivity.
Qed.

Lemma zfact_12 : zfact 12 = 479001600.
Proof.
  replace (zfact 12) with (12 * (11 * (10 * (9 * (8 * (7 * (6 * (5 * (4 * (3 * (2 * (1 * zfact 0))))))))))))
    by (rewrite !zfact_S; lia). reflexivity.
Qed.
Lemma zfact_13 : zfact 13 = 6227020800.
Proof. rewrite zfact_S, zfact_12. reflexivity. Qed.

Lemma factorial_ok n : (n <= 12)%nat -> factorial (Z.of_nat n) = Ok (zfact n).
Proof.
  intros Hn. unfold factorial, make_integer_sequence.
  destruct (Z.ltb_spec (Z.of_nat n) 0) as [?|_]; [lia|]. cbn [bind]. rewrite Nat2Z.id.
  destruct (fact_fold n) as [-> | H]; [|unfold INT_MAX in H; lia].
  rewrite mkint_ok; [reflexivity|].
  pose proof (zfact_mono n 12 Hn) as H. rewrite zfact_12 in H. pose proof (zfact_pos n).
  unfold INT_MIN, INT_MAX. lia.
Qed.

Lemma factorial_bad N : ~ (0 <= N <= 12) -> factorial N = IllFormed.
Proof.
  intros HN. unfold factorial, make_integer_sequence.
  destruct (Z.ltb_spec N 0) as [?|Hp]; [reflexivity|]. cbn [bind].
  rewrite (fold_prefix_ub (Z.to_nat N) 13); [reflexivity | lia |].
  destruct (fact_fold 13) as [-> | H]; [|unfold INT_MAX in H; lia].
  apply mkint_neg. rewrite zfact_13. unfold is_int, INT_MAX. lia.
Qed.

Lemma factorial_lemma N :
  (0 <= N <= 12 -> factorial N = Ok (Z.of_nat (fact (Z.to_nat N)))) /\
  (~ (0 <= N <= 12) -> factorial N = IllFormed).
Proof.
  split; [|apply factorial_bad]. intros H.
  rewrite <- (Z2Nat.id N) at 1 by lia. apply factorial_ok. lia.
Qed.

(** * Binomial coefficients *)
Fixpoint choose (n k : nat) : nat :=
  match n, k with
  | _, O => 1
  | O, S _ => 0
  | S n', S k' => choose n' k' + choose n' k
  end.

Lemma choose_0_r n : choose n 0 = 1%nat.
Proof. destruct n; reflexivity. Qed.
Lemma choose_over n : forall k, (n < k)%nat -> choose n k = 0%nat.
Proof.
  induction n as [|n IH]; intros [|k] H; simpl; try lia.
  rewrite !IH by lia. reflexivity.
Qed.
Lemma choose_diag n : choose n n = 1%nat.
Proof. induction n as [|n IH]; simpl; [reflexivity|]. rewrite IH, choose_over by lia. reflexivity. Qed.

Lemma choose_fact n : forall k, (k <= n)%nat ->
  zfact n = Z.of_nat (choose n k) * (zfact k * zfact (n - k)).
Proof.
  induction n as [|n IH]; intros k Hk.
  - replace k with 0%nat by lia. reflexivity.
  - destruct k as [|k].
    + rewrite choose_0_r, Nat.sub_0_r. change (zfact 0) with 1. lia.
    + simpl choose. rewrite Nat.sub_succ.
      destruct (Nat.eq_dec k n) as [->|Hne].
      * rewrite choose_diag, choose_over, Nat.sub_diag by lia. change (zfact 0) with 1. lia.
      * pose proof (IH k ltac:(lia)) as H1. pose proof (IH (S k) ltac:(lia)) as H2.
        replace (n - k)%nat with (S (n - S k)) in * by lia.
        rewrite (zfact_S n). rewrite (zfact_S (n - S k)) in *. rewrite (zfact_S k) in *.
        rewrite Nat2Z.inj_add. rewrite Nat2Z.inj_sub in * by lia.
        set (A := Z.of_nat (choose n k)) in *. set (B := Z.of_nat (choose n (S k))) in *.
        set (f := zfact k) in *. set (g := zfact (n - S k)) in *. set (h := zfact n) in *.
        rewrite Nat2Z.inj_succ in *.
        transitivity ((Z.of_nat k + 1) * h + (Z.of_nat n - Z.of_nat k) * h); [ring|].
        rewrite H1 at 1. rewrite H2. ring.
Qed.

Lemma binomial_value n k : (k <= n <= 12)%nat ->
  binomialCoefficient (Z.of_nat n) (Z.of_nat k) = Ok (Z.of_nat (choose n k)).
Proof.
  intros H. unfold binomialCoefficient.
  replace ((0 <=? Z.of_nat k) && (Z.of_nat k <=? Z.of_nat n)) with true by lia.
  rewrite !factorial_ok by lia. cbn [bind].
  rewrite isub_ok by (unfold INT_MIN, INT_MAX; lia). cbn [constexpr_ bind].
  rewrite <- Nat2Z.inj_sub by lia. rewrite factorial_ok by lia. cbn [bind].
  pose proof (choose_fact n k ltac:(lia)) as Hf.
  pose proof (zfact_pos k) as Pk. pose proof (zfact_pos (n - k)) as Pnk. pose proof (zfact_pos n) as Pn.
  pose proof (zfact_mono n 12 ltac:(lia)) as Hm. rewrite zfact_12 in Hm.
  assert (Hd : 1 <= zfact k * zfact (n - k) <= zfact n).
  { split; [nia|]. assert (1 <= Z.of_nat (choose n k)) by nia. nia. }
  rewrite imul_ok by (unfold INT_MIN, INT_MAX; lia). cbn [bind].
  unfold idiv. destruct (Z.eqb_spec (zfact k * zfact (n - k)) 0) as [?|_]; [lia|].
  rewrite Hf, Z.quot_mul by lia. rewrite mkint_ok; [reflexivity|].
  unfold INT_MIN, INT_MAX. nia.
Qed.

(** Subsets. *)
Fixpoint subsets (n k : nat) : list (list bool) :=
  match n with
  | O => match k with O => [[]] | S _ => [] end
  | S n' =>
      map (cons false) (subsets n' k) ++
      match k with O => [] | S k' => map (cons true) (subsets n' k') end
  end.

Lemma subsets_length n : forall k, length (subsets n k) = choose n k.
Proof.
  induction n as [|n IH]; intros [|k]; simpl; try reflexivity.
  - rewrite app_length, map_length, IH, choose_0_r. reflexivity.
  - rewrite app_length, !map_length, !IH. lia.
Qed.

Lemma NoDup_app_disj {A} (l1 l2 : list A) : NoDup l1 -> NoDup l2 ->
  (forall x, In x l1 -> ~ In x l2) -> NoDup (l1 ++ l2).
Proof.
  induction l1 as [|a l1 IH]; simpl; intros H1 H2 Hd; [exact H2|].
  inversion_clear H1 as [|? ? Ha H1']. constructor.
  - rewrite in_app_iff. intros [H|H]; [contradiction|]. apply (Hd a); auto.
  - apply IH; auto.
Qed.
Lemma NoDup_map_cons {A} (a : A) l : NoDup l -> NoDup (map (cons a) l).
Proof.
  intros H. induction H as [|x l Hx H IH]; simpl; constructor; auto.
  rewrite in_map_iff. intros (y & Hy & Hin). injection Hy as <-. contradiction.
Qed.

Lemma subsets_nodup n : forall k, NoDup (subsets n k).
Proof.
  induction n as [|n IH]; intros [|k]; simpl.
  - constructor; [intros []|constructor].
  - constructor.
  - rewrite app_nil_r. apply NoDup_map_cons, IH.
  - apply NoDup_app_disj; try (apply NoDup_map_cons, IH).
    intros x H1 H2. apply in_map_iff in H1, H2. destruct H1 as (? & <- & _), H2 as (? & ? & _). discriminate.
Qed.

Lemma subsets_in n : forall k v, In v (subsets n k) <->
  length v = n /\ count_occ Bool.bool_dec v true = k.
Proof.
  induction n as [|n IH]; intros k v.
  - destruct k as [|k]; simpl; split.
    + intros [<-|[]]. auto.
    + intros (H & _). left. destruct v; [reflexivity|discriminate].
    + intros [].
    + intros (H & H'). destruct v; [discriminate H'|discriminate H].
  - simpl subsets. rewrite in_app_iff, in_map_iff. split.
    + intros [(u & <- & Hu)|H].
      * apply IH in Hu. destruct Hu. simpl. split; [lia|]. destruct (Bool.bool_dec false true); [discriminate|assumption].
      * destruct k as [|k]; [contradiction|]. apply in_map_iff in H. destruct H as (u & <- & Hu).
        apply IH in Hu. destruct Hu. simpl. split; [lia|]. destruct (Bool.bool_dec true true); [lia|congruence].
    + intros (Hl & Hc). destruct v as [|b v]; [discriminate|]. simpl in Hl, Hc.
      destruct b.
      * right. destruct (Bool.bool_dec true true); [|congruence].
        destruct k as [|k]; [discriminate|]. apply in_map. apply IH. split; lia.
      * left. exists v. split; [reflexivity|]. apply IH. split; [lia|].
        destruct (Bool.bool_dec false true); [discriminate|exact Hc].
Qed.

Lemma Count_subsets n k : Count (Subset (Z.of_nat n) (Z.of_nat k)) (Z.of_nat (choose n k)).
Proof.
  exists (subsets n k). split; [apply subsets_nodup|]. split.
  - intros v. rewrite subsets_in. unfold Subset. lia.
  - now rewrite subsets_length.
Qed.

Lemma Count_unique {A} (P : A -> Prop) n m : Count P n -> Count P m -> n = m.
Proof.
  intros (l & Hl & Hi & <-) (l' & Hl' & Hi' & <-). f_equal.
  apply Nat.le_antisymm; apply NoDup_incl_length; auto; intros x Hx; [apply Hi', Hi | apply Hi, Hi']; exact Hx.
Qed.

Lemma binomial_lemma N K :
  (forall v, binomialCoefficient N K = Ok v -> Count (Subset N K) v) /\
  (0 <= K <= N -> N <= 12 -> exists v, binomialCoefficient N K = Ok v) /\
  (~ (0 <= K <= N /\ N <= 12) -> binomialCoefficient N K = IllFormed).
Proof.
  assert (Hbad : ~ (0 <= K <= N /\ N <= 12) -> binomialCoefficient N K = IllFormed).
  { intros H. unfold binomialCoefficient. destruct ((0 <=? K) && (K <=? N)) eqn:E; [|reflexivity].
    rewrite factorial_bad by lia. reflexivity. }
  assert (Hgood : 0 <= K <= N -> N <= 12 ->
            binomialCoefficient N K = Ok (Z.of_nat (choose (Z.to_nat N) (Z.to_nat K)))).
  { intros H1 H2. rewrite <- (Z2Nat.id N) at 1 by lia. rewrite <- (Z2Nat.id K) at 1 by lia.
    apply binomial_value. lia. }
  split; [|split].
  - intros v Hv.
    assert (Hc : 0 <= K <= N /\ N <= 12 \/ ~ (0 <= K <= N /\ N <= 12)) by lia.
    destruct Hc as [(H1 & H2)|H]; [|rewrite Hbad in Hv by exact H; discriminate].
    rewrite Hgood in Hv by assumption. injection Hv as <-.
    rewrite <- (Z2Nat.id N) at 1 by lia. rewrite <- (Z2Nat.id K) at 1 by lia.
    apply Count_subsets.
  - intros H1 H2. eexists. apply Hgood; assumption.
  - exact Hbad.
Qed.

(** * Faces of the cube *)
Fixpoint cube_faces (n m : nat) : list (list side) :=
  match n with
  | O => match m with O => [[]] | S _ => [] end
  | S n' =>
      map (cons Lo) (cube_faces n' m) ++ map (cons Hi) (cube_faces n' m) ++
      match m with O => [] | S m' => map (cons Free) (cube_faces n' m') end
  end.

Lemma cube_faces_in n : forall m f, In f (cube_faces n m) <->
  length f = n /\ count_occ side_eq_dec f Free = m.
Proof.
  induction n as [|n IH]; intros m f.
  - destruct m as [|m]; simpl; split.
    + intros [<-|[]]. auto.
    + intros (H & _). left. destruct f; [reflexivity|discriminate].
    + intros [].
    + intros (H & H'). destruct f; [discriminate H'|discriminate H].
  - simpl cube_faces. rewrite !in_app_iff, !in_map_iff. split.
    + intros [(u & <- & Hu)|[(u & <- & Hu)|H]].
      * apply IH in Hu. destruct Hu. simpl. split; [lia|assumption].
      * apply IH in Hu. destruct Hu. simpl. split; [lia|assumption].
      * destruct m as [|m]; [contradiction|]. apply in_map_iff in H. destruct H as (u & <- & Hu).
        apply IH in Hu. destruct Hu. simpl. split; lia.
    + intros (Hl & Hc). destruct f as [|b f]; [discriminate|]. simpl in Hl, Hc. destruct b; simpl in Hc.
      * left. exists f. split; [reflexivity|]. apply IH. split; [lia|assumption].
      * right. left. exists f. split; [reflexivity|]. apply IH. split; [lia|assumption].
      * right. right. destruct m as [|m]; [discriminate|]. apply in_map. apply IH. split; lia.
Qed.

Lemma cube_faces_nodup n : forall m, NoDup (cube_faces n m).
Proof.
  induction n as [|n IH]; intros m; simpl.
  - destruct m; constructor; [intros []|constructor].
  - apply NoDup_app_disj; [apply NoDup_map_cons, IH | apply NoDup_app_disj |].
    + apply NoDup_map_cons, IH.
    + destruct m; [constructor|apply NoDup_map_cons, IH].
    + intros x H1 H2. apply in_map_iff in H1. destruct H1 as (? & <- & _).
      destruct m; [contradiction|]. apply in_map_iff in H2. destruct H2 as (? & ? & _). discriminate.
    + intros x H1 H2. apply in_map_iff in H1. destruct H1 as (? & <- & _).
      apply in_app_iff in H2. destruct H2 as [H2|H2].
      * apply in_map_iff in H2. destruct H2 as (? & ? & _). discriminate.
      * destruct m; [contradiction|]. apply in_map_iff in H2. destruct H2 as (? & ? & _). discriminate.
Qed.

Lemma cube_faces_over n : forall m, (n < m)%nat -> cube_faces n m = [].
Proof.
  induction n as [|n IH]; intros [|m] H; simpl; try lia; auto.
  rewrite !IH by lia. reflexivity.
Qed.

Lemma cube_faces_length n : forall m, (m <= n)%nat ->
  Z.of_nat (length (cube_faces n m)) = 2 ^ Z.of_nat (n - m) * Z.of_nat (choose n m).
Proof.
  induction n as [|n IH]; intros m Hm.
  - replace m with 0%nat by lia. reflexivity.
  - simpl cube_faces. rewrite !app_length, !map_length, !Nat2Z.inj_add.
    destruct m as [|m].
    + rewrite !IH by lia. rewrite !choose_0_r, !Nat.sub_0_r. simpl length.
      rewrite (Nat2Z.inj_succ n), Z.pow_succ_r by lia. lia.
    + rewrite map_length. destruct (Nat.eq_dec (S m) (S n)) as [E|E].
      * assert (m = n) by lia. subst m. rewrite !(cube_faces_over n (S n)) by lia.
        rewrite IH, choose_diag by lia. rewrite Nat.sub_diag, Nat.sub_diag, choose_diag. reflexivity.
      * rewrite !IH by lia. simpl choose. rewrite Nat2Z.inj_add, Nat.sub_succ.
        replace (n - m)%nat with (S (n - S m)) by lia.
        rewrite (Nat2Z.inj_succ (n - S m)), Z.pow_succ_r by lia. lia.
Qed.

Lemma Count_cube_faces n m : (m <= n)%nat ->
  Count (CubeFace (Z.of_nat n) (Z.of_nat m)) (2 ^ Z.of_nat (n - m) * Z.of_nat (choose n m)).
Proof.
  intros H. exists (cube_faces n m). split; [apply cube_faces_nodup|]. split.
  - intros v. rewrite cube_faces_in. unfold CubeFace. lia.
  - now rewrite cube_faces_length.
Qed.

Lemma numMCubes_good n m : (m <= n <= 12)%nat ->
  numMCubes (Z.of_nat n) (Z.of_nat m) =
  if 2 ^ Z.of_nat (n - m) * zfact n <=? INT_MAX
  then Ok (2 ^ Z.of_nat (n - m) * Z.of_nat (choose n m)) else UB IntOverflow.
Proof.
  intros H. unfold numMCubes.
  replace (Z.of_nat m <=? Z.of_nat n) with true by lia.
  rewrite isub_ok by (unfold INT_MIN, INT_MAX; lia). cbn [constexpr_ bind].
  rewrite <- Nat2Z.inj_sub by lia. rewrite !factorial_ok by lia. cbn [bind].
  assert (Hpow : 1 <= 2 ^ Z.of_nat (n - m) <= 4096).
  { split; [apply (Z.pow_le_mono_r 2 0); lia|]. change 4096 with (2 ^ 12). apply Z.pow_le_mono_r; lia. }
  destruct (pow_int_lemma (Z.of_nat (n - m)) 2) as (Hp & _); [unfold is_int, INT_MIN, INT_MAX; lia|].
  destruct Hp as (Hp & _); [lia|]. rewrite Hp by (unfold is_int, INT_MIN, INT_MAX; lia). cbn [bind].
  set (P := 2 ^ Z.of_nat (n - m)) in *.
  pose proof (choose_fact n m ltac:(lia)) as Hf.
  pose proof (zfact_pos m) as Pm. pose proof (zfact_pos (n - m)) as Pnm. pose proof (zfact_pos n) as Pn.
  pose proof (zfact_mono n 12 ltac:(lia)) as Hm. rewrite zfact_12 in Hm.
  assert (Hc : 1 <= Z.of_nat (choose n m)) by nia.
  assert (Hd : 1 <= zfact m * zfact (n - m) <= zfact n) by (split; nia).
  rewrite imul_mkint. destruct (Z.leb_spec (P * zfact n) INT_MAX) as [Hle|Hgt].
  - rewrite mkint_ok by (unfold INT_MIN; nia). cbn [bind].
    rewrite imul_ok by (unfold INT_MIN, INT_MAX; lia). cbn [bind]. unfold idiv.
    destruct (Z.eqb_spec (zfact m * zfact (n - m)) 0) as [?|_]; [lia|].
    rewrite Hf. replace (P * (Z.of_nat (choose n m) * (zfact m * zfact (n - m))))
      with (P * Z.of_nat (choose n m) * (zfact m * zfact (n - m))) by ring.
    rewrite Z.quot_mul by lia. apply mkint_ok. unfold INT_MIN, INT_MAX in *. nia.
  - rewrite mkint_neg by (unfold is_int; lia). reflexivity.
Qed.

Lemma numMCubes_bad N M : is_int N -> is_int M -> ~ (0 <= M <= N /\ N <= 12) -> numMCubes N M = IllFormed.
Proof.
  intros HN HM H. unfold numMCubes. destruct (Z.leb_spec M N); [|reflexivity].
  destruct (mkint_cases (N - M)) as [(Hi & E)|(Hi & E)]; unfold isub; rewrite E; cbn [constexpr_ bind]; [|reflexivity].
  assert (Hc : 0 <= N <= 12 \/ ~ (0 <= N <= 12)) by lia. destruct Hc as [Hc|Hc].
  - rewrite <- (Z2Nat.id N) by lia. rewrite factorial_ok by lia. cbn [bind].
    rewrite factorial_bad by lia. reflexivity.
  - rewrite factorial_bad by exact Hc. reflexivity.
Qed.

(** [C47]/[C48]: when it is defined and what it is. *)
Lemma numMCubes_lemma N M : is_int N -> is_int M ->
  (forall v, numMCubes N M = Ok v -> Count (CubeFace N M) v) /\
  ((exists v, numMCubes N M = Ok v) <->
   0 <= M <= N /\ N <= 12 /\ 2 ^ (N - M) * Z.of_nat (fact (Z.to_nat N)) <= INT_MAX) /\
  (~ (0 <= M <= N /\ N <= 12) -> numMCubes N M = IllFormed) /\
  (0 <= M <= N -> N <= 12 -> INT_MAX < 2 ^ (N - M) * Z.of_nat (fact (Z.to_nat N)) ->
     numMCubes N M = UB IntOverflow).
Proof.
  intros HN HM.
  assert (Hg : 0 <= M <= N -> N <= 12 -> numMCubes N M =
    if 2 ^ (N - M) * Z.of_nat (fact (Z.to_nat N)) <=? INT_MAX
    then Ok (2 ^ (N - M) * Z.of_nat (choose (Z.to_nat N) (Z.to_nat M))) else UB IntOverflow).
  { intros H1 H2. pose proof (numMCubes_good (Z.to_nat N) (Z.to_nat M) ltac:(lia)) as H.
    rewrite Nat2Z.inj_sub, !Z2Nat.id in H by lia. exact H. }
  assert (Hc : 0 <= M <= N /\ N <= 12 \/ ~ (0 <= M <= N /\ N <= 12)) by lia.
  split; [|split; [|split]].
  - intros v Hv. destruct Hc as [(H1 & H2)|H]; [|rewrite numMCubes_bad in Hv by assumption; discriminate].
    rewrite Hg in Hv by assumption.
    destruct (2 ^ (N - M) * Z.of_nat (fact (Z.to_nat N)) <=? INT_MAX); [|discriminate]. injection Hv as <-.
    pose proof (Count_cube_faces (Z.to_nat N) (Z.to_nat M) ltac:(lia)) as H.
    rewrite Nat2Z.inj_sub, !Z2Nat.id in H by lia. exact H.
  - split.
    + intros (v & Hv). destruct Hc as [(H1 & H2)|H]; [|rewrite numMCubes_bad in Hv by assumption; discriminate].
      rewrite Hg in Hv by assumption. split; [exact H1|]. split; [exact H2|].
      destruct (Z.leb_spec (2 ^ (N - M) * Z.of_nat (fact (Z.to_nat N))) INT_MAX); [assumption|discriminate].
    + intros (H1 & H2 & H3). rewrite Hg by assumption.
      destruct (Z.leb_spec (2 ^ (N - M) * Z.of_nat (fact (Z.to_nat N))) INT_MAX); [eauto|lia].
  - apply numMCubes_bad; assumption.
  - intros H1 H2 H3. rewrite Hg by assumption.
    destruct (Z.leb_spec (2 ^ (N - M) * Z.of_nat (fact (Z.to_nat N))) INT_MAX); [lia|reflexivity].
Qed.
