(** Named counters of the shapes, coordinates and volumes. *)
From Verif Require Import Base ProofBase Num ModelMath ModelShapes SpecMath ProofCount.
From Coq Require Import Reals Factorial Lra.
Open Scope Z_scope.

Lemma Count_none {A} (P : A -> Prop) : (forall x, ~ P x) -> Count P 0.
Proof.
  intros H. exists []. split; [constructor|]. split; [|reflexivity].
  intros x. split; [intros [] | intros Hx; exact (H x Hx)].
Qed.

Lemma count_le_length {A} (dec : forall x y : A, {x = y} + {x <> y}) l x :
  (count_occ dec l x <= length l)%nat.
Proof. induction l as [|a l IH]; simpl; [lia|]. destruct (dec a x); lia. Qed.

Lemma CubeFace_over n m f : n < m -> ~ CubeFace n m f.
Proof. intros H (Hl & Hc). pose proof (count_le_length side_eq_dec f Free). lia. Qed.
Lemma CubeFace_neg n m f : m < 0 -> ~ CubeFace n m f.
Proof. intros H (Hl & Hc). lia. Qed.

Lemma choose_pred n : choose (S n) n = S n.
Proof. induction n as [|n IH]; [reflexivity|]. change (choose (S n) n + choose (S n) (S n) = S (S n))%nat.
  rewrite IH, choose_diag. lia. Qed.

Lemma cube_counters_lemma N : is_int N -> 0 <= N ->
  (forall v, cube_numVertices N = Ok v -> Count (CubeFace N 0) v) /\
  (forall v, cube_numEdges N = Ok v -> Count (CubeFace N 1) v) /\
  (forall v, cube_numFaces N = Ok v -> Count (CubeFace N 2) v) /\
  (forall v, cube_numCells N = Ok v -> Count (CubeFace N 3) v) /\
  (forall v, cube_numHyperFaces N = Ok v -> Count (CubeFace N (N - 1)) v) /\
  (2 * N <= INT_MAX -> exists v, cube_numHyperFaces N = Ok v).
Proof.
  intros HN H0.
  assert (Hm : forall M, 0 <= M <= 3 -> forall v, numMCubes N M = Ok v -> Count (CubeFace N M) v).
  { intros M HM. apply numMCubes_lemma; [exact HN|]. unfold is_int, INT_MIN, INT_MAX. lia. }
  assert (Hz : forall M, N < M -> forall v, Ok 0 = Ok v -> Count (CubeFace N M) v).
  { intros M HM v E. injection E as <-. apply Count_none. intros f. apply CubeFace_over; lia. }
  unfold cube_numVertices, cube_numEdges, cube_numFaces, cube_numCells, cube_numHyperFaces.
  split; [apply Hm; lia|]. split; [|split; [|split; [|split]]].
  - destruct (Z.ltb_spec 0 N); [apply Hm|apply Hz]; lia.
  - destruct (Z.ltb_spec 1 N); [apply Hm|apply Hz]; lia.
  - destruct (Z.ltb_spec 2 N); [apply Hm|apply Hz]; lia.
  - intros v Hv. apply mkint_inv in Hv. destruct Hv as (-> & _).
    destruct (Z.eq_dec N 0) as [->|Hne].
    + apply Count_none. intros f. apply CubeFace_neg. lia.
    + pose proof (Count_cube_faces (Z.to_nat N) (Z.to_nat (N - 1)) ltac:(lia)) as H.
      replace (Z.to_nat N) with (S (Z.to_nat (N - 1))) in H at 3 by lia.
      rewrite choose_pred in H.
      replace (Z.to_nat N - Z.to_nat (N - 1))%nat with 1%nat in H by lia.
      change (2 ^ Z.of_nat 1) with 2 in H.
      rewrite !Z2Nat.id in H by lia. replace (Z.of_nat (S (Z.to_nat (N - 1)))) with N in H by lia. exact H.
  - intros H. eexists. apply mkint_ok. unfold INT_MIN in *. lia.
Qed.

Lemma cube_counts_fit_refuted : exists N M n, 0 <= M <= N /\ N <= 12 /\
  Count (CubeFace N M) n /\ n <= INT_MAX /\ cube_numVertices N = UB IntOverflow /\ M = 0.
Proof.
  exists 10, 0, 1024. split; [lia|]. split; [lia|]. split.
  { pose proof (Count_cube_faces 10 0 ltac:(lia)) as H. rewrite choose_0_r in H. exact H. }
  split; [unfold INT_MAX; lia|]. split; reflexivity.
Qed.

Lemma cube_counts_reject_refuted : exists N, 0 <= N /\
  Count (CubeFace N 0) (2 ^ N) /\ 2 ^ N <= INT_MAX /\ cube_numVertices N = IllFormed.
Proof.
  exists 13. split; [lia|]. split.
  { pose proof (Count_cube_faces 13 0 ltac:(lia)) as H. rewrite choose_0_r in H. exact H. }
  split; [unfold INT_MAX; simpl; lia|]. reflexivity.
Qed.

(** * Simplex *)
Lemma numMSimplexes_lemma N M : is_int N -> is_int M ->
  (forall v, numMSimplexes N M = Ok v -> Count (SimplexFace N M) v) /\
  ((exists v, numMSimplexes N M = Ok v) <-> -1 <= M <= N /\ N <= 11) /\
  (~ (-1 <= M <= N /\ N <= 11) -> numMSimplexes N M = IllFormed).
Proof.
  intros HN HM. unfold numMSimplexes.
  destruct (binomial_lemma (N + 1) (M + 1)) as (Hv & He & Hb).
  destruct (Z.leb_spec M N) as [Hle|Hgt].
  - destruct (mkint_cases (N + 1)) as [(Hi & E)|(Hi & E)]; unfold iadd; rewrite E; cbn [constexpr_ bind].
    + rewrite mkint_ok by (unfold is_int, INT_MIN, INT_MAX in *; lia). cbn [constexpr_ bind].
      split; [exact Hv|]. split; [split|].
      * intros (v & Ev). destruct (Z_le_gt_dec (-1) M) as [Ha|Ha]; [|rewrite Hb in Ev by lia; discriminate].
        destruct (Z_le_gt_dec N 11) as [Hc|Hc]; [lia|]. rewrite Hb in Ev by lia; discriminate.
      * intros H. apply He; lia.
      * intros H. apply Hb. lia.
    + split; [discriminate|]. split; [|reflexivity]. split; [intros (v & Ev); discriminate|].
      intros H. exfalso. apply Hi. unfold is_int, INT_MIN, INT_MAX in *; lia.
  - split; [discriminate|]. split; [|reflexivity]. split; [intros (v & Ev); discriminate|lia].
Qed.

Lemma SimplexFace_over n m v : n < m -> ~ SimplexFace n m v.
Proof. intros H (Hl & Hc). pose proof (count_le_length Bool.bool_dec v true). lia. Qed.

Lemma simplex_counters_lemma N : is_int N -> 0 <= N ->
  (forall v, simplex_numVertices N = Ok v -> Count (SimplexFace N 0) v) /\
  (forall v, simplex_numEdges N = Ok v -> Count (SimplexFace N 1) v) /\
  (forall v, simplex_numFaces N = Ok v -> Count (SimplexFace N 2) v) /\
  (forall v, simplex_numCells N = Ok v -> Count (SimplexFace N 3) v) /\
  (forall v, simplex_numHyperFaces N = Ok v -> Count (SimplexFace N (N - 1)) v) /\
  (N <= 11 -> (exists v, simplex_numVertices N = Ok v) /\ (exists v, simplex_numEdges N = Ok v) /\
              (exists v, simplex_numFaces N = Ok v) /\ (exists v, simplex_numCells N = Ok v) /\
              (exists v, simplex_numHyperFaces N = Ok v)) /\
  (12 <= N -> simplex_numVertices N = IllFormed).
Proof.
  intros HN H0.
  assert (Hi : forall M, -1 <= M <= 3 \/ M = N - 1 -> is_int M).
  { unfold is_int, INT_MIN, INT_MAX in *. lia. }
  assert (Hm : forall M, -1 <= M <= 3 \/ M = N - 1 -> forall v, numMSimplexes N M = Ok v -> Count (SimplexFace N M) v).
  { intros M HM. apply numMSimplexes_lemma; auto. }
  assert (Hz : forall M, N < M -> forall v, Ok 0 = Ok v -> Count (SimplexFace N M) v).
  { intros M HM v E. injection E as <-. apply Count_none. intros f. apply SimplexFace_over; lia. }
  assert (Hd : N <= 11 -> forall M, -1 <= M <= N -> exists v, numMSimplexes N M = Ok v).
  { intros H M HM. apply numMSimplexes_lemma; auto. unfold is_int, INT_MIN, INT_MAX in *. lia. }
  assert (Hs : constexpr_ (isub N 1) = Ok (N - 1)).
  { rewrite isub_ok; [reflexivity|]. unfold is_int, INT_MIN, INT_MAX in *. lia. }
  unfold simplex_numVertices, simplex_numEdges, simplex_numFaces, simplex_numCells, simplex_numHyperFaces.
  rewrite Hs. cbn [bind].
  split; [apply Hm; lia|]. split; [|split; [|split; [|split; [|split]]]].
  - destruct (Z.ltb_spec 0 N); [apply Hm|apply Hz]; lia.
  - destruct (Z.ltb_spec 1 N); [apply Hm|apply Hz]; lia.
  - destruct (Z.ltb_spec 2 N); [apply Hm|apply Hz]; lia.
  - apply Hm. lia.
  - intros H. split; [apply Hd; lia|].
    split; [destruct (Z.ltb_spec 0 N); [apply Hd; lia|eauto]|].
    split; [destruct (Z.ltb_spec 1 N); [apply Hd; lia|eauto]|].
    split; [destruct (Z.ltb_spec 2 N); [apply Hd; lia|eauto]|].
    apply Hd; lia.
  - intros H. apply numMSimplexes_lemma; auto; [unfold is_int, INT_MIN, INT_MAX; lia|lia].
Qed.

(** * Coordinates and volumes over the reals *)
Lemma Rndiv_ok x y : y <> 0%R -> ndiv RNum x y = Ok (x / y)%R.
Proof. intros H. simpl. unfold Req0. destruct (Req_EM_T y 0); [contradiction|reflexivity]. Qed.

Lemma bounds_ok_true MIN MAX DIVISOR : MIN < MAX -> 0 < DIVISOR -> bounds_ok MIN MAX DIVISOR = Ok tt.
Proof. intros. unfold bounds_ok. replace ((MIN <? MAX) && (0 <? DIVISOR)) with true by lia. reflexivity. Qed.

Section Vol.
Context (MIN MAX DIVISOR : Z) (Hlt : MIN < MAX) (Hdiv : 0 < DIVISOR) (Hfit : MAX - MIN <= INT_MAX).

Lemma IZR_ne_0 z : z <> 0 -> (IZR z <> 0)%R.
Proof. intros H E. apply eq_IZR in E. contradiction. Qed.

Lemma length_R : length_ RNum MIN MAX DIVISOR = Ok (IZR (MAX - MIN) / IZR DIVISOR)%R.
Proof.
  unfold length_. rewrite bounds_ok_true by assumption. cbn [bind].
  rewrite isub_ok by (unfold INT_MIN; lia). cbn [bind]. apply Rndiv_ok.
  apply IZR_ne_0. lia.
Qed.

Lemma cube_volume_R n : cube_volumeHelper RNum MIN MAX DIVISOR n =
  Ok ((IZR (MAX - MIN) / IZR DIVISOR) ^ n)%R.
Proof.
  induction n as [|n IH]; simpl; [reflexivity|]. rewrite length_R. cbn [bind]. rewrite IH. reflexivity.
Qed.

Lemma simplex_volume_R n : simplex_volumeHelper RNum MIN MAX DIVISOR n =
  Ok ((IZR (MAX - MIN) / IZR DIVISOR) ^ n / INR (fact n))%R.
Proof.
  induction n as [|n IH]; [simpl; f_equal; field|].
  unfold simplex_volumeHelper; fold (simplex_volumeHelper RNum MIN MAX DIVISOR n).
  rewrite length_R. cbn [bind].
  rewrite Rndiv_ok by (apply IZR_ne_0; lia).
  cbn [bind]. rewrite IH. cbn [bind]. f_equal. simpl nmul. simpl nofZ.
  change (Z.pos (Pos.of_succ_nat n)) with (Z.of_nat (S n)). rewrite <- INR_IZR_INZ. change (fact (S n)) with (S n * fact n)%nat. rewrite mult_INR.
  rewrite <- tech_pow_Rmult. match goal with |- ?a = ?b => change (@eq R a b) end.
  field. repeat split; first [apply INR_fact_neq_0 | apply not_0_INR; lia | apply IZR_ne_0; lia].
Qed.
End Vol.

Lemma SimplexVolume_unique n V : SimplexVolume n V -> forall t, V t = (t ^ n / INR (fact n))%R.
Proof.
  intros H. induction H as [|n V W HV IH H0 HW]; intros t; [simpl; field|].
  set (P := fun t => (t ^ (S n) / INR (fact (S n)))%R).
  assert (HP : forall t, derivable_pt_lim P t (V t)).
  { intros s. unfold P. rewrite IH.
    replace (s ^ n / INR (fact n))%R with (/ INR (fact (S n)) * (INR (S n) * s ^ pred (S n)))%R.
    - apply (derivable_pt_lim_ext (mult_real_fct (/ INR (fact (S n))) (fun t => t ^ (S n)))%R).
      + intros z. unfold mult_real_fct. unfold Rdiv. ring.
      + apply derivable_pt_lim_scal. apply derivable_pt_lim_pow.
    - change (fact (S n)) with (S n * fact n)%nat. rewrite mult_INR. simpl pred. field.
      split; [apply INR_fact_neq_0|apply not_0_INR; lia]. }
  assert (HD : forall t, derivable_pt_lim (W - P)%F t 0%R).
  { intros s. replace 0%R with (V s - V s)%R by ring. apply derivable_pt_lim_minus; auto. }
  assert (pr : derivable (W - P)%F) by (intros s; exists 0%R; apply HD).
  assert (Hn : constant (W - P)%F).
  { apply (null_derivative_1 _ pr). intros s. rewrite derive_pt_eq. apply HD. }
  specialize (Hn t 0%R). unfold minus_fct in Hn. unfold P in Hn. rewrite H0, pow_i in Hn by lia.
  unfold Rdiv in Hn. rewrite Rmult_0_l in Hn. unfold Rdiv. lra.
Qed.

Lemma volume_lemma N MIN MAX DIVISOR : MIN < MAX -> 0 < DIVISOR ->
  minCoord RNum MIN MAX DIVISOR = Ok (IZR MIN / IZR DIVISOR)%R /\
  maxCoord RNum MIN MAX DIVISOR = Ok (IZR MAX / IZR DIVISOR)%R /\
  (MAX - MIN <= INT_MAX ->
    (exists l, length_ RNum MIN MAX DIVISOR = Ok l /\
      l = (IZR MAX / IZR DIVISOR - IZR MIN / IZR DIVISOR)%R /\
      (0 < N -> cube_volume RNum MIN MAX DIVISOR N = Ok (l ^ Z.to_nat N)%R /\
         simplex_volume RNum MIN MAX DIVISOR N = Ok (l ^ Z.to_nat N / INR (fact (Z.to_nat N)))%R /\
         forall V, SimplexVolume (Z.to_nat N) V -> simplex_volume RNum MIN MAX DIVISOR N = Ok (V l)))) /\
  (INT_MAX < MAX - MIN -> length_ RNum MIN MAX DIVISOR = UB IntOverflow) /\
  (N <= 0 -> cube_volume RNum MIN MAX DIVISOR N = IllFormed /\ simplex_volume RNum MIN MAX DIVISOR N = IllFormed).
Proof.
  intros Hlt Hdiv.
  assert (Hd0 : (IZR DIVISOR <> 0)%R) by (apply IZR_ne_0; lia).
  unfold minCoord, maxCoord. rewrite bounds_ok_true by assumption. cbn [bind].
  split; [apply Rndiv_ok; exact Hd0|]. split; [apply Rndiv_ok; exact Hd0|]. split; [|split].
  - intros Hfit. eexists. split; [apply length_R; assumption|].
    split; [match goal with |- ?a = ?b => change (@eq R a b) end; rewrite minus_IZR; field; exact Hd0|].
    intros HN. unfold cube_volume, simplex_volume. replace (0 <? N) with true by lia.
    split; [apply cube_volume_R; assumption|]. split; [apply simplex_volume_R; assumption|].
    intros V HV. rewrite (SimplexVolume_unique _ _ HV). apply simplex_volume_R; assumption.
  - intros Hb. unfold length_. rewrite bounds_ok_true by assumption. cbn [bind].
    unfold isub. rewrite mkint_neg; [reflexivity|]. unfold is_int. lia.
  - intros HN. unfold cube_volume, simplex_volume. replace (0 <? N) with false by lia. auto.
Qed.

Lemma bad_bounds_lemma MIN MAX DIVISOR : ~ (MIN < MAX /\ 0 < DIVISOR) ->
  minCoord RNum MIN MAX DIVISOR = IllFormed /\ maxCoord RNum MIN MAX DIVISOR = IllFormed /\
  length_ RNum MIN MAX DIVISOR = IllFormed.
Proof.
  intros H. unfold minCoord, maxCoord, length_, bounds_ok.
  destruct ((MIN <? MAX) && (0 <? DIVISOR)) eqn:E; [lia|]. auto.
Qed.

Lemma SimplexVolume_exists n : exists V, SimplexVolume n V.
Proof.
  assert (H : exists V, SimplexVolume n V /\ forall t, V t = (t ^ n / INR (fact n))%R).
  { induction n as [|n (V & HV & HE)].
    - exists (fun _ => 1%R). split; [constructor|]. intros t. simpl. field.
    - exists (fun t => t ^ S n / INR (fact (S n)))%R. split; [|reflexivity].
      apply (SimplexVolume_S n V); [exact HV| |].
      + rewrite pow_i by lia. unfold Rdiv. ring.
      + intros s. rewrite HE.
        replace (s ^ n / INR (fact n))%R with (/ INR (fact (S n)) * (INR (S n) * s ^ pred (S n)))%R.
        * apply (derivable_pt_lim_ext (mult_real_fct (/ INR (fact (S n))) (fun t => t ^ (S n)))%R).
          -- intros z. unfold mult_real_fct, Rdiv. ring.
          -- apply derivable_pt_lim_scal. apply derivable_pt_lim_pow.
        * change (fact (S n)) with (S n * fact n)%nat. rewrite mult_INR. simpl pred. field.
          split; [apply INR_fact_neq_0|apply not_0_INR; lia]. }
  destruct H as (V & HV & _). eauto.
Qed.

Lemma numMCubes_counts N M : is_int N -> is_int M -> forall v, numMCubes N M = Ok v -> Count (CubeFace N M) v.
Proof. intros HN HM. apply numMCubes_lemma; assumption. Qed.
Lemma numMCubes_defined N M : is_int N -> is_int M ->
  ((exists v, numMCubes N M = Ok v) <->
   0 <= M <= N /\ N <= 12 /\ 2 ^ (N - M) * Z.of_nat (fact (Z.to_nat N)) <= INT_MAX) /\
  (~ (0 <= M <= N /\ N <= 12) -> numMCubes N M = IllFormed) /\
  (0 <= M <= N -> N <= 12 -> INT_MAX < 2 ^ (N - M) * Z.of_nat (fact (Z.to_nat N)) ->
     numMCubes N M = UB IntOverflow).
Proof. intros HN HM. apply numMCubes_lemma; assumption. Qed.
