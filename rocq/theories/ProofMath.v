(** The matrix inverse. *)
From Verif Require Import Base ProofBase ProofBox Num ModelAssert ModelCArray SpecIndex SpecCArray ModelMath
  SpecMath ProofCArray ProofRep.
From Coq Require Import Reals Lra.
Open Scope Z_scope.

Definition mupd {T} (f : Z -> Z -> T) (i j : Z) (x : T) : Z -> Z -> T :=
  fun a b => if (a =? i) && (b =? j) then x else f a b.

Section Sim.
Context (N : Num).
Notation "x *' y" := (nmul N x y) (at level 40).
Notation "x +' y" := (nadd N x y) (at level 50).
Notation "x -' y" := (nsub N x y) (at level 50).

(** Row 0 of the adjugate, the determinant and the rest, on functions. *)
Definition minor0 (f : Z -> Z -> T N) (j : Z) : T N :=
  match j with
  | 0 => f 1 1 *' f 2 2 -' f 1 2 *' f 2 1
  | 1 => f 0 2 *' f 2 1 -' f 0 1 *' f 2 2
  | _ => f 0 1 *' f 1 2 -' f 0 2 *' f 1 1
  end.
Definition det3 (f : Z -> Z -> T N) : T N :=
  f 0 0 *' minor0 f 0 +' f 1 0 *' minor0 f 1 +' f 2 0 *' minor0 f 2.
Definition cof (f : Z -> Z -> T N) (i j : Z) : T N :=
  match i with
  | 0 => minor0 f j
  | 1 => match j with
         | 0 => f 1 2 *' f 2 0 -' f 1 0 *' f 2 2
         | 1 => f 0 0 *' f 2 2 -' f 0 2 *' f 2 0
         | _ => f 0 2 *' f 1 0 -' f 0 0 *' f 1 2
         end
  | _ => match j with
         | 0 => f 1 0 *' f 2 1 -' f 1 1 *' f 2 0
         | 1 => f 0 1 *' f 2 0 -' f 0 0 *' f 2 1
         | _ => f 0 0 *' f 1 1 -' f 0 1 *' f 1 0
         end
  end.
Definition in3 i j := (0 <=? i) && (i <=? 2) && (0 <=? j) && (j <=? 2).
Definition inv3 (f : Z -> Z -> T N) (d : T N) : Z -> Z -> T N :=
  fun i j => if in3 i j then cof f i j *' d else f i j.

Context {M : Type} (Inv : M -> (Z -> Z -> T N) -> Prop)
  (rdm : Z -> Z -> M -> outcome (T N)) (wrm : Z -> Z -> T N -> M -> outcome M).
Context (Hrd : forall i j m f, 0 <= i <= 2 -> 0 <= j <= 2 -> Inv m f -> rdm i j m = Ok (f i j)).
Context (Hwr : forall i j x m f, 0 <= i <= 2 -> 0 <= j <= 2 -> Inv m f ->
  exists m', wrm i j x m = Ok m' /\ Inv m' (mupd f i j x)).
Context (Hext : forall m f g, (forall i j, f i j = g i j) -> Inv m f -> Inv m g).

Ltac rd1 := match goal with
  | |- context [rdm ?i ?j ?m] =>
      match goal with
      | H : Inv m ?f |- _ => rewrite (Hrd i j m f) by (try lia; exact H); cbn [bind]
      end
  end.
Ltac wr1 := match goal with
  | H : Inv ?m ?f |- context [wrm ?i ?j ?x ?m] =>
      let m' := fresh "m" in let E := fresh "E" in let H' := fresh "I" in
      destruct (Hwr i j x m f ltac:(lia) ltac:(lia) H) as (m' & E & H'); rewrite E; cbn [bind]; clear E
  end.

Lemma in3_cases i j : in3 i j = true ->
  (i = 0 \/ i = 1 \/ i = 2) /\ (j = 0 \/ j = 1 \/ j = 2).
Proof. unfold in3. lia. Qed.

Lemma inverse_body_ok m f d : Inv m f -> ndiv N (nofZ N 1) (det3 f) = Ok d ->
  exists m', inverse_body N rdm wrm m = Ok (m', det3 f) /\ Inv m' (inv3 f d).
Proof.
  intros H Hd. unfold inverse_body.
  do 9 rd1. do 3 wr1. do 3 rd1.
  unfold mupd. simpl Z.eqb. cbn [andb].
  change (f 0 0 *' (f 1 1 *' f 2 2 -' f 1 2 *' f 2 1) +' f 1 0 *' (f 0 2 *' f 2 1 -' f 0 1 *' f 2 2) +'
    f 2 0 *' (f 0 1 *' f 1 2 -' f 0 2 *' f 1 1)) with (det3 f).
  rewrite Hd. cbn [bind].
  wr1. rd1. wr1. rd1. do 7 wr1.
  eexists. split; [reflexivity|].
  match goal with HI : Inv ?m _ |- Inv ?m _ => revert HI end.
  apply Hext. intros i j. unfold inv3. destruct (in3 i j) eqn:E.
  - apply in3_cases in E. destruct E as ([->|[->| ->]] & [->|[->| ->]]); reflexivity.
  - assert (Hno : forall a b, 0 <= a <= 2 -> 0 <= b <= 2 -> (i =? a) && (j =? b) = false).
    { intros a b Ha Hb. unfold in3 in E. lia. }
    unfold mupd. rewrite !Hno by lia. reflexivity.
Qed.

Lemma inverse_body_fail m f e : Inv m f -> ndiv N (nofZ N 1) (det3 f) = UB e ->
  inverse_body N rdm wrm m = UB e.
Proof.
  intros H Hd. unfold inverse_body.
  do 9 rd1. do 3 wr1. do 3 rd1.
  unfold mupd. simpl Z.eqb. cbn [andb].
  change (f 0 0 *' (f 1 1 *' f 2 2 -' f 1 2 *' f 2 1) +' f 1 0 *' (f 0 2 *' f 2 1 -' f 0 1 *' f 2 2) +'
    f 2 0 *' (f 0 1 *' f 1 2 -' f 0 2 *' f 1 1)) with (det3 f).
  rewrite Hd. reflexivity.
Qed.

Lemma inverse_body_inv m f r : Inv m f -> inverse_body N rdm wrm m = Ok r ->
  exists d, ndiv N (nofZ N 1) (det3 f) = Ok d.
Proof.
  intros H. unfold inverse_body.
  do 9 rd1. do 3 wr1. do 3 rd1.
  unfold mupd. simpl Z.eqb. cbn [andb].
  change (f 0 0 *' (f 1 1 *' f 2 2 -' f 1 2 *' f 2 1) +' f 1 0 *' (f 0 2 *' f 2 1 -' f 0 1 *' f 2 2) +'
    f 2 0 *' (f 0 1 *' f 1 2 -' f 0 2 *' f 1 1)) with (det3 f).
  destruct (ndiv N (nofZ N 1) (det3 f)); cbn [bind]; [eauto|discriminate|discriminate|discriminate|discriminate].
Qed.
End Sim.

(** * Real arithmetic *)
Lemma det3_det f : det3 RNum f = det 3 f.
Proof.
  unfold det, det3, minor0. cbn. ring.
Qed.

Lemma inv3_Inverse f d : (d * det 3 f = 1)%R -> Inverse 3 f (inv3 RNum f d).
Proof.
  rewrite <- det3_det. intros Hd.
  assert (Hk : forall i j, in3 i j = true -> inv3 RNum f d i j = (cof RNum f i j * d)%R).
  { intros i j E. unfold inv3. rewrite E. reflexivity. }
  intros i j Hi Hj. unfold matmul. change (zseq 3) with [0; 1; 2]. cbn [map].
  unfold Rsum; cbn [fold_right].
  assert (Ci : i = 0 \/ i = 1 \/ i = 2) by (simpl in Hi; lia).
  assert (Cj : j = 0 \/ j = 1 \/ j = 2) by (simpl in Hj; lia).
  unfold det3, minor0 in Hd. simpl in Hd, Hk.
  destruct Ci as [->|[->| ->]]; destruct Cj as [->|[->| ->]];
    (split; rewrite !Hk by reflexivity; unfold delta; simpl Z.eqb; unfold cof, minor0; simpl;
     first [ring | rewrite <- Hd; ring]).
Qed.

Lemma R_inv_ok f : (det 3 f <> 0)%R -> ndiv RNum (nofZ RNum 1) (det3 RNum f) = Ok (/ det 3 f)%R.
Proof.
  intros H. rewrite det3_det. simpl. unfold Req0. destruct (Req_EM_T _ _); [contradiction|].
  f_equal. unfold Rdiv. apply Rmult_1_l.
Qed.
Lemma R_inv_fail f : (det 3 f = 0)%R -> ndiv RNum (nofZ RNum 1) (det3 RNum f) = UB DivByZero.
Proof.
  intros H. rewrite det3_det. simpl. unfold Req0. destruct (Req_EM_T _ _); [reflexivity|contradiction].
Qed.

(** * The array overload *)
Definition mat_of {T} (m : amap T) : Z -> Z -> T := fun i j => m [i; j].

Lemma range2 d0 d1 t : InRange [d0; d1] t ->
  exists i j, t = [i; j] /\ 0 <= i < d0 /\ 0 <= j < d1.
Proof.
  intros H. apply InRange_cons in H. destruct H as (i & t' & -> & Hi & H).
  apply InRange_cons in H. destruct H as (j & t'' & -> & Hj & H). apply InRange_nil in H. subst. eauto.
Qed.
Lemma range2_intro d0 d1 i j : 0 <= i < d0 -> 0 <= j < d1 -> InRange [d0; d1] [i; j].
Proof. intros. constructor; [assumption|]. constructor; [assumption|constructor]. Qed.

Section Arr.
Context {T : Type} (c : ctx) (a : arr) (d0 d1 : Z) (Hd : dims a = [d0; d1])
  (H0 : 3 <= d0) (H1 : 3 <= d1) (Hw : is_writable a = true) (mem0 : list T).
Definition InvA (mem : list T) (f : Z -> Z -> T) : Prop :=
  Holds a mem (fun t => f (nth 0 t 0) (nth 1 t 0)) /\ SameOutside a mem0 mem.
Lemma InvA_rd i j m f : 0 <= i <= 2 -> 0 <= j <= 2 -> InvA m f -> fetch c a by_paren [i; j] m = Ok (f i j).
Proof.
  intros Hi Hj (H & _). rewrite (Holds_fetch c a by_paren [i; j] m _ H).
  - reflexivity.
  - rewrite Hd. apply range2_intro; lia.
  - unfold path_ok, by_paren; simpl; lia.
Qed.
Lemma InvA_wr i j x m f : 0 <= i <= 2 -> 0 <= j <= 2 -> InvA m f ->
  exists m', put c a by_paren [i; j] x m = Ok m' /\ InvA m' (mupd f i j x).
Proof.
  intros Hi Hj (H & Ho).
  destruct (Holds_put c a by_paren [i; j] x m _ H Hw) as (m' & E & H' & Ho').
  - rewrite Hd. apply range2_intro; lia.
  - unfold path_ok, by_paren; simpl; lia.
  - exists m'. split; [exact E|]. split; [|eapply SameOutside_trans; eauto].
    eapply Holds_ext; [|exact H']. intros t Ht. rewrite Hd in Ht.
    destruct (range2 _ _ _ Ht) as (k & l & -> & _). simpl nth. unfold aset, mupd. simpl.
    destruct (tuple_eqb [k; l] [i; j]) eqn:Et.
    + apply tuple_eqb_spec in Et. injection Et as -> ->. rewrite !Z.eqb_refl. reflexivity.
    + destruct ((k =? i) && (l =? j)) eqn:Ek; [|reflexivity].
      assert (k = i /\ l = j) as (-> & ->) by lia.
      rewrite (proj2 (tuple_eqb_spec [i; j] [i; j]) eq_refl) in Et. discriminate.
Qed.
Lemma InvA_ext m f g : (forall i j, f i j = g i j) -> InvA m f -> InvA m g.
Proof. intros E (H & Ho). split; [|exact Ho]. eapply Holds_ext; [|exact H]. intros. apply E. Qed.
End Arr.

Lemma InvA_start {T} a d0 d1 mem (m : amap T) : dims a = [d0; d1] -> Holds a mem m ->
  InvA a mem mem (mat_of m).
Proof.
  intros Hd H. split; [|apply SameOutside_refl]. eapply Holds_ext; [|exact H]. intros t Ht.
  rewrite Hd in Ht. destruct (range2 _ _ _ Ht) as (k & l & -> & _). reflexivity.
Qed.

Lemma inverse_a_lemma c a d0 d1 mem (A : amap R) :
  dims a = [d0; d1] -> 3 <= d0 -> 3 <= d1 -> is_writable a = true -> Holds a mem A ->
  (det 3 (fun i j => A [i; j]) <> 0%R ->
     exists mem' B, inverse_a RNum c a mem = Ok (mem', det 3 (fun i j => A [i; j])) /\
       Holds a mem' B /\ SameOutside a mem mem' /\
       Inverse 3 (fun i j => A [i; j]) (fun i j => B [i; j]) /\
       forall i j, 0 <= i < d0 -> 0 <= j < d1 -> 3 <= i \/ 3 <= j -> B [i; j] = A [i; j]) /\
  (det 3 (fun i j => A [i; j]) = 0%R -> inverse_a RNum c a mem = UB DivByZero).
Proof.
  intros Hd H0 H1 Hw H. pose proof (InvA_start a d0 d1 mem A Hd H) as HI. split; intros Hdet.
  - destruct (inverse_body_ok RNum (InvA (T := R) a mem) _ _
      (InvA_rd c a d0 d1 Hd H0 H1 mem) (InvA_wr c a d0 d1 Hd H0 H1 Hw mem) (InvA_ext a mem)
      mem (mat_of A) _ HI (R_inv_ok _ Hdet)) as (mem' & E & (HB & Ho)).
    exists mem'. eexists. rewrite det3_det in E. split; [exact E|]. split; [exact HB|]. split; [exact Ho|].
    simpl nth. split.
    + apply inv3_Inverse. apply Rinv_l. exact Hdet.
    + intros i j Hi Hj Hout. unfold inv3. replace (in3 i j) with false by (unfold in3; lia). reflexivity.
  - exact (inverse_body_fail RNum (InvA (T := R) a mem) _ _
      (InvA_rd c a d0 d1 Hd H0 H1 mem) (InvA_wr c a d0 d1 Hd H0 H1 Hw mem)
      (InvA_ext a mem) mem (mat_of A) _ HI (R_inv_fail _ Hdet)).
Qed.

(** * The built-in array overload *)
Definition InvC {T} (m : list (list T)) (f : Z -> Z -> T) : Prop := m = rows_of f.

Lemma inverse_c_lemma (A : matrix) :
  (det 3 A <> 0%R -> exists B, inverse_c RNum (rows_of A) = Ok (rows_of B, det 3 A) /\ Inverse 3 A B) /\
  (det 3 A = 0%R -> inverse_c RNum (rows_of A) = UB DivByZero).
Proof.
  assert (Hr : forall i j (m : list (list R)) f, 0 <= i <= 2 -> 0 <= j <= 2 -> InvC m f ->
     (row <- rd m i ;; rd row j) = Ok (f i j)).
  { intros i j m f Hi Hj ->.
    assert (Ci : i = 0 \/ i = 1 \/ i = 2) by lia. assert (Cj : j = 0 \/ j = 1 \/ j = 2) by lia.
    destruct Ci as [->|[->| ->]]; destruct Cj as [->|[->| ->]]; reflexivity. }
  assert (Hwr : forall i j x (m : list (list R)) f, 0 <= i <= 2 -> 0 <= j <= 2 -> InvC m f ->
     exists m', (row <- rd m i ;; row' <- wr row j x ;; wr m i row') = Ok m' /\ InvC m' (mupd f i j x)).
  { intros i j x m f Hi Hj ->. exists (rows_of (mupd f i j x)).
    assert (Ci : i = 0 \/ i = 1 \/ i = 2) by lia. assert (Cj : j = 0 \/ j = 1 \/ j = 2) by lia.
    destruct Ci as [->|[->| ->]]; destruct Cj as [->|[->| ->]]; (split; [reflexivity|reflexivity]). }
  assert (He : forall (m : list (list R)) f g, (forall i j, f i j = g i j) -> InvC m f -> InvC m g).
  { intros m f g E ->. unfold InvC, rows_of. simpl. rewrite !E. reflexivity. }
  split; intros Hdet.
  - destruct (inverse_body_ok RNum InvC _ _ Hr Hwr He (rows_of A) A _ eq_refl (R_inv_ok _ Hdet)) as (m' & E & HB).
    exists (inv3 RNum A (/ det 3 A)%R). rewrite det3_det in E. rewrite HB in E. split; [exact E|].
    apply inv3_Inverse. apply Rinv_l. exact Hdet.
  - exact (inverse_body_fail RNum InvC _ _ Hr Hwr He (rows_of A) A _ eq_refl (R_inv_fail _ Hdet)).
Qed.

(** Inverses are unique, so both overloads compute the same matrix. *)
Lemma Rsum3 (g : Z -> R) : Rsum (map g (zseq 3)) = (g 0%Z + (g 1%Z + (g 2%Z + 0)))%R.
Proof. reflexivity. Qed.
Lemma Inverse_unique3 A B C : Inverse 3 A B -> Inverse 3 A C ->
  forall i j, 0 <= i < 3 -> 0 <= j < 3 -> B i j = C i j.
Proof.
  intros HB HC.
  assert (Hb : forall i j, 0 <= i < 3 -> 0 <= j < 3 -> matmul 3 B A i j = delta i j) by (intros; apply HB; simpl; lia).
  assert (Hc : forall i j, 0 <= i < 3 -> 0 <= j < 3 -> matmul 3 A C i j = delta i j) by (intros; apply HC; simpl; lia).
  unfold matmul in *. setoid_rewrite Rsum3 in Hb. setoid_rewrite Rsum3 in Hc.
  intros i j Hi Hj.
  (* B = B (A C) = (B A) C = C *)
  pose proof (Hb i 0 Hi ltac:(lia)) as B0. pose proof (Hb i 1 Hi ltac:(lia)) as B1. pose proof (Hb i 2 Hi ltac:(lia)) as B2.
  pose proof (Hc 0 j ltac:(lia) Hj) as C0. pose proof (Hc 1 j ltac:(lia) Hj) as C1. pose proof (Hc 2 j ltac:(lia) Hj) as C2.
  assert (L : (B i 0%Z * delta 0 j + B i 1%Z * delta 1 j + B i 2%Z * delta 2 j =
               delta i 0 * C 0%Z j + delta i 1 * C 1%Z j + delta i 2 * C 2%Z j)%R).
  { rewrite <- C0, <- C1, <- C2, <- B0, <- B1, <- B2. ring. }
  assert (Ci : i = 0 \/ i = 1 \/ i = 2) by lia. assert (Cj : j = 0 \/ j = 1 \/ j = 2) by lia.
  unfold delta in L.
  destruct Ci as [->|[->| ->]]; destruct Cj as [->|[->| ->]]; simpl in L; lra.
Qed.

(** * Any number type *)
Section AnyNum.
Context (N : Num).
Lemma InvC_rd i j (m : list (list (T N))) f : 0 <= i <= 2 -> 0 <= j <= 2 -> InvC m f ->
  (row <- rd m i ;; rd row j) = Ok (f i j).
Proof.
  intros Hi Hj ->. assert (Ci : i = 0 \/ i = 1 \/ i = 2) by lia. assert (Cj : j = 0 \/ j = 1 \/ j = 2) by lia.
  destruct Ci as [->|[->| ->]]; destruct Cj as [->|[->| ->]]; reflexivity.
Qed.
Lemma InvC_wr i j x (m : list (list (T N))) f : 0 <= i <= 2 -> 0 <= j <= 2 -> InvC m f ->
  exists m', (row <- rd m i ;; row' <- wr row j x ;; wr m i row') = Ok m' /\ InvC m' (mupd f i j x).
Proof.
  intros Hi Hj ->. exists (rows_of (mupd f i j x)).
  assert (Ci : i = 0 \/ i = 1 \/ i = 2) by lia. assert (Cj : j = 0 \/ j = 1 \/ j = 2) by lia.
  destruct Ci as [->|[->| ->]]; destruct Cj as [->|[->| ->]]; (split; [reflexivity|reflexivity]).
Qed.
Lemma InvC_ext (m : list (list (T N))) f g : (forall i j, f i j = g i j) -> InvC m f -> InvC m g.
Proof. intros E ->. unfold InvC, rows_of. simpl. rewrite !E. reflexivity. Qed.

Lemma inverse_c_any (A : Z -> Z -> T N) d : ndiv N (nofZ N 1) (det3 N A) = Ok d ->
  inverse_c N (rows_of A) = Ok (rows_of (inv3 N A d), det3 N A).
Proof.
  intros Hd. destruct (inverse_body_ok N InvC _ _ InvC_rd InvC_wr InvC_ext (rows_of A) A d eq_refl Hd) as (m' & E & HB).
  unfold inverse_c. rewrite E. now rewrite HB.
Qed.
Lemma inverse_a_any c a d0 d1 mem (A : amap (T N)) d :
  dims a = [d0; d1] -> 3 <= d0 -> 3 <= d1 -> is_writable a = true -> Holds a mem A ->
  ndiv N (nofZ N 1) (det3 N (mat_of A)) = Ok d ->
  exists mem', inverse_a N c a mem = Ok (mem', det3 N (mat_of A)) /\
    Holds a mem' (fun t => inv3 N (mat_of A) d (nth 0 t 0) (nth 1 t 0)) /\ SameOutside a mem mem'.
Proof.
  intros Hd H0 H1 Hw H E. pose proof (InvA_start a d0 d1 mem A Hd H) as HI.
  destruct (inverse_body_ok N (InvA (T := T N) a mem) _ _
      (InvA_rd c a d0 d1 Hd H0 H1 mem) (InvA_wr c a d0 d1 Hd H0 H1 Hw mem) (InvA_ext a mem)
      mem (mat_of A) _ HI E) as (mem' & E' & (HB & Ho)).
  exists mem'. auto.
Qed.
Lemma overloads_agree_lemma c a mem (A : amap (T N)) m' d : dims a = [3; 3] -> is_writable a = true -> Holds a mem A ->
  inverse_c N (rows_of (fun i j => A [i; j])) = Ok (m', d) ->
  exists mem' B, inverse_a N c a mem = Ok (mem', d) /\ Holds a mem' B /\
    m' = rows_of (fun i j => B [i; j]).
Proof.
  intros Hd Hw H E.
  destruct (inverse_body_inv N InvC _ _ InvC_rd InvC_wr InvC_ext (rows_of (mat_of A)) (mat_of A) _ eq_refl E) as (q & Eq).
  pose proof (inverse_c_any _ _ Eq) as E2. change (fun i j => A [i; j]) with (mat_of A) in E. rewrite E2 in E.
  assert (E3 : rows_of (inv3 N (mat_of A) q) = m' /\ det3 N (mat_of A) = d).
  { revert E. generalize (rows_of (inv3 N (mat_of A) q)) (det3 N (mat_of A)). intros ? ? [= -> ->]. auto. }
  destruct E3 as [<- <-].
  destruct (inverse_a_any c a 3 3 mem A q Hd ltac:(lia) ltac:(lia) Hw H Eq) as (mem' & EB & HH & _).
  exists mem'. eexists. split; [exact EB|]. split; [exact HH|]. reflexivity.
Qed.
End AnyNum.

(** * Arrays that are not 3x3 *)
Lemma fetch_small_checked {T} c a i j (mem : list T) d0 d1 : runtime_checked c -> dims a = [d0; d1] ->
  view_ok (buflen mem) a ->
  (exists x, fetch c a by_paren [i; j] mem = Ok x /\ 0 <= i < d0 /\ 0 <= j < d1) \/
  fetch c a by_paren [i; j] mem = Aborted.
Proof.
  intros Hc Hd Hv.
  destruct (bounds_check_lemma c (buflen mem) a by_paren [i; j] Hc Hv) as ((_ & Hab) & Hok).
  { rewrite Hd. reflexivity. }
  { unfold path_ok, by_paren; simpl; lia. }
  { reflexivity. }
  assert (D : {0 <= i < d0 /\ 0 <= j < d1} + {~ (0 <= i < d0 /\ 0 <= j < d1)}).
  { destruct (Z_le_dec 0 i), (Z_lt_dec i d0), (Z_le_dec 0 j), (Z_lt_dec j d1); try (left; lia); right; lia. }
  destruct D as [D|D].
  - left. destruct (fetch_ok c a by_paren [i; j] mem) as (x & Hx & _); auto.
    { rewrite Hd. apply range2_intro; lia. }
    { unfold path_ok, by_paren; simpl; lia. }
    exists x. auto.
  - right. unfold fetch. rewrite Hab; [reflexivity|]. rewrite Hd. intros HR.
    destruct (range2 _ _ _ HR) as (k & l & E & Hk & Hl). injection E as -> ->. lia.
Qed.

Lemma inverse_small_checked_lemma c a mem d0 d1 : runtime_checked c -> dims a = [d0; d1] ->
  view_ok (buflen mem) a -> d0 < 3 \/ d1 < 3 -> inverse_a RNum c a mem = Aborted.
Proof.
  intros Hc Hd Hv Hs. unfold inverse_a, inverse_body.
  repeat match goal with
  | |- context [bind (fetch c a by_paren [?i; ?j] mem) _] =>
      let Hx := fresh in let E := fresh in let x := fresh in
      destruct (fetch_small_checked c a i j mem d0 d1 Hc Hd Hv) as [(x & E & Hx)|E]; rewrite E;
      cbn [bind]; [|reflexivity]
  end. lia.
Qed.

Lemma fetch_small_unchecked {T} c a i j (mem : list T) n : unchecked c -> dims a = [n; n] -> n <= 2 ->
  0 <= i <= 2 -> 0 <= j <= 2 ->
  view_ok (buflen mem) a -> base a + n * n = buflen mem ->
  (exists x, fetch c a by_paren [i; j] mem = Ok x /\ i * n + j < n * n) \/
  fetch c a by_paren [i; j] mem = UB OutOfBounds.
Proof.
  intros Hc Hd Hn Hi Hj Hv Hb.
  assert (Hp : 0 < n). { destruct Hv as ((_ & Hpos & _) & _). rewrite Hd in Hpos. now inversion Hpos. }
  assert (Hf : flat_offset [n; n] [i; j] = i * n + j).
  { simpl. unfold prodZ; simpl. lia. }
  destruct (unchecked_lemma c (buflen mem) a [i; j] Hc Hv) as (Hin & Hout).
  { rewrite Hd. reflexivity. }
  { rewrite Hd. unfold flat_offset_abs, prodZ; simpl. unfold INT_MAX. nia. }
  rewrite Hd, Hf in Hin, Hout.
  assert (Hb0 : 0 <= base a) by (destruct Hv as (_ & Hb0 & _); lia).
  destruct (Z_lt_dec (i * n + j) (n * n)) as [D|D].
  - left. destruct Hin as (lv & E & Ea); [nia|]. unfold fetch. unfold by_paren. rewrite E. cbn [bind].
    unfold load. destruct (rd_ok mem (addr lv)) as (x & Hx); [unfold buflen in Hb; rewrite Ea; nia|].
    rewrite Hx. eauto.
  - right. unfold fetch, by_paren. rewrite Hout; [reflexivity|]. lia.
Qed.

Lemma inverse_small_unchecked_lemma c a mem n : unchecked c -> dims a = [n; n] -> n <= 2 ->
  view_ok (buflen mem) a -> base a + n * n = buflen mem -> inverse_a RNum c a mem = UB OutOfBounds.
Proof.
  intros Hc Hd Hn Hv Hb. unfold inverse_a, inverse_body.
  assert (Hp : 0 < n). { destruct Hv as ((_ & Hpos & _) & _). rewrite Hd in Hpos. now inversion Hpos. }
  repeat match goal with
  | |- context [bind (fetch c a by_paren [?i; ?j] mem) _] =>
      let Hx := fresh in let E := fresh in let x := fresh in
      destruct (fetch_small_unchecked c a i j mem n Hc Hd Hn ltac:(lia) ltac:(lia) Hv Hb) as [(x & E & Hx)|E]; rewrite E;
      cbn [bind]; [|reflexivity]
  end. nia.
Qed.

Lemma inverse_large_refuted_lemma : exists c a mem A mem' B d,
  dims a = [4; 4] /\ is_writable a = true /\ Holds a mem A /\
  det 4 (fun i j => A [i; j]) <> 0%R /\
  inverse_a RNum c a mem = Ok (mem', d) /\ Holds a mem' B /\
  ~ Inverse 4 (fun i j => A [i; j]) (fun i j => B [i; j]) /\
  d <> det 4 (fun i j => A [i; j]).
Proof.
  set (args := [2; 0; 0; 0;  0; 2; 0; 0;  0; 0; 2; 0;  0; 0; 0; 2]%R).
  destruct (list_init_Holds 0%R [4; 4] args) as (mem & _ & _ & H).
  { split; [discriminate|]. split; [repeat constructor; lia|]. unfold prodZ; simpl. unfold INT_MAX; lia. }
  { unfold prodZ; simpl. lia. }
  set (A := fun t => nth (Z.to_nat (flat_offset [4; 4] t)) args 0%R) in *.
  assert (HA : forall i j, 0 <= i < 4 -> 0 <= j < 4 -> A [i; j] = (if i =? j then 2 else 0)%R).
  { intros i j Hi Hj.
    assert (Ci : i = 0 \/ i = 1 \/ i = 2 \/ i = 3) by lia. assert (Cj : j = 0 \/ j = 1 \/ j = 2 \/ j = 3) by lia.
    destruct Ci as [->|[->|[->| ->]]]; destruct Cj as [->|[->|[->| ->]]]; reflexivity. }
  assert (D3 : det 3 (fun i j => A [i; j]) = 8%R).
  { cbn -[A]. rewrite !HA by lia. simpl. lra. }
  assert (D4 : det 4 (fun i j => A [i; j]) = 16%R).
  { cbn -[A]. rewrite !HA by lia. simpl. lra. }
  destruct (inverse_a_lemma (host_runtime true) (owning [4; 4]) 4 4 mem A eq_refl ltac:(lia) ltac:(lia) eq_refl H) as (HI & _).
  destruct HI as (mem' & B & E & HB & _ & _ & Hrest); [rewrite D3; lra|].
  exists (host_runtime true), (owning [4; 4]), mem, A, mem', B, 8%R. rewrite D4. rewrite D3 in E.
  split; [reflexivity|]. split; [reflexivity|]. split; [exact H|]. split; [lra|].
  split; [exact E|]. split; [exact HB|]. split; [|lra].
  intros HInv. destruct (HInv 3 3 ltac:(simpl; lia) ltac:(simpl; lia)) as (M & _).
  unfold matmul, Rsum in M. simpl in M. rewrite !HA in M by lia. simpl in M.
  rewrite (Hrest 3 3) in M by lia. rewrite HA in M by lia. unfold delta in M. simpl in M. lra.
Qed.

Lemma inverse_a33_lemma c a mem (A : amap R) :
  dims a = [3; 3] -> is_writable a = true -> Holds a mem A ->
  let MA := fun i j => A [i; j] in
  (det 3 MA <> 0%R ->
     exists mem' B, inverse_a RNum c a mem = Ok (mem', det 3 MA) /\
       Holds a mem' B /\ SameOutside a mem mem' /\ Inverse 3 MA (fun i j => B [i; j])) /\
  (det 3 MA = 0%R -> inverse_a RNum c a mem = UB DivByZero).
Proof.
  intros Hd Hw H MA. destruct (inverse_a_lemma c a 3 3 mem A Hd ltac:(lia) ltac:(lia) Hw H) as (H1 & H2).
  split; [|exact H2]. intros Hn. destruct (H1 Hn) as (mem' & B & E & HB & Ho & HI & _). eauto 6.
Qed.

Lemma pos_dims_intro ds : ds <> [] -> Forall (fun d => 0 < d) ds -> prodZ ds <= INT_MAX -> pos_dims ds.
Proof. intros. split; [assumption|]. split; assumption. Qed.

Lemma view_ok_22 : view_ok 4 (owning [2; 2]).
Proof.
  split; [apply pos_dims_intro; [discriminate|repeat constructor; lia|unfold prodZ, INT_MAX; simpl; lia]|].
  simpl. unfold prodZ; simpl. lia.
Qed.

Lemma diag_234_example :
  exists mem A, Holds (owning [3; 3]) mem A /\ det 3 (fun i j => A [i; j]) = 24%R.
Proof.
  destruct (list_init_Holds 0%R [3; 3] [2; 0; 0;  0; 3; 0;  0; 0; 4]%R) as (mem & _ & _ & H).
  { apply pos_dims_intro; [discriminate|repeat constructor; lia|unfold prodZ, INT_MAX; simpl; lia]. }
  { unfold prodZ; simpl; lia. }
  exists mem. eexists. split; [exact H|].
  match type of H with Holds _ _ ?f => set (A := f) end.
  assert (HA : forall i j, 0 <= i < 3 -> 0 <= j < 3 -> A [i; j] = (if i =? j then IZR (i + 2) else 0)%R).
  { intros i j Hi Hj. assert (Ci : i = 0 \/ i = 1 \/ i = 2) by lia. assert (Cj : j = 0 \/ j = 1 \/ j = 2) by lia.
    destruct Ci as [->|[->| ->]]; destruct Cj as [->|[->| ->]]; reflexivity. }
  cbn -[A]. rewrite !HA by lia. simpl. lra.
Qed.
