(** Gradients in physical coordinates; cells moved by an affine map. *)
From Verif Require Import Base ProofBase ProofCArray ProofRep Num SpecIndex ProofBox SpecMath ModelAssert ModelCArray ModelSpacing ModelLagrange
  ModelBasisProduct ModelMath ModelTransforms SpecCArray SpecNumeric SpecBasis ProofPoly ProofLagrange ProofSpacing ProofTensor ProofTransform ProofMath.
From Coq Require Import Reals Lra.
Open Scope Z_scope.

Lemma dinterp_const j ds k xi : Forall Nodal ds -> (length ds <= length xi)%nat -> (j < length ds)%nat -> dinterp j ds (fun _ => k) xi = 0%R.
Proof.
  intros HN Hl Hj. pose proof (interp_partial ds (fun _ => k) j xi (Nodal_Differentiates _ HN) Hl Hj) as P. unfold Partial in P.
  eapply uniqueness_limite; [exact P|]. eapply deriv_ext; [|apply (derivable_pt_lim_const k)].
  intros t. cbv beta. unfold fct_cte. rewrite interp_const; [reflexivity|exact HN|rewrite upd_length; exact Hl].
Qed.
Lemma dinterp_ext j ds u w xi : (forall t, InRange (counts ds) t -> u t = w t) -> dinterp j ds u xi = dinterp j ds w xi.
Proof. intros H. apply BoxSum_ext. intros t Ht. now rewrite H. Qed.
Lemma dinterp_plus j ds u w xi : dinterp j ds (fun t => u t + w t)%R xi = (dinterp j ds u xi + dinterp j ds w xi)%R.
Proof. unfold dinterp. rewrite <- BoxSum_plus. apply BoxSum_ext. intros t _. ring. Qed.
Lemma dinterp_scal j ds a u xi : dinterp j ds (fun t => a * u t)%R xi = (a * dinterp j ds u xi)%R.
Proof. unfold dinterp. rewrite <- BoxSum_scal. apply BoxSum_ext. intros t _. ring. Qed.
Lemma dinterp_zero j ds xi : dinterp j ds (fun _ => 0%R) xi = 0%R.
Proof. unfold dinterp. apply BoxSum_zero. intros t _. ring. Qed.
Lemma dinterp_sum {A} j ds xi (l : list A) (b : A -> R) (U : A -> list Z -> R) :
  dinterp j ds (fun t => Rsum (map (fun k => b k * U k t)%R l)) xi = Rsum (map (fun k => b k * dinterp j ds (U k) xi)%R l).
Proof.
  induction l as [|a l IH]; cbn.
  - apply dinterp_zero.
  - rewrite dinterp_plus, dinterp_scal. f_equal. exact IH.
Qed.
Lemma dinterp_affine j ds xi n o (b : Z -> R) (U : Z -> list Z -> R) u : Forall Nodal ds -> (length ds <= length xi)%nat -> (j < length ds)%nat ->
  (forall t, InRange (counts ds) t -> u t = (o + Rsum (map (fun k => b k * U k t)%R (zseq n)))%R) ->
  dinterp j ds u xi = Rsum (map (fun k => b k * dinterp j ds (U k) xi)%R (zseq n)).
Proof.
  intros HN Hl Hj Hu. rewrite (dinterp_ext j ds u _ xi Hu). rewrite dinterp_plus, dinterp_const by assumption.
  rewrite dinterp_sum. ring.
Qed.

(** The wrappers in terms of [Jmat]. *)
Lemma wrapper_Jmat c bases ds mem X xi : Forall2 Evaluates bases ds -> ds <> [] -> (length ds <= 3)%nat -> length xi = 3%nat ->
  Holds (owning (counts ds ++ [Z.of_nat (length ds)])) mem X ->
  exists J, jacobian_wrapper RNum c (Z.of_nat (length ds)) bases mem xi = Ok J /\
    Holds (owning [Z.of_nat (length ds); Z.of_nat (length ds)]) J (Jmat ds X xi).
Proof.
  intros HE Hne Hd Hx HX. destruct (dd_ok ds Hne Hd) as (Hpd & Hm).
  destruct (zero_Holds _ Hpd) as (J0 & Hi & Hb & H0).
  assert (Hlx : (length ds <= length xi)%nat) by lia.
  destruct (jacobian_point_ok c ds X xi mem Hne Hpd Hm HX bases HE Hlx J0 _ H0) as (J & He & Hh & Ho).
  exists J. split.
  - unfold jacobian_wrapper. assert (El : Nat.eqb (@length (T RNum) xi) 3 = true) by (apply Nat.eqb_eq; exact Hx).
    rewrite El. unfold jacobian_array, numDims. rewrite (bases_length _ _ HE). rewrite Hi. cbn [bind]. exact He.
  - eapply Holds_ext; [|exact Hh]. intros t _. cbv beta. first [apply Rplus_0_l | symmetry; apply Rplus_0_l].
Qed.
Lemma wrapper_inverse c bases ds mem X xi : Forall2 Evaluates bases ds -> length ds = 3%nat -> length xi = 3%nat ->
  Holds (owning (counts ds ++ [3])) mem X ->
  (det 3 (fun i j => Jmat ds X xi [i; j]) <> 0%R -> exists invJ B,
     inverseJacobian_wrapper RNum c 3 bases mem xi = Ok (det 3 (fun i j => Jmat ds X xi [i; j]), invJ) /\
     Holds (owning [3; 3]) invJ B /\ Inverse 3 (fun i j => Jmat ds X xi [i; j]) (fun i j => B [i; j])) /\
  (det 3 (fun i j => Jmat ds X xi [i; j]) = 0%R -> inverseJacobian_wrapper RNum c 3 bases mem xi = UB DivByZero).
Proof.
  intros HE Hd Hx HX. assert (Hne : ds <> []) by (destruct ds; discriminate).
  assert (HX' : Holds (owning (counts ds ++ [Z.of_nat (length ds)])) mem X) by (rewrite Hd; exact HX).
  destruct (wrapper_Jmat c bases ds mem X xi HE Hne ltac:(lia) Hx HX') as (J & EJ & HJ).
  rewrite Hd in EJ, HJ. change (Z.of_nat 3) with 3 in EJ, HJ.
  assert (Hw : inverseJacobian_wrapper RNum c 3 bases mem xi =
     ('(invJ, detJ) <- inverse_a RNum c (owning [3; 3]) J ;; Ok (detJ, invJ))).
  { revert EJ. unfold jacobian_wrapper, inverseJacobian_wrapper.
    assert (El : Nat.eqb (@length (T RNum) xi) 3 = true) by (apply Nat.eqb_eq; exact Hx).
    rewrite El. unfold inverseJacobian_point, jacobian_array, numDims. rewrite (bases_length _ _ HE), Hd.
    change (Z.of_nat 3) with 3. match goal with |- context [list_init ?a ?b ?c] => destruct (list_init a b c) as [J0| | | |] end; cbn [bind]; try discriminate.
    intros E. rewrite E. reflexivity. }
  destruct (inverse_a33_lemma c (owning [3; 3]) J (Jmat ds X xi) eq_refl eq_refl HJ) as (I1 & I2).
  split.
  - intros Hdet. destruct (I1 Hdet) as (mem' & B & E & HB & _ & HI). exists mem', B.
    split; [|split; assumption]. rewrite Hw, E. reflexivity.
  - intros Hdet. rewrite Hw, (I2 Hdet). reflexivity.
Qed.

(** Three-dimensional sums and determinants. *)
Lemma det_mul A B : det 3 (matmul 3 A B) = (det 3 A * det 3 B)%R.
Proof. rewrite !ProofTransform.det3. unfold matmul. rewrite !Rsum3. ring. Qed.
Lemma det_ext A B : (forall i j, 0 <= i < 3 -> 0 <= j < 3 -> A i j = B i j) -> det 3 A = det 3 B.
Proof. intros H. rewrite !ProofTransform.det3, !H by lia. reflexivity. Qed.

(** Physical gradients. *)
Lemma chain_rule_lemma c bases ds mem X var u xi : Forall2 Evaluates bases ds -> length ds = 3%nat -> length xi = 3%nat ->
  Holds (owning (counts ds ++ [3])) mem X -> (forall t, InRange (counts ds) t -> var t = Ok (u t)) ->
  forall d invJ B, inverseJacobian_wrapper RNum c 3 bases mem xi = Ok (d, invJ) -> Holds (owning [3; 3]) invJ B ->
  exists g J K, parent_gradient RNum c 3 bases var xi = Ok g /\ jacobian_wrapper RNum c 3 bases mem xi = Ok J /\ Holds (owning [3; 3]) J K /\
    forall G : Z -> R,
      (forall k, 0 <= k < 3 -> G k = Rsum (map (fun j => nth (Z.to_nat j) g 0 * B [j; k])%R (zseq 3))) <->
      (forall j, 0 <= j < 3 -> Rsum (map (fun k => G k * K [k; j])%R (zseq 3)) = nth (Z.to_nat j) g 0%R).
Proof.
  intros HE Hd Hx HX Hu d invJ B EI HB. assert (Hne : ds <> []) by (destruct ds; discriminate).
  assert (Hlx : (length ds <= length xi)%nat) by lia.
  assert (HX' : Holds (owning (counts ds ++ [Z.of_nat (length ds)])) mem X) by (rewrite Hd; exact HX).
  destruct (wrapper_Jmat c bases ds mem X xi HE Hne ltac:(lia) Hx HX') as (J & EJ & HJ).
  assert (Hi : Z.of_nat (length ds) <= INT_MAX) by (rewrite Hd; unfold INT_MAX; lia).
  destruct (parent_gradient_nth c bases ds u var xi HE Hne Hi Hu Hlx) as (g & Eg & Lg & Pg).
  rewrite Hd in EJ, HJ, Eg. change (Z.of_nat 3) with 3 in EJ, HJ, Eg.
  exists g, J, (Jmat ds X xi). split; [exact Eg|]. split; [exact EJ|]. split; [exact HJ|].
  destruct (wrapper_inverse c bases ds mem X xi HE Hd Hx HX) as (W1 & W2).
  destruct (Req_dec (det 3 (fun i j => Jmat ds X xi [i; j])) 0) as [Z0|NZ]; [rewrite (W2 Z0) in EI; discriminate|].
  destruct (W1 NZ) as (invJ' & B' & E' & HB' & HI). rewrite E' in EI. injection EI as _ <-.
  assert (BB : forall i j, 0 <= i < 3 -> 0 <= j < 3 -> B [i; j] = B' [i; j]).
  { intros i j Ii Ij. assert (IR : InRange [3; 3] [i; j]) by (repeat (constructor; [lia|]); constructor).
    destruct HB as (_ & HB). destruct HB' as (_ & HB').
    pose proof (HB c pp [i; j] IR (pp_ok _)) as Q1. pose proof (HB' c pp [i; j] IR (pp_ok _)) as Q2.
    rewrite Q1 in Q2. injection Q2 as Q2. exact Q2. }
  intros G. set (K := Jmat ds X xi) in *. set (q := fun j => nth (Z.to_nat j) g 0%R) in *.
  assert (HI' : forall i j, 0 <= i < 3 -> 0 <= j < 3 -> matmul 3 (fun i j => K [i; j]) (fun i j => B [i; j]) i j = delta i j /\
     matmul 3 (fun i j => B [i; j]) (fun i j => K [i; j]) i j = delta i j).
  { intros i j Ii Ij. destruct (HI i j Ii Ij) as (I1 & I2). unfold matmul in *. rewrite !Rsum3 in *. rewrite !BB by lia. split; assumption. }
  unfold matmul in HI'. setoid_rewrite Rsum3 in HI'. setoid_rewrite Rsum3.
  split; intros H.
  - intros j Hj. change (nth (Z.to_nat j) g 0%R) with (q j).
    rewrite !H by lia. cbv beta. fold (q 0) (q 1) (q 2).
    destruct (HI' 0 j ltac:(lia) Hj) as (_ & D0). destruct (HI' 1 j ltac:(lia) Hj) as (_ & D1). destruct (HI' 2 j ltac:(lia) Hj) as (_ & D2).
    transitivity (q 0%Z * delta 0 j + q 1%Z * delta 1 j + q 2%Z * delta 2 j)%R.
    + rewrite <- D0, <- D1, <- D2. unfold q. ring.
    + assert (Cj : j = 0 \/ j = 1 \/ j = 2) by lia. unfold delta. destruct Cj as [->|[->| ->]]; cbn [Z.eqb Pos.eqb]; ring.
  - intros k Hk.
    destruct (HI' 0 k ltac:(lia) Hk) as (D0 & _). destruct (HI' 1 k ltac:(lia) Hk) as (D1 & _). destruct (HI' 2 k ltac:(lia) Hk) as (D2 & _).
    rewrite <- (H 0), <- (H 1), <- (H 2) by lia.
    transitivity (G 0%Z * delta 0 k + G 1%Z * delta 1 k + G 2%Z * delta 2 k)%R.
    + assert (Ck : k = 0 \/ k = 1 \/ k = 2) by lia. unfold delta. destruct Ck as [->|[->| ->]]; cbn [Z.eqb Pos.eqb]; ring.
    + rewrite <- D0, <- D1, <- D2. ring.
Qed.

Lemma Holds_at (c : ctx) (mem : list R) (a b : list Z) (K K' : amap R) : Holds (owning a) mem K -> Holds (owning a) mem K' ->
  InRange a b -> K b = K' b.
Proof.
  intros (_ & H) (_ & H') Hb. pose proof (H c pp b Hb (pp_ok _)) as Q1. pose proof (H' c pp b Hb (pp_ok _)) as Q2.
  rewrite Q1 in Q2. injection Q2 as Q2. exact Q2.
Qed.
Lemma InRange_ij n i j : 0 <= i < n -> 0 <= j < n -> InRange [n; n] [i; j].
Proof. intros Hi Hj. repeat (constructor; [lia|]). constructor. Qed.

(** Fields affine in the physical coordinates. *)
Lemma patch_lemma c bases ds mem X var xi (alpha : R) (beta : Z -> R) : Forall2 Evaluates bases ds -> Forall Nodal ds -> length ds = 3%nat -> length xi = 3%nat ->
  Holds (owning (counts ds ++ [3])) mem X ->
  (forall t, InRange (counts ds) t -> var t = Ok (alpha + Rsum (map (fun k => beta k * X (t ++ [k]))%R (zseq 3)))%R) ->
  exists g, parent_gradient RNum c 3 bases var xi = Ok g /\
    forall d invJ B, inverseJacobian_wrapper RNum c 3 bases mem xi = Ok (d, invJ) -> Holds (owning [3; 3]) invJ B ->
    forall k, 0 <= k < 3 -> Rsum (map (fun j => nth (Z.to_nat j) g 0 * B [j; k])%R (zseq 3)) = beta k.
Proof.
  intros HE HN Hd Hx HX Hu. assert (Hne : ds <> []) by (destruct ds; discriminate).
  assert (Hlx : (length ds <= length xi)%nat) by lia.
  set (u := fun t => (alpha + Rsum (map (fun k => beta k * X (t ++ [k]))%R (zseq 3)))%R) in *.
  assert (Hi : Z.of_nat (length ds) <= INT_MAX) by (rewrite Hd; unfold INT_MAX; lia).
  destruct (parent_gradient_nth c bases ds u var xi HE Hne Hi Hu Hlx) as (g & Eg & Lg & Pg).
  rewrite Hd in Eg. change (Z.of_nat 3) with 3 in Eg. exists g. split; [exact Eg|].
  intros d invJ B EI HB.
  destruct (chain_rule_lemma c bases ds mem X var u xi HE Hd Hx HX Hu d invJ B EI HB) as (g' & J & K & Eg' & EJ & HK & HG).
  rewrite Eg in Eg'. injection Eg' as <-.
  assert (HX' : Holds (owning (counts ds ++ [Z.of_nat (length ds)])) mem X) by (rewrite Hd; exact HX).
  destruct (wrapper_Jmat c bases ds mem X xi HE Hne ltac:(lia) Hx HX') as (J' & EJ' & HJ').
  rewrite Hd in EJ', HJ'. change (Z.of_nat 3) with 3 in EJ', HJ'. rewrite EJ in EJ'. injection EJ' as <-.
  intros k Hk. symmetry. apply HG; [|exact Hk]. intros j Hj.
  rewrite Pg by lia.
  rewrite (dinterp_affine (Z.to_nat j) ds xi 3 alpha beta (fun k t => X (t ++ [k])) u HN Hlx ltac:(lia)) by reflexivity.
  rewrite !Rsum3. rewrite !(Holds_at c J [3; 3] _ K (Jmat ds X xi) HK HJ') by (apply InRange_ij; lia). reflexivity.
Qed.

(** Cells moved by an affine map. *)
Definition Moved (ds : list direction) (o : Z -> R) (M : matrix) (X X' : amap R) : Prop :=
  forall t i, InRange (counts ds) t -> 0 <= i < Z.of_nat (length ds) ->
    X' (t ++ [i]) = (o i + Rsum (map (fun k => M i k * X (t ++ [k]))%R (zseq (length ds))))%R.
Lemma Jmat_moved ds o M X X' xi i j : Forall Nodal ds -> (length ds <= length xi)%nat -> Moved ds o M X X' ->
  0 <= i < Z.of_nat (length ds) -> 0 <= j < Z.of_nat (length ds) ->
  Jmat ds X' xi [i; j] = matmul (length ds) M (fun k j => Jmat ds X xi [k; j]) i j.
Proof.
  intros HN Hl HM Hi Hj. unfold Jmat, matmul. cbn [nth].
  apply (dinterp_affine (Z.to_nat j) ds xi (length ds) (o i) (M i) (fun k s => X (s ++ [k]))); [exact HN|exact Hl|lia|].
  intros t Ht. apply HM; assumption.
Qed.
Lemma moved_jacobian_lemma c bases ds mem mem' X X' xi o M : Forall2 Evaluates bases ds -> Forall Nodal ds -> ds <> [] ->
  (length ds <= 3)%nat -> length xi = 3%nat ->
  Holds (owning (counts ds ++ [Z.of_nat (length ds)])) mem X -> Holds (owning (counts ds ++ [Z.of_nat (length ds)])) mem' X' ->
  Moved ds o M X X' ->
  exists J J' K K', jacobian_wrapper RNum c (Z.of_nat (length ds)) bases mem xi = Ok J /\
    jacobian_wrapper RNum c (Z.of_nat (length ds)) bases mem' xi = Ok J' /\
    Holds (owning [Z.of_nat (length ds); Z.of_nat (length ds)]) J K /\ Holds (owning [Z.of_nat (length ds); Z.of_nat (length ds)]) J' K' /\
    forall i j, 0 <= i < Z.of_nat (length ds) -> 0 <= j < Z.of_nat (length ds) ->
      K' [i; j] = matmul (length ds) M (fun k j => K [k; j]) i j.
Proof.
  intros HE HN Hne Hd Hx HX HX' HM.
  destruct (wrapper_Jmat c bases ds mem X xi HE Hne Hd Hx HX) as (J & EJ & HJ).
  destruct (wrapper_Jmat c bases ds mem' X' xi HE Hne Hd Hx HX') as (J' & EJ' & HJ').
  exists J, J', (Jmat ds X xi), (Jmat ds X' xi). split; [exact EJ|]. split; [exact EJ'|]. split; [exact HJ|]. split; [exact HJ'|].
  intros i j Hi Hj. assert (Hl : (length ds <= length xi)%nat) by lia. exact (Jmat_moved ds o M X X' xi i j HN Hl HM Hi Hj).
Qed.
Lemma moved_inverse_lemma c bases ds mem mem' X X' xi o M : Forall2 Evaluates bases ds -> Forall Nodal ds -> length ds = 3%nat -> length xi = 3%nat ->
  Holds (owning (counts ds ++ [3])) mem X -> Holds (owning (counts ds ++ [3])) mem' X' -> Moved ds o M X X' ->
  forall d invJ B, inverseJacobian_wrapper RNum c 3 bases mem xi = Ok (d, invJ) -> Holds (owning [3; 3]) invJ B ->
  (det 3 M <> 0%R -> exists invJ' B', inverseJacobian_wrapper RNum c 3 bases mem' xi = Ok (det 3 M * d, invJ')%R /\ Holds (owning [3; 3]) invJ' B' /\
     forall i j, 0 <= i < 3 -> 0 <= j < 3 -> matmul 3 (fun i j => B' [i; j]) M i j = B [i; j]) /\
  (det 3 M = 0%R -> inverseJacobian_wrapper RNum c 3 bases mem' xi = UB DivByZero).
Proof.
  intros HE HN Hd Hx HX HX' HM d invJ B EI HB. assert (Hlx : (length ds <= length xi)%nat) by lia.
  destruct (wrapper_inverse c bases ds mem X xi HE Hd Hx HX) as (W1 & W2).
  destruct (wrapper_inverse c bases ds mem' X' xi HE Hd Hx HX') as (V1 & V2).
  assert (HJ : forall i j, 0 <= i < 3 -> 0 <= j < 3 -> Jmat ds X' xi [i; j] = matmul 3 M (fun k j => Jmat ds X xi [k; j]) i j).
  { intros i j Hi Hj. rewrite (Jmat_moved ds o M X X' xi i j HN Hlx HM) by (rewrite Hd; lia). rewrite Hd. reflexivity. }
  set (K := fun i j => Jmat ds X xi [i; j]) in *. set (K' := fun i j => Jmat ds X' xi [i; j]) in *.
  assert (HD : det 3 K' = (det 3 M * det 3 K)%R) by (rewrite <- det_mul; apply det_ext; exact HJ).
  destruct (Req_dec (det 3 K) 0) as [Z0|NZ]; [rewrite (W2 Z0) in EI; discriminate|].
  destruct (W1 NZ) as (invJ0 & B0 & E0 & HB0 & HI). rewrite E0 in EI. injection EI as Ed <-. subst d.
  split.
  - intros HMz. assert (NZ' : det 3 K' <> 0%R) by (rewrite HD; apply Rmult_integral_contrapositive_currified; assumption).
    destruct (V1 NZ') as (invJ' & B' & E' & HB' & HI'). exists invJ', B'. rewrite HD in E'. split; [exact E'|]. split; [exact HB'|].
    intros i j Hi Hj. rewrite <- (Holds_at c invJ0 [3; 3] [i; j] B0 B HB0 HB (InRange_ij 3 i j Hi Hj)).
    (* B' M = B' M (K B0) = (B' K') B0 = B0 *)
    apply (Inverse_unique3 K (fun i j => matmul 3 (fun i j => B' [i; j]) M i j) (fun i j => B0 [i; j])); [|exact HI|exact Hi|exact Hj].
    assert (HL : forall i j, 0 <= i < 3 -> 0 <= j < 3 -> matmul 3 (fun i j => matmul 3 (fun i j => B' [i; j]) M i j) K i j = delta i j).
    { intros a b Ha Hb. destruct (HI' a b Ha Hb) as (_ & I2). unfold matmul in *. rewrite !Rsum3 in *. rewrite <- I2.
      unfold K'. rewrite !HJ by lia. fold K. rewrite !Rsum3. unfold K. ring. }
    (* a left inverse of K is B0, hence a right inverse *)
    assert (HEq : forall i j, 0 <= i < 3 -> 0 <= j < 3 -> matmul 3 (fun i j => B' [i; j]) M i j = B0 [i; j]).
    { intros a b Ha Hb. set (P := matmul 3 (fun i j => B' [i; j]) M) in *.
      transitivity (matmul 3 P (matmul 3 K (fun i j => B0 [i; j])) a b).
      - transitivity (matmul 3 P delta a b).
        + unfold matmul at 1. rewrite Rsum3. assert (Cb : b = 0 \/ b = 1 \/ b = 2) by lia. unfold delta.
          destruct Cb as [->|[->| ->]]; cbn [Z.eqb Pos.eqb]; ring.
        + unfold matmul. rewrite !Rsum3.
          destruct (HI 0 b ltac:(lia) Hb) as (D0 & _). destruct (HI 1 b ltac:(lia) Hb) as (D1 & _). destruct (HI 2 b ltac:(lia) Hb) as (D2 & _).
          rewrite <- D0, <- D1, <- D2. unfold matmul. rewrite !Rsum3. ring.
      - transitivity (matmul 3 (matmul 3 P K) (fun i j => B0 [i; j]) a b).
        + unfold matmul. rewrite !Rsum3. ring.
        + unfold matmul at 1. rewrite Rsum3. rewrite !HL by lia. assert (Ca : a = 0 \/ a = 1 \/ a = 2) by lia. unfold delta.
          destruct Ca as [->|[->| ->]]; cbn [Z.eqb Pos.eqb]; ring. }
    intros a b Ha Hb. split; [|apply HL; assumption].
    destruct (HI a b Ha Hb) as (I1 & _). rewrite <- I1. unfold matmul at 1 3. rewrite !Rsum3. rewrite !HEq by lia. reflexivity.
  - intros HMz. apply V2. rewrite HD, HMz. ring.
Qed.

(** Rigid motions keep lengths, angles and volumes. *)
Lemma rigid_lemma c bases ds mem mem' X X' xi o M : Forall2 Evaluates bases ds -> Forall Nodal ds -> length ds = 3%nat -> length xi = 3%nat ->
  Holds (owning (counts ds ++ [3])) mem X -> Holds (owning (counts ds ++ [3])) mem' X' -> Moved ds o M X X' ->
  (forall i j, 0 <= i < 3 -> 0 <= j < 3 -> matmul 3 (fun a b => M b a) M i j = delta i j) ->
  exists J J' K K', jacobian_wrapper RNum c 3 bases mem xi = Ok J /\ jacobian_wrapper RNum c 3 bases mem' xi = Ok J' /\
    Holds (owning [3; 3]) J K /\ Holds (owning [3; 3]) J' K' /\
    (forall i j, 0 <= i < 3 -> 0 <= j < 3 ->
      matmul 3 (fun a b => K' [b; a]) (fun a b => K' [a; b]) i j = matmul 3 (fun a b => K [b; a]) (fun a b => K [a; b]) i j) /\
    Rabs (det 3 (fun i j => K' [i; j])) = Rabs (det 3 (fun i j => K [i; j])).
Proof.
  intros HE HN Hd Hx HX HX' HM HO. assert (Hne : ds <> []) by (destruct ds; discriminate).
  assert (H1 : Holds (owning (counts ds ++ [Z.of_nat (length ds)])) mem X) by (rewrite Hd; exact HX).
  assert (H2 : Holds (owning (counts ds ++ [Z.of_nat (length ds)])) mem' X') by (rewrite Hd; exact HX').
  destruct (moved_jacobian_lemma c bases ds mem mem' X X' xi o M HE HN Hne ltac:(lia) Hx H1 H2 HM) as (J & J' & K & K' & E & E' & HK & HK' & HR).
  rewrite Hd in E, E', HK, HK', HR. change (Z.of_nat 3) with 3 in *.
  exists J, J', K, K'. split; [exact E|]. split; [exact E'|]. split; [exact HK|]. split; [exact HK'|].
  split.
  - intros i j Hi Hj. unfold matmul in *. rewrite !Rsum3. rewrite !HR by lia. rewrite !Rsum3.
    setoid_rewrite Rsum3 in HO.
    pose proof (HO 0 0 ltac:(lia) ltac:(lia)) as O00. pose proof (HO 0 1 ltac:(lia) ltac:(lia)) as O01. pose proof (HO 0 2 ltac:(lia) ltac:(lia)) as O02.
    pose proof (HO 1 1 ltac:(lia) ltac:(lia)) as O11. pose proof (HO 1 2 ltac:(lia) ltac:(lia)) as O12. pose proof (HO 2 2 ltac:(lia) ltac:(lia)) as O22.
    unfold delta in *. cbn [Z.eqb Pos.eqb] in *. clear HO HR HK HK'.
    set (x0 := K [0; i]) in *. set (x1 := K [1; i]) in *. set (x2 := K [2; i]) in *.
    set (y0 := K [0; j]) in *. set (y1 := K [1; j]) in *. set (y2 := K [2; j]) in *.
    transitivity (x0 * y0 * (M 0%Z 0%Z * M 0%Z 0%Z + (M 1%Z 0%Z * M 1%Z 0%Z + (M 2%Z 0%Z * M 2%Z 0%Z + 0))) + x1 * y1 * (M 0%Z 1%Z * M 0%Z 1%Z + (M 1%Z 1%Z * M 1%Z 1%Z + (M 2%Z 1%Z * M 2%Z 1%Z + 0)))
      + x2 * y2 * (M 0%Z 2%Z * M 0%Z 2%Z + (M 1%Z 2%Z * M 1%Z 2%Z + (M 2%Z 2%Z * M 2%Z 2%Z + 0))) + (x0 * y1 + x1 * y0) * (M 0%Z 0%Z * M 0%Z 1%Z + (M 1%Z 0%Z * M 1%Z 1%Z + (M 2%Z 0%Z * M 2%Z 1%Z + 0)))
      + (x0 * y2 + x2 * y0) * (M 0%Z 0%Z * M 0%Z 2%Z + (M 1%Z 0%Z * M 1%Z 2%Z + (M 2%Z 0%Z * M 2%Z 2%Z + 0))) + (x1 * y2 + x2 * y1) * (M 0%Z 1%Z * M 0%Z 2%Z + (M 1%Z 1%Z * M 1%Z 2%Z + (M 2%Z 1%Z * M 2%Z 2%Z + 0))))%R; [ring|].
    rewrite O00, O01, O02, O11, O12, O22. ring.
  - assert (HD : det 3 (fun i j => K' [i; j]) = (det 3 M * det 3 (fun i j => K [i; j]))%R).
    { rewrite <- det_mul. apply det_ext. exact HR. }
    assert (HT : det 3 (fun a b => M b a) = det 3 M) by (rewrite !ProofTransform.det3; ring).
    assert (H1' : (det 3 M * det 3 M = 1)%R).
    { rewrite <- HT at 1. rewrite <- det_mul. rewrite (det_ext _ delta HO). rewrite ProofTransform.det3. unfold delta. cbn [Z.eqb Pos.eqb]. ring. }
    rewrite HD, Rabs_mult. assert (HA : Rabs (det 3 M) = 1%R); [|rewrite HA; ring].
    pose proof (Rabs_pos (det 3 M)) as HP. assert (HQ : (Rabs (det 3 M) * Rabs (det 3 M) = 1)%R) by (rewrite <- Rabs_mult, H1'; apply Rabs_R1).
    nra.
Qed.
