(** The tables up to five points are correctly rounded. *)
From Coq Require Import ZArith QArith Qreals Reals Bool List Lia Lra.
From Flocq Require Import Core IEEE754.BinarySingleNaN.
From Verif Require Import Base ProofBase Num ModelB64 ModelF32 SpecB64 SpecF32 ModelSpacing ModelQuadrature
  SpecNumeric SpecTables SpecNearest ProofSpacing ProofQuadrature ProofTables ProofTables64.
From Verif Require ProofNodes64 ProofNodes32.
Local Open Scope Z_scope.

Section Nearest.
Context (prec emax : Z) (Hp : 0 < prec).
Local Instance prec_pos : Prec_gt_0 prec := Hp.
Local Notation fexp := (SpecFloat.fexp prec emax).
Local Notation emin := (SpecFloat.emin prec emax).
Local Instance fexp_valid : Valid_exp fexp := FLT_exp_valid (SpecFloat.emin prec emax) prec.
Local Instance fexp_mono : Monotone_exp fexp := FLT_exp_monotone (SpecFloat.emin prec emax) prec.

Lemma nearest_pos x r e : generic_format radix2 fexp x -> (bpow radix2 (e - 1) <= x < bpow radix2 e)%R ->
  emin <= e - prec - 1 -> (Rabs (r - x) <= bpow radix2 (e - prec - 1))%R ->
  (x = bpow radix2 (e - 1) -> Rabs (r - x) <= bpow radix2 (e - prec - 2))%R ->
  forall y, generic_format radix2 fexp y -> (Rabs (x - r) <= Rabs (y - r))%R.
Proof using All.
  intros Fx Hx He Hh Hq y Fy.
  assert (X0 : (0 < x)%R) by (eapply Rlt_le_trans; [apply bpow_gt_0|apply Hx]).
  assert (M : mag radix2 x = e :> Z). { apply mag_unique. rewrite Rabs_pos_eq by lra. exact Hx. }
  assert (U : ulp radix2 fexp x = bpow radix2 (e - prec)).
  { rewrite ulp_neq_0 by lra. unfold cexp. rewrite M. f_equal. unfold SpecFloat.fexp. lia. }
  assert (P1 : bpow radix2 (e - prec) = (2 * bpow radix2 (e - prec - 1))%R).
  { replace (e - prec) with (1 + (e - prec - 1)) by ring. rewrite bpow_plus.
    replace (1 + (e - prec - 1) - 1) with (e - prec - 1) by ring. reflexivity. }
  assert (P2 : bpow radix2 (e - 1 - prec) = (2 * bpow radix2 (e - prec - 2))%R).
  { replace (e - 1 - prec) with (1 + (e - prec - 2)) by ring. rewrite bpow_plus. reflexivity. }
  destruct (Rtotal_order x y) as [L|[E|L]].
  - pose proof (succ_le_lt radix2 fexp x y Fx Fy L) as S. rewrite succ_eq_pos, U in S by lra.
    revert Hh. unfold Rabs. repeat destruct Rcase_abs; lra.
  - rewrite E. lra.
  - pose proof (pred_ge_gt radix2 fexp y x Fy Fx L) as S. rewrite pred_eq_pos in S by lra.
    unfold pred_pos in S. rewrite M, U in S. destruct (Req_bool_spec x (bpow radix2 (e - 1))) as [E|E].
    + specialize (Hq E). replace (fexp (e - 1)) with (e - 1 - prec) in S by (unfold SpecFloat.fexp; lia).
      clear E. revert Hq. unfold Rabs. repeat destruct Rcase_abs; lra.
    + revert Hh. unfold Rabs. repeat destruct Rcase_abs; lra.
Qed.

Lemma nearest_any x r e : generic_format radix2 fexp x -> (bpow radix2 (e - 1) <= Rabs x < bpow radix2 e)%R ->
  emin <= e - prec - 1 -> (Rabs (r - x) <= bpow radix2 (e - prec - 1))%R ->
  (Rabs x = bpow radix2 (e - 1) -> Rabs (r - x) <= bpow radix2 (e - prec - 2))%R ->
  forall y, generic_format radix2 fexp y -> (Rabs (x - r) <= Rabs (y - r))%R.
Proof using All.
  intros Fx Hx He Hh Hq y Fy. destruct (Rle_or_lt 0 x) as [S|S].
  - rewrite Rabs_pos_eq in Hx, Hq by exact S. exact (nearest_pos x r e Fx Hx He Hh Hq y Fy).
  - rewrite Rabs_left in Hx, Hq by exact S.
    replace (x - r)%R with (- (- x - - r))%R by ring. replace (y - r)%R with (- (- y - - r))%R by ring.
    rewrite (Rabs_Ropp (- x - - r)), (Rabs_Ropp (- y - - r)).
    assert (E : (Rabs (- r - - x) = Rabs (r - x))%R).
    { rewrite <- (Rabs_Ropp (r - x)). f_equal. ring. }
    apply (nearest_pos (- x) (- r) e); [apply generic_format_opp; exact Fx|exact Hx|exact He| | |apply generic_format_opp; exact Fy];
      rewrite E; assumption.
Qed.

(** The number z / 2^60 is nearest to every real within [err] of the rational [a]. *)
Definition nearest_b (z : Z) (a err : Q) : bool :=
  let k := Z.log2 (Z.abs z) in
  negb (z =? 0) && (emin + prec + 61 <=? k) && (0 <=? 60 + prec - k) &&
  Qle_bool (qabs (a - (z # Z.to_pos (2 ^ 60))) + err)
           (1 # Z.to_pos (2 ^ (if Z.abs z =? 2 ^ k then 61 + prec - k else 60 + prec - k))).
Lemma nearest_b_spec z a err r : nearest_b z a err = true -> (Rabs (r - Q2R a) <= Q2R err)%R ->
  generic_format radix2 fexp (IZR z * bpow radix2 (-60)) ->
  forall y, generic_format radix2 fexp y -> (Rabs (IZR z * bpow radix2 (-60) - r) <= Rabs (y - r))%R.
Proof using All.
  intros B Hr Fx. unfold nearest_b in B. set (k := Z.log2 (Z.abs z)) in *.
  apply andb_prop in B as (B & Q). apply andb_prop in B as (B & B3). apply andb_prop in B as (B1 & B2).
  apply negb_true_iff, Z.eqb_neq in B1. apply Z.leb_le in B2, B3.
  pose proof (Z.log2_spec (Z.abs z) ltac:(lia)) as (K1 & K2). fold k in K1, K2.
  assert (K0 : 0 <= k) by apply Z.log2_nonneg.
  assert (A : (Rabs (IZR z * bpow radix2 (-60)) = IZR (Z.abs z) * bpow radix2 (-60))%R).
  { rewrite Rabs_mult, (Rabs_pos_eq (bpow _ _)) by (left; apply bpow_gt_0). rewrite abs_IZR. reflexivity. }
  assert (P60 : (0 < bpow radix2 (-60))%R) by apply bpow_gt_0.
  assert (PW : forall n, 0 <= n -> IZR (2 ^ n) = bpow radix2 n).
  { intros n Hn. change (2 ^ n) with (Zpower radix2 n). apply IZR_Zpower. exact Hn. }
  assert (QP : forall n, 0 <= n -> Q2R (1 # Z.to_pos (2 ^ n)) = bpow radix2 (- n)).
  { intros n Hn. unfold Q2R. cbn [Qnum Qden]. rewrite Z2Pos.id by (apply Z.pow_pos_nonneg; lia).
    rewrite PW, bpow_opp by exact Hn. ring. }
  assert (QZ : Q2R (z # Z.to_pos (2 ^ 60)) = (IZR z * bpow radix2 (-60))%R).
  { unfold Q2R. cbn [Qnum Qden]. rewrite Z2Pos.id by reflexivity. rewrite PW by lia. reflexivity. }
  apply Qle_bool_iff, Qle_Rle in Q. rewrite Q2R_plus, qabs_R, Q2R_minus, QZ in Q.
  assert (Hd : (Rabs (r - IZR z * bpow radix2 (-60)) <= Rabs (Q2R a - IZR z * bpow radix2 (-60)) + Q2R err)%R).
  { replace (r - IZR z * bpow radix2 (-60))%R with ((r - Q2R a) + (Q2R a - IZR z * bpow radix2 (-60)))%R by ring.
    eapply Rle_trans; [apply Rabs_triang|]. lra. }
  set (x := (IZR z * bpow radix2 (-60))%R) in *.
  assert (LT : (bpow radix2 (k - 61 - prec) <= bpow radix2 (k - 60 - prec))%R) by (apply bpow_le; lia).
  apply (nearest_any x r (k - 59)); [exact Fx| |lia| |].
  - rewrite A. replace (k - 59 - 1) with (k + -60) by ring. replace (k - 59) with (Z.succ k + -60) by ring.
    rewrite !bpow_plus, <- (PW k), <- (PW (Z.succ k)) by lia.
    split; [apply Rmult_le_compat_r; [lra|apply IZR_le; lia]|apply Rmult_lt_compat_r; [lra|apply IZR_lt; lia]].
  - replace (k - 59 - prec - 1) with (k - 60 - prec) by ring.
    destruct (Z.abs z =? 2 ^ k); rewrite QP in Q by lia.
    + replace (- (61 + prec - k)) with (k - 61 - prec) in Q by ring. lra.
    + replace (- (60 + prec - k)) with (k - 60 - prec) in Q by ring. lra.
  - intros E. rewrite A in E. replace (k - 59 - 1) with (k + -60) in E by ring. rewrite bpow_plus, <- (PW k) in E by lia.
    apply Rmult_eq_reg_r in E; [|lra]. apply eq_IZR in E. rewrite E, Z.eqb_refl in Q. rewrite QP in Q by lia.
    replace (- (61 + prec - k)) with (k - 61 - prec) in Q by ring.
    replace (k - 59 - prec - 2) with (k - 61 - prec) by ring. lra.
Qed.
End Nearest.

(** The middle point of an odd rule is zero. *)
Lemma odd_root f r : (Rabs r <= 1 / 10)%R -> (forall s, 0 <= s <= 1 / 100 -> f s < 0 \/ 0 < f s)%R -> (r * f (r * r) = 0 -> r = 0)%R.
Proof.
  intros Hr Hf H. apply Rmult_integral in H as [H|H]; [exact H|]. exfalso.
  assert (B : (0 <= r * r <= 1 / 100)%R). { apply abs_le_inv in Hr. split; nra. }
  destruct (Hf _ B); lra.
Qed.
Lemma middle_zero q N r i : Tabulated q N -> ExactPoints q N r -> 0 <= i < N -> 2 * i = N - 1 -> r i = 0%R.
Proof.
  intros HT Hr Hi Hm.
  assert (HR : (Rabs (r i) <= 1 / 10)%R).
  { pose proof (exact_near q N r HT Hr i Hi) as Y. pose proof (tenth_small _ (root_digits_3 N)) as T.
    assert (zero : forall q N i, yz q N i = 0 -> Q2R (yq q N i) = 0%R).
    { intros q' N' i' E. rewrite yq_R, E. unfold Rdiv. ring. }
    assert (E : Q2R (yq q N i) = 0%R).
    { unfold Tabulated in HT. destruct q.
      - assert (N = 3 /\ i = 1) as (-> & ->) by lia. apply zero. vm_compute. reflexivity.
      - assert (N = 3 /\ i = 1 \/ N = 5 /\ i = 2 \/ N = 7 /\ i = 3 \/ N = 9 /\ i = 4)
          as [(-> & ->)|[(-> & ->)|[(-> & ->)|(-> & ->)]]] by lia; apply zero; vm_compute; reflexivity. }
    rewrite E in Y. apply abs_le_inv in Y. apply Rabs_le. lra. }
  destruct Hr as (_ & Hr). unfold Tabulated in HT. destruct q.
  - assert (N = 3 /\ i = 1) as (-> & ->) by lia. specialize (Hr 1 ltac:(lia)).
    apply (odd_root (fun s => 5 / 2 * s - 3 / 2)%R _ HR); [intros s Hs; lra|].
    rewrite <- Hr. change (Z.to_nat 3) with 3%nat. cbn [legendre INR]. field.
  - assert (D : forall n, n = Z.to_nat (N - 1) -> 0 < i < N - 1 -> dlegendre n (r i) = 0%R).
    { intros n -> Hj. symmetry. exact (uniqueness_limite _ _ _ _ (proj2 (proj2 Hr) i Hj) (legendre_deriv _ _)). }
    clear Hr. set (v := r i) in *. clearbody v.
    assert (N = 3 /\ i = 1 \/ N = 5 /\ i = 2 \/ N = 7 /\ i = 3 \/ N = 9 /\ i = 4)
      as [(-> & ->)|[(-> & ->)|[(-> & ->)|(-> & ->)]]] by lia.
    + specialize (D 2%nat eq_refl ltac:(lia)).
      apply (odd_root (fun s => 3)%R _ HR); [intros s Hs; lra|].
      rewrite <- D. rewrite !dlegendre_SS. cbn [legendre dlegendre INR]. field.
    + specialize (D 4%nat eq_refl ltac:(lia)).
      apply (odd_root (fun s => 35 / 2 * s - 15 / 2)%R _ HR); [intros s Hs; lra|].
      rewrite <- D. rewrite !dlegendre_SS. cbn [legendre dlegendre INR]. field.
    + specialize (D 6%nat eq_refl ltac:(lia)).
      apply (odd_root (fun s => 21 / 8 * (33 * (s * s) - 30 * s + 5))%R _ HR); [intros s Hs; right; nra|].
      rewrite <- D. rewrite !dlegendre_SS. cbn [legendre dlegendre INR]. field.
    + specialize (D 8%nat eq_refl ltac:(lia)).
      apply (odd_root (fun s => 9 / 16 * (715 * (s * s * s) - 1001 * (s * s) + 385 * s - 35))%R _ HR).
      * intros s Hs. left. assert (s * s * s <= 1 / 100)%R by nra. nra.
      * rewrite <- D. rewrite !dlegendre_SS. cbn [legendre dlegendre INR]. field.
Qed.

(** * The checks *)
Definition point_ok (p e : Z) (o : option Z) (q : rule) (N i : Z) : bool :=
  match o with
  | Some z => ((2 * i =? N - 1) && (z =? 0)) || nearest_b p e z (qnode q N i) (qpoint_error N)
  | None => false
  end.
Definition weight_ok (p e : Z) (o : option Z) (q : rule) (N i : Z) : bool :=
  match o with Some z => nearest_b p e z (qweight q N i) (qweight_error N) | None => false end.

Lemma point_nearest p e z q N r i : 0 < p -> Tabulated q N -> ExactPoints q N r -> 0 <= i < N ->
  point_ok p e (Some z) q N i = true -> generic_format radix2 (SpecFloat.fexp p e) (IZR z * bpow radix2 (-60)) ->
  forall y, generic_format radix2 (SpecFloat.fexp p e) y -> (Rabs (IZR z * bpow radix2 (-60) - r i) <= Rabs (y - r i))%R.
Proof.
  intros Hp HT Hr Hi H F. unfold point_ok in H. apply orb_prop in H as [H|H].
  - apply andb_prop in H as (H1 & H2). apply Z.eqb_eq in H1, H2. subst z. intros y _.
    rewrite (middle_zero q N r i HT Hr Hi H1). replace (0 * bpow radix2 (-60) - 0)%R with 0%R by ring.
    rewrite Rabs_R0. apply Rabs_pos.
  - apply (nearest_b_spec p e Hp _ _ _ _ H); [|exact F]. rewrite qpoint_error_R, Rabs_minus_sym.
    exact (point_near q N r i HT Hr Hi).
Qed.
Lemma weight_nearest p e z q N r i : 0 < p -> Tabulated q N -> ExactPoints q N r -> 0 <= i < N ->
  weight_ok p e (Some z) q N i = true -> generic_format radix2 (SpecFloat.fexp p e) (IZR z * bpow radix2 (-60)) ->
  forall y, generic_format radix2 (SpecFloat.fexp p e) y ->
    (Rabs (IZR z * bpow radix2 (-60) - ExactWeight q N (r i)) <= Rabs (y - ExactWeight q N (r i)))%R.
Proof.
  intros Hp HT Hr Hi H F. unfold weight_ok in H.
  apply (nearest_b_spec p e Hp _ _ _ _ H); [|exact F]. rewrite qweight_error_R, Rabs_minus_sym.
  exact (weight_near q N r i HT Hr Hi).
Qed.

Lemma point64 o q N r i : Tabulated q N -> ExactPoints q N r -> 0 <= i < N ->
  point_ok prec64 emax64 (ProofNodes64.fix60 o) q N i = true -> exists x, o = Ok x /\ Nearest64 x (r i).
Proof.
  intros HT Hr Hi H. destruct (ProofNodes64.fix60 o) as [z|] eqn:E; [|discriminate].
  destruct (ProofNodes64.fix60_ok _ _ E) as (x & -> & Fx & Rx). exists x. split; [reflexivity|]. split; [exact Fx|].
  intros y Fy. pose proof (generic_format_B2R prec64 emax64 x) as G. rewrite Rx in *.
  exact (point_nearest prec64 emax64 z q N r i eq_refl HT Hr Hi H G _ (generic_format_B2R _ _ y)).
Qed.
Lemma weight64 o q N r i : Tabulated q N -> ExactPoints q N r -> 0 <= i < N ->
  weight_ok prec64 emax64 (ProofNodes64.fix60 o) q N i = true -> exists x, o = Ok x /\ Nearest64 x (ExactWeight q N (r i)).
Proof.
  intros HT Hr Hi H. destruct (ProofNodes64.fix60 o) as [z|] eqn:E; [|discriminate].
  destruct (ProofNodes64.fix60_ok _ _ E) as (x & -> & Fx & Rx). exists x. split; [reflexivity|]. split; [exact Fx|].
  intros y Fy. pose proof (generic_format_B2R prec64 emax64 x) as G. rewrite Rx in *.
  exact (weight_nearest prec64 emax64 z q N r i eq_refl HT Hr Hi H G _ (generic_format_B2R _ _ y)).
Qed.
Lemma point32 o q N r i : Tabulated q N -> ExactPoints q N r -> 0 <= i < N ->
  point_ok prec32 emax32 (ProofNodes32.fix60 o) q N i = true -> exists x, o = Ok x /\ Nearest32 x (r i).
Proof.
  intros HT Hr Hi H. destruct (ProofNodes32.fix60 o) as [z|] eqn:E; [|discriminate].
  destruct (ProofNodes32.fix60_ok _ _ E) as (x & -> & Fx & Rx). exists x. split; [reflexivity|]. split; [exact Fx|].
  intros y Fy. pose proof (generic_format_B2R prec32 emax32 x) as G. rewrite Rx in *.
  exact (point_nearest prec32 emax32 z q N r i eq_refl HT Hr Hi H G _ (generic_format_B2R _ _ y)).
Qed.
Lemma weight32 o q N r i : Tabulated q N -> ExactPoints q N r -> 0 <= i < N ->
  weight_ok prec32 emax32 (ProofNodes32.fix60 o) q N i = true -> exists x, o = Ok x /\ Nearest32 x (ExactWeight q N (r i)).
Proof.
  intros HT Hr Hi H. destruct (ProofNodes32.fix60 o) as [z|] eqn:E; [|discriminate].
  destruct (ProofNodes32.fix60_ok _ _ E) as (x & -> & Fx & Rx). exists x. split; [reflexivity|]. split; [exact Fx|].
  intros y Fy. pose proof (generic_format_B2R prec32 emax32 x) as G. rewrite Rx in *.
  exact (weight_nearest prec32 emax32 z q N r i eq_refl HT Hr Hi H G _ (generic_format_B2R _ _ y)).
Qed.

Definition inner4 (q : rule) (N i : Z) : bool :=
  match q with QuadratureGaussLobatto => (N =? 4) && ((i =? 1) || (i =? 2)) | _ => false end.
Lemma double_check : all_sizes (fun q N i => (5 <? N) ||
  point_ok prec64 emax64 (ProofNodes64.fix60 (coord_ct B64Num (rule_spacing q) N i)) q N i &&
  weight_ok prec64 emax64 (ProofNodes64.fix60 (weight_ct B64Num q N i)) q N i) = true.
Proof. vm_cast_no_check (eq_refl true). Qed.
Lemma double_rt_check : all_sizes (fun q N i => (5 <? N) || inner4 q N i ||
  point_ok prec64 emax64 (ProofNodes64.fix60 (coord_rt B64Num (rule_spacing q) N i)) q N i &&
  weight_ok prec64 emax64 (ProofNodes64.fix60 (weight_rt B64Num q N i)) q N i) = true.
Proof. vm_cast_no_check (eq_refl true). Qed.
Lemma float_check : all_sizes (fun q N i =>
  point_ok prec32 emax32 (ProofNodes32.fix60 (coord_ct32 (rule_spacing q) N i)) q N i &&
  weight_ok prec32 emax32 (ProofNodes32.fix60 (weight_ct32 q N i)) q N i) = true.
Proof. vm_cast_no_check (eq_refl true). Qed.
Lemma float_rt_check : all_sizes (fun q N i => (5 <? N) ||
  point_ok prec32 emax32 (ProofNodes32.fix60 (coord_rt32 (rule_spacing q) N i)) q N i &&
  weight_ok prec32 emax32 (ProofNodes32.fix60 (weight_rt32 q N i)) q N i) = true.
Proof. vm_cast_no_check (eq_refl true). Qed.

Lemma double_lemma q N r i : Tabulated q N -> N <= 5 -> ExactPoints q N r -> 0 <= i < N ->
  exists x w, coord_ct B64Num (rule_spacing q) N i = Ok x /\ weight_ct B64Num q N i = Ok w /\
    Nearest64 x (r i) /\ Nearest64 w (ExactWeight q N (r i)).
Proof.
  intros HT HN Hr Hi. pose proof (all_sizes_spec _ q N i double_check HT Hi) as B. cbv beta in B.
  apply orb_prop in B as [B|B]; [apply Z.ltb_lt in B; lia|]. apply andb_prop in B as (B1 & B2).
  destruct (point64 _ q N r i HT Hr Hi B1) as (x & Ex & Hx). destruct (weight64 _ q N r i HT Hr Hi B2) as (w & Ew & Hw).
  exists x, w. auto.
Qed.
Lemma double_rt_lemma q N r i : Tabulated q N -> N <= 5 -> ExactPoints q N r -> 0 <= i < N ->
  ~ (q = QuadratureGaussLobatto /\ N = 4 /\ (i = 1 \/ i = 2)) ->
  exists x w, coord_rt B64Num (rule_spacing q) N i = Ok x /\ weight_rt B64Num q N i = Ok w /\
    Nearest64 x (r i) /\ Nearest64 w (ExactWeight q N (r i)).
Proof.
  intros HT HN Hr Hi Hx. pose proof (all_sizes_spec _ q N i double_rt_check HT Hi) as B. cbv beta in B.
  apply orb_prop in B as [B|B].
  { exfalso. apply orb_prop in B as [B|B]; [apply Z.ltb_lt in B; lia|]. unfold inner4 in B. destruct q; [discriminate|].
    apply andb_prop in B as (B1 & B2). apply Z.eqb_eq in B1. apply orb_prop in B2.
    apply Hx. split; [reflexivity|]. split; [exact B1|]. destruct B2 as [B2|B2]; apply Z.eqb_eq in B2; auto. }
  apply andb_prop in B as (B1 & B2).
  destruct (point64 _ q N r i HT Hr Hi B1) as (x & Ex & Hx'). destruct (weight64 _ q N r i HT Hr Hi B2) as (w & Ew & Hw).
  exists x, w. auto.
Qed.
Lemma float_lemma q N r i : Tabulated q N -> ExactPoints q N r -> 0 <= i < N ->
  exists x w, coord_ct32 (rule_spacing q) N i = Ok x /\ weight_ct32 q N i = Ok w /\
    Nearest32 x (r i) /\ Nearest32 w (ExactWeight q N (r i)).
Proof.
  intros HT Hr Hi. pose proof (all_sizes_spec _ q N i float_check HT Hi) as B. cbv beta in B.
  apply andb_prop in B as (B1 & B2).
  destruct (point32 _ q N r i HT Hr Hi B1) as (x & Ex & Hx). destruct (weight32 _ q N r i HT Hr Hi B2) as (w & Ew & Hw).
  exists x, w. auto.
Qed.
Lemma float_rt_lemma q N r i : Tabulated q N -> N <= 5 -> ExactPoints q N r -> 0 <= i < N ->
  exists x w, coord_rt32 (rule_spacing q) N i = Ok x /\ weight_rt32 q N i = Ok w /\
    Nearest32 x (r i) /\ Nearest32 w (ExactWeight q N (r i)).
Proof.
  intros HT HN Hr Hi. pose proof (all_sizes_spec _ q N i float_rt_check HT Hi) as B. cbv beta in B.
  apply orb_prop in B as [B|B]; [apply Z.ltb_lt in B; lia|]. apply andb_prop in B as (B1 & B2).
  destruct (point32 _ q N r i HT Hr Hi B1) as (x & Ex & Hx). destruct (weight32 _ q N r i HT Hr Hi B2) as (w & Ew & Hw).
  exists x, w. auto.
Qed.

(** * Where it fails *)
(** [y] is closer than [x] to every real within [err] of [a]. *)
Definition closer_b (oy ox : option Z) (a err : Q) : bool :=
  match oy, ox with
  | Some zy, Some zx => Qltb (qabs ((zy # Z.to_pos (2 ^ 60)) - a) + err) (qabs ((zx # Z.to_pos (2 ^ 60)) - a) - err)
  | _, _ => false
  end.
Lemma not_nearest oy ox a err r : closer_b (ProofNodes64.fix60 oy) (ProofNodes64.fix60 ox) a err = true ->
  (Rabs (Q2R a - r) <= Q2R err)%R -> exists x, ox = Ok x /\ ~ Nearest64 x r.
Proof.
  intros B Hr. unfold closer_b in B. destruct (ProofNodes64.fix60 oy) as [zy|] eqn:Ey; [|discriminate].
  destruct (ProofNodes64.fix60 ox) as [zx|] eqn:Ex; [|discriminate].
  destruct (ProofNodes64.fix60_ok _ _ Ey) as (y & -> & Fy & Ry). destruct (ProofNodes64.fix60_ok _ _ Ex) as (x & -> & Fx & Rx).
  exists x. split; [reflexivity|]. intros (_ & H). specialize (H y Fy).
  assert (QZ : forall z, Q2R (z # Z.to_pos (2 ^ 60)) = (IZR z * bpow radix2 (-60))%R) by (intros z; reflexivity).
  apply Qltb_R in B. rewrite Q2R_plus, Q2R_minus, !qabs_R, !Q2R_minus, !QZ in B.
  rewrite <- Rx, <- Ry in B. clear - B H Hr.
  revert B H Hr. unfold Rabs. repeat destruct Rcase_abs; lra.
Qed.

Lemma runtime_refuted_lemma r : ExactPoints QuadratureGaussLobatto 4 r -> forall i, i = 1 \/ i = 2 ->
  (exists x, coord_rt B64Num GaussLobattoSpacing 4 i = Ok x /\ ~ Nearest64 x (r i)) /\
  (exists w, weight_rt B64Num QuadratureGaussLobatto 4 i = Ok w /\ ~ Nearest64 w (ExactWeight QuadratureGaussLobatto 4 (r i))).
Proof.
  intros Hr i Hi. assert (HT : Tabulated QuadratureGaussLobatto 4) by (split; discriminate).
  assert (Hi' : 0 <= i < 4) by lia.
  pose proof (point_near _ _ r i HT Hr Hi') as P. pose proof (weight_near _ _ r i HT Hr Hi') as W.
  rewrite <- qpoint_error_R in P. rewrite <- qweight_error_R in W. split.
  - apply (not_nearest (coord_ct B64Num GaussLobattoSpacing 4 i) _ _ _ _) with (2 := P).
    destruct Hi as [-> | ->]; vm_cast_no_check (eq_refl true).
  - apply (not_nearest (weight_ct B64Num QuadratureGaussLobatto 4 i) _ _ _ _) with (2 := W).
    destruct Hi as [-> | ->]; vm_cast_no_check (eq_refl true).
Qed.
Lemma six_points_refuted_lemma r : ExactPoints QuadratureGaussLobatto 6 r -> forall i, 0 < i < 5 ->
  exists x, coord_ct B64Num GaussLobattoSpacing 6 i = Ok x /\ ~ Nearest64 x (r i).
Proof.
  intros Hr i Hi. assert (HT : Tabulated QuadratureGaussLobatto 6) by (split; discriminate).
  assert (Hi' : 0 <= i < 6) by lia.
  pose proof (exact_near _ _ r HT Hr i Hi') as P. rewrite <- qtenth_R in P.
  set (y := fun i => if i =? 1 then b64_lit (-7650553239294647) 16 else if i =? 2 then b64_lit (-2852315164806451) 16
                     else if i =? 3 then b64_lit 2852315164806451 16 else b64_lit 7650553239294647 16).
  apply (not_nearest (Ok (y i)) _ _ _ _) with (2 := P).
  assert (i = 1 \/ i = 2 \/ i = 3 \/ i = 4) as [->|[->|[->| ->]]] by lia; vm_cast_no_check (eq_refl true).
Qed.

Lemma nearest_witness : Tabulated QuadratureGaussLobatto 9 /\ (exists r, ExactPoints QuadratureGaussLobatto 9 r) /\
  Tabulated QuadratureGaussLobatto 4 /\ (exists r, ExactPoints QuadratureGaussLobatto 4 r) /\
  ~ (QuadratureGaussLegendre = QuadratureGaussLobatto /\ 4 = 4 /\ (1 = 1 \/ 1 = 2)).
Proof.
  assert (H9 : Tabulated QuadratureGaussLobatto 9) by (split; discriminate).
  assert (H4 : Tabulated QuadratureGaussLobatto 4) by (split; discriminate).
  split; [exact H9|]. split; [exact (exact_exists _ _ H9)|]. split; [exact H4|]. split; [exact (exact_exists _ _ H4)|].
  intros (H & _). discriminate.
Qed.
