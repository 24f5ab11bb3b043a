(** The one-dimensional Lagrange basis. *)
From Verif Require Import Base ProofBase Num ModelSequence ModelSpacing ModelLagrange SpecNumeric SpecBasis
  ProofPoly ProofHom ProofSpacing.
From Coq Require Import Reals Lra.
Open Scope Z_scope.

(** * Evaluating folds of defined terms *)
Lemma fold_unary_right_cons {A} (op : A -> A -> outcome A) e e' es :
  fold_unary_right op (e :: e' :: es) = (x <- e ;; y <- fold_unary_right op (e' :: es) ;; op x y).
Proof. reflexivity. Qed.
Lemma fold_mul_Ok (l : list Z) (e : Z -> outcome R) (f : Z -> R) : l <> [] ->
  (forall k, In k l -> e k = Ok (f k)) ->
  fold_unary_right (nmulM RNum) (map e l) = Ok (prodR f l).
Proof.
  induction l as [|a l IH]; intros Hne H; [congruence|].
  destruct l as [|b l].
  - simpl. rewrite H by (left; reflexivity). f_equal. ring.
  - change (map e (a :: b :: l)) with (e a :: map e (b :: l)).
    change (map e (b :: l)) with (e b :: map e l). rewrite fold_unary_right_cons.
    change (e b :: map e l) with (map e (b :: l)).
    rewrite H by (left; reflexivity). cbn [bind].
    rewrite IH; [reflexivity|discriminate|]. intros k Hk. apply H. right; exact Hk.
Qed.
Lemma fold_add_Ok (l : list Z) (e : Z -> outcome R) (f : Z -> R) : l <> [] ->
  (forall k, In k l -> e k = Ok (f k)) ->
  fold_unary_right (naddM RNum) (map e l) = Ok (sumR f l).
Proof.
  induction l as [|a l IH]; intros Hne H; [congruence|].
  destruct l as [|b l].
  - simpl. rewrite H by (left; reflexivity). f_equal. ring.
  - change (map e (a :: b :: l)) with (e a :: map e (b :: l)).
    change (map e (b :: l)) with (e b :: map e l). rewrite fold_unary_right_cons.
    change (e b :: map e l) with (map e (b :: l)).
    rewrite H by (left; reflexivity). cbn [bind].
    rewrite IH; [reflexivity|discriminate|]. intros k Hk. apply H. right; exact Hk.
Qed.
Lemma sequenceM_Ok {A B} (l : list A) (e : A -> outcome B) (f : A -> B) :
  (forall k, In k l -> e k = Ok (f k)) -> sequenceM (map e l) = Ok (map f l).
Proof.
  induction l as [|a l IH]; intros H; [reflexivity|]. cbn [map sequenceM].
  rewrite H by (left; reflexivity). cbn [bind]. rewrite IH; [reflexivity|]. intros k Hk. apply H. right; exact Hk.
Qed.
Lemma rd_map_zseq {A} (f : Z -> A) n k : 0 <= k < Z.of_nat n -> rd (map f (zseq n)) k = Ok (f k).
Proof.
  intros Hk. unfold rd. destruct (Z.ltb_spec k 0); [lia|].
  rewrite nth_error_map, nth_error_zseq by lia. simpl. rewrite Z2Nat.id by lia. reflexivity.
Qed.
Lemma zseq_ne n : (0 < n)%nat -> zseq n <> [].
Proof. intros H E. apply (f_equal (@length Z)) in E. rewrite zseq_length in E. simpl in E. lia. Qed.

Lemma exec_pack {R} n (body : list Z -> list Z -> outcome R) : 0 <= n ->
  executeSequence n (lambda_pack body) [] [] = body [] (zseq (Z.to_nat n)).
Proof.
  intros H. unfold executeSequence, make_integer_sequence. destruct (Z.ltb_spec n 0); [lia|]. reflexivity.
Qed.
Lemma exec_cons {R} n (body : Z -> list Z -> outcome R) k : 0 <= n ->
  executeSequence n (lambda_cons_pack body) [TIndex] [k] = body k (zseq (Z.to_nat n)).
Proof.
  intros H. unfold executeSequence, make_integer_sequence. destruct (Z.ltb_spec n 0); [lia|].
  cbn [bind]. unfold execute. cbn [accepts lambda_cons_pack].
  rewrite !app_length. simpl. rewrite Nat.add_comm. simpl. reflexivity.
Qed.

(** * The basis functions *)
Section Basis.
Context (ORDER : Z) (coordinate : Z -> outcome R) (x : Z -> R).
Context (HO : 0 <= ORDER < INT_MAX).
Context (Hp : Points coordinate (ORDER + 1) x).
Context (Hd : Distinct (ORDER + 1) x).
Let n := Z.to_nat (ORDER + 1).
Let pts := zseq n.

Definition term (i k : Z) (y : R) : R := if i =? k then 1%R else ((y - x k) * (1 / (x i - x k)))%R.
Definition dterm (i k : Z) : R := if i =? k then 0%R else (1 / (x i - x k))%R.
Definition lval1 (i : Z) (y : R) : R := prodR (fun k => term i k y) pts.
Definition lgrad1 (i : Z) (y : R) : R :=
  sumR (fun a => dterm i a * prodR (fun b => if b =? a then 1 else term i b y) pts)%R pts.

Lemma in_pts k : In k pts <-> 0 <= k < ORDER + 1.
Proof. unfold pts, n. rewrite in_zseq. lia. Qed.
Lemma pts_ne : pts <> [].
Proof. apply zseq_ne. unfold n. lia. Qed.
Lemma nSupport_ok : nSupport ORDER = Ok (ORDER + 1).
Proof. unfold nSupport. rewrite iadd_ok by (unfold INT_MIN; lia). reflexivity. Qed.
Lemma x_ne i k : 0 <= i < ORDER + 1 -> 0 <= k < ORDER + 1 -> i <> k -> (x i - x k <> 0)%R.
Proof. intros Hi Hk Hne E. apply Hne. apply Hd; [exact Hi|exact Hk|]. lra. Qed.

Lemma valueProductTerm_ok i k y : 0 <= i < ORDER + 1 -> 0 <= k < ORDER + 1 ->
  valueProductTerm RNum coordinate i k y = Ok (term i k y).
Proof.
  intros Hi Hk. unfold valueProductTerm, term. destruct (Z.eqb_spec i k) as [E|E]; [reflexivity|].
  rewrite !Hp by assumption. cbn [constexpr_ bind]. unfold ndiv_const. cbn [nis0 nsub ndiv RNum nofZ].
  unfold Req0. destruct (Req_EM_T (x i - x k) 0) as [Z|Z].
  - exfalso. exact (x_ne i k Hi Hk E Z).
  - reflexivity.
Qed.
Lemma gradientOfValueTerm_ok i k : 0 <= i < ORDER + 1 -> 0 <= k < ORDER + 1 ->
  gradientOfValueTerm RNum coordinate i k = Ok (dterm i k).
Proof.
  intros Hi Hk. unfold gradientOfValueTerm, dterm. destruct (Z.eqb_spec i k) as [E|E]; [reflexivity|].
  rewrite !Hp by assumption. cbn [constexpr_ bind ndiv RNum nsub nofZ].
  unfold Req0. destruct (Req_EM_T (x i - x k) 0) as [Z|Z]; [|reflexivity].
  exfalso. exact (x_ne i k Hi Hk E Z).
Qed.

Lemma lagrange_value_ok i y : 0 <= i < ORDER + 1 ->
  lagrange_value RNum ORDER coordinate i y = Ok (lval1 i y).
Proof.
  intros Hi. unfold lagrange_value. rewrite nSupport_ok. cbn [bind]. rewrite exec_pack by lia.
  apply (fold_mul_Ok pts); [exact pts_ne|]. intros k Hk. apply valueProductTerm_ok; [exact Hi|now apply in_pts].
Qed.
Lemma lagrange_gradient_ok i y : 0 <= i < ORDER + 1 ->
  lagrange_gradient RNum ORDER coordinate i y = Ok (lgrad1 i y).
Proof.
  intros Hi. unfold lagrange_gradient. rewrite nSupport_ok. cbn [bind]. rewrite exec_pack by lia.
  fold n. fold pts. rewrite (sequenceM_Ok pts _ (fun k => term i k y)).
  2: { intros k Hk. apply valueProductTerm_ok; [exact Hi|now apply in_pts]. }
  cbn [bind]. cbv zeta. apply (fold_add_Ok pts); [exact pts_ne|]. intros a Ha.
  rewrite exec_cons by lia. fold n. fold pts.
  rewrite gradientOfValueTerm_ok; [|exact Hi|now apply in_pts]. cbn [bind].
  rewrite (fold_mul_Ok pts _ (fun b => if b =? a then 1%R else term i b y)); [reflexivity|exact pts_ne|].
  intros b Hb. unfold valueProductFactor. destruct (Z.eqb_spec b a); [reflexivity|].
  unfold pts. apply (rd_map_zseq (fun k => term i k y)). apply in_pts in Hb. unfold n. lia.
Qed.

(** Nodality. *)
Lemma term_node i j : 0 <= i < ORDER + 1 -> 0 <= j < ORDER + 1 -> i <> j -> term i j (x j) = 0%R.
Proof. intros Hi Hj Hne. unfold term. destruct (Z.eqb_spec i j); [contradiction|]. unfold Rdiv. ring. Qed.
Lemma lval1_node i j : 0 <= i < ORDER + 1 -> 0 <= j < ORDER + 1 ->
  lval1 i (x j) = if i =? j then 1%R else 0%R.
Proof.
  intros Hi Hj. destruct (Z.eqb_spec i j) as [->|Hne].
  - apply prodR_one. intros k Hk. apply in_pts in Hk. unfold term. destruct (Z.eqb_spec j k); [reflexivity|].
    field. apply x_ne; assumption.
  - apply (prodR_zero _ _ j); [now apply in_pts|]. now apply term_node.
Qed.

(** Each basis function is a polynomial of degree ORDER. *)
Fixpoint lpoly (i : Z) (l : list Z) : list R :=
  match l with
  | [] => [1%R]
  | k :: l' => if i =? k then lpoly i l' else plin (- x k * (1 / (x i - x k))) (1 / (x i - x k)) (lpoly i l')
  end.
Lemma lpoly_eval i y l : peval (lpoly i l) y = prodR (fun k => term i k y) l.
Proof.
  induction l as [|k l IH]; simpl; [ring|]. unfold term at 1. destruct (i =? k).
  - rewrite IH. ring.
  - rewrite peval_plin, IH. ring.
Qed.
Lemma lpoly_length_notin i l : ~ In i l -> length (lpoly i l) = S (length l).
Proof.
  induction l as [|k l IH]; intros H; simpl; [reflexivity|].
  destruct (Z.eqb_spec i k) as [->|E]; [exfalso; apply H; left; reflexivity|].
  rewrite plin_length, IH; [reflexivity|]. intros K. apply H. right; exact K.
Qed.
Lemma lpoly_length i l : NoDup l -> In i l -> length (lpoly i l) = length l.
Proof.
  induction l as [|k l IH]; intros Hn Hin; [destruct Hin|]. inversion Hn; subst. simpl.
  destruct (Z.eqb_spec i k) as [->|E].
  - rewrite lpoly_length_notin by assumption. reflexivity.
  - rewrite plin_length, IH; [reflexivity|assumption|]. destruct Hin as [->|Hin]; [congruence|exact Hin].
Qed.
Lemma lval1_poly i : 0 <= i < ORDER + 1 -> length (lpoly i pts) = n /\ forall y, lval1 i y = peval (lpoly i pts) y.
Proof.
  intros Hi. split.
  - rewrite lpoly_length; [apply zseq_length|apply NoDup_zseq|now apply in_pts].
  - intros y. symmetry. apply lpoly_eval.
Qed.

Lemma pts_NoDup : NoDup (map x pts).
Proof.
  assert (H : forall l, NoDup l -> (forall k, In k l -> In k pts) -> NoDup (map x l)).
  { induction l as [|a l IH]; intros Hn Hin; simpl; [constructor|]. inversion Hn; subst. constructor.
    - intros K. apply in_map_iff in K. destruct K as (b & E & Hb). 
      assert (b = a); [|subst; contradiction]. apply Hd; [apply in_pts, Hin; right; exact Hb|apply in_pts, Hin; left; reflexivity|exact E].
    - apply IH; [assumption|]. intros k Hk. apply Hin. right; exact Hk. }
  apply H; [apply NoDup_zseq|auto].
Qed.

(** The interpolant as a polynomial. *)
Fixpoint ipoly (u : Z -> R) (l : list Z) : list R :=
  match l with
  | [] => []
  | i :: l' => padd (pscal (u i) (lpoly i pts)) (ipoly u l')
  end.
Lemma ipoly_eval u y l : peval (ipoly u l) y = sumR (fun i => u i * lval1 i y)%R l.
Proof.
  induction l as [|i l IH]; simpl; [reflexivity|]. rewrite peval_padd, peval_pscal, IH, lpoly_eval. reflexivity.
Qed.
Lemma ipoly_length u l : (forall i, In i l -> In i pts) -> (length (ipoly u l) <= n)%nat.
Proof.
  induction l as [|i l IH]; intros H; simpl; [lia|]. rewrite padd_length, pscal_length.
  destruct (lval1_poly i) as (-> & _); [apply in_pts, H; left; reflexivity|].
  specialize (IH (fun k Hk => H k (or_intror Hk))). lia.
Qed.
Lemma reproduces p y : (length p <= n)%nat -> sumR (fun i => peval p (x i) * lval1 i y)%R pts = peval p y.
Proof.
  intros Hl. rewrite <- ipoly_eval. apply (agree_everywhere (map x pts)).
  - exact pts_NoDup.
  - rewrite map_length. unfold pts at 2. rewrite zseq_length. apply ipoly_length. auto.
  - rewrite map_length. unfold pts. rewrite zseq_length. exact Hl.
  - intros r Hr. apply in_map_iff in Hr. destruct Hr as (j & <- & Hj). rewrite ipoly_eval.
    rewrite (sumR_one _ _ j); [|apply NoDup_zseq|exact Hj|].
    + apply in_pts in Hj. rewrite lval1_node, Z.eqb_refl by assumption. ring.
    + intros b Hb Hne. apply in_pts in Hj, Hb. rewrite lval1_node by assumption.
      destruct (Z.eqb_spec b j); [contradiction|]. ring.
Qed.
Lemma unity y : sumR (fun i => lval1 i y) pts = 1%R.
Proof.
  transitivity (sumR (fun i => peval [1%R] (x i) * lval1 i y)%R pts).
  - apply sumR_ext. intros i _. simpl. ring.
  - rewrite reproduces; [simpl; ring|]. simpl. unfold n. lia.
Qed.

(** Derivatives. *)
Lemma term_deriv i k y : derivable_pt_lim (fun t => term i k t) y (dterm i k).
Proof.
  unfold term, dterm. destruct (i =? k); [apply (derivable_pt_lim_const 1)|].
  set (c := (1 / (x i - x k))%R).
  apply (derivable_pt_lim_ext (mult_real_fct c (id - fct_cte (x k)))%F).
  { intros t. unfold mult_real_fct, minus_fct, id, fct_cte. ring. }
  replace c with (c * (1 - 0))%R at 2 by ring. apply derivable_pt_lim_scal, derivable_pt_lim_minus.
  - apply derivable_pt_lim_id.
  - apply derivable_pt_lim_const.
Qed.
Lemma lval1_deriv i y : derivable_pt_lim (lval1 i) y (lgrad1 i y).
Proof.
  unfold lval1, lgrad1.
  rewrite (sumR_ext _ (fun a => dterm i a * prodR (fun b => if Z.eq_dec a b then 1 else term i b y) pts)%R).
  - apply (deriv_prodR Z.eq_dec (fun k t => term i k t) (dterm i)); [apply NoDup_zseq|]. intros k _. apply term_deriv.
  - intros a _. f_equal. apply prodR_ext. intros b _. destruct (Z.eq_dec a b) as [->|E].
    + now rewrite Z.eqb_refl.
    + destruct (Z.eqb_spec b a); [congruence|reflexivity].
Qed.
Lemma reproduces_deriv p y d : (length p <= n)%nat -> derivable_pt_lim (peval p) y d ->
  sumR (fun i => peval p (x i) * lgrad1 i y)%R pts = d.
Proof.
  intros Hl Hdd. apply (deriv_unique (peval p) y); [|exact Hdd].
  apply (derivable_pt_lim_ext (fun t => sumR (fun i => peval p (x i) * lval1 i t)%R pts)).
  - intros t. apply reproduces. exact Hl.
  - apply (deriv_sumR (fun i t => peval p (x i) * lval1 i t)%R). intros i _.
    apply (derivable_pt_lim_scal (lval1 i)). apply lval1_deriv.
Qed.
Lemma grad_zero y : sumR (fun i => lgrad1 i y) pts = 0%R.
Proof.
  rewrite <- (reproduces_deriv [1%R] y 0%R).
  - apply sumR_ext. intros i _. simpl. ring.
  - simpl. unfold n. lia.
  - apply (derivable_pt_lim_ext (fct_cte 1%R)); [intros t; unfold fct_cte; simpl; ring|apply derivable_pt_lim_const].
Qed.
End Basis.

(** * Property lemmas *)
Definition SpacingOk (ORDER : Z) (coordinate : Z -> outcome R) (x : Z -> R) : Prop :=
  0 <= ORDER < INT_MAX /\ Points coordinate (ORDER + 1) x /\ Distinct (ORDER + 1) x.

Lemma lagrange_basis_lemma ORDER coordinate x :
  0 <= ORDER < INT_MAX -> Points coordinate (ORDER + 1) x -> Distinct (ORDER + 1) x ->
  (forall i y, 0 <= i < ORDER + 1 -> lagrange_value RNum ORDER coordinate i y = Ok (lval1 ORDER x i y)) /\
  (forall i y, 0 <= i < ORDER + 1 -> lagrange_gradient RNum ORDER coordinate i y = Ok (lgrad1 ORDER x i y)) /\
  NodalBasis (ORDER + 1) x (lval1 ORDER x) (lgrad1 ORDER x).
Proof.
  intros HO Hp Hd. split; [|split].
  - intros i y Hi. now apply lagrange_value_ok.
  - intros i y Hi. now apply lagrange_gradient_ok.
  - constructor.
    + intros i j Hi Hj. now apply lval1_node.
    + intros i Hi. destruct (lval1_poly ORDER x HO i Hi) as (Hl & He).
      exists (lpoly x i (zseq (Z.to_nat (ORDER + 1)))). split; [rewrite Hl; lia|exact He].
    + intros y. rewrite Zsum_sumR. now apply unity.
    + intros p y Hl. rewrite Zsum_sumR. apply reproduces; [exact HO|exact Hd|lia].
    + intros i y Hi. apply lval1_deriv.
    + intros y. rewrite Zsum_sumR. now apply grad_zero.
Qed.

Lemma nodal_lemma ORDER coordinate x i j :
  0 <= ORDER < INT_MAX -> Points coordinate (ORDER + 1) x -> Distinct (ORDER + 1) x ->
  0 <= i < ORDER + 1 -> 0 <= j < ORDER + 1 ->
  lagrange_value RNum ORDER coordinate i (x j) = Ok (if i =? j then 1%R else 0%R).
Proof.
  intros HO Hp Hd Hi Hj. destruct (lagrange_basis_lemma _ _ _ HO Hp Hd) as (Hv & _ & HB).
  rewrite Hv by exact Hi. now rewrite (nb_nodal _ _ _ _ HB).
Qed.

Lemma reproduction_lemma ORDER coordinate x y :
  0 <= ORDER < INT_MAX -> Points coordinate (ORDER + 1) x -> Distinct (ORDER + 1) x ->
  exists v, (forall i, 0 <= i < ORDER + 1 -> lagrange_value RNum ORDER coordinate i y = Ok (v i)) /\
    Zsum (ORDER + 1) v = 1%R /\
    (forall p, Z.of_nat (length p) <= ORDER + 1 ->
       Zsum (ORDER + 1) (fun i => peval p (x i) * v i)%R = peval p y).
Proof.
  intros HO Hp Hd. destruct (lagrange_basis_lemma _ _ _ HO Hp Hd) as (Hv & _ & HB).
  exists (fun i => lval1 ORDER x i y). split; [intros i Hi; now apply Hv|]. split.
  - apply (nb_unity _ _ _ _ HB).
  - intros p Hl. now apply (nb_reproduce _ _ _ _ HB).
Qed.

Lemma degree_lemma ORDER coordinate x i :
  0 <= ORDER < INT_MAX -> Points coordinate (ORDER + 1) x -> Distinct (ORDER + 1) x ->
  0 <= i < ORDER + 1 ->
  exists p, Z.of_nat (length p) = ORDER + 1 /\ forall y, lagrange_value RNum ORDER coordinate i y = Ok (peval p y).
Proof.
  intros HO Hp Hd Hi. destruct (lagrange_basis_lemma _ _ _ HO Hp Hd) as (Hv & _ & HB).
  destruct (nb_degree _ _ _ _ HB i Hi) as (p & Hl & He). exists p. split; [exact Hl|].
  intros y. rewrite Hv by exact Hi. now rewrite He.
Qed.

Lemma gradient_lemma ORDER coordinate x y :
  0 <= ORDER < INT_MAX -> Points coordinate (ORDER + 1) x -> Distinct (ORDER + 1) x ->
  exists v g,
    (forall i t, 0 <= i < ORDER + 1 -> lagrange_value RNum ORDER coordinate i t = Ok (v i t)) /\
    (forall i, 0 <= i < ORDER + 1 ->
       lagrange_gradient RNum ORDER coordinate i y = Ok (g i) /\ derivable_pt_lim (v i) y (g i)) /\
    Zsum (ORDER + 1) g = 0%R.
Proof.
  intros HO Hp Hd. destruct (lagrange_basis_lemma _ _ _ HO Hp Hd) as (Hv & Hg & HB).
  exists (lval1 ORDER x), (fun i => lgrad1 ORDER x i y). split; [intros i t Hi; now apply Hv|]. split.
  - intros i Hi. split; [now apply Hg|now apply (nb_deriv _ _ _ _ HB)].
  - apply (nb_zero _ _ _ _ HB).
Qed.

Lemma gradient_reproduction_lemma ORDER coordinate x y p d :
  0 <= ORDER < INT_MAX -> Points coordinate (ORDER + 1) x -> Distinct (ORDER + 1) x ->
  Z.of_nat (length p) <= ORDER + 1 -> derivable_pt_lim (peval p) y d ->
  exists g, (forall i, 0 <= i < ORDER + 1 -> lagrange_gradient RNum ORDER coordinate i y = Ok (g i)) /\
    Zsum (ORDER + 1) (fun i => peval p (x i) * g i)%R = d.
Proof.
  intros HO Hp Hd Hl Hdd. destruct (lagrange_basis_lemma _ _ _ HO Hp Hd) as (_ & Hg & _).
  exists (fun i => lgrad1 ORDER x i y). split; [intros i Hi; now apply Hg|].
  rewrite Zsum_sumR. apply reproduces_deriv; [exact HO|exact Hd|lia|exact Hdd].
Qed.

(** The bundled spacings. *)
Definition order_supported (s : spacing) (ORDER : Z) : Prop :=
  match s with
  | EqualSpacing => 1 <= ORDER < INT_MAX
  | GaussLegendreSpacing => 1 <= ORDER <= 3
  | GaussLobattoSpacing => 1 <= ORDER <= 8
  end.
Lemma Increasing_Distinct N x : Increasing N x -> Distinct N x.
Proof.
  intros H i j Hi Hj E. destruct (Z.lt_trichotomy i j) as [C|[C|C]]; [|exact C|].
  - pose proof (H i j ltac:(lia) ltac:(lia)). lra.
  - pose proof (H j i ltac:(lia) ltac:(lia)). lra.
Qed.
Lemma spacing_points s ORDER : order_supported s ORDER ->
  0 <= ORDER < INT_MAX /\
  exists x, Points (coord_ct RNum s (ORDER + 1)) (ORDER + 1) x /\ Increasing (ORDER + 1) x.
Proof.
  intros H. split. { destruct s; simpl in H; unfold INT_MAX in *; lia. }
  destruct s; simpl in H.
  - destruct (equal_spacing_lemma (ORDER + 1) ltac:(lia)) as (x & h & _ & _ & Hc & _ & _ & _ & Hi & _).
    exists x. split; [|exact Hi]. intros i _. apply Hc.
  - destruct (legendre_nodes_lemma (ORDER + 1) ltac:(lia)) as (x & Hc & _ & Hi & _). exists x. split; assumption.
  - destruct (lobatto_nodes_lemma (ORDER + 1) ltac:(lia)) as (x & Hc & Hi & _). exists x. split; assumption.
Qed.

Lemma bundled_lemma s ORDER :
  (match s with
   | EqualSpacing => 1 <= ORDER < INT_MAX
   | GaussLegendreSpacing => 1 <= ORDER <= 3
   | GaussLobattoSpacing => 1 <= ORDER <= 8
   end) ->
  exists x v g, Points (coord_ct RNum s (ORDER + 1)) (ORDER + 1) x /\
    numSupportPoints (LagrangeBasis RNum ORDER s) = Ok (ORDER + 1) /\
    (forall i y, 0 <= i < ORDER + 1 -> bvalue (LagrangeBasis RNum ORDER s) i y = Ok (v i y)) /\
    (forall i y, 0 <= i < ORDER + 1 -> bgradient (LagrangeBasis RNum ORDER s) i y = Ok (g i y)) /\
    NodalBasis (ORDER + 1) x v g.
Proof.
  intros H. destruct (spacing_points s ORDER H) as (HO & x & Hp & Hi).
  set (c := fun i => n <- nSupport ORDER ;; coord_ct RNum s n i).
  assert (Hc : Points c (ORDER + 1) x).
  { intros i Hii. unfold c. rewrite nSupport_ok by exact HO. cbn [bind]. now apply Hp. }
  destruct (lagrange_basis_lemma ORDER c x HO Hc (Increasing_Distinct _ _ Hi)) as (Hv & Hg & HB).
  exists x, (lval1 ORDER x), (lgrad1 ORDER x). split; [exact Hp|]. split; [now apply nSupport_ok|].
  split; [exact Hv|]. split; [exact Hg|exact HB].
Qed.

Lemma order0_lemma s y :
  numSupportPoints (LagrangeBasis RNum 0 s) = Ok 1 /\
  bvalue (LagrangeBasis RNum 0 s) 0 y = Ok 1%R /\ bgradient (LagrangeBasis RNum 0 s) 0 y = Ok 0%R.
Proof.
  split; [reflexivity|]. split; [reflexivity|].
  transitivity (@Ok R (0 * 1)%R); [reflexivity|f_equal; ring].
Qed.

(** Coinciding points. *)
Lemma fold_mul_ill {A} (l : list A) (e : A -> outcome R) :
  (forall k, In k l -> is_ok (e k) = true \/ e k = IllFormed) ->
  (exists k, In k l /\ e k = IllFormed) ->
  fold_unary_right (nmulM RNum) (map e l) = IllFormed.
Proof.
  induction l as [|a l IH]; intros H (k & Hin & Ek); [destruct Hin|].
  destruct l as [|b l].
  - destruct Hin as [->|[]]. exact Ek.
  - cbn [map]. rewrite fold_unary_right_cons. change (e b :: map e l) with (map e (b :: l)).
    destruct (H a (or_introl eq_refl)) as [Ha|Ha]; [|rewrite Ha; reflexivity].
    destruct (e a) as [v| | | |] eqn:Ea; try discriminate. cbn [bind].
    rewrite IH; [reflexivity| |].
    + intros c Hc. apply H. right; exact Hc.
    + exists k. split; [|exact Ek]. destruct Hin as [->|Hin]; [congruence|exact Hin].
Qed.
Lemma sequenceM_ill {A B} (l : list A) (e : A -> outcome B) :
  (forall k, In k l -> is_ok (e k) = true \/ e k = IllFormed) ->
  (exists k, In k l /\ e k = IllFormed) -> sequenceM (map e l) = IllFormed.
Proof.
  induction l as [|a l IH]; intros H (k & Hin & Ek); [destruct Hin|]. cbn [map sequenceM].
  destruct (H a (or_introl eq_refl)) as [Ha|Ha]; [|rewrite Ha; reflexivity].
  destruct (e a) as [v| | | |] eqn:Ea; try discriminate. cbn [bind].
  rewrite IH; [reflexivity| |].
  - intros c Hc. apply H. right; exact Hc.
  - exists k. split; [|exact Ek]. destruct Hin as [->|Hin]; [congruence|exact Hin].
Qed.

Lemma coincide_ill ORDER coordinate i y c : 1 <= ORDER < INT_MAX -> 0 <= i < ORDER + 1 ->
  (forall k, coordinate k = Ok c) ->
  lagrange_value RNum ORDER coordinate i y = IllFormed /\ lagrange_gradient RNum ORDER coordinate i y = IllFormed.
Proof.
  intros HO Hi Hc.
  assert (Hns : nSupport ORDER = Ok (ORDER + 1)) by (apply nSupport_ok; lia).
  assert (HT : forall k, valueProductTerm RNum coordinate i k y = if i =? k then Ok 1%R else IllFormed).
  { intros k. unfold valueProductTerm. destruct (i =? k); [reflexivity|]. rewrite !Hc. cbn [constexpr_ bind].
    unfold ndiv_const. cbn [nis0 nsub RNum]. unfold Req0. destruct (Req_EM_T (c - c) 0); [reflexivity|]. lra. }
  assert (HA : forall k, In k (zseq (Z.to_nat (ORDER + 1))) ->
     is_ok (valueProductTerm RNum coordinate i k y) = true \/ valueProductTerm RNum coordinate i k y = IllFormed).
  { intros k _. rewrite HT. destruct (i =? k); auto. }
  assert (HE : exists k, In k (zseq (Z.to_nat (ORDER + 1))) /\ valueProductTerm RNum coordinate i k y = IllFormed).
  { exists (if i =? 0 then 1 else 0). split; [apply in_zseq; destruct (i =? 0); lia|].
    rewrite HT. destruct (Z.eqb_spec i 0) as [->|E0]; [reflexivity|]. destruct (Z.eqb_spec i 0); [contradiction|reflexivity]. }
  split.
  - unfold lagrange_value. rewrite Hns. cbn [bind]. rewrite exec_pack by lia. now apply fold_mul_ill.
  - unfold lagrange_gradient. rewrite Hns. cbn [bind]. rewrite exec_pack by lia.
    rewrite sequenceM_ill by assumption. reflexivity.
Qed.

Lemma unsupported_lemma s ORDER i y : ORDER < INT_MAX -> 0 <= i < ORDER + 1 ->
  (match s with
   | EqualSpacing => False
   | GaussLegendreSpacing => 4 <= ORDER
   | GaussLobattoSpacing => 9 <= ORDER
   end) ->
  bvalue (LagrangeBasis RNum ORDER s) i y = IllFormed /\ bgradient (LagrangeBasis RNum ORDER s) i y = IllFormed.
Proof.
  intros HO Hi H. assert (HO' : 1 <= ORDER < INT_MAX) by (destruct s; [destruct H|lia|lia]).
  apply (coincide_ill ORDER _ i y 0%R HO' Hi). intros k. rewrite nSupport_ok by lia. cbn [bind].
  destruct s; [destruct H| |].
  - apply (legendre_other_lemma (ORDER + 1) k). lia.
  - apply (lobatto_other_lemma (ORDER + 1) k). lia.
Qed.

(** A concrete non-bundled spacing: the points 0, 1, 3. *)
Definition pts013 (i : Z) : R := if i =? 0 then 0%R else if i =? 1 then 1%R else 3%R.
Lemma pts013_ok : Points (fun i => Ok (pts013 i)) (2 + 1) pts013 /\ Distinct (2 + 1) pts013.
Proof.
  split; [intros i _; reflexivity|]. apply Increasing_Distinct. intros i j Hij Hj. unfold pts013.
  assert (C : (i = 0 /\ j = 1) \/ (i = 0 /\ j = 2) \/ (i = 1 /\ j = 2)) by lia.
  destruct C as [(-> & ->)|[(-> & ->)|(-> & ->)]]; simpl; lra.
Qed.
