(** Cell transforms. *)
From Verif Require Import Base ProofBase Num SpecIndex ProofBox ModelSequence ModelIndex ProofIndex ModelAssert
  ModelCArray SpecCArray ProofCArray ProofRep ModelSpacing ModelLagrange ModelBasisProduct ModelMath ModelTransforms
  SpecNumeric SpecMath SpecBasis ProofMath ProofSpacing ProofPoly ProofLagrange ProofTensor.
From Coq Require Import Reals Lra.
Open Scope Z_scope.

Notation pp := {| brackets := 0; last := Paren |}.
Lemma pp_ok (a : arr) : path_ok pp a.
Proof. unfold path_ok; simpl; lia. Qed.

(** * setData *)
Lemma set_loop {T A} c a p (tup : A -> list Z) (V : list Z -> T) (body : A -> list T -> outcome (list T)) :
  is_writable a = true -> path_ok p a -> forall l mem m, Holds a mem m ->
  (forall x, In x l -> InRange (dims a) (tup x)) ->
  (forall x mem m, In x l -> Holds a mem m -> body x mem = put c a p (tup x) (V (tup x)) mem) ->
  exists mem', foldM body l mem = Ok mem' /\ SameOutside a mem mem' /\
    Holds a mem' (fun u => if in_dec (list_eq_dec Z.eq_dec) u (map tup l) then V u else m u).
Proof.
  intros Hw Hp. induction l as [|x l IH]; intros mem m Hm Hr Hb.
  - exists mem. split; [reflexivity|]. split; [apply SameOutside_refl|].
    eapply Holds_ext; [|exact Hm]. intros t _. destruct (in_dec _ _ _) as [[]|]; reflexivity.
  - cbn [foldM]. rewrite (Hb x mem m (or_introl eq_refl) Hm).
    destruct (Holds_put c a p (tup x) (V (tup x)) mem m Hm Hw (Hr x (or_introl eq_refl)) Hp)
      as (mem1 & -> & H1 & Ho1). cbn [bind].
    destruct (IH mem1 _ H1) as (mem2 & -> & Ho2 & H2).
    + intros y Hy. apply Hr. right; exact Hy.
    + intros y mm mmm Hy. apply Hb. right; exact Hy.
    + exists mem2. split; [reflexivity|]. split; [eapply SameOutside_trans; eassumption|].
      eapply Holds_ext; [|exact H2]. intros u _. cbn [map].
      destruct (in_dec (list_eq_dec Z.eq_dec) u (map tup l)) as [H|H];
      destruct (in_dec (list_eq_dec Z.eq_dec) u (tup x :: map tup l)) as [H'|H']; try reflexivity.
      * exfalso. apply H'. right; exact H.
      * destruct H' as [<-|H']; [apply aset_eq|contradiction].
      * apply aset_neq. intros ->. apply H'. left; reflexivity.
Qed.

Lemma InRange3 n0 n1 n2 t : InRange [n0; n1; n2] t ->
  exists a b e, t = [a; b; e] /\ 0 <= a < n0 /\ 0 <= b < n1 /\ 0 <= e < n2.
Proof.
  intros H. apply InRange_cons in H. destruct H as (a & t1 & -> & Ha & H).
  apply InRange_cons in H. destruct H as (b & t2 & -> & Hb & H).
  apply InRange_cons in H. destruct H as (e & t3 & -> & He & H). apply InRange_nil in H. subst t3.
  exists a, b, e. auto.
Qed.
Lemma InRange4 n0 n1 n2 n3 a b e i : 0 <= a < n0 -> 0 <= b < n1 -> 0 <= e < n2 -> 0 <= i < n3 ->
  InRange [n0; n1; n2; n3] [a; b; e; i].
Proof.
  intros. apply InRange_cons; exists a, [b; e; i]; split; [reflexivity|]; split; [assumption|].
  apply InRange_cons; exists b, [e; i]; split; [reflexivity|]; split; [assumption|].
  apply InRange_cons; exists e, [i]; split; [reflexivity|]; split; [assumption|].
  apply InRange_cons; exists i, []; split; [reflexivity|]; split; [assumption|]. now apply InRange_nil.
Qed.

Lemma setData_lemma (F : Num) c bases n0 n1 n2 coords (X : Z -> Z -> T F) mem m :
  length bases = 3%nat -> supportCounts F bases = Ok [n0; n1; n2] ->
  (n0 - 1) + 2 * (n1 - 1) + 4 * (n2 - 1) <= INT_MAX ->
  (forall k i, 0 <= k <= (n0 - 1) + 2 * (n1 - 1) + 4 * (n2 - 1) -> 0 <= i < 3 -> coords k i = Ok (X k i)) ->
  Holds (owning [n0; n1; n2; 3]) mem m ->
  exists N, forall fuel, (N <= fuel)%nat ->
  exists mem' m', setData F c bases coords fuel mem = Ok mem' /\
    Holds (owning [n0; n1; n2; 3]) mem' m' /\ SameOutside (owning [n0; n1; n2; 3]) mem mem' /\
    forall a b e i, 0 <= a < n0 -> 0 <= b < n1 -> 0 <= e < n2 -> 0 <= i < 3 ->
      m' [a; b; e; i] = X (a + 2 * b + 4 * e) i.
Proof.
  intros Hl Hns Hov HX Hm. pose proof Hm as ((Hpd & _) & _). destruct Hpd as (_ & Hpos & Hprod).
  cbn [dims owning] in Hpos, Hprod.
  assert (Hn : 0 < n0 /\ 0 < n1 /\ 0 < n2).
  { inversion Hpos as [|? ? P0 Q0]; subst. inversion Q0 as [|? ? P1 Q1]; subst. inversion Q1; subst. auto. }
  destruct Hn as (P0 & P1 & P2).
  assert (Hbd : n0 <= INT_MAX /\ n1 <= INT_MAX /\ n2 <= INT_MAX).
  { unfold prodZ in Hprod. cbn [fold_right] in Hprod. rewrite Z.mul_1_r in Hprod.
    assert (1 <= n2 * 3) by lia. assert (1 <= n1 * (n2 * 3)) by nia. assert (n2 <= n1 * (n2 * 3)) by nia.
    assert (n1 <= n1 * (n2 * 3)) by nia. repeat split; nia. }
  unfold setData. rewrite Hl. cbn [Nat.eqb]. rewrite Hns. cbn [bind].
  assert (HD : numDims F bases = 3) by (unfold numDims; rewrite Hl; reflexivity). rewrite HD.
  match goal with |- context [reading ?g] => set (body := g) end.
  destruct (forRange_lemma body [n0; n1; n2] [0; 0; 0] (zbox [n0; n1; n2])) as (N & HN).
  { discriminate. } { reflexivity. }
  { repeat constructor; tauto. } { repeat constructor; unfold INT_MIN; lia. } { apply box_LexEnum. }
  exists N. intros fuel Hf. rewrite (HN fuel mem Hf).
  set (a0 := owning [n0; n1; n2; 3]) in *.
  set (body' := fun (ti : list Z * Z) (mm : list (T F)) =>
     v <- coords (nth 0 (fst ti) 0 + 2 * nth 1 (fst ti) 0 + 4 * nth 2 (fst ti) 0) (snd ti) ;;
     put c a0 pp (fst ti ++ [snd ti]) v mm).
  set (pairs := flat_map (fun t => map (fun i => (t, i)) (zseq 3)) (zbox [n0; n1; n2])).
  assert (E : foldM body (zbox [n0; n1; n2]) mem = foldM body' pairs mem).
  { unfold pairs. rewrite foldM_flat_map. apply foldM_ext. intros t s Ht. apply in_zbox, InRange3 in Ht.
    destruct Ht as (a & b & e & -> & Ha & Hb & He). unfold body.
    assert (R0 : rd [a; b; e] 0 = Ok a) by reflexivity. assert (R1 : rd [a; b; e] 1 = Ok b) by reflexivity.
    assert (R2 : rd [a; b; e] 2 = Ok e) by reflexivity. rewrite R0, R1, R2. cbn [bind].
    rewrite forSequence_lemma by lia. rewrite foldM_map.
    apply foldM_ext. intros i s' Hi. apply in_zseq in Hi. unfold body'. cbn [fst snd nth app].
    rewrite imul_ok by (unfold INT_MIN; lia). cbn [bind].
    rewrite iadd_ok by (unfold INT_MIN; lia). cbn [bind].
    rewrite imul_ok by (unfold INT_MIN; lia). cbn [bind].
    rewrite iadd_ok by (unfold INT_MIN; lia). cbn [bind]. reflexivity. }
  assert (Hpairs : forall ti, In ti pairs -> exists a b e i, ti = ([a; b; e], i) /\
     0 <= a < n0 /\ 0 <= b < n1 /\ 0 <= e < n2 /\ 0 <= i < 3).
  { intros ti H. unfold pairs in H. apply in_flat_map in H. destruct H as (t & Ht & H).
    apply in_map_iff in H. destruct H as (i & <- & Hi). apply in_zseq in Hi. apply in_zbox, InRange3 in Ht.
    destruct Ht as (a & b & e & -> & Ha & Hb & He). exists a, b, e, i. repeat split; lia. }
  set (V := fun u : list Z => X (nth 0 u 0 + 2 * nth 1 u 0 + 4 * nth 2 u 0) (nth 3 u 0)).
  destruct (set_loop c a0 pp (fun ti => fst ti ++ [snd ti]) V body' eq_refl (pp_ok a0) pairs mem m Hm)
    as (mem' & He & Hso & Hh).
  { intros ti H. destruct (Hpairs ti H) as (a & b & e & i & -> & Ha & Hb & He & Hi). now apply InRange4. }
  { intros ti mm mmm H _. destruct (Hpairs ti H) as (a & b & e & i & -> & Ha & Hb & He & Hi).
    unfold body', V. cbn [fst snd nth app]. rewrite HX by lia. reflexivity. }
  rewrite E, He. cbn [bind]. eexists _, _. split; [reflexivity|]. split; [exact Hh|]. split; [exact Hso|].
  intros a b e i Ha Hb He' Hi. cbv beta. destruct (in_dec _ _ _) as [_|Hni]; [reflexivity|].
  exfalso. apply Hni. apply in_map_iff. exists ([a; b; e], i). split; [reflexivity|].
  unfold pairs. apply in_flat_map. exists [a; b; e]. split.
  - apply in_zbox. apply InRange_cons; exists a, [b; e]; split; [reflexivity|]; split; [assumption|].
    apply InRange_cons; exists b, [e]; split; [reflexivity|]; split; [assumption|].
    apply InRange_cons; exists e, []; split; [reflexivity|]; split; [assumption|]. now apply InRange_nil.
  - apply in_map_iff. exists i. split; [reflexivity|]. apply in_zseq. lia.
Qed.

Lemma rows_bijective_lemma n k : 0 <= k < 4 * n ->
  exists a b e, (0 <= a < 2 /\ 0 <= b < 2 /\ 0 <= e < n /\ a + 2 * b + 4 * e = k) /\
    forall a' b' e', 0 <= a' < 2 -> 0 <= b' < 2 -> 0 <= e' < n -> a' + 2 * b' + 4 * e' = k ->
      a' = a /\ b' = b /\ e' = e.
Proof.
  intros H. exists (k mod 2), ((k / 2) mod 2), (k / 4).
  pose proof (Z.div_mod k 2 ltac:(lia)). pose proof (Z.mod_pos_bound k 2 ltac:(lia)).
  pose proof (Z.div_mod (k / 2) 2 ltac:(lia)). pose proof (Z.mod_pos_bound (k / 2) 2 ltac:(lia)).
  assert (E : k / 4 = k / 2 / 2) by (rewrite Z.div_div by lia; reflexivity). rewrite E.
  split; [|intros; lia]. lia.
Qed.
Lemma rows_distinct_lemma n0 n1 n2 : 2 <= n0 -> 2 <= n1 -> 2 <= n2 ->
  ((forall a b e a' b' e', 0 <= a < n0 -> 0 <= b < n1 -> 0 <= e < n2 ->
      0 <= a' < n0 -> 0 <= b' < n1 -> 0 <= e' < n2 ->
      a + 2 * b + 4 * e = a' + 2 * b' + 4 * e' -> (a, b, e) = (a', b', e')) <-> n0 = 2 /\ n1 = 2).
Proof.
  intros H0 H1 H2. split.
  - intros H. destruct (Z.eq_dec n0 2) as [E0|E0].
    + split; [exact E0|]. destruct (Z.eq_dec n1 2) as [E1|E1]; [exact E1|].
      specialize (H 0 2 0 0 0 1 ltac:(lia) ltac:(lia) ltac:(lia) ltac:(lia) ltac:(lia) ltac:(lia) ltac:(lia)). discriminate.
    + specialize (H 2 0 0 0 1 0 ltac:(lia) ltac:(lia) ltac:(lia) ltac:(lia) ltac:(lia) ltac:(lia) ltac:(lia)). discriminate.
  - intros (-> & ->) a b e a' b' e' Ha Hb He Ha' Hb' He' E.
    assert (a = a' /\ b = b' /\ e = e') as (-> & -> & ->) by lia. reflexivity.
Qed.

(** * Jacobians of LinearTransform *)
Lemma InRange_app ns t n i : InRange ns t -> 0 <= i < n -> InRange (ns ++ [n]) (t ++ [i]).
Proof.
  revert t. induction ns as [|a ns IH]; intros t Ht Hi.
  - apply InRange_nil in Ht. subst. cbn. apply InRange_cons. exists i, []. split; [reflexivity|].
    split; [exact Hi|]. now apply InRange_nil.
  - apply InRange_cons in Ht. destruct Ht as (k & t' & -> & Hk & Ht). cbn [app]. apply InRange_cons.
    exists k, (t' ++ [i]). split; [reflexivity|]. split; [exact Hk|]. now apply IH.
Qed.
Lemma InRange2 n m t : InRange [n; m] t <-> exists i j, t = [i; j] /\ 0 <= i < n /\ 0 <= j < m.
Proof.
  rewrite InRange_cons. split.
  - intros (i & t' & -> & Hi & H). apply InRange_cons in H. destruct H as (j & t2 & -> & Hj & H).
    apply InRange_nil in H. subst. exists i, j. auto.
  - intros (i & j & -> & Hi & Hj). exists i, [j]. split; [reflexivity|]. split; [exact Hi|].
    apply InRange_cons. exists j, []. split; [reflexivity|]. split; [exact Hj|]. now apply InRange_nil.
Qed.
Lemma InRange1 n t : InRange [n] t <-> exists i, t = [i] /\ 0 <= i < n.
Proof.
  rewrite InRange_cons. split.
  - intros (i & t' & -> & Hi & H). apply InRange_nil in H. subst. exists i. auto.
  - intros (i & -> & Hi). exists i, []. split; [reflexivity|]. split; [exact Hi|]. now apply InRange_nil.
Qed.

(** The (i,j) entry contributed by one support point. *)
Definition contrib (ds : list direction) (X : list Z -> R) (xi : list R) (sp t : list Z) : R :=
  (dtensor (Z.to_nat (nth 1 t 0%Z)) ds sp xi * X (sp ++ [nth 0 t 0%Z]))%R.
Definition Jmat (ds : list direction) (X : list Z -> R) (xi : list R) (t : list Z) : R :=
  dinterp (Z.to_nat (nth 1 t 0)) ds (fun s => X (s ++ [nth 0 t 0])) xi.

Definition tup2 (sw : bool) (ij : list Z) : list Z :=
  if sw then [nth 1 ij 0; nth 0 ij 0] else [nth 0 ij 0; nth 1 ij 0].

Section Jacobian.
Context (c : ctx) (ds : list direction) (X : list Z -> R) (xi : list R) (mem : list R).
Let D := Z.of_nat (length ds).
Context (Hne : ds <> []) (Hdd : pos_dims [D; D]) (Hm : Z.of_nat (length ds) <= INT_MAX).
Context (HX : Holds (owning (counts ds ++ [D])) mem X).

Lemma inner_loop (sw : bool) (sp : list Z) (body : list Z -> list R -> outcome (list R)) J Jm :
  InRange (counts ds) sp -> Holds (owning [D; D]) J Jm ->
  (forall i j J, body [i; j] J =
     (old <- fetch c (owning [D; D]) pp (tup2 sw [i; j]) J ;;
      d <- fetch c (const_array [D]) pp [if sw then i else j]
             (map (fun k => dtensor k ds sp xi) (seq 0 (length ds))) ;;
      x <- fetch c (const_array (counts ds ++ [D])) pp (sp ++ [if sw then j else i]) mem ;;
      put c (owning [D; D]) pp (tup2 sw [i; j]) (old + d * x)%R J)) ->
  exists J', forNestedSequence [D; D] body J = Ok J' /\
    Holds (owning [D; D]) J' (fun t => Jm t + contrib ds X xi sp t)%R /\ SameOutside (owning [D; D]) J J'.
Proof.
  intros Hsp HJ Hb.
  assert (HD : 0 < D) by (destruct Hdd as (_ & Hp & _); now inversion Hp).
  rewrite (forNestedSequence_lemma _ _ _ (zbox [D; D])); [|discriminate|repeat constructor; lia|apply box_LexEnum].
  pose proof (gradient_Holds ds sp xi Hne Hm) as Hg. apply Holds_const in Hg. fold D in Hg.
  pose proof (Holds_const _ _ _ HX) as HXc.
  destruct (acc_loop c (owning [D; D]) pp (tup2 sw) (fun ij => contrib ds X xi sp (tup2 sw ij)) body eq_refl (pp_ok _)
              (zbox [D; D]) J Jm HJ) as (J' & m' & He & Hh & Ho & Hin & _).
  - intros ij Hij. apply in_zbox, InRange2 in Hij. destruct Hij as (i & j & -> & Hi & Hj).
    cbn [dims owning]. unfold tup2. cbn [nth]. apply InRange2. destruct sw; [exists j, i|exists i, j]; auto.
  - assert (Hinj : forall l, NoDup l -> (forall ij, In ij l -> InRange [D; D] ij) -> NoDup (map (tup2 sw) l)).
    { induction l as [|x l IH]; intros Hn Hr; [constructor|]. inversion Hn as [|? ? Hx Hn']; subst. cbn [map].
      constructor; [|apply IH; [exact Hn'|intros; apply Hr; right; assumption]].
      intros H. apply in_map_iff in H. destruct H as (y & E & Hy).
      pose proof (Hr x (or_introl eq_refl)) as Rx. pose proof (Hr y (or_intror Hy)) as Ry.
      apply InRange2 in Rx. apply InRange2 in Ry. destruct Rx as (i & j & -> & _). destruct Ry as (i' & j' & -> & _).
      unfold tup2 in E. cbn [nth] in E. assert (i = i' /\ j = j') as (-> & ->) by (destruct sw; injection E; auto).
      contradiction. }
    apply Hinj; [apply NoDup_zbox|]. intros ij. apply in_zbox.
  - intros ij J1 m1 Hij HJ1. apply in_zbox, InRange2 in Hij. destruct Hij as (i & j & -> & Hi & Hj).
    rewrite Hb. rewrite (Holds_fetch c _ pp (tup2 sw [i; j]) J1 m1 HJ1 ltac:(cbn [dims owning]; unfold tup2; cbn [nth];
      apply InRange2; destruct sw; [exists j, i|exists i, j]; auto) (pp_ok _)). cbn [bind].
    rewrite (Holds_fetch c _ pp [if sw then i else j] _ _ Hg ltac:(cbn [dims const_array]; apply InRange1;
      destruct sw; [exists i|exists j]; auto) (pp_ok _)). cbn [bind hd].
    rewrite (Holds_fetch c _ pp (sp ++ [if sw then j else i]) _ _ HXc ltac:(cbn [dims const_array]; apply InRange_app;
      [exact Hsp|destruct sw; assumption]) (pp_ok _)). cbn [bind].
    unfold contrib, tup2. destruct sw; reflexivity.
  - exists J'. split; [exact He|]. split; [|exact Ho].
    eapply Holds_ext; [|exact Hh]. intros t Ht. cbn [dims owning] in Ht. apply InRange2 in Ht.
    destruct Ht as (i & j & -> & Hi & Hj). cbv beta.
    pose proof (Hin (tup2 sw [i; j])) as E.
    replace (tup2 sw (tup2 sw [i; j])) with [i; j] in E by (unfold tup2; destruct sw; reflexivity).
    apply E. apply in_zbox, InRange2. unfold tup2. cbn [nth]. destruct sw; [exists j, i|exists i, j]; auto.
Qed.

Context (bases : list (basis RNum)) (HE : Forall2 Evaluates bases ds).
Context (Hl : (length ds <= length xi)%nat).

Lemma shape_loop_ok {S} (f : list Z -> S -> outcome S) s :
  shape_supportLoop RNum D bases f s = foldM f (zbox (counts ds)) s.
Proof.
  unfold shape_supportLoop, shape_ok, numDims. rewrite (bases_length _ _ HE). fold D. rewrite Z.eqb_refl. cbn [bind].
  now apply supportLoop_ok.
Qed.
Lemma shape_gradient_ok sp : InRange (counts ds) sp ->
  shape_gradient RNum D bases sp xi = Ok (map (fun k => dtensor k ds sp xi) (seq 0 (length ds))).
Proof.
  intros H. unfold shape_gradient, shape_ok, numDims. rewrite (bases_length _ _ HE). fold D. rewrite Z.eqb_refl.
  cbn [bind]. now apply product_gradient_ok.
Qed.

Lemma outer_loop (sw : bool) (body : list Z -> list R -> outcome (list R)) J Jm :
  Holds (owning [D; D]) J Jm ->
  (forall sp J Jm, InRange (counts ds) sp -> Holds (owning [D; D]) J Jm ->
     exists J', body sp J = Ok J' /\
       Holds (owning [D; D]) J' (fun t => Jm t + contrib ds X xi sp t)%R /\ SameOutside (owning [D; D]) J J') ->
  exists J', foldM body (zbox (counts ds)) J = Ok J' /\
    Holds (owning [D; D]) J' (fun t => Jm t + Jmat ds X xi t)%R /\ SameOutside (owning [D; D]) J J'.
Proof.
  intros HJ Hb.
  destruct (sum_loop (owning [D; D]) body (contrib ds X xi) (zbox (counts ds)) J Jm HJ) as (J' & He & Hh & Ho).
  { intros sp J1 Jm1 Hsp. apply in_zbox in Hsp. now apply Hb. }
  exists J'. split; [exact He|]. split; [|exact Ho].
  eapply Holds_ext; [|exact Hh]. intros t _. cbv beta. unfold Jmat, dinterp. rewrite BoxSum_sumR. reflexivity.
Qed.

Lemma jacobian_point_ok J Jm : Holds (owning [D; D]) J Jm ->
  exists J', jacobian_point RNum c D bases mem xi J = Ok J' /\
    Holds (owning [D; D]) J' (fun t => Jm t + Jmat ds X xi t)%R /\ SameOutside (owning [D; D]) J J'.
Proof.
  intros HJ. unfold jacobian_point. rewrite (supportCounts_ok _ _ HE). cbn [bind]. rewrite shape_loop_ok.
  apply (outer_loop false); [exact HJ|]. intros sp J1 Jm1 Hsp HJ1. rewrite shape_gradient_ok by exact Hsp. cbn [bind].
  unfold jacobian_array, getData, numDims. rewrite (bases_length _ _ HE). fold D.
  apply (inner_loop false sp); [exact Hsp|exact HJ1|]. intros i j J2. reflexivity.
Qed.

Lemma jacobian_quadrature_ok qcoord QA qs J Jm : Holds (owning [D; D]) J Jm ->
  Forall2 (fun q v => qcoord q = Ok v) QA qs -> (length qs <= 3)%nat -> xi = qs ++ repeat 0%R (3 - length qs) ->
  exists J', jacobian_quadrature RNum c D bases qcoord QA mem J = Ok J' /\
    Holds (owning [D; D]) J' (fun t => Jm t + Jmat ds X xi t)%R /\ SameOutside (owning [D; D]) J J'.
Proof.
  intros HJ Hq Hql Hxi. unfold jacobian_quadrature. rewrite (supportCounts_ok _ _ HE). cbn [bind].
  assert (Eq : @sequenceM (T RNum) (@map Z (outcome (T RNum)) qcoord QA) = Ok qs).
  { clear - Hq. induction Hq as [|q v QA qs Hv _ IH]; [reflexivity|]. cbn [map sequenceM]. rewrite Hv. cbn [bind].
    rewrite IH. reflexivity. }
  rewrite Eq. cbn [constexpr_ bind]. assert (El : Nat.leb (@length (T RNum) qs) 3 = true) by (apply Nat.leb_le; exact Hql).
  rewrite El.
  cbn [bind]. rewrite shape_loop_ok.
  apply (outer_loop true); [exact HJ|]. intros sp J1 Jm1 Hsp HJ1.
  cbv beta. match goal with |- context [shape_gradient _ _ _ _ ?q] =>
    assert (Ex : q = xi) by (symmetry; exact Hxi); rewrite Ex; clear Ex end.
  rewrite shape_gradient_ok by exact Hsp. cbn [constexpr_ bind].
  unfold jacobian_array, getData, numDims. rewrite (bases_length _ _ HE). fold D.
  apply (inner_loop true sp); [exact Hsp|exact HJ1|]. intros i j J2. reflexivity.
Qed.
End Jacobian.

Lemma dd_ok (ds : list direction) : ds <> [] -> (length ds <= 3)%nat ->
  pos_dims [Z.of_nat (length ds); Z.of_nat (length ds)] /\ Z.of_nat (length ds) <= INT_MAX.
Proof.
  intros Hne Hl. assert (0 < Z.of_nat (length ds) <= 3) by (destruct ds; [congruence|simpl in *; lia]).
  set (D := Z.of_nat (length ds)) in *. split; [|unfold INT_MAX; lia].
  split; [discriminate|]. split; [repeat constructor; lia|]. unfold prodZ. cbn [fold_right]. unfold INT_MAX. nia.
Qed.
Lemma zero_Holds (D : Z) : pos_dims [D; D] -> exists J0, list_init (nofZ RNum 0) [D; D] [nofZ RNum 0] = Ok J0 /\
  buflen J0 = D * D /\ Holds (owning [D; D]) J0 (fun _ => 0%R).
Proof.
  intros Hp. destruct (list_init_Holds (nofZ RNum 0) [D; D] [nofZ RNum 0] Hp) as (J0 & Hi & Hb & Hh).
  { destruct Hp as (_ & Hp & _). inversion Hp. unfold prodZ; cbn [fold_right length]. nia. }
  exists J0. split; [exact Hi|]. split.
  { rewrite Hb. unfold prodZ. cbn [fold_right]. lia. }
  eapply Holds_ext; [|exact Hh]. intros t _. cbv beta. destruct (Z.to_nat _) as [|[|k]]; reflexivity.
Qed.

(** The entries of a Jacobian of the map x_i(p) = sum over t of value_t(p) * X(t, i). *)
Definition position (ds : list direction) (X : list Z -> R) (i : Z) (p : list R) : R :=
  BoxSum (counts ds) (fun t => tensor ds t p * X (t ++ [i]))%R.
Lemma Jmat_partial ds X xi i j : Forall Differentiates ds -> (length ds <= length xi)%nat -> (j < length ds)%nat ->
  Partial (position ds X i) j xi (Jmat ds X xi [i; Z.of_nat j]).
Proof.
  intros HD Hl Hj. unfold Jmat. cbn [nth]. rewrite Nat2Z.id. now apply (interp_partial ds (fun s => X (s ++ [i]))).
Qed.

Lemma jacobian_lemma c bases ds mem X xi :
  Forall2 Evaluates bases ds -> Forall Differentiates ds -> ds <> [] -> (length ds <= 3)%nat -> length xi = 3%nat ->
  Holds (owning (counts ds ++ [Z.of_nat (length ds)])) mem X ->
  exists J Jm, jacobian_wrapper RNum c (Z.of_nat (length ds)) bases mem xi = Ok J /\
    buflen J = Z.of_nat (length ds) * Z.of_nat (length ds) /\
    Holds (owning [Z.of_nat (length ds); Z.of_nat (length ds)]) J Jm /\
    forall i j, 0 <= i < Z.of_nat (length ds) -> (j < length ds)%nat ->
      Partial (fun p => BoxSum (counts ds) (fun t => tensor ds t p * X (t ++ [i]))%R) j xi (Jm [i; Z.of_nat j]).
Proof.
  intros HE HD Hne Hd Hx HX. destruct (dd_ok ds Hne Hd) as (Hpd & Hm).
  destruct (zero_Holds _ Hpd) as (J0 & Hi & Hb & H0).
  assert (Hlx : (length ds <= length xi)%nat) by lia.
  destruct (jacobian_point_ok c ds X xi mem Hne Hpd Hm HX bases HE Hlx J0 _ H0) as (J & He & Hh & Ho).
  exists J, (Jmat ds X xi). split; [|split; [|split]].
  - unfold jacobian_wrapper. assert (El : Nat.eqb (@length (T RNum) xi) 3 = true) by (apply Nat.eqb_eq; exact Hx).
    rewrite El. unfold numDims. rewrite (bases_length _ _ HE). rewrite Hi. exact He.
  - destruct Ho as (Hlen & _). etransitivity; [|exact Hb]. exact (f_equal Z.of_nat Hlen).
  - eapply Holds_ext; [|exact Hh]. intros t _. cbv beta. first [apply Rplus_0_l | symmetry; apply Rplus_0_l].
  - intros i j Hii Hj. apply Jmat_partial; [exact HD|exact Hlx|exact Hj].
Qed.

Lemma jacobian_accumulates_lemma c bases ds mem X xi :
  Forall2 Evaluates bases ds -> Forall Differentiates ds -> ds <> [] -> 
  pos_dims [Z.of_nat (length ds); Z.of_nat (length ds)] -> (length ds <= length xi)%nat ->
  Holds (owning (counts ds ++ [Z.of_nat (length ds)])) mem X ->
  exists K : list Z -> R,
    (forall i j, 0 <= i < Z.of_nat (length ds) -> (j < length ds)%nat ->
      Partial (fun p => BoxSum (counts ds) (fun t => tensor ds t p * X (t ++ [i]))%R) j xi (K [i; Z.of_nat j])) /\
    forall J Jm, Holds (owning [Z.of_nat (length ds); Z.of_nat (length ds)]) J Jm ->
      exists J', jacobian_point RNum c (Z.of_nat (length ds)) bases mem xi J = Ok J' /\
        Holds (owning [Z.of_nat (length ds); Z.of_nat (length ds)]) J' (fun t => Jm t + K t)%R.
Proof.
  intros HE HD Hne Hpd Hx HX. exists (Jmat ds X xi). split.
  - intros i j Hii Hj. now apply Jmat_partial.
  - intros J Jm HJ. assert (Hm : Z.of_nat (length ds) <= INT_MAX).
    { destruct Hpd as (_ & Hp & Hpr). inversion Hp. unfold prodZ in Hpr. cbn [fold_right] in Hpr. nia. }
    destruct (jacobian_point_ok c ds X xi mem Hne Hpd Hm HX bases HE Hx J Jm HJ) as (J' & He & Hh & _).
    exists J'. split; assumption.
Qed.

Lemma nth_error_ext' {A} (l : list A) : forall l', (forall k, nth_error l k = nth_error l' k) -> l = l'.
Proof.
  induction l as [|a l IH]; intros [|b l'] H; try reflexivity; try (specialize (H 0%nat); discriminate).
  f_equal; [specialize (H 0%nat); simpl in H; congruence|]. apply IH. intros k. exact (H (S k)).
Qed.
Lemma Holds_eq {T} ds (mem mem' : list T) m : Holds (owning ds) mem m -> Holds (owning ds) mem' m ->
  buflen mem = prodZ ds -> buflen mem' = prodZ ds -> mem = mem'.
Proof.
  intros H H' L L'. apply Holds_iff in H. apply Holds_iff in H'. destruct H as (Hv & H). destruct H' as (_ & H').
  apply nth_error_ext'. intros k. destruct Hv as ((_ & Hpos & _) & _). cbn [dims owning] in *.
  unfold buflen in *. destruct (Nat.lt_ge_cases k (length mem)) as [C|C].
  - destruct (rowmajor_surj ds (Z.of_nat k) Hpos ltac:(lia)) as (t & Ht & E).
    specialize (H t Ht). specialize (H' t Ht). cbn [base owning dims] in H, H'. rewrite E in H, H'. rewrite Z.add_0_l, Nat2Z.id in H, H'. congruence.
  - rewrite (proj2 (nth_error_None mem k)) by lia. rewrite (proj2 (nth_error_None mem' k)) by lia. reflexivity.
Qed.

Lemma jacobian_quadrature_lemma c bases ds mem X qcoord QA qs J :
  Forall2 Evaluates bases ds -> ds <> [] -> (length ds <= 3)%nat ->
  Holds (owning (counts ds ++ [Z.of_nat (length ds)])) mem X ->
  Forall2 (fun q v => qcoord q = Ok v) QA qs -> (length qs <= 3)%nat ->
  Z.of_nat (length J) = Z.of_nat (length ds) * Z.of_nat (length ds) ->
  exists J', jacobian_quadrature RNum c (Z.of_nat (length ds)) bases qcoord QA mem J = Ok J' /\
    jacobian_point RNum c (Z.of_nat (length ds)) bases mem (qs ++ repeat 0%R (3 - length qs)) J = Ok J'.
Proof.
  intros HE Hne Hd HX Hq Hql HlJ. destruct (dd_ok ds Hne Hd) as (Hpd & Hm).
  set (D := Z.of_nat (length ds)) in *.
  assert (HpJ : buflen J = prodZ [D; D]) by (unfold buflen, prodZ; cbn [fold_right]; lia).
  destruct (Holds_exists (owning [D; D]) J (view_ok_owning [D; D] J Hpd HpJ)) as (Jm & HJ).
  set (xi := qs ++ repeat 0%R (3 - length qs)).
  assert (Hx : (length ds <= length xi)%nat) by (unfold xi; rewrite app_length, repeat_length; lia).
  destruct (jacobian_point_ok c ds X xi mem Hne Hpd Hm HX bases HE Hx J Jm HJ) as (J1 & E1 & H1 & (L1 & _)).
  destruct (jacobian_quadrature_ok c ds X xi mem Hne Hpd Hm HX bases HE Hx qcoord QA qs J Jm HJ Hq Hql eq_refl)
    as (J2 & E2 & H2 & (L2 & _)).
  exists J1. split; [|exact E1]. fold D in E2. rewrite E2. f_equal.
  eapply (Holds_eq [D; D]); [exact H2|exact H1| |]; unfold buflen in *; congruence.
Qed.

Lemma inverse_jacobian_lemma c bases ds mem X xi :
  Forall2 Evaluates bases ds -> Forall Differentiates ds -> length ds = 3%nat -> length xi = 3%nat ->
  Holds (owning (counts ds ++ [3])) mem X ->
  exists K : matrix,
    (forall i j, 0 <= i < 3 -> (j < 3)%nat ->
      Partial (fun p => BoxSum (counts ds) (fun t => tensor ds t p * X (t ++ [i]))%R) j xi (K i (Z.of_nat j))) /\
    (det 3 K <> 0%R -> exists invJ B,
       inverseJacobian_wrapper RNum c 3 bases mem xi = Ok (det 3 K, invJ) /\
       Holds (owning [3; 3]) invJ B /\ Inverse 3 K (fun i j => B [i; j])) /\
    (det 3 K = 0%R -> inverseJacobian_wrapper RNum c 3 bases mem xi = UB DivByZero).
Proof.
  intros HE HD Hd Hx HX. assert (Hne : ds <> []) by (destruct ds; discriminate).
  destruct (dd_ok ds Hne ltac:(lia)) as (Hpd & Hm). rewrite Hd in Hpd. cbn [Z.of_nat Pos.of_succ_nat Pos.succ] in Hpd.
  destruct (zero_Holds _ Hpd) as (J0 & Hi & Hb & H0).
  assert (Hlx : (length ds <= length xi)%nat) by lia.
  assert (HX' : Holds (owning (counts ds ++ [Z.of_nat (length ds)])) mem X) by (rewrite Hd; exact HX).
  assert (Hpd' : pos_dims [Z.of_nat (length ds); Z.of_nat (length ds)]) by (rewrite Hd; exact Hpd).
  assert (H0' : Holds (owning [Z.of_nat (length ds); Z.of_nat (length ds)]) J0 (fun _ => 0%R)) by (rewrite Hd; exact H0).
  destruct (jacobian_point_ok c ds X xi mem Hne Hpd' Hm HX' bases HE Hlx J0 _ H0') as (J & He & Hh & _).
  rewrite Hd in He, Hh. cbn [Z.of_nat Pos.of_succ_nat Pos.succ] in He, Hh.
  exists (fun i j => Jmat ds X xi [i; j]).
  assert (Hh2 : Holds (owning [3; 3]) J (Jmat ds X xi)).
  { eapply Holds_ext; [|exact Hh]. intros t _. cbv beta. first [apply Rplus_0_l | symmetry; apply Rplus_0_l]. }
  assert (Hw : inverseJacobian_wrapper RNum c 3 bases mem xi =
     ('(invJ, detJ) <- inverse_a RNum c (owning [3; 3]) J ;; Ok (detJ, invJ))).
  { unfold inverseJacobian_wrapper. assert (El : Nat.eqb (@length (T RNum) xi) 3 = true) by (apply Nat.eqb_eq; exact Hx).
    rewrite El. unfold inverseJacobian_point, jacobian_array, numDims. rewrite (bases_length _ _ HE), Hd.
    change (Z.of_nat 3) with 3. rewrite Hi. cbn [bind]. rewrite He. cbn [bind]. reflexivity. }
  destruct (inverse_a33_lemma c (owning [3; 3]) J (Jmat ds X xi) eq_refl eq_refl Hh2) as (I1 & I2).
  split; [|split].
  - intros i j Hii Hj. apply Jmat_partial; [exact HD|exact Hlx|lia].
  - intros Hdet. destruct (I1 Hdet) as (mem' & B & E & HB & _ & HI). exists mem', B.
    split; [|split; assumption]. rewrite Hw, E. reflexivity.
  - intros Hdet. rewrite Hw, (I2 Hdet). reflexivity.
Qed.

(** Cells of dimension 1 and 2. *)
Lemma inverse_jacobian_small_lemma c bases ds mem X xi :
  Forall2 Evaluates bases ds -> ds <> [] -> (length ds <= 2)%nat -> length xi = 3%nat ->
  Holds (owning (counts ds ++ [Z.of_nat (length ds)])) mem X ->
  (runtime_checked c -> inverseJacobian_wrapper RNum c (Z.of_nat (length ds)) bases mem xi = Aborted) /\
  (unchecked c -> inverseJacobian_wrapper RNum c (Z.of_nat (length ds)) bases mem xi = UB OutOfBounds).
Proof.
  intros HE Hne Hd Hx HX. destruct (dd_ok ds Hne ltac:(lia)) as (Hpd & Hm).
  set (D := Z.of_nat (length ds)) in *.
  destruct (zero_Holds _ Hpd) as (J0 & Hi & Hb & H0).
  assert (Hlx : (length ds <= length xi)%nat) by lia.
  destruct (jacobian_point_ok c ds X xi mem Hne Hpd Hm HX bases HE Hlx J0 _ H0) as (J & He & Hh & (Hlen & _)).
  assert (Hw : inverseJacobian_wrapper RNum c D bases mem xi =
     ('(invJ, detJ) <- inverse_a RNum c (owning [D; D]) J ;; Ok (detJ, invJ))).
  { unfold inverseJacobian_wrapper. assert (El : Nat.eqb (@length (T RNum) xi) 3 = true) by (apply Nat.eqb_eq; exact Hx).
    rewrite El. unfold inverseJacobian_point, jacobian_array, numDims. rewrite (bases_length _ _ HE).
    fold D. rewrite Hi. cbn [bind]. fold D in He. rewrite He. cbn [bind]. reflexivity. }
  assert (Hv : view_ok (buflen J) (owning [D; D])) by exact (proj1 Hh).
  rewrite Hw. split; intros Hc.
  - rewrite (inverse_small_checked_lemma c (owning [D; D]) J D D Hc eq_refl Hv); [reflexivity|]. unfold D; lia.
  - rewrite (inverse_small_unchecked_lemma c (owning [D; D]) J D Hc eq_refl ltac:(unfold D; lia) Hv); [reflexivity|].
    cbn [base owning]. unfold buflen in *. rewrite Hlen. lia.
Qed.

(** * Scaling and UniformScaling *)
Lemma put3 {T} c (v x y z : T) :
  put c (owning [3]) pp [0] v [x; y; z] = Ok [v; y; z] /\
  put c (owning [3]) pp [1] v [x; y; z] = Ok [x; v; z] /\
  put c (owning [3]) pp [2] v [x; y; z] = Ok [x; y; v].
Proof. destruct c as [tg bc ce hb]. destruct tg, bc, ce, hb; repeat split; reflexivity. Qed.
Lemma put1 {T} c (v x : T) : put c (owning [1]) pp [0] v [x] = Ok [v].
Proof. destruct c as [tg bc ce hb]. destruct tg, bc, ce, hb; reflexivity. Qed.

Lemma scaling_jacobian_eq (F : Num) c h0 h1 h2 :
  scaling_jacobian_wrapper F c [h0; h1; h2] =
  Ok [nmul F (nlit F 5 1) h0; nmul F (nlit F 5 1) h1; nmul F (nlit F 5 1) h2].
Proof.
  unfold scaling_jacobian_wrapper. change (list_init (nofZ F 0) [3] []) with (Ok [nofZ F 0; nofZ F 0; nofZ F 0]).
  cbn [bind]. unfold scaling_jacobian, scaling_jacobian_array, scaling_getData.
  assert (R0 : rd [h0; h1; h2] 0 = Ok h0) by reflexivity. assert (R1 : rd [h0; h1; h2] 1 = Ok h1) by reflexivity.
  assert (R2 : rd [h0; h1; h2] 2 = Ok h2) by reflexivity. rewrite R0, R1, R2. cbn [bind].
  rewrite (proj1 (put3 _ _ _ _ _)). cbn [bind]. rewrite (proj1 (proj2 (put3 _ _ _ _ _))). cbn [bind].
  rewrite (proj2 (proj2 (put3 _ _ _ _ _))). reflexivity.
Qed.
Lemma scaling_inverse_eq (F : Num) c h0 h1 h2 :
  scaling_inverseJacobian_wrapper F c [h0; h1; h2] =
  (q0 <- ndiv F (nofZ F 2) h0 ;; q1 <- ndiv F (nofZ F 2) h1 ;; q2 <- ndiv F (nofZ F 2) h2 ;;
   Ok (nmul F (nmul F (nmul F (nlit F 125 3) h0) h1) h2, [q0; q1; q2])).
Proof.
  unfold scaling_inverseJacobian_wrapper. change (list_init (nofZ F 0) [3] []) with (Ok [nofZ F 0; nofZ F 0; nofZ F 0]).
  cbn [bind]. unfold scaling_inverseJacobian, scaling_jacobian_array, scaling_getData.
  assert (R0 : rd [h0; h1; h2] 0 = Ok h0) by reflexivity. assert (R1 : rd [h0; h1; h2] 1 = Ok h1) by reflexivity.
  assert (R2 : rd [h0; h1; h2] 2 = Ok h2) by reflexivity. rewrite R0, R1, R2. cbn [bind].
  destruct (ndiv F (nofZ F 2) h0); cbn [bind]; try reflexivity.
  rewrite (proj1 (put3 _ _ _ _ _)). cbn [bind].
  destruct (ndiv F (nofZ F 2) h1); cbn [bind]; try reflexivity.
  rewrite (proj1 (proj2 (put3 _ _ _ _ _))). cbn [bind].
  destruct (ndiv F (nofZ F 2) h2); cbn [bind]; try reflexivity.
  rewrite (proj2 (proj2 (put3 _ _ _ _ _))). reflexivity.
Qed.
Lemma uniform_jacobian_eq (F : Num) c h : uniform_jacobian_wrapper F c h = Ok [nmul F (nlit F 5 1) h].
Proof.
  unfold uniform_jacobian_wrapper. change (list_init (nofZ F 0) [1] []) with (Ok [nofZ F 0]). cbn [bind].
  unfold uniform_jacobian, uniform_jacobian_array. apply put1.
Qed.
Lemma uniform_inverse_eq (F : Num) c h :
  uniform_inverseJacobian_wrapper F c h =
  (q <- ndiv F (nofZ F 2) h ;; Ok (nmul F (nmul F (nmul F (nlit F 125 3) h) h) h, [q])).
Proof.
  unfold uniform_inverseJacobian_wrapper. change (list_init (nofZ F 0) [1] []) with (Ok [nofZ F 0]). cbn [bind].
  unfold uniform_inverseJacobian, uniform_jacobian_array, uniform_getData.
  destruct (ndiv F (nofZ F 2) h); cbn [bind]; try reflexivity. rewrite put1. reflexivity.
Qed.

Lemma half_R (h : R) : nmul RNum (nlit RNum 5 1) h = (h / 2)%R.
Proof. cbn [nmul nlit RNum]. change (10 ^ Z.of_nat 1)%Z with 10. change (IZR 5 / IZR 10 * h = h / 2)%R. field. Qed.
Lemma eighth_R (a b c : R) :
  nmul RNum (nmul RNum (nmul RNum (nlit RNum 125 3) a) b) c = (a / 2 * (b / 2) * (c / 2))%R.
Proof.
  cbn [nmul nlit RNum]. change (10 ^ Z.of_nat 3)%Z with 1000.
  change (IZR 125 / IZR 1000 * a * b * c = a / 2 * (b / 2) * (c / 2))%R. field.
Qed.
Lemma two_R (h : R) : h <> 0%R -> ndiv RNum (nofZ RNum 2) h = Ok (/ (h / 2))%R.
Proof.
  intros H. cbn [ndiv nofZ RNum]. unfold Req0. destruct (Req_EM_T h 0); [contradiction|].
  apply f_equal. change (IZR 2 / h = / (h / 2))%R. field. exact H.
Qed.
Lemma two_R0 : ndiv RNum (nofZ RNum 2) 0%R = UB DivByZero.
Proof. cbn [ndiv nofZ RNum]. unfold Req0. destruct (Req_EM_T 0 0); [reflexivity|congruence]. Qed.

Lemma scaling_lemma c (h0 h1 h2 : R) :
  scaling_jacobian_wrapper RNum c [h0; h1; h2] = Ok [h0 / 2; h1 / 2; h2 / 2]%R /\
  (h0 <> 0 -> h1 <> 0 -> h2 <> 0 ->
   scaling_inverseJacobian_wrapper RNum c [h0; h1; h2] =
     Ok (h0 / 2 * (h1 / 2) * (h2 / 2), [/ (h0 / 2); / (h1 / 2); / (h2 / 2)]))%R /\
  ((h0 = 0 \/ h1 = 0 \/ h2 = 0)%R -> scaling_inverseJacobian_wrapper RNum c [h0; h1; h2] = UB DivByZero).
Proof.
  split; [|split].
  - etransitivity; [apply scaling_jacobian_eq|]. rewrite !half_R. reflexivity.
  - intros H0 H1 H2. etransitivity; [apply scaling_inverse_eq|]. rewrite !two_R by assumption. cbn [bind].
    rewrite eighth_R. reflexivity.
  - intros H. etransitivity; [apply scaling_inverse_eq|].
    destruct (Req_dec h0 0) as [->|N0]; [rewrite two_R0; reflexivity|]. rewrite (two_R h0) by assumption. cbn [bind].
    destruct (Req_dec h1 0) as [->|N1]; [rewrite two_R0; reflexivity|]. rewrite (two_R h1) by assumption. cbn [bind].
    destruct (Req_dec h2 0) as [->|N2]; [rewrite two_R0; reflexivity|]. exfalso. tauto.
Qed.
Lemma scaling_data_lemma (F : Num) h0 h1 h2 x y z :
  (exists m, scaling_setData F [h0; h1; h2] [x; y; z] = Ok m /\ scaling_getData F m = [h0; h1; h2]) /\
  scaling_getData F (scaling_default F) = [nofZ F 1; nofZ F 1; nofZ F 1].
Proof. split; [|reflexivity]. exists [h0; h1; h2]. split; reflexivity. Qed.

Lemma uniform_data_lemma (F : Num) (h m : T F) :
  uniform_getData F (uniform_setData F h m) = h /\
  uniform_getData F (uniform_default F) = nofZ F 1.
Proof. split; reflexivity. Qed.

Lemma uniform_lemma (F : Num) c h :
  (exists v, uniform_jacobian_wrapper F c h = Ok [v] /\ scaling_jacobian_wrapper F c [h; h; h] = Ok [v; v; v]) /\
  (forall q, ndiv F (nofZ F 2) h = Ok q ->
     exists d, uniform_inverseJacobian_wrapper F c h = Ok (d, [q]) /\
       scaling_inverseJacobian_wrapper F c [h; h; h] = Ok (d, [q; q; q])) /\
  (is_ok (ndiv F (nofZ F 2) h) = false ->
     is_ok (uniform_inverseJacobian_wrapper F c h) = false /\
     is_ok (scaling_inverseJacobian_wrapper F c [h; h; h]) = false).
Proof.
  split; [|split].
  - eexists. split; [apply uniform_jacobian_eq|apply scaling_jacobian_eq].
  - intros q Hq. eexists. rewrite uniform_inverse_eq, scaling_inverse_eq, Hq. split; reflexivity.
  - intros Hq. rewrite uniform_inverse_eq, scaling_inverse_eq. destruct (ndiv F (nofZ F 2) h); [discriminate|..];
      split; reflexivity.
Qed.
Lemma uniform_R_lemma c (h : R) :
  uniform_jacobian_wrapper RNum c h = Ok [h / 2]%R /\
  (h <> 0%R -> uniform_inverseJacobian_wrapper RNum c h = Ok (h / 2 * (h / 2) * (h / 2), [/ (h / 2)])%R) /\
  (h = 0%R -> uniform_inverseJacobian_wrapper RNum c h = UB DivByZero).
Proof.
  split; [|split].
  - etransitivity; [apply uniform_jacobian_eq|]. rewrite half_R. reflexivity.
  - intros H. etransitivity; [apply uniform_inverse_eq|]. rewrite two_R by assumption. cbn [bind].
    rewrite eighth_R. reflexivity.
  - intros ->. etransitivity; [apply uniform_inverse_eq|]. rewrite two_R0. reflexivity.
Qed.

(** * Affine cells *)
Lemma interp_coord ds : Forall Nodal ds -> Forall (fun d => 2 <= npts d) ds -> forall k xi,
  (length ds <= length xi)%nat -> (k < length ds)%nat ->
  interp ds (fun t => nth k (gridpoint ds t) 0%R) xi = nth k xi 0%R.
Proof.
  induction 1 as [|d ds Hd HN IH]; intros H2 k xi Hl Hk; [simpl in Hk; lia|].
  inversion H2 as [|? ? Hd2 H2']; subst. destruct xi as [|x xi]; [simpl in Hl; lia|]. rewrite interp_cons.
  destruct k as [|k]; cbn [nth gridpoint].
  - transitivity (peval [0; 1]%R x); [|simpl; ring].
    etransitivity; [|exact (nb_reproduce _ _ _ _ Hd [0; 1]%R x ltac:(cbn [length]; lia))].
    rewrite Zsum_sumR. apply sumR_ext. intros i _.
    rewrite (interp_const ds (pt d i) xi) by (auto; simpl in Hl; lia). simpl. ring.
  - rewrite (sumR_ext _ (fun i => fval d i x * nth k xi 0)%R).
    + rewrite sumR_scal_r, <- Zsum_sumR. rewrite (nb_unity _ _ _ _ Hd). ring.
    + intros i _. rewrite IH; [reflexivity|exact H2'|simpl in Hl; lia|simpl in Hk; lia].
Qed.
Lemma interp_affine ds (o : R) (A : nat -> R) xi : Forall Nodal ds -> Forall (fun d => 2 <= npts d) ds ->
  (length ds <= length xi)%nat ->
  interp ds (fun t => o + sumR (fun k => A k * nth k (gridpoint ds t) 0%R) (seq 0 (length ds)))%R xi =
  (o + sumR (fun k => A k * nth k xi 0%R) (seq 0 (length ds)))%R.
Proof.
  intros HN H2 Hl.
  rewrite (interp_ext ds _ (fun t => 1 * o + 1 * sumR (fun k => A k * nth k (gridpoint ds t) 0%R) (seq 0 (length ds)))%R)
    by (intros; ring).
  rewrite (interp_linear ds 1 1 (fun _ => o)). rewrite interp_const by assumption. rewrite interp_sum.
  rewrite (sumR_ext (fun k => interp ds (fun t => A k * nth k (gridpoint ds t) 0)%R xi) (fun k => A k * nth k xi 0)%R).
  - ring.
  - intros k Hk. apply in_seq in Hk. rewrite interp_scal, interp_coord by (auto; lia). reflexivity.
Qed.
Lemma nth_upd {A} (l : list A) d : forall j x k, (j < length l)%nat -> nth k (upd l j x) d = if Nat.eqb k j then x else nth k l d.
Proof.
  induction l as [|a l IH]; intros j x k Hj; [simpl in Hj; lia|].
  destruct j as [|j], k as [|k]; try reflexivity. cbn. apply IH. simpl in Hj. lia.
Qed.
Lemma affine_partial (o : R) (A : nat -> R) n j xi : (j < n)%nat -> (n <= length xi)%nat ->
  Partial (fun p => o + sumR (fun k => A k * nth k p 0) (seq 0 n))%R j xi (A j).
Proof.
  intros Hj Hl. unfold Partial.
  set (r := (o + sumR (fun k => if Nat.eqb k j then 0 else A k * nth k xi 0) (seq 0 n))%R).
  apply (deriv_ext (fun t => r + A j * t)%R).
  - intros t. unfold r. rewrite Rplus_assoc. f_equal.
    assert (E1 : sumR (fun k => if Nat.eqb k j then A k * t else 0)%R (seq 0 n) = (A j * t)%R).
    { rewrite (sumR_one _ (seq 0 n) j); [now rewrite Nat.eqb_refl|apply seq_NoDup|apply in_seq; lia|].
      intros b _ Hb. destruct (Nat.eqb_spec b j); [contradiction|reflexivity]. }
    rewrite <- E1, <- sumR_plus. apply sumR_ext. intros k _. rewrite nth_upd by lia. destruct (Nat.eqb k j); ring.
  - cut (derivable_pt_lim (fun t => r + A j * t)%R (nth j xi 0%R) (0 + A j * 1)%R).
    { intros H. rewrite Rplus_0_l, Rmult_1_r in H. exact H. }
    apply (derivable_pt_lim_plus (fun _ => r) (fun t => A j * t)%R); [apply derivable_pt_lim_const|].
    apply (derivable_pt_lim_scal id). apply derivable_pt_lim_id.
Qed.

Lemma affine_jacobian_lemma c bases ds mem X xi (o : Z -> R) (A : matrix) :
  Forall2 Evaluates bases ds -> Forall Nodal ds -> Forall (fun d => 2 <= npts d) ds ->
  ds <> [] -> (length ds <= 3)%nat -> length xi = 3%nat ->
  Holds (owning (counts ds ++ [Z.of_nat (length ds)])) mem X ->
  (forall t i, InRange (counts ds) t -> 0 <= i < Z.of_nat (length ds) ->
     X (t ++ [i]) = (o i + Zsum (Z.of_nat (length ds)) (fun k => A i k * nth (Z.to_nat k) (gridpoint ds t) 0%R))%R) ->
  exists J, jacobian_wrapper RNum c (Z.of_nat (length ds)) bases mem xi = Ok J /\
    Holds (owning [Z.of_nat (length ds); Z.of_nat (length ds)]) J (fun t => A (nth 0 t 0%Z) (nth 1 t 0%Z)).
Proof.
  intros HE HN H2 Hne Hd Hx HX Haff.
  destruct (jacobian_lemma c bases ds mem X xi HE (Nodal_Differentiates ds HN) Hne Hd Hx HX) as (J & Jm & E & _ & HJ & HP).
  exists J. split; [exact E|]. eapply Holds_ext; [|exact HJ]. intros t Ht. cbn [dims owning] in Ht.
  destruct (proj1 (InRange2 _ _ _) Ht) as (i & j & -> & Hi & Hj). cbn [nth].
  specialize (HP i (Z.to_nat j) Hi ltac:(lia)). rewrite Z2Nat.id in HP by lia.
  assert (Hlx : (length ds <= length xi)%nat) by lia.
  assert (HA : Partial (fun p => BoxSum (counts ds) (fun t => tensor ds t p * X (t ++ [i]))%R) (Z.to_nat j) xi (A i j)).
  { pose proof (affine_partial (o i) (fun k => A i (Z.of_nat k)) (length ds) (Z.to_nat j) xi ltac:(lia) Hlx) as HA.
    cbv beta in HA. rewrite Z2Nat.id in HA by lia. unfold Partial in *. eapply deriv_ext; [|exact HA].
    intros s. cbv beta. rewrite <- (interp_affine ds (o i) (fun k => A i (Z.of_nat k))); auto; [|rewrite upd_length; exact Hlx].
    unfold interp. apply BoxSum_ext. intros t Ht'. rewrite Haff by assumption. f_equal. f_equal.
    rewrite Zsum_sumR, Nat2Z.id. unfold zseq. rewrite sumR_map. apply sumR_ext. intros k _. now rewrite Nat2Z.id. }
  exact (uniqueness_limite _ _ _ _ HP HA).
Qed.

Definition diag (s : list R) (t : list Z) : R :=
  if nth 0 t 0%Z =? nth 1 t 0%Z then nth (Z.to_nat (nth 0 t 0%Z)) s 0%R else 0%R.

Lemma InRange_repeat2 {A} (l : list A) t : InRange (map (fun _ => 2) l) t -> Forall (fun x => x = 0 \/ x = 1) t /\ length t = length l.
Proof.
  revert t. induction l as [|a l IH]; intros t H; cbn [map] in H.
  - apply InRange_nil in H. subst. split; [constructor|reflexivity].
  - apply InRange_cons in H. destruct H as (i & t' & -> & Hi & H). destruct (IH t' H) as (H1 & H2).
    split; [constructor; [lia|exact H1]|simpl; lia].
Qed.
Definition unit_direction (d : direction) : Prop := npts d = 2 /\ pt d 0 = (-1)%R /\ pt d 1 = 1%R.
Lemma gridpoint_unit ds : Forall unit_direction ds -> forall t k, InRange (counts ds) t -> (k < length ds)%nat ->
  nth k (gridpoint ds t) 0%R = (2 * IZR (nth k t 0%Z) - 1)%R.
Proof.
  induction 1 as [|d ds (Hn & H0 & H1) _ IH]; intros t k Ht Hk; [simpl in Hk; lia|].
  change (counts (d :: ds)) with (npts d :: counts ds) in Ht. rewrite Hn in Ht. apply InRange_cons in Ht.
  destruct Ht as (i & t' & -> & Hi & Ht). destruct k as [|k]; cbn [gridpoint nth].
  - assert (C : i = 0 \/ i = 1) by lia. destruct C as [->| ->]; [rewrite H0|rewrite H1]; ring.
  - apply IH; [exact Ht|simpl in Hk; lia].
Qed.
Lemma Zsum_delta n (f : Z -> R) i : 0 <= i < n -> Zsum n (fun k => (if i =? k then f k else 0) )%R = f i.
Proof.
  intros Hi. rewrite Zsum_sumR. rewrite (sumR_one _ _ i).
  - now rewrite Z.eqb_refl.
  - apply NoDup_zseq.
  - unfold zseq. apply in_map_iff. exists (Z.to_nat i). split; [lia|]. apply in_seq. lia.
  - intros b _ Hb. destruct (Z.eqb_spec i b); [congruence|reflexivity].
Qed.

Lemma box_jacobian_lemma c bases ds mem X xi (o h : Z -> R) :
  Forall2 Evaluates bases ds -> Forall Nodal ds -> Forall unit_direction ds ->
  ds <> [] -> (length ds <= 3)%nat -> length xi = 3%nat ->
  Holds (owning (counts ds ++ [Z.of_nat (length ds)])) mem X ->
  (forall t i, InRange (counts ds) t -> 0 <= i < Z.of_nat (length ds) ->
     X (t ++ [i]) = (o i + IZR (nth (Z.to_nat i) t 0%Z) * h i)%R) ->
  exists J, jacobian_wrapper RNum c (Z.of_nat (length ds)) bases mem xi = Ok J /\
    Holds (owning [Z.of_nat (length ds); Z.of_nat (length ds)]) J
      (fun t => if nth 0 t 0%Z =? nth 1 t 0%Z then (h (nth 0 t 0%Z) / 2)%R else 0%R).
Proof.
  intros HE HN HU Hne Hd Hx HX Hbox.
  apply (affine_jacobian_lemma c bases ds mem X xi (fun i => o i + h i / 2)%R (fun i j => if i =? j then h i / 2 else 0)%R);
    try assumption.
  - eapply Forall_impl; [|exact HU]. intros d (-> & _). lia.
  - intros t i Ht Hi. rewrite Hbox by assumption.
    assert (E : Zsum (Z.of_nat (length ds)) (fun k => (if i =? k then h i / 2 else 0) * nth (Z.to_nat k) (gridpoint ds t) 0)%R =
                (h i / 2 * nth (Z.to_nat i) (gridpoint ds t) 0)%R).
    { rewrite <- (Zsum_delta (Z.of_nat (length ds)) (fun k => h i / 2 * nth (Z.to_nat k) (gridpoint ds t) 0)%R i Hi).
      rewrite !Zsum_sumR. apply sumR_ext. intros k _. destruct (i =? k); ring. }
    rewrite E, (gridpoint_unit ds HU) by (auto; lia). field.
Qed.

Lemma det3 (K : matrix) : det 3 K = (K 0%Z 0%Z * (K 1%Z 1%Z * K 2%Z 2%Z - K 1%Z 2%Z * K 2%Z 1%Z) - K 0%Z 1%Z * (K 1%Z 0%Z * K 2%Z 2%Z - K 1%Z 2%Z * K 2%Z 0%Z)
  + K 0%Z 2%Z * (K 1%Z 0%Z * K 2%Z 1%Z - K 1%Z 1%Z * K 2%Z 0%Z))%R.
Proof. unfold det. cbn. ring. Qed.
Lemma inverse_diag (K : matrix) (B : amap R) s0 s1 s2 :
  (forall i j, 0 <= i < 3 -> 0 <= j < 3 -> K i j = diag [s0; s1; s2] [i; j]) ->
  s0 <> 0%R -> s1 <> 0%R -> s2 <> 0%R -> Inverse 3 K (fun i j => B [i; j]) ->
  forall t, InRange [3; 3] t -> B t = diag [/ s0; / s1; / s2]%R t.
Proof.
  intros HK N0 N1 N2 HI t Ht. apply InRange2 in Ht. destruct Ht as (i & j & -> & Hi & Hj).
  assert (Ci : i = 0 \/ i = 1 \/ i = 2) by lia. assert (Cj : j = 0 \/ j = 1 \/ j = 2) by lia.
  destruct (HI i j Hi Hj) as (E & _). unfold matmul in E. cbn [zseq seq map Rsum fold_right] in E.
  assert (K00 : K 0 0 = s0) by (rewrite HK by lia; reflexivity).
  assert (K01 : K 0 1 = 0%R) by (rewrite HK by lia; reflexivity).
  assert (K02 : K 0 2 = 0%R) by (rewrite HK by lia; reflexivity).
  assert (K10 : K 1 0 = 0%R) by (rewrite HK by lia; reflexivity).
  assert (K11 : K 1 1 = s1) by (rewrite HK by lia; reflexivity).
  assert (K12 : K 1 2 = 0%R) by (rewrite HK by lia; reflexivity).
  assert (K20 : K 2 0 = 0%R) by (rewrite HK by lia; reflexivity).
  assert (K21 : K 2 1 = 0%R) by (rewrite HK by lia; reflexivity).
  assert (K22 : K 2 2 = s2) by (rewrite HK by lia; reflexivity).
  unfold delta in E. unfold diag. cbn [nth].
  destruct Ci as [->|[->| ->]], Cj as [->|[->| ->]]; cbn in E;
  rewrite ?K00, ?K01, ?K02, ?K10, ?K11, ?K12, ?K20, ?K21, ?K22 in E; simpl;
    match goal with |- ?b = (/ ?s)%R => apply (Rmult_eq_reg_l s); [|assumption]; rewrite Rinv_r by assumption; lra
    | |- ?b = 0%R => first [apply (Rmult_eq_reg_l s0); [lra|assumption] | apply (Rmult_eq_reg_l s1); [lra|assumption] | apply (Rmult_eq_reg_l s2); [lra|assumption]] end.
Qed.
Lemma testbit_row a b e i : (a = 0 \/ a = 1) -> (b = 0 \/ b = 1) -> (e = 0 \/ e = 1) -> 0 <= i < 3 ->
  Z.testbit (a + 2 * b + 4 * e) i = (nth (Z.to_nat i) [a; b; e] 0 =? 1).
Proof.
  intros Ha Hb He Hi. assert (C : i = 0 \/ i = 1 \/ i = 2) by lia.
  destruct C as [->|[->| ->]], Ha as [->| ->], Hb as [->| ->], He as [->| ->]; reflexivity.
Qed.

Lemma box_lemma c bases ds coords (o h : Z -> R) mem m xi :
  Forall2 Evaluates bases ds -> Forall Nodal ds -> length ds = 3%nat ->
  Forall (fun d => npts d = 2 /\ pt d 0 = (-1)%R /\ pt d 1 = 1%R) ds -> length xi = 3%nat ->
  Holds (owning [2; 2; 2; 3]) mem m ->
  (forall k i, 0 <= k < 8 -> 0 <= i < 3 -> coords k i = Ok (o i + (if Z.testbit k i then h i else 0))%R) ->
  exists N, forall fuel, (N <= fuel)%nat ->
  exists cell J s, setData RNum c bases coords fuel mem = Ok cell /\
    jacobian_wrapper RNum c 3 bases cell xi = Ok J /\
    scaling_jacobian_wrapper RNum c [h 0; h 1; h 2] = Ok s /\
    Holds (owning [3; 3]) J (fun t => if nth 0 t 0 =? nth 1 t 0 then nth (Z.to_nat (nth 0 t 0)) s 0%R else 0%R) /\
    (h 0 <> 0%R -> h 1 <> 0%R -> h 2 <> 0%R ->
     exists d invJ r, inverseJacobian_wrapper RNum c 3 bases cell xi = Ok (d, invJ) /\
       scaling_inverseJacobian_wrapper RNum c [h 0; h 1; h 2] = Ok (d, r) /\
       Holds (owning [3; 3]) invJ (fun t => if nth 0 t 0 =? nth 1 t 0 then nth (Z.to_nat (nth 0 t 0)) r 0%R else 0%R)).
Proof.
  intros HE HN Hd HU Hx Hm Hc. assert (Hd3 : (length ds <= 3)%nat) by lia. assert (Hne : ds <> []) by (destruct ds; discriminate).
  assert (Hcn : counts ds = [2; 2; 2]).
  { destruct ds as [|d0 [|d1 [|d2 [|]]]]; try discriminate. unfold counts. cbn [map].
    inversion HU as [|? ? (E0 & _) HU1]; subst. inversion HU1 as [|? ? (E1 & _) HU2]; subst.
    inversion HU2 as [|? ? (E2 & _) _]; subst. now rewrite E0, E1, E2. }
  assert (Hsc : supportCounts RNum bases = Ok [2; 2; 2]) by (rewrite <- Hcn; now apply supportCounts_ok).
  destruct (setData_lemma RNum c bases 2 2 2 coords (fun k i => o i + (if Z.testbit k i then h i else 0))%R mem m) as (N & HS).
  { rewrite <- Hd. now apply bases_length. }
  { exact Hsc. }
  { unfold INT_MAX. lia. }
  { intros k i Hk Hi. apply Hc; lia. }
  { exact Hm. }
  exists N. intros fuel Hf. destruct (HS fuel Hf) as (cell & X & E & HX & _ & HXv).
  assert (HX' : Holds (owning (counts ds ++ [Z.of_nat (length ds)])) cell X) by (rewrite Hcn, Hd; exact HX).
  assert (Hbox : forall t i, InRange (counts ds) t -> 0 <= i < Z.of_nat (length ds) ->
     X (t ++ [i]) = (o i + IZR (nth (Z.to_nat i) t 0%Z) * h i)%R).
  { intros t i Ht Hi. rewrite Hcn in Ht. apply InRange3 in Ht. destruct Ht as (a & b & e & -> & Ha & Hb & He').
    rewrite Hd in Hi. cbn [app]. rewrite HXv by (auto; lia). rewrite testbit_row by lia.
    assert (C : i = 0 \/ i = 1 \/ i = 2) by lia.
    assert (Ca : a = 0 \/ a = 1) by lia. assert (Cb : b = 0 \/ b = 1) by lia. assert (Ce : e = 0 \/ e = 1) by lia.
    destruct C as [->|[->| ->]], Ca as [->| ->], Cb as [->| ->], Ce as [->| ->]; simpl; ring. }
  destruct (box_jacobian_lemma c bases ds cell X xi o h HE HN HU Hne Hd3 Hx HX' Hbox) as (J & EJ & HJ).
  rewrite Hd in EJ, HJ. change (Z.of_nat 3) with 3 in EJ, HJ.
  destruct (scaling_lemma c (h 0) (h 1) (h 2)) as (S1 & S2 & _).
  exists cell, J, [h 0%Z / 2; h 1%Z / 2; h 2%Z / 2]%R. split; [exact E|]. split; [exact EJ|]. split; [exact S1|]. split.
  - eapply Holds_ext; [|exact HJ]. intros t Ht. cbn [dims owning] in Ht. apply InRange2 in Ht.
    destruct Ht as (i & j & -> & Hi & Hj). cbn [nth]. destruct (i =? j); [|reflexivity].
    assert (C : i = 0 \/ i = 1 \/ i = 2) by lia. destruct C as [->|[->| ->]]; reflexivity.
  - intros N0 N1 N2.
    assert (HX3 : Holds (owning (counts ds ++ [3])) cell X) by (rewrite Hcn; exact HX).
    destruct (inverse_jacobian_lemma c bases ds cell X xi HE (Nodal_Differentiates ds HN) Hd Hx HX3) as (K & HK & I1 & _).
    destruct (jacobian_lemma c bases ds cell X xi HE (Nodal_Differentiates ds HN) Hne Hd3 Hx HX') as (J2 & Jm & EJ2 & _ & HJ2 & HP).
    rewrite Hd in EJ2, HJ2, HP. change (Z.of_nat 3) with 3 in *.
    assert (J2 = J) as -> by congruence.
    assert (HKd : forall i j, 0 <= i < 3 -> 0 <= j < 3 -> K i j = diag [h 0%Z / 2; h 1%Z / 2; h 2%Z / 2]%R [i; j]).
    { intros i j Hi Hj. transitivity (Jm [i; j]).
      - specialize (HK i (Z.to_nat j) Hi ltac:(lia)). specialize (HP i (Z.to_nat j) Hi ltac:(lia)).
        rewrite Z2Nat.id in HK, HP by lia. exact (uniqueness_limite _ _ _ _ HK HP).
      - assert (Hij : InRange [3; 3] [i; j]) by (apply InRange2; eauto).
        pose proof (Holds_fetch (T := R) c (owning [3;3]) pp [i; j] J Jm HJ2 Hij (pp_ok _)) as F1.
        pose proof (Holds_fetch (T := R) c (owning [3;3]) pp [i; j] J _ HJ Hij (pp_ok _)) as F2.
        assert (Ok (Jm [i; j]) = Ok ((fun t => if nth 0 t 0%Z =? nth 1 t 0%Z then (h (nth 0 t 0%Z) / 2)%R else 0%R) [i; j])) as F3 by exact (eq_trans (eq_sym F1) F2).
        injection F3 as F3. rewrite F3. unfold diag. cbn [nth]. destruct (i =? j); [|reflexivity].
        assert (C : i = 0 \/ i = 1 \/ i = 2) by lia. destruct C as [->|[->| ->]]; reflexivity. }
    assert (Hdet : det 3 K = (h 0%Z / 2 * (h 1%Z / 2) * (h 2%Z / 2))%R).
    { rewrite det3, !HKd by lia. unfold diag. simpl. ring. }
    assert (Hdn : det 3 K <> 0%R).
    { rewrite Hdet. repeat apply Rmult_integral_contrapositive_currified; try assumption; lra. }
    destruct (I1 Hdn) as (invJ & B & E3 & HB & HI). rewrite Hdet in E3.
    exists (h 0%Z / 2 * (h 1%Z / 2) * (h 2%Z / 2))%R, invJ, [/ (h 0%Z / 2); / (h 1%Z / 2); / (h 2%Z / 2)]%R.
    split; [exact E3|]. split; [now apply S2|].
    eapply Holds_ext; [|exact HB]. intros t Ht. cbn [dims owning] in Ht.
    apply (inverse_diag K B (h 0%Z / 2) (h 1%Z / 2) (h 2%Z / 2))%R; auto; lra.
Qed.

Lemma translation_lemma c bases ds mem mem' X X' xi (o : Z -> R) :
  Forall2 Evaluates bases ds -> Forall Nodal ds -> ds <> [] -> (length ds <= 3)%nat -> length xi = 3%nat ->
  Holds (owning (counts ds ++ [Z.of_nat (length ds)])) mem X ->
  Holds (owning (counts ds ++ [Z.of_nat (length ds)])) mem' X' ->
  (forall t i, InRange (counts ds) t -> 0 <= i < Z.of_nat (length ds) -> X' (t ++ [i]) = (X (t ++ [i]) + o i)%R) ->
  exists J, jacobian_wrapper RNum c (Z.of_nat (length ds)) bases mem xi = Ok J /\
    jacobian_wrapper RNum c (Z.of_nat (length ds)) bases mem' xi = Ok J.
Proof.
  intros HE HN Hne Hd Hx HX HX' Ht. assert (Hlx : (length ds <= length xi)%nat) by lia.
  pose proof (Nodal_Differentiates ds HN) as HD.
  destruct (jacobian_lemma c bases ds mem X xi HE HD Hne Hd Hx HX) as (J & Jm & E & L & HJ & HP).
  destruct (jacobian_lemma c bases ds mem' X' xi HE HD Hne Hd Hx HX') as (J' & Jm' & E' & L' & HJ' & HP').
  exists J. split; [exact E|]. rewrite E'. apply f_equal.
  set (D := Z.of_nat (length ds)) in *.
  assert (HJ2 : Holds (owning [D; D]) J' Jm).
  { eapply Holds_ext; [|exact HJ']. intros t Hr. cbn [dims owning] in Hr. apply InRange2 in Hr.
    destruct Hr as (i & j & -> & Hi & Hj). unfold D in Hi, Hj.
    specialize (HP i (Z.to_nat j) Hi ltac:(lia)). specialize (HP' i (Z.to_nat j) Hi ltac:(lia)).
    rewrite Z2Nat.id in HP, HP' by lia.
    assert (HT : Partial (fun p => BoxSum (counts ds) (fun t => tensor ds t p * X' (t ++ [i]))%R) (Z.to_nat j) xi (Jm [i; j])).
    { unfold Partial in *. 
      cut (derivable_pt_lim (fun s => BoxSum (counts ds) (fun t => tensor ds t (upd xi (Z.to_nat j) s) * X (t ++ [i])) + o i)%R
             (nth (Z.to_nat j) xi 0%R) (Jm [i; j] + 0)%R).
      - intros H. rewrite Rplus_0_r in H. eapply deriv_ext; [|exact H]. intros s. cbv beta.
        assert (El : (length ds <= length (upd xi (Z.to_nat j) s))%nat) by (rewrite upd_length; exact Hlx).
        rewrite <- (interp_const ds (o i) (upd xi (Z.to_nat j) s) HN El). unfold interp. rewrite <- BoxSum_plus.
        apply BoxSum_ext. intros t Hti. rewrite Ht by assumption. first [apply Rmult_plus_distr_l | symmetry; apply Rmult_plus_distr_l].
      - apply (derivable_pt_lim_plus _ (fun _ => o i)); [exact HP|apply derivable_pt_lim_const]. }
    first [exact (uniqueness_limite _ _ _ _ HP' HT) | exact (uniqueness_limite _ _ _ _ HT HP')]. }
  eapply (Holds_eq [D; D]); [exact HJ2|exact HJ|rewrite L'|rewrite L]; unfold prodZ; cbn [fold_right]; lia.
Qed.

Lemma inverse_accumulates_lemma c bases ds mem X xi :
  Forall2 Evaluates bases ds -> Forall Differentiates ds -> length ds = 3%nat -> (3 <= length xi)%nat ->
  Holds (owning (counts ds ++ [3])) mem X ->
  exists K : matrix,
    (forall i j, 0 <= i < 3 -> (j < 3)%nat ->
      Partial (fun p => BoxSum (counts ds) (fun t => tensor ds t p * X (t ++ [i]))%R) j xi (K i (Z.of_nat j))) /\
    forall J0 Jm, Holds (owning [3; 3]) J0 Jm ->
      let S := fun i j => (Jm [i; j] + K i j)%R in
      (det 3 S <> 0%R -> exists invJ B,
         inverseJacobian_point RNum c 3 bases mem xi J0 = Ok (invJ, det 3 S) /\
         Holds (owning [3; 3]) invJ B /\ Inverse 3 S (fun i j => B [i; j])) /\
      (det 3 S = 0%R -> inverseJacobian_point RNum c 3 bases mem xi J0 = UB DivByZero).
Proof.
  intros HE HD Hd Hx HX. assert (Hne : ds <> []) by (destruct ds; discriminate).
  destruct (dd_ok ds Hne ltac:(lia)) as (Hpd & Hm).
  assert (HX' : Holds (owning (counts ds ++ [Z.of_nat (length ds)])) mem X) by (rewrite Hd; exact HX).
  assert (Hlx : (length ds <= length xi)%nat) by (rewrite Hd; exact Hx).
  exists (fun i j => Jmat ds X xi [i; j]). split.
  - intros i j Hii Hj. apply Jmat_partial; [exact HD|exact Hlx|lia].
  - intros J0 Jm H0. assert (H0' : Holds (owning [Z.of_nat (length ds); Z.of_nat (length ds)]) J0 Jm) by (rewrite Hd; exact H0).
    destruct (jacobian_point_ok c ds X xi mem Hne Hpd Hm HX' bases HE Hlx J0 _ H0') as (J & He & Hh & _).
    rewrite Hd in He, Hh. change (Z.of_nat 3) with 3 in He, Hh.
    assert (Hw : inverseJacobian_point RNum c 3 bases mem xi J0 = inverse_a RNum c (owning [3; 3]) J).
    { unfold inverseJacobian_point, jacobian_array, numDims. rewrite (bases_length _ _ HE), Hd.
      change (Z.of_nat 3) with 3. rewrite He. reflexivity. }
    rewrite Hw. destruct (inverse_a33_lemma c (owning [3; 3]) J _ eq_refl eq_refl Hh) as (I1 & I2).
    cbv zeta. split.
    + intros Hdet. destruct (I1 Hdet) as (mem' & B & E & HB & _ & HI). exists mem', B. split; [exact E|]. split; assumption.
    + exact I2.
Qed.

Lemma setData_rows_lemma (F : Num) c bases n coords (X : Z -> Z -> T F) mem m :
  length bases = 3%nat -> supportCounts F bases = Ok [2; 2; n] ->
  (forall k i, 0 <= k < 4 * n -> 0 <= i < 3 -> coords k i = Ok (X k i)) ->
  Holds (owning [2; 2; n; 3]) mem m ->
  (exists N, forall fuel, (N <= fuel)%nat ->
   exists mem' m', setData F c bases coords fuel mem = Ok mem' /\
    Holds (owning [2; 2; n; 3]) (getData F mem') m' /\
    forall a b e i, 0 <= a < 2 -> 0 <= b < 2 -> 0 <= e < n -> 0 <= i < 3 ->
      m' [a; b; e; i] = X (a + 2 * b + 4 * e) i) /\
  (forall k, 0 <= k < 4 * n ->
   exists a b e, (0 <= a < 2 /\ 0 <= b < 2 /\ 0 <= e < n /\ a + 2 * b + 4 * e = k) /\
     forall a' b' e', 0 <= a' < 2 -> 0 <= b' < 2 -> 0 <= e' < n -> a' + 2 * b' + 4 * e' = k ->
       a' = a /\ b' = b /\ e' = e).
Proof.
  intros Hl Hc HX Hm. split; [|intros k; apply rows_bijective_lemma].
  pose proof Hm as ((Hpd & _) & _). destruct Hpd as (_ & Hpos & Hprod). cbn [dims owning] in Hpos, Hprod.
  assert (0 < n) by (do 2 (inversion Hpos as [|? ? _ Hpos']; subst; clear Hpos; rename Hpos' into Hpos); now inversion Hpos).
  unfold prodZ in Hprod. cbn [fold_right] in Hprod.
  destruct (setData_lemma F c bases 2 2 n coords X mem m Hl Hc ltac:(lia)) as (N & HN); [|exact Hm|].
  { intros k i Hk Hi. apply HX; lia. }
  exists N. intros fuel Hf. destruct (HN fuel Hf) as (mem' & m' & E & H1 & _ & H2). exists mem', m'. auto.
Qed.

Lemma lost_rows_lemma c :
  exists bases : list (basis RNum), exists p q : list Z,
    supportCounts RNum bases = Ok [3; 2; 2] /\ InRange [3; 2; 2] p /\ InRange [3; 2; 2] q /\ p <> q /\
    forall (X : Z -> Z -> R) mem m, Holds (owning [3; 2; 2; 3]) mem m ->
      exists N, forall fuel, (N <= fuel)%nat ->
      exists mem' m', setData RNum c bases (fun k i => Ok (X k i)) fuel mem = Ok mem' /\
        Holds (owning [3; 2; 2; 3]) mem' m' /\ forall i, 0 <= i < 3 -> m' (p ++ [i]) = m' (q ++ [i]).
Proof.
  exists (map (fun so => LagrangeBasis RNum (snd so) (fst so)) [(EqualSpacing, 2); (EqualSpacing, 1); (EqualSpacing, 1)]).
  exists [2; 0; 0], [0; 1; 0].
  destruct (lagrange_directions_lemma [(EqualSpacing, 2); (EqualSpacing, 1); (EqualSpacing, 1)]) as (ds & HE & _ & Hc & _).
  { repeat constructor; simpl; unfold INT_MAX; lia. }
  assert (Hs : supportCounts RNum (map (fun so => LagrangeBasis RNum (snd so) (fst so))
     [(EqualSpacing, 2); (EqualSpacing, 1); (EqualSpacing, 1)]) = Ok [3; 2; 2]).
  { etransitivity; [apply (supportCounts_ok _ ds HE)|]. rewrite Hc. reflexivity. }
  split; [exact Hs|]. split; [repeat (constructor; [lia|]); constructor|].
  split; [repeat (constructor; [lia|]); constructor|]. split; [discriminate|].
  intros X mem m Hm.
  destruct (setData_lemma RNum c _ 3 2 2 (fun k i => Ok (X k i)) X mem m (eq_refl : length (map (fun so => LagrangeBasis RNum (snd so) (fst so)) [(EqualSpacing, 2); (EqualSpacing, 1); (EqualSpacing, 1)]) = 3%nat) Hs) as (N & HN).
  { unfold INT_MAX; lia. } { reflexivity. } { exact Hm. }
  exists N. intros fuel Hf. destruct (HN fuel Hf) as (mem' & m' & E & H1 & _ & H2). exists mem', m'.
  split; [exact E|]. split; [exact H1|]. intros i Hi. cbn [app]. rewrite !H2 by lia. reflexivity.
Qed.

Lemma box_bases_lemma s : s = EqualSpacing \/ s = GaussLobattoSpacing ->
  exists d, Evaluates (LagrangeBasis RNum 1 s) d /\ Nodal d /\ npts d = 2 /\ pt d 0 = (-1)%R /\ pt d 1 = 1%R.
Proof.
  intros Hs. destruct (lagrange_direction s 1) as (d & HE & HN & Hn & HP).
  { destruct Hs as [->| ->]; unfold spec_ok, INT_MAX; cbn [fst snd]; lia. }
  exists d. split; [exact HE|]. split; [exact HN|]. split; [exact Hn|].
  change (1 + 1)%Z with 2 in HP. pose proof (HP 0 ltac:(lia)) as H0. pose proof (HP 1 ltac:(lia)) as H1.
  destruct Hs as [->| ->].
  - destruct (equal_spacing_lemma 2 ltac:(unfold INT_MAX; lia)) as (x & h & _ & _ & Hx & X0 & X1 & _).
    rewrite (proj1 (Hx 0)) in H0. rewrite (proj1 (Hx 1)) in H1. injection H0 as H0. injection H1 as H1.
    rewrite <- H0, <- H1. split; assumption.
  - destruct (lobatto_roots_lemma 2 ltac:(lia)) as (x & r & Hx & _ & _ & X0 & X1 & _).
    rewrite (Hx 0 ltac:(lia)) in H0. rewrite (Hx 1 ltac:(lia)) in H1. injection H0 as H0. injection H1 as H1.
    rewrite <- H0, <- H1. split; assumption.
Qed.
