(** Which cells have the same Jacobian everywhere. *)
From Verif Require Import Base ProofBase Num SpecIndex ProofBox ModelSequence ModelIndex ProofIndex ModelAssert
  ModelCArray SpecCArray ProofCArray ProofRep ModelSpacing ModelQuadrature ModelLagrange ModelBasisProduct ModelMath ModelTransforms
  SpecNumeric SpecMath SpecBasis SpecIntegral ProofMath ProofSpacing ProofQuadrature ProofPoly ProofLagrange ProofTensor
  ProofTransform ProofIntegral ProofVolume.
From Coq Require Import QArith Reals Lra.
Open Scope Z_scope.

Lemma line (g : R -> R) a : (forall s, derivable_pt_lim g s a) -> forall s, g s = (g 0 + a * s)%R.
Proof.
  intros H s.
  assert (D : forall x, derivable_pt_lim (fun s => g s - a * s)%R x 0%R).
  { intros x. replace 0%R with (a - a * 1)%R by ring.
    apply (derivable_pt_lim_minus g (fun s => a * s)%R); [apply H|]. apply (derivable_pt_lim_scal id). apply derivable_pt_lim_id. }
  pose (pr := (fun x => exist _ 0%R (D x)) : derivable (fun s => g s - a * s)%R).
  pose proof (null_derivative_1 _ pr (fun x => eq_refl)) as C. unfold constant in C.
  specialize (C s 0%R). cbv beta in C. lra.
Qed.

Lemma upd_upd {A} (l : list A) : forall j x y, upd (upd l j x) j y = upd l j y.
Proof. induction l as [|a l IH]; intros [|j] x y; cbn [upd]; [reflexivity..|]. f_equal. apply IH. Qed.

(** The first [m] coordinates of a point, then zeros. *)
Definition upto (xi : list R) (m : nat) : list R := firstn m xi ++ repeat 0%R (length xi - m).
Lemma upto_length xi m : (m <= length xi)%nat -> length (upto xi m) = length xi.
Proof. intros H. unfold upto. rewrite app_length, firstn_length, repeat_length. lia. Qed.
Lemma upto_next xi : forall m, (m < length xi)%nat ->
  upto xi (S m) = upd (upto xi m) m (nth m xi 0%R) /\ upto xi m = upd (upto xi m) m 0%R.
Proof.
  unfold upto. induction xi as [|x xi IH]; intros m Hm; cbn [length] in Hm; [lia|]. destruct m as [|m].
  - cbn [firstn length Nat.sub app nth]. cbn [repeat upd]. rewrite Nat.sub_0_r. split; reflexivity.
  - destruct (IH m ltac:(lia)) as (E1 & E2). cbn [firstn length Nat.sub app nth upd] in *. split; f_equal; assumption.
Qed.
Lemma flat (f : list R -> R) (A : nat -> R) n L : (n <= L)%nat ->
  (forall xi j, length xi = L -> (j < n)%nat -> Partial f j xi (A j)) ->
  forall xi, length xi = L -> f (upto xi n) = (f (repeat 0%R L) + sumR (fun k => A k * nth k xi 0) (seq 0 n))%R.
Proof.
  intros Hn HP xi Hx.
  assert (G : forall m, (m <= n)%nat -> f (upto xi m) = (f (repeat 0%R L) + sumR (fun k => A k * nth k xi 0) (seq 0 m))%R).
  { induction m as [|m IH]; intros Hm.
    - unfold upto. cbn. rewrite Nat.sub_0_r, Hx. ring.
    - destruct (upto_next xi m ltac:(lia)) as (E1 & E2). rewrite E1, seq_S, sumR_app. cbn [Nat.add].
      rewrite <- Rplus_assoc, <- IH by lia. rewrite E2 at 2.
      rewrite (line (fun s => f (upd (upto xi m) m s)) (A m)); [cbn; ring|].
      intros s. assert (Lm : length (upto xi m) = L) by (rewrite upto_length by lia; exact Hx).
      pose proof (HP (upd (upto xi m) m s) m ltac:(rewrite upd_length; exact Lm) ltac:(lia)) as P. unfold Partial in P.
      rewrite nth_upd, Nat.eqb_refl in P by lia.
      eapply deriv_ext; [|exact P]. intros t. cbv beta. rewrite upd_upd. reflexivity. }
  apply G. lia.
Qed.

Lemma tensor_extra ds : forall t p q, length p = length ds -> tensor ds t (p ++ q) = tensor ds t p.
Proof.
  induction ds as [|d ds IH]; intros t p q Hp; [reflexivity|]. destruct p as [|x p]; [discriminate|].
  destruct t as [|i t]; [reflexivity|]. cbn [app tensor]. rewrite IH by (cbn in Hp; lia). reflexivity.
Qed.

(** The vertices are the image of the grid under an affine map. *)
Definition affine_image (ds : list direction) (X : list Z -> R) : Prop :=
  exists (o : Z -> R) (A : matrix), forall t i, InRange (counts ds) t -> 0 <= i < Z.of_nat (length ds) ->
     X (t ++ [i]) = (o i + Zsum (Z.of_nat (length ds)) (fun k => A i k * nth (Z.to_nat k) (gridpoint ds t) 0%R))%R.

Lemma Holds_same {T} ds (mem : list T) m m' : Holds (owning ds) mem m -> Holds (owning ds) mem m' ->
  forall t, InRange ds t -> m t = m' t.
Proof.
  intros (_ & H) (_ & H') t Ht. pose (c := {| tgt := Host; has_builtin := true; const_eval := false; bounds_check := true |}).
  specialize (H c {| brackets := 0; last := Paren |} t Ht (Nat.le_0_l _)).
  specialize (H' c {| brackets := 0; last := Paren |} t Ht (Nat.le_0_l _)). congruence.
Qed.

Section Constant.
Context (c : ctx) (bases : list (basis RNum)) (ds : list direction) (mem : list R) (X : list Z -> R).
Context (HE : Forall2 Evaluates bases ds) (HN : Forall Nodal ds) (H2 : Forall (fun d => 2 <= npts d) ds).
Context (Hne : ds <> []) (Hd : (length ds <= 3)%nat).
Context (HX : Holds (owning (counts ds ++ [Z.of_nat (length ds)])) mem X).
Let J xi := jacobian_wrapper RNum c (Z.of_nat (length ds)) bases mem xi.
Lemma constant_affine : (forall xi xi', length xi = 3%nat -> length xi' = 3%nat -> J xi = J xi') -> affine_image ds X.
Proof.
  intros HC.
  destruct (jacobian_lemma c bases ds mem X (repeat 0%R 3) HE (Nodal_Differentiates ds HN) Hne Hd eq_refl HX) as (J0 & K & E0 & _ & H0 & _).
  assert (P : forall xi i j, length xi = 3%nat -> 0 <= i < Z.of_nat (length ds) -> (j < length ds)%nat ->
    Partial (fun p => BoxSum (counts ds) (fun t => tensor ds t p * X (t ++ [i]))%R) j xi (K [i; Z.of_nat j])).
  { intros xi i j Hx Hi Hj.
    destruct (jacobian_lemma c bases ds mem X xi HE (Nodal_Differentiates ds HN) Hne Hd Hx HX) as (J1 & K1 & E1 & _ & H1 & P1).
    assert (E : J0 = J1). { pose proof (HC (repeat 0%R 3) xi eq_refl Hx) as Q. unfold J in Q. rewrite E0, E1 in Q. injection Q. auto. }
    subst J1. rewrite (Holds_same _ _ _ _ H0 H1); [apply P1; assumption|]. apply InRange2. exists i, (Z.of_nat j). repeat split; lia. }
  exists (fun i => BoxSum (counts ds) (fun t => tensor ds t (repeat 0 3) * X (t ++ [i]))%R), (fun i k => K [i; k]).
  intros t i Ht Hi. pose proof (gridpoint_length ds t Ht) as Lg.
  pose proof (flat _ (fun j => K [i; Z.of_nat j]) (length ds) 3 Hd (fun xi j Hx Hj => P xi i j Hx Hi Hj)
    (gridpoint ds t ++ repeat 0%R (3 - length ds)) ltac:(rewrite app_length, repeat_length, Lg; lia)) as F. cbv beta in F.
  assert (U : upto (gridpoint ds t ++ repeat 0%R (3 - length ds)) (length ds) = gridpoint ds t ++ repeat 0%R (3 - length ds)).
  { unfold upto. rewrite app_length, repeat_length, Lg. rewrite firstn_app, <- Lg, Nat.sub_diag, firstn_all. cbn [firstn].
    rewrite app_nil_r. f_equal. f_equal. lia. }
  rewrite U in F.
  assert (V : BoxSum (counts ds) (fun t0 => tensor ds t0 (gridpoint ds t ++ repeat 0 (3 - length ds)) * X (t0 ++ [i]))%R = X (t ++ [i])).
  { rewrite <- (interp_nodal ds (fun s => X (s ++ [i])) t HN Ht). unfold interp. apply BoxSum_ext. intros s _.
    rewrite tensor_extra by exact Lg. reflexivity. }
  rewrite V in F. rewrite F. f_equal. rewrite Zsum_sumR, Nat2Z.id. unfold zseq. rewrite sumR_map. apply sumR_ext. intros k Hk.
  rewrite Nat2Z.id. f_equal. rewrite app_nth1; [reflexivity|]. apply in_seq in Hk. lia.
Qed.
Lemma affine_constant : affine_image ds X -> forall xi xi', length xi = 3%nat -> length xi' = 3%nat -> J xi = J xi'.
Proof.
  intros (o & A & HA) xi xi' Hx Hx'.
  destruct (affine_jacobian_lemma c bases ds mem X xi o A HE HN H2 Hne Hd Hx HX HA) as (J1 & E1 & H1).
  destruct (affine_jacobian_lemma c bases ds mem X xi' o A HE HN H2 Hne Hd Hx' HX HA) as (J1' & E1' & H1').
  destruct (jacobian_lemma c bases ds mem X xi HE (Nodal_Differentiates ds HN) Hne Hd Hx HX) as (J2 & ? & E2 & L2 & _).
  destruct (jacobian_lemma c bases ds mem X xi' HE (Nodal_Differentiates ds HN) Hne Hd Hx' HX) as (J2' & ? & E2' & L2' & _).
  unfold J. rewrite E1, E1'. rewrite E1 in E2. rewrite E1' in E2'. injection E2 as <-. injection E2' as <-.
  f_equal. eapply Holds_eq; [exact H1|exact H1'| |].
  - rewrite L2. unfold prodZ. cbn [fold_right]. ring.
  - rewrite L2'. unfold prodZ. cbn [fold_right]. ring.
Qed.
End Constant.
Lemma constant_lemma c bases ds mem X :
  Forall2 Evaluates bases ds -> Forall Nodal ds -> Forall (fun d => 2 <= npts d) ds ->
  ds <> [] -> (length ds <= 3)%nat -> Holds (owning (counts ds ++ [Z.of_nat (length ds)])) mem X ->
  ((forall xi xi', length xi = 3%nat -> length xi' = 3%nat ->
      jacobian_wrapper RNum c (Z.of_nat (length ds)) bases mem xi = jacobian_wrapper RNum c (Z.of_nat (length ds)) bases mem xi') <->
   affine_image ds X).
Proof.
  intros HE HN H2 Hne Hd HX. split; [exact (constant_affine c bases ds mem X HE HN Hne Hd HX)|].
  exact (affine_constant c bases ds mem X HE HN H2 Hne Hd HX).
Qed.

(** The eight-vertex cell: a parallelepiped. *)
Definition edges (X : list Z -> R) (a b e i : Z) : R :=
  (X [0; 0; 0; i]%Z + IZR a * (X [1; 0; 0; i]%Z - X [0; 0; 0; i]%Z) + IZR b * (X [0; 1; 0; i]%Z - X [0; 0; 0; i]%Z)
   + IZR e * (X [0; 0; 1; i]%Z - X [0; 0; 0; i]%Z))%R.
Lemma hex_constant c bases ds mem X :
  Forall2 Evaluates bases ds -> Forall Nodal ds -> length ds = 3%nat ->
  Forall (fun d => npts d = 2 /\ pt d 0 = (-1)%R /\ pt d 1 = 1%R) ds ->
  Holds (owning [2; 2; 2; 3]) mem X ->
  ((forall xi xi', In xi [[-1; -1; -1]; [-1; -1; 1]; [-1; 1; -1]; [-1; 1; 1]; [1; -1; -1]; [1; -1; 1]; [1; 1; -1]; [1; 1; 1]]%R ->
      In xi' [[-1; -1; -1]; [-1; -1; 1]; [-1; 1; -1]; [-1; 1; 1]; [1; -1; -1]; [1; -1; 1]; [1; 1; -1]; [1; 1; 1]]%R ->
      jacobian_wrapper RNum c 3 bases mem xi = jacobian_wrapper RNum c 3 bases mem xi') ->
   forall a b e i, InRange [2; 2; 2; 3] [a; b; e; i] -> X [a; b; e; i] = edges X a b e i) /\
  ((forall a b e i, InRange [2; 2; 2; 3] [a; b; e; i] -> X [a; b; e; i] = edges X a b e i) ->
   forall xi xi', length xi = 3%nat -> length xi' = 3%nat ->
     jacobian_wrapper RNum c 3 bases mem xi = jacobian_wrapper RNum c 3 bases mem xi').
Proof.
  intros HE HN L3 HU HX. destruct ds as [|d0 [|d1 [|d2 [|]]]]; try discriminate. clear L3.
  assert (U := HU). inversion U as [|? ? (N0 & M0 & P0) U1]; subst. inversion U1 as [|? ? (N1 & M1 & P1) U2]; subst.
  inversion U2 as [|? ? (N2 & M2 & P2) _]; subst. clear U U1 U2.
  assert (C : counts [d0; d1; d2] = [2; 2; 2]) by (unfold counts; cbn [map]; rewrite N0, N1, N2; reflexivity).
  assert (HX' : Holds (owning (counts [d0; d1; d2] ++ [Z.of_nat (length [d0; d1; d2])])) mem X) by (rewrite C; exact HX).
  assert (Hne : [d0; d1; d2] <> []) by discriminate. assert (Hd : (length [d0; d1; d2] <= 3)%nat) by (cbn; lia).
  pose proof (Nodal_Differentiates _ HN) as HD. split.
  - intros HC.
    destruct (jacobian_lemma c bases _ mem X [-1; -1; -1]%R HE HD Hne Hd eq_refl HX') as (J0 & K & E0 & _ & H0 & _).
    assert (Q : forall x y z i, (x = -1 \/ x = 1)%R -> (y = -1 \/ y = 1)%R -> (z = -1 \/ z = 1)%R -> 0 <= i < 3 ->
      (bil (colA X) i y z = K [i; 0] /\ bil (colB X) i x z = K [i; 1] /\ bil (colC X) i x y = K [i; 2])%Z).
    { intros x y z i Hx Hy Hz Hi.
      destruct (jacobian_lemma c bases _ mem X [x; y; z] HE HD Hne Hd eq_refl HX') as (J1 & K1 & E1 & _ & H1 & P).
      assert (E : J0 = J1).
      { assert (E : jacobian_wrapper RNum c 3 bases mem [-1; -1; -1]%R = jacobian_wrapper RNum c 3 bases mem [x; y; z]).
        { apply HC; [left; reflexivity|]. cbn [In]. destruct Hx as [-> | ->], Hy as [-> | ->], Hz as [-> | ->]; auto 10. }
        change (Z.of_nat (length [d0; d1; d2])) with 3 in E0, E1. rewrite E0, E1 in E. injection E. auto. }
      subst J1. destruct (Jmat_hex d0 d1 d2 X x y z i HN HU) as (<- & <- & <-).
      assert (G : forall j, (j < 3)%nat -> Jmat [d0; d1; d2] X [x; y; z] [i; Z.of_nat j] = K [i; Z.of_nat j]).
      { intros j Hj. rewrite (Holds_same _ _ _ _ H0 H1); [|apply InRange2; exists i, (Z.of_nat j); cbn; repeat split; lia].
        eapply uniqueness_limite; [|exact (P i j Hi Hj)].
        exact (Jmat_partial [d0; d1; d2] X [x; y; z] i j HD ltac:(cbn; lia) Hj). }
      exact (conj (G 0%nat ltac:(lia)) (conj (G 1%nat ltac:(lia)) (G 2%nat ltac:(lia)))). }
    clear HC. intros a b e i Ht.
    do 4 (apply InRange_cons in Ht; let u := fresh in let r := fresh in let E := fresh in
      destruct Ht as (u & r & E & ? & Ht); injection E as <- <-).
    assert (Hi : 0 <= i < 3) by assumption.
    pose proof (Q (-1)%R (-1)%R (-1)%R i ltac:(auto) ltac:(auto) ltac:(auto) Hi) as (A1 & B1 & C1).
    pose proof (Q (-1)%R (-1)%R (1)%R i ltac:(auto) ltac:(auto) ltac:(auto) Hi) as (A2 & B2 & C2).
    pose proof (Q (-1)%R (1)%R (-1)%R i ltac:(auto) ltac:(auto) ltac:(auto) Hi) as (A3 & B3 & C3).
    pose proof (Q (1)%R (-1)%R (-1)%R i ltac:(auto) ltac:(auto) ltac:(auto) Hi) as (A4 & B4 & C4).
    pose proof (Q (1)%R (1)%R (1)%R i ltac:(auto) ltac:(auto) ltac:(auto) Hi) as (A5 & B5 & C5).
    clear Q. unfold bil, colA, colB, colC, four, s8, sg in *. cbn [Z.eqb] in *. unfold edges.
    assert (Ca : a = 0 \/ a = 1) by lia. assert (Cb : b = 0 \/ b = 1) by lia. assert (Ce : e = 0 \/ e = 1) by lia.
    destruct Ca as [-> | ->], Cb as [-> | ->], Ce as [-> | ->]; cbv iota in *; lra.
  - intros HP. apply (affine_constant c bases [d0; d1; d2] mem X HE HN); try assumption.
    { repeat constructor; lia. }
    exists (fun i => (X [1; 0; 0; i]%Z + X [0; 1; 0; i]%Z + X [0; 0; 1; i]%Z - X [0; 0; 0; i]%Z) / 2)%R,
      (fun i k => (X [if k =? 0 then 1 else 0; if k =? 1 then 1 else 0; if k =? 2 then 1 else 0; i]%Z - X [0; 0; 0; i]%Z) / 2)%R.
    intros t i Ht Hi. rewrite C in Ht.
    do 3 (apply InRange_cons in Ht; let u := fresh "u" in let r := fresh "r" in
      destruct Ht as (u & r & -> & ? & Ht)). apply InRange_nil in Ht. subst.
    cbn [app]. cbn [length] in Hi. rewrite HP.
    2:{ repeat (apply InRange_cons; do 2 eexists; split; [reflexivity|split; [assumption || exact Hi|]]). apply InRange_nil. reflexivity. }
    unfold edges. cbn [length]. unfold Zsum. change (zseq (Z.to_nat (Z.of_nat 3))) with [0; 1; 2]. cbn [map fold_right gridpoint].
    change (Z.to_nat 0) with 0%nat. change (Z.to_nat 1) with 1%nat. change (Z.to_nat 2) with 2%nat. cbn [nth Z.eqb Pos.eqb].
    assert (G : forall d u, npts d = 2 -> pt d 0 = (-1)%R -> pt d 1 = 1%R -> 0 <= u < 2 -> pt d u = (2 * IZR u - 1)%R).
    { intros d v _ E0 E1 Hu. assert (Cu : v = 0 \/ v = 1) by lia. destruct Cu as [-> | ->]; rewrite ?E0, ?E1; lra. }
    rewrite (G d0), (G d1), (G d2) by assumption. field.
Qed.

(** The map of the box with corner [o] and edges [h]. *)
Definition box_map (o h : list R) (i : nat) (p : list R) : R := (nth i o 0 + nth i h 0 * ((nth i p 0 + 1) / 2))%R.
Lemma box_partial o h i j xi : (i < length xi)%nat -> (j < length xi)%nat ->
  Partial (box_map o h i) j xi (if Nat.eqb i j then nth i h 0 / 2 else 0)%R.
Proof.
  intros Hi Hj. unfold Partial, box_map. destruct (Nat.eqb_spec i j) as [<- |N].
  - apply (deriv_ext (peval [nth i o 0 + nth i h 0 / 2; nth i h 0 / 2]%R)).
    { intros t. rewrite nth_upd, Nat.eqb_refl by assumption. cbn [peval]. field. }
    pose proof (peval_deriv [nth i o 0 + nth i h 0 / 2; nth i h 0 / 2]%R (nth i xi 0)%R) as E.
    replace (peval (pderiv _) (nth i xi 0%R)) with (nth i h 0 / 2)%R in E by (cbn; field). exact E.
  - apply (deriv_ext (fun _ => nth i o 0 + nth i h 0 * ((nth i xi 0 + 1) / 2))%R).
    { intros t. rewrite nth_upd by assumption. destruct (Nat.eqb_spec i j); [contradiction|reflexivity]. }
    apply derivable_pt_lim_const.
Qed.
Lemma scaling_constant c (h0 h1 h2 : R) o : exists s : list R, scaling_jacobian_wrapper RNum c [h0; h1; h2] = Ok s /\
  forall xi i j, length xi = 3%nat -> (i < 3)%nat -> (j < 3)%nat ->
    Partial (box_map o [h0; h1; h2] i) j xi (if Nat.eqb i j then nth i s 0%R else 0%R).
Proof.
  exists [h0 / 2; h1 / 2; h2 / 2]%R. split; [apply scaling_lemma|]. intros xi i j Hx Hi Hj.
  replace (if Nat.eqb i j then nth i [h0 / 2; h1 / 2; h2 / 2] 0 else 0)%R
    with (if Nat.eqb i j then nth i [h0; h1; h2] 0 / 2 else 0)%R; [apply box_partial; lia|].
  destruct (Nat.eqb i j); [|reflexivity]. destruct i as [|[|[|]]]; [reflexivity..|lia].
Qed.
Lemma uniform_constant c (h : R) o : exists v : R, uniform_jacobian_wrapper RNum c h = Ok [v] /\
  forall xi i j, length xi = 3%nat -> (i < 3)%nat -> (j < 3)%nat ->
    Partial (box_map o [h; h; h] i) j xi (if Nat.eqb i j then v else 0%R).
Proof.
  exists (h / 2)%R. split; [apply uniform_R_lemma|]. intros xi i j Hx Hi Hj.
  replace (if Nat.eqb i j then h / 2 else 0)%R
    with (if Nat.eqb i j then nth i [h; h; h] 0 / 2 else 0)%R; [apply box_partial; lia|].
  destruct (Nat.eqb i j); [|reflexivity]. destruct i as [|[|[|]]]; [reflexivity..|lia].
Qed.
Lemma linear_varies : exists bases cell xi xi' J J', (length bases = 3 /\ length xi = 3 /\ length xi' = 3)%nat /\
    jacobian_wrapper QNum (host_runtime true) 3 bases cell xi = Ok J /\
    jacobian_wrapper QNum (host_runtime true) 3 bases cell xi' = Ok J' /\ ~ Forall2 Qeq J J'.
Proof.
  exists [LagrangeBasis QNum 1 EqualSpacing; LagrangeBasis QNum 1 EqualSpacing; LagrangeBasis QNum 1 EqualSpacing],
    [0;0;0; 0;1;4; 0;3;0; 0;4;4; 2;0;0; 2;1;4; 2;3;0; 2;4;5]%Q, [-1; -1; -1]%Q, [1; 1; 1]%Q. do 2 eexists.
  split; [repeat split|]. split; [vm_compute; reflexivity|]. split; [vm_compute; reflexivity|].
  intros H. do 6 (inversion H as [|? ? ? ? _ H']; subst; clear H; rename H' into H).
  inversion H as [|? ? ? ? E _]; subst. vm_compute in E. discriminate.
Qed.
