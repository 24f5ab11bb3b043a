(** C116: when a hexahedral cell is not inverted anywhere, and its map one to one. *)
From Verif Require Import Base Num SpecIndex SpecMath ModelAssert ModelCArray ModelSpacing ModelLagrange ModelBasisProduct
  ModelMath ModelTransforms SpecCArray SpecNumeric SpecBasis SpecIntegral SpecGeometry ProofGeometry.
From Coq Require Import Reals Lra.
Open Scope Z_scope.

(** Everywhere in the cell, eight times the determinant lies between the smallest and the largest of the 64 triple
    products of edges.  If all of these are positive, the inverse exists everywhere in the cell. *)
Theorem C116_edge_triples : forall c bases ds mem X xi m M,
  Forall2 Evaluates bases ds -> Forall Nodal ds -> length ds = 3%nat ->
  Forall (fun d => npts d = 2 /\ pt d 0 = (-1)%R /\ pt d 1 = 1%R) ds ->
  Holds (owning [2; 2; 2; 3]) mem X -> EdgeTriples X m M -> length xi = 3%nat -> InCell xi ->
  (exists J K, jacobian_wrapper RNum c 3 bases mem xi = Ok J /\ Holds (owning [3; 3]) J K /\
     (m <= 8 * det 3 (fun i j => K [i; j]) <= M)%R) /\
  ((0 < m)%R -> exists d invJ, inverseJacobian_wrapper RNum c 3 bases mem xi = Ok (d, invJ) /\ (m <= 8 * d <= M)%R).
Proof. exact edge_triples_lemma. Qed.
Print Assumptions C116_edge_triples.

(** Dominant edges: the inverse exists everywhere in the cell, the determinant never changes sign, and no two points
    of the parent cell have the same coordinates (the interpolant of the vertex coordinates) in space. *)
Theorem C116_one_to_one : forall c bases ds mem X M,
  Forall2 Evaluates bases ds -> Forall Nodal ds -> length ds = 3%nat ->
  Forall (fun d => npts d = 2 /\ pt d 0 = (-1)%R /\ pt d 1 = 1%R) ds ->
  Holds (owning [2; 2; 2; 3]) mem X -> Dominant M X ->
  (forall xi, length xi = 3%nat -> InCell xi -> exists d invJ,
     inverseJacobian_wrapper RNum c 3 bases mem xi = Ok (d, invJ) /\ (0 < det 3 M * d)%R) /\
  (forall xi eta, length xi = 3%nat -> length eta = 3%nat -> InCell xi -> InCell eta ->
     (forall i, 0 <= i < 3 -> parent_value RNum 3 bases (fun t => Ok (X (t ++ [i]))) xi = parent_value RNum 3 bases (fun t => Ok (X (t ++ [i]))) eta) ->
     xi = eta).
Proof. exact dominant_lemma. Qed.
Print Assumptions C116_one_to_one.

(** A positive determinant at finitely many points - vertices, quadrature points, however many - does not settle it:
    there is a cell with positive determinant at all of them and a negative one elsewhere in the cell. *)
Theorem C116_finite_check_refuted : forall c (pts : list (list R)), Forall (fun p => length p = 3%nat /\ InCell p) pts ->
  let b := LagrangeBasis RNum 1 EqualSpacing in
  exists mem X, Holds (owning [2; 2; 2; 3]) mem X /\
    (forall p, In p pts -> exists d invJ, inverseJacobian_wrapper RNum c 3 [b; b; b] mem p = Ok (d, invJ) /\ (0 < d)%R) /\
    exists xi d invJ, length xi = 3%nat /\ InCell xi /\ inverseJacobian_wrapper RNum c 3 [b; b; b] mem xi = Ok (d, invJ) /\ (d < 0)%R.
Proof. exact finite_check_lemma. Qed.
Print Assumptions C116_finite_check_refuted.

(** In two dimensions the four vertices do settle it. *)
Theorem C116_quadrilateral : forall c bases ds mem X,
  Forall2 Evaluates bases ds -> Forall Nodal ds -> length ds = 2%nat ->
  Forall (fun d => npts d = 2 /\ pt d 0 = (-1)%R /\ pt d 1 = 1%R) ds -> Holds (owning [2; 2; 2]) mem X ->
  exists D : list R -> R,
    (forall xi, length xi = 3%nat -> exists J K, jacobian_wrapper RNum c 2 bases mem xi = Ok J /\ Holds (owning [2; 2]) J K /\
       det 2 (fun i j => K [i; j]) = D xi) /\
    forall m M xi, (forall s t, s = 1%R \/ s = (-1)%R -> t = 1%R \/ t = (-1)%R -> (m <= D [s; t; 0%R] <= M)%R) ->
      length xi = 3%nat -> InCell xi -> (m <= D xi <= M)%R.
Proof. exact quadrilateral_lemma. Qed.
Print Assumptions C116_quadrilateral.

(** A box with edges 4, 4, 4 whose vertices are moved by up to 1/2: edges dominate along the axes, and all triple
    products are between 16 and 150.  The vertex (1, 1, 1) is moved by (1/2, -1/2, 1/2), the vertex (0, 1, 0) by
    (0, 1/2, -1/2). *)
Definition C116_cell (t : list Z) : R :=
  match t with
  | [a; b; e; i] =>
      (4 * IZR (if i =? 0 then a else if i =? 1 then b else e) +
       (if (a =? 1) && (b =? 1) && (e =? 1) then (if i =? 1 then -1 / 2 else 1 / 2) else 0) +
       (if (a =? 0) && (b =? 1) && (e =? 0) then (if i =? 0 then 0 else if i =? 1 then 1 / 2 else -1 / 2) else 0))%R
  | _ => 0%R
  end.
Lemma bits a0 b0 a1 b1 a2 b2 : Forall (fun k => k = 0 \/ k = 1) [a0; b0; a1; b1; a2; b2] ->
  (a0 = 0 \/ a0 = 1) /\ (b0 = 0 \/ b0 = 1) /\ (a1 = 0 \/ a1 = 1) /\ (b1 = 0 \/ b1 = 1) /\ (a2 = 0 \/ a2 = 1) /\ (b2 = 0 \/ b2 = 1).
Proof.
  intros H. rewrite Forall_forall in H. repeat split; apply H; cbn; auto 10.
Qed.
Example C116_hypotheses :
  Dominant (fun i j => if i =? j then 1%R else 0%R) C116_cell /\ EdgeTriples C116_cell 16 150 /\
  exists mem, Holds (owning [2; 2; 2; 3]) mem C116_cell.
Proof.
  split; [|split].
  - intros i j k H a0 b0 a1 b1 a2 b2 HB. apply bits in HB. destruct HB as (A0 & B0 & A1 & B1 & A2 & B2).
    destruct H as [H|[H|H]]; injection H as -> -> ->;
      destruct A0 as [->| ->], B0 as [->| ->], A1 as [->| ->], B1 as [->| ->], A2 as [->| ->], B2 as [->| ->];
      unfold along, edge, C116_cell; cbn; unfold Rabs; repeat destruct Rcase_abs; lra.
  - intros a0 b0 a1 b1 a2 b2 HB. apply bits in HB. destruct HB as (A0 & B0 & A1 & B1 & A2 & B2).
    destruct A0 as [->| ->], B0 as [->| ->], A1 as [->| ->], B1 as [->| ->], A2 as [->| ->], B2 as [->| ->];
      unfold triple, edge, C116_cell; cbn; lra.
  - exists (cell_buffer C116_cell). apply cell_buffer_holds.
Qed.
