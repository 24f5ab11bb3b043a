(** C131: the nodal forces of a pressure, summed from gradients, determinants and inverse Jacobians. *)
From Coq Require Import ZArith Reals List Lia.
From Verif Require Import Base Num SpecIndex ModelAssert ModelCArray SpecCArray ProofCArray ModelSpacing ModelQuadrature ModelLagrange
  ModelBasisProduct ModelTransforms SpecNumeric SpecMath SpecBasis SpecIntegral SpecMesh SpecForce ProofTransform ProofForce ProofMesh ProofForceMesh.
Import ListNotations.
Open Scope Z_scope.

(** C131.  Cells of any order; [rs], [ws], [xs] any rule, exact or not.  The forces on the nodes of a cell add up to zero, *)
Theorem C131_balance : forall c bases ds rs ws xs mem X k (F : list Z -> R),
  Forall2 Evaluates bases ds -> Forall Nodal ds -> length ds = 3%nat -> length rs = 3%nat -> length xs = 3%nat ->
  Holds (owning (counts ds ++ [3])) mem X -> 0 <= k < 3 ->
  (forall t, InRange (counts ds) t -> NodeForce c bases rs ws xs mem t k (F t)) ->
  BoxSum (counts ds) F = 0%R.
Proof. exact balance_lemma. Qed.
Print Assumptions C131_balance.

(** and their moments are the computed volume on the diagonal and zero off it: no net torque. *)
Theorem C131_moments : forall c bases ds rs ws xs mem X k l (F : list Z -> R) v,
  Forall2 Evaluates bases ds -> length ds = 3%nat -> length rs = 3%nat -> length xs = 3%nat ->
  Holds (owning (counts ds ++ [3])) mem X -> 0 <= k < 3 -> 0 <= l < 3 ->
  (forall t, InRange (counts ds) t -> NodeForce c bases rs ws xs mem t k (F t)) -> QuadratureVolume c bases rs ws xs mem v ->
  BoxSum (counts ds) (fun t => X (t ++ [l]) * F t)%R = if l =? k then v else 0%R.
Proof. exact moment_lemma. Qed.
Print Assumptions C131_moments.

(** The work of the forces on a field of displacements is the integral of its derivative. *)
Theorem C131_work : forall c bases ds rs ws xs mem X k (F : list Z -> R) var u s,
  Forall2 Evaluates bases ds -> length ds = 3%nat -> length rs = 3%nat -> length xs = 3%nat ->
  Holds (owning (counts ds ++ [3])) mem X -> 0 <= k < 3 ->
  (forall t, InRange (counts ds) t -> NodeForce c bases rs ws xs mem t k (F t)) ->
  (forall t, InRange (counts ds) t -> var t = Ok (u t)) -> GradientIntegral c bases rs ws xs mem var k s ->
  BoxSum (counts ds) (fun t => u t * F t)%R = s.
Proof. exact gradient_lemma. Qed.
Print Assumptions C131_work.

(** Moving node [t] by [s] in direction [k] changes the computed volume by exactly [s] times the force: the force is the
    derivative of the volume. *)
Theorem C131_volume_change : forall c bases ds rs ws xs mem mem' X X' t k s f v v',
  Forall2 Evaluates bases ds -> length ds = 3%nat -> length rs = 3%nat -> length xs = 3%nat ->
  Holds (owning (counts ds ++ [3])) mem X -> Holds (owning (counts ds ++ [3])) mem' X' ->
  InRange (counts ds) t -> 0 <= k < 3 ->
  (forall t' i, InRange (counts ds) t' -> 0 <= i < 3 -> X' (t' ++ [i]) = (X (t' ++ [i]) + if andb (tuple_eqb t' t) (i =? k) then s else 0)%R) ->
  NodeForce c bases rs ws xs mem t k f -> QuadratureVolume c bases rs ws xs mem v -> QuadratureVolume c bases rs ws xs mem' v' ->
  v' = (v + s * f)%R.
Proof. exact derivative_lemma. Qed.
Print Assumptions C131_volume_change.

(** In a mesh of hexahedra, the forces that its cells exert on an inner vertex cancel, but for the error of the tabulated
    rules once per cell. *)
Theorem C131_equilibrium : forall c bases ds rs ws xs x mesh bd v i fs M n,
  Forall2 Evaluates bases ds -> Forall Nodal ds -> length ds = 3%nat ->
  Forall (fun d => npts d = 2 /\ pt d 0 = (-1)%R /\ pt d 1 = 1%R) ds ->
  Forall supported rs -> length rs = 3%nat -> Forall (fun r => 2 <= degree r) rs -> Rules rs ws xs ->
  (1 <= n)%nat -> Forall (fun r => (n <= digits r)%nat) rs ->
  0 <= i < 3 -> (0 < M)%R -> (forall p j, MeshVertex p mesh -> 0 <= j < 3 -> (Rabs (x p j) <= M)%R) ->
  BoundaryFaces mesh bd -> (forall f, In f bd -> ~ OnFace v f) -> Forall (OccursOnce v) mesh ->
  Forall2 (CellForce c bases rs ws xs x v i) mesh fs ->
  (Rabs (Rsum fs) <= INR (length mesh) * (27 * tenth n * (3456 * M ^ 2)))%R.
Proof. exact equilibrium_lemma. Qed.
Print Assumptions C131_equilibrium.

(** Forces exist wherever the Jacobian is regular at the quadrature points. *)
Example C131_forces_exist : forall c bases ds rs ws xs mem X t k,
  Forall2 Evaluates bases ds -> length ds = 3%nat -> length rs = 3%nat -> length xs = 3%nat ->
  Holds (owning (counts ds ++ [3])) mem X -> InRange (counts ds) t -> 0 <= k < 3 ->
  (forall q, InRange (map snd rs) q -> det 3 (fun i j => Jmat ds X (point_at xs q) [i; j]) <> 0%R) ->
  exists f, NodeForce c bases rs ws xs mem t k f.
Proof. exact force_exists. Qed.
(** The cube [0,2]^3 cut into eight cells: vertex 13 in the middle is on no boundary face, and every cell exerts a force on it. *)
Example C131_witness : BoundaryFaces eightCells outerFaces /\ (forall f, In f outerFaces -> ~ OnFace 13 f) /\
  Forall (OccursOnce 13) eightCells /\
  (forall p i, MeshVertex p eightCells -> 0 <= i < 3 -> (Rabs (IZR (corner p i)) <= 2)%R) /\
  forall c bases ds rs ws xs i, Forall2 Evaluates bases ds -> Forall Nodal ds -> length ds = 3%nat ->
    Forall (fun d => npts d = 2 /\ pt d 0 = (-1)%R /\ pt d 1 = 1%R) ds -> length xs = 3%nat -> length rs = 3%nat -> 0 <= i < 3 ->
    exists fs, Forall2 (CellForce c bases rs ws xs (fun v j => IZR (corner v j)) 13 i) eightCells fs.
Proof.
  split; [exact eight_boundary|]. split; [exact eight_inner|]. split; [exact eight_once|]. split; [exact eight_bound|exact eight_forces].
Qed.
