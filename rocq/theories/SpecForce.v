(** The forces of a pressure on the nodes of a cell, summed by a caller over quadrature points from gradients, determinants
    and inverse Jacobians of the library. *)
From Coq Require Import ZArith List Reals.
From Verif Require Import Base Num SpecIndex ModelAssert ModelCArray SpecCArray ModelSpacing ModelQuadrature ModelLagrange
  ModelBasisProduct ModelTransforms SpecNumeric SpecMath SpecBasis SpecIntegral SpecMesh.
Import ListNotations.
Open Scope Z_scope.

(** The volume: the sum of weights times determinants. *)
Definition QuadratureVolume (c : ctx) (bases : list (basis RNum)) (rs : list (rule * Z)) (ws xs : list (Z -> R)) (mem : list R) (v : R) : Prop :=
  exists detJ, (forall q, InRange (map snd rs) q -> exists invJ,
      inverseJacobian_wrapper RNum c 3 bases mem (point_at xs q) = Ok (detJ (point_at xs q), invJ)) /\
    v = quadrature rs ws xs detJ.

(** The force on node [t] in direction [k]: the sum of weight, determinant and k-th component of the physical gradient
    sum_j g_j * invJ[j][k] of the shape function of the node, [g] being its gradient on the parent cell. *)
Definition NodeForce (c : ctx) (bases : list (basis RNum)) (rs : list (rule * Z)) (ws xs : list (Z -> R)) (mem : list R) (t : list Z) (k : Z) (f : R) : Prop :=
  exists h, (forall q, InRange (map snd rs) q -> exists g d invJ B,
      parent_gradient_at RNum 3 bases t (point_at xs q) = Ok g /\
      inverseJacobian_wrapper RNum c 3 bases mem (point_at xs q) = Ok (d, invJ) /\ Holds (owning [3; 3]) invJ B /\
      h (point_at xs q) = (d * Rsum (map (fun j => nth (Z.to_nat j) g 0 * B [j; k]) (zseq 3)))%R) /\
    f = quadrature rs ws xs h.

(** The integral of the k-th physical derivative of the field [var]. *)
Definition GradientIntegral (c : ctx) (bases : list (basis RNum)) (rs : list (rule * Z)) (ws xs : list (Z -> R)) (mem : list R)
  (var : list Z -> outcome R) (k : Z) (s : R) : Prop :=
  exists h, (forall q, InRange (map snd rs) q -> exists g d invJ B,
      parent_gradient RNum c 3 bases var (point_at xs q) = Ok g /\
      inverseJacobian_wrapper RNum c 3 bases mem (point_at xs q) = Ok (d, invJ) /\ Holds (owning [3; 3]) invJ B /\
      h (point_at xs q) = (d * Rsum (map (fun j => nth (Z.to_nat j) g 0 * B [j; k]) (zseq 3)))%R) /\
    s = quadrature rs ws xs h.

(** The force on vertex [v] of a mesh in direction [i] from the cell [k]: zero if [v] is no vertex of the cell. *)
Definition CellForce (c : ctx) (bases : list (basis RNum)) (rs : list (rule * Z)) (ws xs : list (Z -> R)) (x : Z -> Z -> R) (v i : Z) (k : hexcell Z) (f : R) : Prop :=
  (exists a b e mem X, 0 <= a < 2 /\ 0 <= b < 2 /\ 0 <= e < 2 /\ k a b e = v /\
     Holds (owning [2; 2; 2; 3]) mem X /\ Vertices x k X /\ NodeForce c bases rs ws xs mem [a; b; e] i f) \/
  (~ CellVertex v k /\ f = 0%R).
(** The vertex occurs only once in the cell. *)
Definition OccursOnce (v : Z) (k : hexcell Z) : Prop :=
  forall a b e a' b' e', 0 <= a < 2 -> 0 <= b < 2 -> 0 <= e < 2 -> 0 <= a' < 2 -> 0 <= b' < 2 -> 0 <= e' < 2 ->
    k a b e = v -> k a' b' e' = v -> a = a' /\ b = b' /\ e = e'.
