(** Meshes of hexahedra: cells that share vertices and faces, and the volumes a caller adds up over them. *)
From Coq Require Import ZArith List Reals Permutation.
From Flocq Require Import Core IEEE754.BinarySingleNaN.
From Verif Require Import Base Num SpecIndex ModelB64 SpecB64 ModelF32 SpecF32 ModelAssert ModelCArray SpecCArray ModelSpacing ModelQuadrature ModelLagrange
  ModelBasisProduct ModelTransforms SpecNumeric SpecMath SpecBasis SpecElement64 SpecElement32 SpecIntegral SpecVolume.
Import ListNotations.
Open Scope Z_scope.

(** A cell names its vertices by their place (a,b,e), each 0 or 1, in the reference cell; a face is the cycle of its four
    vertices, counterclockwise for somebody who looks at the reference cell from outside. *)
Definition hexcell (V : Type) : Type := Z -> Z -> Z -> V.
Definition quad (V : Type) : Type := (V * V * V * V)%type.
Definition cellFaces {V} (k : hexcell V) : list (quad V) :=
  [ (k 0 0 0, k 0 0 1, k 0 1 1, k 0 1 0); (k 1 0 0, k 1 1 0, k 1 1 1, k 1 0 1);
    (k 0 0 0, k 1 0 0, k 1 0 1, k 0 0 1); (k 0 1 0, k 0 1 1, k 1 1 1, k 1 1 0);
    (k 0 0 0, k 0 1 0, k 1 1 0, k 1 0 0); (k 0 0 1, k 1 0 1, k 1 1 1, k 0 1 1) ].

(** The cycle started one vertex later, and the cycle as seen from the other side. *)
Definition turn {V} (f : quad V) : quad V := let '(p, q, r, s) := f in (q, r, s, p).
Definition flip {V} (f : quad V) : quad V := let '(p, q, r, s) := f in (s, r, q, p).
(** The same face, seen from the other side. *)
Definition Opposite {V} (f g : quad V) : Prop := exists k, g = Nat.iter k turn (flip f).
(** The faces fall into pairs of opposite faces. *)
Inductive Paired {V} : list (quad V) -> Prop :=
| no_pairs : Paired []
| a_pair f g l : Opposite f g -> Paired l -> Paired (f :: g :: l).
(** The faces of the mesh are those in [bd] and pairs of faces shared by two cells. *)
Definition BoundaryFaces {V} (mesh : list (hexcell V)) (bd : list (quad V)) : Prop :=
  exists inner, Permutation (flat_map cellFaces mesh) (bd ++ inner) /\ Paired inner.
Definition OnFace {V} (v : V) (f : quad V) : Prop := let '(p, q, r, s) := f in v = p \/ v = q \/ v = r \/ v = s.
(** A vertex of a cell; a vertex of a mesh. *)
Definition CellVertex {V} (v : V) (k : hexcell V) : Prop := exists a b e, 0 <= a < 2 /\ 0 <= b < 2 /\ 0 <= e < 2 /\ v = k a b e.
Definition MeshVertex {V} (v : V) (mesh : list (hexcell V)) : Prop := exists k, In k mesh /\ CellVertex v k.

(** The volume, with sign, between the origin and a face: the mean over the two ways to cut the face into triangles of
    the volumes of two tetrahedra with apex 0. *)
Definition tetrahedron (p q r : Z -> R) : R := (triple p q r / 6)%R.
Definition cone {V} (x : V -> Z -> R) (f : quad V) : R :=
  let '(p, q, r, s) := f in
  (((tetrahedron (x p) (x q) (x r) + tetrahedron (x p) (x r) (x s)) +
    (tetrahedron (x p) (x q) (x s) + tetrahedron (x q) (x r) (x s))) / 2)%R.

(** [X] holds the coordinates of the vertices of the cell. *)
Definition Vertices {V A} (x : V -> Z -> A) (k : hexcell V) (X : list Z -> A) : Prop :=
  forall a b e i, 0 <= a < 2 -> 0 <= b < 2 -> 0 <= e < 2 -> 0 <= i < 3 -> X [a; b; e; i] = x (k a b e) i.

(** [v] is the sum of weights times determinants for the cell [k], the determinants being those that [inverseJacobian]
    returns for the cell at the points of the rules. *)
Definition CellVolume {V} (c : ctx) (bases : list (basis RNum)) (rs : list (rule * Z)) (ws xs : list (Z -> R)) (x : V -> Z -> R) (k : hexcell V) (v : R) : Prop :=
  exists mem X detJ, Holds (owning [2; 2; 2; 3]) mem X /\ Vertices x k X /\
    (forall q, InRange (map snd rs) q -> exists invJ,
       inverseJacobian_wrapper RNum c 3 bases mem (point_at xs q) = Ok (detJ (point_at xs q), invJ)) /\
    v = quadrature rs ws xs detJ.
(** The same with determinants in doubles and in floats. *)
Definition CellVolume64 {V} (c : ctx) (bases : list (basis B64Num)) (rs : list (rule * Z)) (ws xs : list (Z -> b64)) (x : V -> Z -> b64) (k : hexcell V) (v : R) : Prop :=
  exists mem X (D : list Z -> b64), Holds (owning [2; 2; 2; 3]) mem X /\ Vertices x k X /\
    (forall q, InRange (map snd rs) q -> exists invJ,
       inverseJacobian_wrapper B64Num c 3 bases mem (pick xs q) = Ok (D q, invJ)) /\
    v = BoxSum (map snd rs) (fun q => product (map B2R (pick ws q)) * B2R (D q))%R.
Definition CellVolume32 {V} (c : ctx) (bases : list (basis F32Num)) (rs : list (rule * Z)) (ws xs : list (Z -> b32)) (x : V -> Z -> b32) (k : hexcell V) (v : R) : Prop :=
  exists mem X (D : list Z -> b32), Holds (owning [2; 2; 2; 3]) mem X /\ Vertices x k X /\
    (forall q, InRange (map snd rs) q -> exists invJ,
       inverseJacobian_wrapper F32Num c 3 bases mem (pick xs q) = Ok (D q, invJ)) /\
    v = BoxSum (map snd rs) (fun q => product (map B2R (pick ws q)) * B2R (D q))%R.
