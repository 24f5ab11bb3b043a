(** C130: the computed volumes of the cells of a mesh add up to the volume inside its boundary. *)
From Coq Require Import ZArith Reals List Lia Lra.
From Flocq Require Import Core IEEE754.BinarySingleNaN.
From Verif Require Import Base Num SpecIndex ModelB64 SpecB64 ModelF32 SpecF32 ModelAssert ModelCArray SpecCArray ModelSpacing ModelQuadrature ModelLagrange
  ModelBasisProduct ModelTransforms SpecNumeric SpecMath SpecBasis SpecElement64 SpecElement32 SpecIntegral SpecVolume SpecMesh ProofMesh.
Import ListNotations.
Open Scope Z_scope.

(** C130.  The volume formula of a cell is the sum of the cones over its six faces, and two cells count a face they share
    with opposite signs. *)
Theorem C130_cell_faces : forall (V : Type) (x : V -> Z -> R) (k : hexcell V),
  hexVolume (fun a b e => x (k a b e)) = Rsum (map (cone x) (cellFaces k)).
Proof. exact @hex_cones. Qed.
Print Assumptions C130_cell_faces.
Theorem C130_shared_face : forall (V : Type) (x : V -> Z -> R) (f g : quad V), Opposite f g -> cone x g = (- cone x f)%R.
Proof. intros V x f g H. pose proof (cone_opposite x f g H). lra. Qed.
Print Assumptions C130_shared_face.

(** Over the reals: the volumes [vs] that a caller computes for the cells of a mesh with boundary [bd] add up to the sum of
    the cones over the faces of [bd], but for the error of the tabulated rules, [n] digits, once per cell. *)
Theorem C130_mesh_volume : forall (V : Type) c bases ds rs ws xs (x : V -> Z -> R) mesh bd vs M n,
  Forall2 Evaluates bases ds -> Forall Nodal ds -> length ds = 3%nat ->
  Forall (fun d => npts d = 2 /\ pt d 0 = (-1)%R /\ pt d 1 = 1%R) ds ->
  Forall supported rs -> length rs = 3%nat -> Forall (fun r => 2 <= degree r) rs -> Rules rs ws xs ->
  (1 <= n)%nat -> Forall (fun r => (n <= digits r)%nat) rs ->
  (forall p i, MeshVertex p mesh -> 0 <= i < 3 -> (Rabs (x p i) <= M)%R) ->
  BoundaryFaces mesh bd -> Forall2 (CellVolume c bases rs ws xs x) mesh vs ->
  (Rabs (Rsum vs - Rsum (map (cone x) bd)) <= INR (length mesh) * (27 * tenth n * (384 * M ^ 3)))%R.
Proof. exact @mesh_volume_lemma. Qed.
Print Assumptions C130_mesh_volume.

(** Moving the inner vertices leaves the total as it is. *)
Theorem C130_moved_mesh : forall (V : Type) c bases ds rs ws xs (x y : V -> Z -> R) mesh bd vs us M n,
  Forall2 Evaluates bases ds -> Forall Nodal ds -> length ds = 3%nat ->
  Forall (fun d => npts d = 2 /\ pt d 0 = (-1)%R /\ pt d 1 = 1%R) ds ->
  Forall supported rs -> length rs = 3%nat -> Forall (fun r => 2 <= degree r) rs -> Rules rs ws xs ->
  (1 <= n)%nat -> Forall (fun r => (n <= digits r)%nat) rs ->
  (forall p i, MeshVertex p mesh -> 0 <= i < 3 -> (Rabs (x p i) <= M)%R) -> (forall p i, MeshVertex p mesh -> 0 <= i < 3 -> (Rabs (y p i) <= M)%R) ->
  BoundaryFaces mesh bd -> (forall p i f, In f bd -> OnFace p f -> 0 <= i < 3 -> x p i = y p i) ->
  Forall2 (CellVolume c bases rs ws xs x) mesh vs -> Forall2 (CellVolume c bases rs ws xs y) mesh us ->
  (Rabs (Rsum vs - Rsum us) <= 2 * INR (length mesh) * (27 * tenth n * (384 * M ^ 3)))%R.
Proof. exact @moved_mesh_lemma. Qed.
Print Assumptions C130_moved_mesh.

(** With determinants in doubles, *)
Theorem C130_mesh_volume_double : forall (V : Type) c specs rs ws xs (x : V -> Z -> b64) mesh bd vs L,
  Hex64 specs -> Rules64 rs ws xs -> length rs = 3%nat -> Forall supported rs ->
  Forall (fun r => 2 <= degree r) rs -> (bpow radix2 (-110) <= L <= bpow radix2 290)%R ->
  (forall p i, MeshVertex p mesh -> 0 <= i < 3 -> is_finite (x p i) = true /\ (Rabs (B2R (x p i)) <= L)%R) ->
  BoundaryFaces mesh bd -> Forall2 (CellVolume64 c (map basis64 specs) rs ws xs x) mesh vs ->
  (Rabs (Rsum vs - Rsum (map (cone (fun p i => B2R (x p i))) bd))
     <= INR (length mesh) * (20000 * bpow radix2 (- (if forallb (fun r => (snd r <=? 5)%Z) rs then 53 else 45)) * L ^ 3))%R.
Proof. exact @mesh_volume64. Qed.
Print Assumptions C130_mesh_volume_double.
Theorem C130_moved_mesh_double : forall (V : Type) c specs rs ws xs (x y : V -> Z -> b64) mesh bd vs us L,
  Hex64 specs -> Rules64 rs ws xs -> length rs = 3%nat -> Forall supported rs ->
  Forall (fun r => 2 <= degree r) rs -> (bpow radix2 (-110) <= L <= bpow radix2 290)%R ->
  (forall p i, MeshVertex p mesh -> 0 <= i < 3 -> is_finite (x p i) = true /\ (Rabs (B2R (x p i)) <= L)%R) ->
  (forall p i, MeshVertex p mesh -> 0 <= i < 3 -> is_finite (y p i) = true /\ (Rabs (B2R (y p i)) <= L)%R) ->
  BoundaryFaces mesh bd -> (forall p i f, In f bd -> OnFace p f -> 0 <= i < 3 -> x p i = y p i) ->
  Forall2 (CellVolume64 c (map basis64 specs) rs ws xs x) mesh vs -> Forall2 (CellVolume64 c (map basis64 specs) rs ws xs y) mesh us ->
  (Rabs (Rsum vs - Rsum us) <= 2 * INR (length mesh) * (20000 * bpow radix2 (- (if forallb (fun r => (snd r <=? 5)%Z) rs then 53 else 45)) * L ^ 3))%R.
Proof. exact @moved_mesh64. Qed.
Print Assumptions C130_moved_mesh_double.

(** and in floats. *)
Theorem C130_mesh_volume_float : forall (V : Type) c specs rs ws xs (x : V -> Z -> b32) mesh bd vs L,
  Hex64 specs -> Rules32 rs ws xs -> length rs = 3%nat -> Forall supported rs ->
  Forall (fun r => 2 <= degree r) rs -> (bpow radix2 (-8) <= L <= bpow radix2 20)%R ->
  (forall p i, MeshVertex p mesh -> 0 <= i < 3 -> is_finite (x p i) = true /\ (Rabs (B2R (x p i)) <= L)%R) ->
  BoundaryFaces mesh bd -> Forall2 (CellVolume32 c (map basis32 specs) rs ws xs x) mesh vs ->
  (Rabs (Rsum vs - Rsum (map (cone (fun p i => B2R (x p i))) bd)) <= INR (length mesh) * (15000 * bpow radix2 (-23) * L ^ 3))%R.
Proof. exact @mesh_volume32. Qed.
Print Assumptions C130_mesh_volume_float.
Theorem C130_moved_mesh_float : forall (V : Type) c specs rs ws xs (x y : V -> Z -> b32) mesh bd vs us L,
  Hex64 specs -> Rules32 rs ws xs -> length rs = 3%nat -> Forall supported rs ->
  Forall (fun r => 2 <= degree r) rs -> (bpow radix2 (-8) <= L <= bpow radix2 20)%R ->
  (forall p i, MeshVertex p mesh -> 0 <= i < 3 -> is_finite (x p i) = true /\ (Rabs (B2R (x p i)) <= L)%R) ->
  (forall p i, MeshVertex p mesh -> 0 <= i < 3 -> is_finite (y p i) = true /\ (Rabs (B2R (y p i)) <= L)%R) ->
  BoundaryFaces mesh bd -> (forall p i f, In f bd -> OnFace p f -> 0 <= i < 3 -> x p i = y p i) ->
  Forall2 (CellVolume32 c (map basis32 specs) rs ws xs x) mesh vs -> Forall2 (CellVolume32 c (map basis32 specs) rs ws xs y) mesh us ->
  (Rabs (Rsum vs - Rsum us) <= 2 * INR (length mesh) * (15000 * bpow radix2 (-23) * L ^ 3))%R.
Proof. exact @moved_mesh32. Qed.
Print Assumptions C130_moved_mesh_float.

(** The cube [0,2]^3 cut into eight unit cubes around the vertex 13 at (1,1,1): its 24 outer faces are the boundary, vertex
    13 lies on none of them, the cones over them add up to 8, and each cell has a computed volume. *)
Example C130_witness : BoundaryFaces eightCells outerFaces /\ length outerFaces = 24%nat /\
  (forall f, In f outerFaces -> ~ OnFace 13 f) /\
  Rsum (map (cone (fun v i => IZR (corner v i))) outerFaces) = 8%R /\
  (forall p i, MeshVertex p eightCells -> 0 <= i < 3 -> (Rabs (IZR (corner p i)) <= 2)%R) /\
  forall c bases ds rs ws xs, Forall2 Evaluates bases ds -> Forall Nodal ds -> length ds = 3%nat ->
    Forall (fun d => npts d = 2 /\ pt d 0 = (-1)%R /\ pt d 1 = 1%R) ds -> length xs = 3%nat -> length rs = 3%nat ->
    exists vs, Forall2 (CellVolume c bases rs ws xs (fun v i => IZR (corner v i))) eightCells vs.
Proof.
  split; [exact eight_boundary|]. split; [reflexivity|]. split; [exact eight_inner|]. split; [exact eight_cones|]. split; [exact eight_bound|exact eight_volumes].
Qed.
(** In doubles and floats every cell has a computed volume. *)
Example C130_volumes_double : forall (V : Type) c specs rs ws xs (x : V -> Z -> b64) L k,
  Hex64 specs -> Rules64 rs ws xs -> length rs = 3%nat -> Forall supported rs ->
  Forall (fun r => 2 <= degree r) rs -> (bpow radix2 (-110) <= L <= bpow radix2 290)%R ->
  (forall p i, CellVertex p k -> 0 <= i < 3 -> is_finite (x p i) = true /\ (Rabs (B2R (x p i)) <= L)%R) ->
  exists v, CellVolume64 c (map basis64 specs) rs ws xs x k v.
Proof. exact @volume64_exists. Qed.
Example C130_volumes_float : forall (V : Type) c specs rs ws xs (x : V -> Z -> b32) L k,
  Hex64 specs -> Rules32 rs ws xs -> length rs = 3%nat -> Forall supported rs ->
  Forall (fun r => 2 <= degree r) rs -> (bpow radix2 (-8) <= L <= bpow radix2 20)%R ->
  (forall p i, CellVertex p k -> 0 <= i < 3 -> is_finite (x p i) = true /\ (Rabs (B2R (x p i)) <= L)%R) ->
  exists v, CellVolume32 c (map basis32 specs) rs ws xs x k v.
Proof. exact @volume32_exists. Qed.
