(** Specification for C116: the edges of a hexahedral cell and when they point the right way. *)
From Verif Require Import Base SpecIndex SpecMath SpecIntegral.
From Coq Require Import Reals.
Open Scope Z_scope.

(** The parent cell [-1, 1]^3. *)
Definition InCell (xi : list R) : Prop := Forall (fun x => -1 <= x <= 1)%R xi.

(** Component [i] of the edge of the cell along direction [j], from the vertex with 0 in place [j] to the one with 1;
    [a] and [b] are the other two places in order.  [X [a; b; e; i]]: coordinate [i] of the vertex (a, b, e). *)
Definition edge (X : list Z -> R) (j a b i : Z) : R :=
  match j with
  | 0 => X [1%Z; a; b; i] - X [0%Z; a; b; i]
  | 1 => X [a; 1%Z; b; i] - X [a; 0%Z; b; i]
  | _ => X [a; b; 1%Z; i] - X [a; b; 0%Z; i]
  end%R.

(** [m <= u . (v x w) <= M] for every choice of an edge [u], [v], [w] in each of the three directions: 64 parallelepipeds. *)
Definition EdgeTriples (X : list Z -> R) (m M : R) : Prop :=
  forall a0 b0 a1 b1 a2 b2, Forall (fun k => k = 0 \/ k = 1) [a0; b0; a1; b1; a2; b2] ->
    (m <= triple (edge X 0 a0 b0) (edge X 1 a1 b1) (edge X 2 a2 b2) <= M)%R.

(** Three directions in space, the rows of [M]: any edge along parent direction [i] goes further along row [i] than any
    two edges along the other two parent directions together. *)
Definition along (M : matrix) (i : Z) (X : list Z -> R) (j a b : Z) : R :=
  (M i 0%Z * edge X j a b 0 + M i 1%Z * edge X j a b 1 + M i 2%Z * edge X j a b 2)%R.
Definition Dominant (M : matrix) (X : list Z -> R) : Prop :=
  forall i j k, [i; j; k] = [0; 1; 2] \/ [i; j; k] = [1; 0; 2] \/ [i; j; k] = [2; 0; 1] ->
  forall a0 b0 a1 b1 a2 b2, Forall (fun k => k = 0 \/ k = 1) [a0; b0; a1; b1; a2; b2] ->
    (Rabs (along M i X j a1 b1) + Rabs (along M i X k a2 b2) < along M i X i a0 b0)%R.
