(** Mathematical vocabulary for the statements about MathUtilities.hpp and the shapes:
    counting, matrices, determinants. *)
From Verif Require Import Base.
From Coq Require Import Reals.
Open Scope Z_scope.

(** [n] is the number of objects satisfying [P]. *)
Definition Count {A} (P : A -> Prop) (n : Z) : Prop :=
  exists l : list A, NoDup l /\ (forall x, In x l <-> P x) /\ Z.of_nat (length l) = n.

(** A subset of an n-element set, as its membership vector, with [k] elements. *)
Definition Subset (n k : Z) (v : list bool) : Prop :=
  Z.of_nat (length v) = n /\ Z.of_nat (count_occ Bool.bool_dec v true) = k.

(** A face of the n-cube: each coordinate is fixed at its minimum, fixed at its
    maximum, or free; its dimension is the number of free coordinates. *)
Inductive side : Set := Lo | Hi | Free.
Definition side_eq_dec (a b : side) : {a = b} + {a <> b}.
Proof. decide equality. Defined.
Definition CubeFace (n m : Z) (f : list side) : Prop :=
  Z.of_nat (length f) = n /\ Z.of_nat (count_occ side_eq_dec f Free) = m.

(** A face of the n-simplex: a set of m+1 of its n+1 vertices. *)
Definition SimplexFace (n m : Z) (v : list bool) : Prop := Subset (n + 1) (m + 1) v.

(** Sums and products of lists of reals. *)
Definition Rsum (l : list R) : R := fold_right Rplus 0%R l.
Definition Rprod (l : list R) : R := fold_right Rmult 1%R l.

(** Square matrices are functions of a row and a column index. *)
Definition matrix := Z -> Z -> R.
Definition delta (i j : Z) : R := if i =? j then 1%R else 0%R.
Definition matmul (n : nat) (A B : matrix) : matrix :=
  fun i j => Rsum (map (fun k => A i k * B k j)%R (zseq n)).
Definition Inverse (n : nat) (A B : matrix) : Prop :=
  forall i j, 0 <= i < Z.of_nat n -> 0 <= j < Z.of_nat n ->
    matmul n A B i j = delta i j /\ matmul n B A i j = delta i j.

(** A 3x3 matrix as a list of its rows. *)
Definition rows_of {T} (A : Z -> Z -> T) : list (list T) :=
  map (fun i => map (fun j => A i j) [0; 1; 2]) [0; 1; 2].

(** The determinant, by the Leibniz formula: the sum over all permutations of the
    columns of the signed product of the selected entries. *)
Fixpoint insertions {A} (x : A) (l : list A) : list (list A) :=
  match l with
  | [] => [[x]]
  | y :: l' => (x :: l) :: map (cons y) (insertions x l')
  end.
Fixpoint permutations {A} (l : list A) : list (list A) :=
  match l with
  | [] => [[]]
  | x :: l' => flat_map (insertions x) (permutations l')
  end.
Fixpoint inversions (p : list Z) : nat :=
  match p with
  | [] => 0
  | x :: p' => length (filter (fun y => y <? x) p') + inversions p'
  end.
Definition sign (p : list Z) : R := if Nat.even (inversions p) then 1%R else (-1)%R.
Definition det (n : nat) (A : matrix) : R :=
  Rsum (map (fun p => sign p * Rprod (map (fun ij => A (fst ij) (snd ij)) (combine (zseq n) p)))%R
            (permutations (zseq n))).

(** Volume of the n-dimensional simplex spanned by an apex and n edges of length l along
    the axes, as a function of l, by Cavalieri's principle: the cross-section at
    distance t from the apex is the (n-1)-simplex of edge length t, so the volume
    vanishes at 0 and its derivative is the volume of the cross-section. *)
Inductive SimplexVolume : nat -> (R -> R) -> Prop :=
| SimplexVolume_0 : SimplexVolume 0 (fun _ => 1%R)
| SimplexVolume_S : forall n V W, SimplexVolume n V -> W 0%R = 0%R ->
    (forall t, derivable_pt_lim W t (V t)) -> SimplexVolume (S n) W.
