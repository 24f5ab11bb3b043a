(** Specification vocabulary for multi-indices.  Nothing here refers to the
    model; it is ordinary mathematics about tuples of integers. *)
From Coq Require Import ZArith List Sorting.Sorted.
Import ListNotations.
Open Scope Z_scope.

(** [InBox lo hi t]: the tuple [t] has lo_k <= t_k < hi_k in every component. *)
Inductive InBox : list Z -> list Z -> list Z -> Prop :=
| InBox_nil : InBox [] [] []
| InBox_cons : forall l h i lo hi t,
    l <= i < h -> InBox lo hi t -> InBox (l :: lo) (h :: hi) (i :: t).

(** In range for an array with the given dimensions: 0 <= t_k < d_k. *)
Definition InRange (dims t : list Z) : Prop := InBox (repeat 0 (length dims)) dims t.

(** Lexicographic order on tuples of equal length: the first component in which
    they differ decides, so the last component varies fastest. *)
Inductive LexLt : list Z -> list Z -> Prop :=
| LexLt_here : forall a b s t, a < b -> length s = length t -> LexLt (a :: s) (b :: t)
| LexLt_next : forall a s t, LexLt s t -> LexLt (a :: s) (a :: t).

(** [LexEnum lo hi E]: [E] lists exactly the tuples of the box, each once, in
    increasing lexicographic order. *)
Definition LexEnum (lo hi : list Z) (E : list (list Z)) : Prop :=
  StronglySorted LexLt E /\ NoDup E /\ (forall t, In t E <-> InBox lo hi t).

(** [k] is the row-major position of tuple [t] in an array with dimensions
    [dims]: [t] is entry number [k] of the lexicographic enumeration. *)
Definition RowMajorPos (dims t : list Z) (k : Z) : Prop :=
  0 <= k /\
  exists E, LexEnum (repeat 0 (length dims)) dims E /\ nth_error E (Z.to_nat k) = Some t.

(** Product of a list of integers. *)
Definition prodZ (l : list Z) : Z := fold_right Z.mul 1 l.

(** Number of tuples in range. *)
Definition CountInRange (dims : list Z) (n : Z) : Prop :=
  exists E, LexEnum (repeat 0 (length dims)) dims E /\ Z.of_nat (length E) = n.

(** The textbook row-major formula: t_0*d_1*d_2*... + t_1*d_2*... + ... *)
Fixpoint flat_offset (dims t : list Z) : Z :=
  match dims, t with
  | _ :: ds, i :: t' => i * prodZ ds + flat_offset ds t'
  | _, _ => 0
  end.

(** Sum of the absolute values of the terms of [flat_offset]. *)
Fixpoint flat_offset_abs (dims t : list Z) : Z :=
  match dims, t with
  | _ :: ds, i :: t' => Z.abs i * prodZ ds + flat_offset_abs ds t'
  | _, _ => 0
  end.

(** Abstract array: a function from tuples to values, with point update. *)
Definition amap (T : Type) := list Z -> T.
Definition tuple_eqb (a b : list Z) : bool :=
  if list_eq_dec Z.eq_dec a b then true else false.
Definition aset {T} (m : amap T) (t : list Z) (x : T) : amap T :=
  fun u => if tuple_eqb u t then x else m u.
