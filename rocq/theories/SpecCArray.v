(** Vocabulary for stating properties of arrays: well-formedness of array types
    and views, contexts, and the abstract array a history of operations should
    behave like. *)
From Verif Require Import Base SpecIndex ModelAssert ModelCArray.

(** A valid dimension pack: not empty, all positive, product representable. *)
Definition pos_dims (ds : list Z) : Prop :=
  ds <> [] /\ Forall (fun d => 0 < d) ds /\ prodZ ds <= INT_MAX.

(** The array or view [a] lies inside a buffer of [n] elements. *)
Definition view_ok (n : Z) (a : arr) : Prop :=
  pos_dims (dims a) /\ 0 <= base a /\ base a + prodZ (dims a) <= n.

(** A path uses at most as many brackets as the array has dimensions. *)
Definition path_ok (p : path) (a : arr) : Prop := (brackets p <= length (dims a))%nat.

(** Run time, with / without SHIVA_ENABLE_BOUNDS_CHECK. *)
Definition runtime_checked (c : ctx) : Prop := bounds_check c = true /\ const_eval c = false.
Definition unchecked (c : ctx) : Prop := bounds_check c = false /\ const_eval c = false.

(** Buffer positions that do not belong to [a]. *)
Definition outside (a : arr) (k : nat) : Prop :=
  Z.of_nat k < base a \/ base a + prodZ (dims a) <= Z.of_nat k.

(** A history uses in-range tuples only. *)
Definition op_ok {T} (a : arr) (o : aop T) : Prop :=
  match o with
  | OpPut p idx _ => InRange (dims a) idx /\ path_ok p a
  | OpGet p idx => InRange (dims a) idx /\ path_ok p a
  end.

(** What a history should do to an abstract array: writes update one tuple, reads
    return the current value of one tuple (most recent write, or the initial
    value). Returns the final abstract array and the values read, in order. *)
Fixpoint spec_run {T} (m : amap T) (ops : list (aop T)) : amap T * list T :=
  match ops with
  | [] => (m, [])
  | OpPut _ idx x :: ops' => spec_run (aset m idx x) ops'
  | OpGet _ idx :: ops' => let '(m', vs) := spec_run m ops' in (m', m idx :: vs)
  end.

(** The array object [a] in the buffer [mem] holds the values [m]: every read, in any
    context and along any path, of the tuple [t] yields [m t]. *)
Definition Holds {T} (a : arr) (mem : list T) (m : amap T) : Prop :=
  view_ok (buflen mem) a /\
  forall c p t, InRange (dims a) t -> path_ok p a -> fetch c a p t mem = Ok (m t).

(** [mem'] differs from [mem] at most in elements of [a]. *)
Definition SameOutside {T} (a : arr) (mem mem' : list T) : Prop :=
  length mem' = length mem /\ forall k, outside a k -> nth_error mem' k = nth_error mem k.
