(** Base layer shared by every model file: outcomes of C++ evaluations,
    32-bit [int] arithmetic, C++17 fold expressions.

    This file models the C++ language rules Shiva relies on, not a file of
    Shiva; each definition says which rule it stands for. *)
From Coq Require Export ZArith List Bool Lia.
From Coq Require Export ZifyBool ZifyNat.
Export ListNotations.
Open Scope Z_scope.

(** Kinds of undefined behaviour the modelled code can run into. *)
Inductive fault : Set :=
| IntOverflow     (* signed [int] overflow, [expr.pre]/4 *)
| OutOfBounds     (* element access / pointer arithmetic outside an object *)
| DivByZero       (* integer or (exact) real division by zero *)
| BadMemory       (* use of an unallocated, freed or uninitialised object *)
| DataRace.       (* conflicting unordered accesses of two threads, [intro.races]/21 *)

(** Result of evaluating a C++ expression or compiling the program that
    contains it. *)
Inductive outcome (A : Type) : Type :=
| Ok (a : A)       (* normal evaluation *)
| UB (f : fault)   (* undefined behaviour *)
| Aborted          (* std::abort on the host, trap on the device *)
| IllFormed        (* rejected by the compiler (static_assert, no overload,
                      non-constant constexpr, bad template argument) *)
| OutOfFuel.       (* the model's loop bound was exhausted *)
Arguments Ok {A} a.
Arguments UB {A} f.
Arguments Aborted {A}.
Arguments IllFormed {A}.
Arguments OutOfFuel {A}.

Definition bind {A B} (m : outcome A) (k : A -> outcome B) : outcome B :=
  match m with
  | Ok a => k a
  | UB f => UB f
  | Aborted => Aborted
  | IllFormed => IllFormed
  | OutOfFuel => OutOfFuel
  end.

Notation "x <- m ;; k" := (bind m (fun x => k))
  (at level 61, m at next level, right associativity).
Notation "' p <- m ;; k" := (bind m (fun p => k))
  (at level 61, p pattern, m at next level, right associativity).

Definition is_ok {A} (m : outcome A) : bool :=
  match m with Ok _ => true | _ => false end.

(** A constant expression may not evaluate to undefined behaviour
    ([expr.const]): the program is then ill-formed. *)
Definition constexpr_ {A} (m : outcome A) : outcome A :=
  match m with
  | UB _ => IllFormed
  | Aborted => IllFormed
  | x => x
  end.

(** [int] is 32-bit two's complement (every supported platform). *)
Definition INT_MIN : Z := -2147483648.
Definition INT_MAX : Z := 2147483647.
Definition int_ok (z : Z) : bool := (INT_MIN <=? z) && (z <=? INT_MAX).
Definition is_int (z : Z) : Prop := INT_MIN <= z <= INT_MAX.
Definition mkint (z : Z) : outcome Z := if int_ok z then Ok z else UB IntOverflow.

Definition iadd (a b : Z) : outcome Z := mkint (a + b).
Definition isub (a b : Z) : outcome Z := mkint (a - b).
Definition imul (a b : Z) : outcome Z := mkint (a * b).
(** Integer division truncates towards zero ([expr.mul]/4). *)
Definition idiv (a b : Z) : outcome Z :=
  if b =? 0 then UB DivByZero else mkint (Z.quot a b).

(** Fold expressions ([expr.prim.fold]), [op] being a checked operator.
    [(E op ... op I)], [(E op ...)] and [(I op ... op E)]; a unary fold over an
    empty pack is ill-formed for every operator used in Shiva except the comma. *)
Fixpoint fold_binary_right {A} (op : A -> A -> outcome A) (es : list (outcome A)) (i : outcome A)
  : outcome A :=
  match es with
  | [] => i
  | e :: es' => x <- e ;; y <- fold_binary_right op es' i ;; op x y
  end.

Fixpoint fold_unary_right {A} (op : A -> A -> outcome A) (es : list (outcome A)) : outcome A :=
  match es with
  | [] => IllFormed
  | [e] => e
  | e :: es' => x <- e ;; y <- fold_unary_right op es' ;; op x y
  end.

Fixpoint fold_binary_left {A} (op : A -> A -> outcome A) (i : outcome A) (es : list (outcome A))
  : outcome A :=
  match es with
  | [] => i
  | e :: es' => fold_binary_left op (x <- i ;; y <- e ;; op x y) es'
  end.

(** Comma fold [(E, ...)]: evaluate every element from left to right, threading
    the program state; the empty pack yields [void()]. *)
Fixpoint fold_comma {S} (es : list (S -> outcome S)) (s : S) : outcome S :=
  match es with
  | [] => Ok s
  | e :: es' => s' <- e s ;; fold_comma es' s'
  end.

(** [std::make_integer_sequence<int, N>]: 0, 1, ..., N-1; ill-formed for N < 0
    ([intseq.make]). *)
Definition zseq (n : nat) : list Z := map Z.of_nat (seq 0 n).
Definition make_integer_sequence (n : Z) : outcome (list Z) :=
  if n <? 0 then IllFormed else Ok (zseq (Z.to_nat n)).

(** Checked array element read and write; positions are C++ [int]s. *)
Definition rd {A} (l : list A) (i : Z) : outcome A :=
  if i <? 0 then UB OutOfBounds
  else match nth_error l (Z.to_nat i) with Some x => Ok x | None => UB OutOfBounds end.

Fixpoint upd {A} (l : list A) (i : nat) (x : A) : list A :=
  match l, i with
  | [], _ => []
  | _ :: t, O => x :: t
  | h :: t, S i' => h :: upd t i' x
  end.
Definition wr {A} (l : list A) (i : Z) (x : A) : outcome (list A) :=
  if (0 <=? i) && (i <? Z.of_nat (length l)) then Ok (upd l (Z.to_nat i) x) else UB OutOfBounds.

(** Run an action for every element of a list, in order. *)
Fixpoint foldM {A S} (f : A -> S -> outcome S) (l : list A) (s : S) : outcome S :=
  match l with
  | [] => Ok s
  | a :: l' => s' <- f a s ;; foldM f l' s'
  end.

(** Evaluate every element of a list of outcomes. *)
Fixpoint sequenceM {A} (l : list (outcome A)) : outcome (list A) :=
  match l with
  | [] => Ok []
  | e :: l' => x <- e ;; xs <- sequenceM l' ;; Ok (x :: xs)
  end.
