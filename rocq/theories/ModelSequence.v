(** Model of include/shiva/common/SequenceUtilities.hpp and
    include/shiva/common/NestedSequenceUtilities.hpp. *)
From Verif Require Import Base.

(** SequenceUtilities.hpp:65-83, [IntPackPeeler<I, FIRST, REST...>::value()].
    The pack is a list; instantiating the template with an empty pack (no
    [FIRST]) is ill-formed.  A negative [I] never meets the specialisation for
    0 and recurses until the pack is empty, which is ill-formed too. *)
Fixpoint IntPackPeeler (I : Z) (pack : list Z) : outcome Z :=
  match pack with
  | [] => IllFormed
  | FIRST :: REST => if I =? 0 then Ok FIRST else IntPackPeeler (I - 1) REST
  end.

(** Types of call arguments, as far as overload resolution in
    SequenceUtilities.hpp:130 can tell them apart: an index
    ([std::integral_constant<int,k>]) or an object of user type number [n]. *)
Inductive argty : Set := TIndex | TUser (n : nat).

(** A function object as seen by [SequenceExpansion::execute]: which argument
    type lists its call operator accepts ([std::is_invocable_v]), whether it has a
    member template [operator()<int...>(args)], and what the calls do.  [A] is the
    type of user arguments. *)
Record callee (A R : Type) := {
  accepts  : list argty -> bool;
  call     : list A -> list Z -> outcome R;        (* func( args..., indices... ) *)
  has_tmpl : list argty -> bool;
  call_tmpl : list Z -> list A -> outcome R        (* func.operator()<indices...>( args... ) *)
}.
Arguments accepts {A R}. Arguments call {A R}. Arguments has_tmpl {A R}. Arguments call_tmpl {A R}.

(** SequenceUtilities.hpp:124-145, [SequenceExpansion<int_sequence<IDX...>>::execute].
    Line 130 tests invocability with the indices *first*; lines 134-135 call with
    the user arguments first. [tys] are the types of the user arguments. *)
Definition execute {A R} (f : callee A R) (idx : list Z) (tys : list argty) (args : list A)
  : outcome R :=
  let ity := repeat TIndex (length idx) in
  if accepts f (ity ++ tys)
  then (if accepts f (tys ++ ity) then call f args idx else IllFormed)
  else (if has_tmpl f tys then call_tmpl f idx args else IllFormed).

(** SequenceUtilities.hpp:199-207, [executeSequence<END>( func, args... )]. *)
Definition executeSequence {A R} (END : Z) (f : callee A R) (tys : list argty) (args : list A)
  : outcome R :=
  idx <- make_integer_sequence END ;; execute f idx tys args.

(** SequenceUtilities.hpp:155-178, [SequenceExpansion<int_sequence<IDX...>>::staticFor]:
    a comma fold calling the body with each index; the two branches (index as
    function argument, lines 162-168, or as template argument, 171-177) make the
    same calls. [func] takes the index and the program state. *)
Definition staticFor {S} (idx : list Z) (func : Z -> S -> outcome S) (s : S) : outcome S :=
  fold_comma (map func idx) s.

(** SequenceUtilities.hpp:220-226, [forSequence<END>( func )]. *)
Definition forSequence {S} (END : Z) (func : Z -> S -> outcome S) (s : S) : outcome S :=
  idx <- make_integer_sequence END ;; staticFor idx func s.

(** NestedSequenceUtilities.hpp:39-72,
    [NestedSequenceExpansion<END, REMAINING_ENDS...>::staticForNested( func, indices... )].
    An empty pack has no [END]: ill-formed. *)
Fixpoint staticForNested {S} (ENDS : list Z) (func : list Z -> S -> outcome S)
  (indices : list Z) (s : S) : outcome S :=
  match ENDS with
  | [] => IllFormed
  | [END] => forSequence END (fun idx => func (indices ++ [idx])) s
  | END :: REMAINING_ENDS =>
      forSequence END (fun idx => staticForNested REMAINING_ENDS func (indices ++ [idx])) s
  end.

(** NestedSequenceUtilities.hpp:84-104, both overloads of [forNestedSequence]. *)
Definition forNestedSequence {S} (ENDS : list Z) (func : list Z -> S -> outcome S) (s : S)
  : outcome S := staticForNested ENDS func [] s.
