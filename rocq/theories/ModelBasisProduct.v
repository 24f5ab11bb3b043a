(** Model of include/shiva/functions/bases/BasisProduct.hpp (C++17 branches),
    include/shiva/geometry/shapes/InterpolatedShape.hpp and
    include/shiva/discretizations/finiteElementMethod/parentElements/ParentElement.hpp. *)
From Verif Require Import Base Num ModelAssert ModelCArray ModelSequence ModelLagrange.
Open Scope Z_scope.

Section BasisProduct.
Context (F : Num).
(** BASIS_TYPES... *)
Context (bases : list (basis F)).

(** BasisProduct.hpp:37. *)
Definition numDims : Z := Z.of_nat (length bases).

(** The counts [BASIS_TYPES::numSupportPoints...] (BasisProduct.hpp:46-51). *)
Definition supportCounts : outcome (list Z) := sequenceM (map numSupportPoints bases).

(** BasisProduct.hpp:59-64, [supportLoop( func )]. *)
Definition supportLoop {S} (func : list Z -> S -> outcome S) (s : S) : outcome S :=
  ns <- supportCounts ;; forNestedSequence ns func s.

(** Expansion of the packs BASIS_TYPES, BASIS_FUNCTION_INDICES and PRODUCT_TERM_INDEX in
    lockstep. *)
Definition expand3 {A} (f : basis F -> Z -> Z -> A) (indices terms : list Z) : list A :=
  map (fun p => f (fst (fst p)) (snd (fst p)) (snd p)) (combine (combine bases indices) terms).

(** BasisProduct.hpp:86-109, [value<BASIS_FUNCTION_INDICES...>( parentCoord )]. *)
Definition product_value (indices : list Z) (parentCoord : list (T F)) : outcome (T F) :=
  if Nat.eqb (length indices) (length bases) then
    executeSequence numDims
      (lambda_pack (fun (_ : list Z) terms =>
         fold_unary_right (nmulM F)
           (expand3 (fun b i k => x <- rd parentCoord k ;; bvalue b i x) indices terms))) [] []
  else IllFormed.

(** BasisProduct.hpp:191-203, [gradientComponentHelper]. *)
Definition gradientComponentHelper (BASIS : basis F) (GRADIENT_COMPONENT BASIS_FUNCTION_INDEX COORD_INDEX : Z)
  (parentCoord : list (T F)) : outcome (T F) :=
  if GRADIENT_COMPONENT =? COORD_INDEX
  then x <- rd parentCoord COORD_INDEX ;; bgradient BASIS BASIS_FUNCTION_INDEX x
  else x <- rd parentCoord COORD_INDEX ;; bvalue BASIS BASIS_FUNCTION_INDEX x.

(** BasisProduct.hpp:129-171, [gradient<BASIS_FUNCTION_INDICES...>( parentCoord )]; the result
    is the buffer of a [CArrayNd<REAL_TYPE, numDims>] initialised from a list. *)
Definition product_gradient (indices : list Z) (parentCoord : list (T F)) : outcome (list (T F)) :=
  if Nat.eqb (length indices) (length bases) then
    executeSequence numDims
      (lambda_pack (fun (_ : list Z) a =>
         let gradientComponent := lambda_cons_pack (fun GRADIENT_COMPONENT terms =>
           fold_unary_right (nmulM F)
             (expand3 (fun b i k => gradientComponentHelper b GRADIENT_COMPONENT i k parentCoord)
                indices terms)) in
         cs <- sequenceM (map (fun k => executeSequence numDims gradientComponent [TIndex] [k]) a) ;;
         list_init (nofZ F 0) [numDims] cs)) [] []
  else IllFormed.
End BasisProduct.

Section InterpolatedShape.
Context (F : Num).
(** STANDARD_GEOMETRY::numDims() and BASIS_TYPE... *)
Context (geomDims : Z) (bases : list (basis F)).

(** InterpolatedShape.hpp:74, the class-level [static_assert]. *)
Definition shape_ok : outcome unit := if numDims F bases =? geomDims then Ok tt else IllFormed.

(** InterpolatedShape.hpp:77-82. *)
Definition shape_supportLoop {S} (func : list Z -> S -> outcome S) (s : S) : outcome S :=
  _ <- shape_ok ;; supportLoop F bases func s.
(** InterpolatedShape.hpp:87-93. *)
Definition shape_value (indices : list Z) (parentCoord : list (T F)) : outcome (T F) :=
  _ <- shape_ok ;; product_value F bases indices parentCoord.
(** InterpolatedShape.hpp:98-104. *)
Definition shape_gradient (indices : list Z) (parentCoord : list (T F)) : outcome (list (T F)) :=
  _ <- shape_ok ;; product_gradient F bases indices parentCoord.
End InterpolatedShape.

Section ParentElement.
Context (F : Num) (c : ctx).
(** SHAPE::numDims() and BASIS_TYPE... *)
Context (shapeDims : Z) (bases : list (basis F)).
(** The object [var]: [var( i... )]. *)
Context (var : list Z -> outcome (T F)).

(** ParentElement.hpp:70, the class-level [static_assert]. *)
Definition parent_ok : outcome unit := if numDims F bases =? shapeDims then Ok tt else IllFormed.

(** ParentElement.hpp:76-82 and 88-94. *)
Definition parent_value_at (indices : list Z) (parentCoord : list (T F)) : outcome (T F) :=
  _ <- parent_ok ;; product_value F bases indices parentCoord.
Definition parent_gradient_at (indices : list Z) (parentCoord : list (T F)) : outcome (list (T F)) :=
  _ <- parent_ok ;; product_gradient F bases indices parentCoord.

(** ParentElement.hpp:106-117, [value( parentCoord, var )]. *)
Definition parent_value (parentCoord : list (T F)) : outcome (T F) :=
  _ <- parent_ok ;;
  ns <- supportCounts F bases ;;
  forNestedSequence ns (fun indices rval =>
    v <- parent_value_at indices parentCoord ;;
    u <- var indices ;;
    Ok (nadd F rval (nmul F v u))) (nofZ F 0).

(** ParentElement.hpp:127-141, [gradient( parentCoord, var )]; [rval] and [grad] are buffers
    of [CArrayNd<REAL_TYPE, numDims>] objects, [grad] a const one. *)
Definition one_index : path := {| brackets := 0; last := Paren |}.
Definition const_array (ds : list Z) : arr :=
  {| base := 0; dims := ds; elt_const := false; obj_const := true |}.
Definition parent_gradient (parentCoord : list (T F)) : outcome (list (T F)) :=
  _ <- parent_ok ;;
  ns <- supportCounts F bases ;;
  rval0 <- list_init (nofZ F 0) [numDims F bases] [nofZ F 0] ;;
  forNestedSequence ns (fun indices rval =>
    grad <- parent_gradient_at indices parentCoord ;;
    forSequence (numDims F bases) (fun a rval =>
      r <- fetch c (owning [numDims F bases]) one_index [a] rval ;;
      g <- fetch c (const_array [numDims F bases]) one_index [a] grad ;;
      u <- var indices ;;
      put c (owning [numDims F bases]) one_index [a] (nadd F r (nmul F g u)) rval) rval) rval0.
End ParentElement.
