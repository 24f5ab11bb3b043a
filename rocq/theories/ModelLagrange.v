(** Model of include/shiva/functions/bases/LagrangeBasis.hpp (the C++17 branches; the
    project is compiled with -std=c++17). *)
From Verif Require Import Base Num ModelSequence ModelSpacing.
Open Scope Z_scope.

(** A generic lambda [( auto ... a )]: callable with any arguments. *)
Definition lambda_pack {A R} (body : list A -> list Z -> outcome R) : callee A R :=
  {| accepts := fun _ => true; call := body;
     has_tmpl := fun _ => false; call_tmpl := fun _ _ => IllFormed |}.

(** A generic lambda [( auto aa, auto ... b )]: callable with at least one argument. *)
Definition lambda_cons_pack {A R} (body : A -> list Z -> outcome R) : callee A R :=
  {| accepts := fun tys => negb (Nat.eqb (length tys) 0);
     call := fun args idx => match args with [aa] => body aa idx | _ => IllFormed end;
     has_tmpl := fun _ => false; call_tmpl := fun _ _ => IllFormed |}.

(** A one-dimensional basis as used by [BasisProduct]: its [numSupportPoints], [value<I>]
    and [gradient<I>]. *)
Record basis (F : Num) := {
  numSupportPoints : outcome Z;
  bvalue    : Z -> T F -> outcome (T F);
  bgradient : Z -> T F -> outcome (T F)
}.
Arguments numSupportPoints {F}. Arguments bvalue {F}. Arguments bgradient {F}.

Section Lagrange.
Context (F : Num).
(** ORDER, and [SPACING_TYPE<REAL_TYPE, ORDER + 1>::coordinate<I>()]. *)
Context (ORDER : Z) (coordinate : Z -> outcome (T F)).

(** LagrangeBasis.hpp:66. *)
Definition nSupport : outcome Z := constexpr_ (iadd ORDER 1).

(** LagrangeBasis.hpp:160-175, [valueProductTerm<BF_INDEX, TERM_INDEX>( coord )]. *)
Definition valueProductTerm (BF_INDEX TERM_INDEX : Z) (coord : T F) : outcome (T F) :=
  if BF_INDEX =? TERM_INDEX then Ok (nofZ F 1)
  else
    coordinate_FI <- constexpr_ (coordinate TERM_INDEX) ;;
    coordinate_BF <- constexpr_ (coordinate BF_INDEX) ;;
    denom <- ndiv_const F (nofZ F 1) (nsub F coordinate_BF coordinate_FI) ;;
    Ok (nmul F (nsub F coord coordinate_FI) denom).

(** LagrangeBasis.hpp:78-97, [value<BF_INDEX>( coord )]. *)
Definition lagrange_value (BF_INDEX : Z) (coord : T F) : outcome (T F) :=
  n <- nSupport ;;
  executeSequence n
    (lambda_pack (fun (_ : list Z) a =>
       fold_unary_right (nmulM F) (map (fun k => valueProductTerm BF_INDEX k coord) a))) [] [].

(** LagrangeBasis.hpp:192-204, [valueProductFactor<TERM_INDEX, DERIVATIVE_INDEX>( values )]. *)
Definition valueProductFactor (TERM_INDEX DERIVATIVE_INDEX : Z) (values : list (T F)) : outcome (T F) :=
  if TERM_INDEX =? DERIVATIVE_INDEX then Ok (nofZ F 1) else rd values TERM_INDEX.

(** LagrangeBasis.hpp:214-228, [gradientOfValueTerm<BF_INDEX, TERM_INDEX>()]. *)
Definition gradientOfValueTerm (BF_INDEX TERM_INDEX : Z) : outcome (T F) :=
  if BF_INDEX =? TERM_INDEX then Ok (nofZ F 0)
  else
    coordinate_FI <- constexpr_ (coordinate TERM_INDEX) ;;
    coordinate_BF <- constexpr_ (coordinate BF_INDEX) ;;
    ndiv F (nofZ F 1) (nsub F coordinate_BF coordinate_FI).

(** LagrangeBasis.hpp:112-143, [gradient<BF_INDEX>( coord )]. *)
Definition lagrange_gradient (BF_INDEX : Z) (coord : T F) : outcome (T F) :=
  n <- nSupport ;;
  executeSequence n
    (lambda_pack (fun (_ : list Z) a =>
       values <- sequenceM (map (fun k => valueProductTerm BF_INDEX k coord) a) ;;
       let func := lambda_cons_pack (fun aVal b =>
         g <- gradientOfValueTerm BF_INDEX aVal ;;
         p <- fold_unary_right (nmulM F) (map (fun k => valueProductFactor k aVal values) b) ;;
         Ok (nmul F g p)) in
       fold_unary_right (naddM F) (map (fun k => executeSequence n func [TIndex] [k]) a))) [] [].
End Lagrange.

(** [LagrangeBasis<REAL_TYPE, ORDER, SPACING>] for an arbitrary spacing class, given by its
    [coordinate<I>()] for [ORDER + 1] points, and for the bundled spacings. *)
Definition lagrange_of (F : Num) (ORDER : Z) (coordinate : Z -> outcome (T F)) : basis F :=
  {| numSupportPoints := nSupport ORDER;
     bvalue := lagrange_value F ORDER coordinate;
     bgradient := lagrange_gradient F ORDER coordinate |}.
Definition LagrangeBasis (F : Num) (ORDER : Z) (s : spacing) : basis F :=
  lagrange_of F ORDER (fun i => n <- nSupport ORDER ;; coord_ct F s n i).
