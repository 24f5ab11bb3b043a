(** The integer functions of include/shiva/common/MathUtilities.hpp are templates over the
    integer type [T].  ModelMath has them for [int], the only type Shiva itself uses; here
    [T] is any of the standard integer types with the widths of the supported platforms (8, 16,
    32 and 64 bits).  Simplifications: no [bool] and no character types (they behave like the
    integer type of their width); limits of the compiler on the length of packs are left out. *)
From Verif Require Import Base ModelMath.
Open Scope Z_scope.

Record ity : Set := { bits : Z; signed : bool }.
Definition Int : ity := {| bits := 32; signed := true |}.

(** [basic.fundamental]: the values of the type. *)
Definition tmin (t : ity) : Z := if signed t then - 2 ^ (bits t - 1) else 0.
Definition tmax (t : ity) : Z := if signed t then 2 ^ (bits t - 1) - 1 else 2 ^ bits t - 1.
Definition fits (t : ity) (z : Z) : bool := (tmin t <=? z) && (z <=? tmax t).

(** [conv.integral]: conversion to the type, modulo 2^bits.  For signed types this is the
    choice of every compiler Shiva supports (and of C++20). *)
Definition convert (t : ity) (z : Z) : Z :=
  if signed t then (z + 2 ^ (bits t - 1)) mod 2 ^ bits t - 2 ^ (bits t - 1) else z mod 2 ^ bits t.

(** [conv.prom] and [expr.arith.conv]: the type in which two values of type [t], or one and an
    [int], are added, multiplied or divided. *)
Definition promote (t : ity) : ity := if bits t <? 32 then Int else t.

(** An operation in the type [t] with mathematical result [z]: overflow is undefined for signed
    types, unsigned types wrap around ([expr.pre]/4, [basic.fundamental]/2). *)
Definition arith (t : ity) (z : Z) : outcome Z :=
  if signed t then if fits t z then Ok z else UB IntOverflow else Ok (convert t z).

(** MathUtilities.hpp:42-52, [pow<T, EXPONENT>( base )]: [result *= base] multiplies in the
    promoted type and converts back. *)
Definition pow_in (t : ity) (EXPONENT base : Z) : outcome Z :=
  pow 1 (fun result base => x <- arith (promote t) (result * base) ;; Ok (convert t x)) EXPONENT base.

(** MathUtilities.hpp:60-76, [factorial<T, N>::value]: [N] must be a value of [T], the fold is
    computed in the promoted type and the result converted to [T]. *)
Definition factorial_in (t : ity) (N : Z) : outcome Z :=
  if fits t N then
    ISEQ <- make_integer_sequence N ;;
    x <- constexpr_ (fold_binary_left (fun a b => arith (promote t) (a * b)) (Ok 1)
                       (map (fun i => arith (promote t) (i + 1)) ISEQ)) ;;
    Ok (convert t x)
  else IllFormed.

(** MathUtilities.hpp:84-94, [binomialCoefficient<T, N, K>::value]. *)
Definition binomialCoefficient_in (t : ity) (N K : Z) : outcome Z :=
  if fits t N && fits t K && (0 <=? K) && (K <=? N) then
    fN <- factorial_in t N ;;
    fK <- factorial_in t K ;;
    NmK <- constexpr_ (arith (promote t) (N - K)) ;;
    fNK <- factorial_in t NmK ;;
    x <- constexpr_ (d <- arith (promote t) (fK * fNK) ;;
                     if d =? 0 then UB DivByZero else arith (promote t) (Z.quot fN d)) ;;
    Ok (convert t x)
  else IllFormed.
