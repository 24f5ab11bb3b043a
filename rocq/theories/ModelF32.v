(** REAL_TYPE = float (IEEE 754 binary32, rounding to nearest even, each operation rounded
    separately).  In Shiva's sources unsuffixed literals are doubles, so an expression that
    mixes them with REAL_TYPE is evaluated in double ([expr.arith.conv]) and rounded to float
    when it is returned or stored.  [widen] and [narrow] mark these conversions. *)
From Coq Require Import ZArith Bool List.
From Flocq Require Import Core IEEE754.BinarySingleNaN.
From Verif Require Import Base Num ModelB64 ModelSequence ModelSpacing ModelQuadrature ModelLagrange.
Import ListNotations.
Open Scope Z_scope.

Definition prec32 : Z := 24.
Definition emax32 : Z := 128.
Global Instance prec32_gt_0 : Prec_gt_0 prec32 := eq_refl.
Global Instance prec32_lt_emax32 : Prec_lt_emax prec32 emax32 := eq_refl.

Definition b32 : Type := binary_float prec32 emax32.
Definition b32_zero : b32 := B754_zero false.

(** int to float. *)
Definition b32_ofZ (z : Z) : b32 := binary_normalize prec32 emax32 _ _ mode_NE z 0 false.

(** float to double (exact) and double to float (rounded). *)
Definition widen (x : b32) : b64 :=
  match x with
  | B754_zero s => B754_zero s
  | B754_infinity s => B754_infinity s
  | B754_nan => B754_nan
  | B754_finite s m e _ => binary_normalize prec64 emax64 _ _ mode_NE (SpecFloat.cond_Zopp s (Zpos m)) e s
  end.
Definition narrow (x : b64) : b32 :=
  match x with
  | B754_zero s => B754_zero s
  | B754_infinity s => B754_infinity s
  | B754_nan => B754_nan
  | B754_finite s m e _ => binary_normalize prec32 emax32 _ _ mode_NE (SpecFloat.cond_Zopp s (Zpos m)) e s
  end.
Definition narrowM (o : outcome b64) : outcome b32 := x <- o ;; Ok (narrow x).

(** float as a [Num].  Literals are doubles stored in a REAL_TYPE.  The divisions of the
    modelled code have a double literal as dividend ([1.0 / ( coordinate_BF - coordinate_FI )],
    LagrangeBasis.hpp:172 and 226): double division, then rounding to float. *)
Definition F32Num : Num := {|
  T := b32;
  nadd := Bplus mode_NE; nsub := Bminus mode_NE; nmul := Bmult mode_NE;
  nopp := Bopp;
  nofZ := b32_ofZ;
  nlit := fun m k => narrow (b64_lit m k);
  nis0 := fun x => Beqb x b32_zero;
  ndiv := fun x y => Ok (narrow (Bdiv mode_NE (widen x) (widen y)));
  nlt := Bltb;
  nmax := @Bmax_float prec32 emax32 _ _
|}.

Notation "x *' y" := (Bmult mode_NE x y) (at level 40, left associativity).
Notation "x +' y" := (Bplus mode_NE x y) (at level 50, left associativity).
Notation "x -' y" := (Bminus mode_NE x y) (at level 50, left associativity).

(** Spacing.hpp:42, [2.0 / (numPoints - 1)]. *)
Definition equal_interval32 (N : Z) : outcome b32 :=
  n1 <- isub N 1 ;; Ok (narrow (Bdiv mode_NE (b64_ofZ 2) (b64_ofZ n1))).
(** Spacing.hpp:49, [-1 + index * interval()]: int and float only. *)
Definition equal_rt32 (N index : Z) : outcome b32 :=
  h <- equal_interval32 N ;; Ok (b32_ofZ (-1) +' b32_ofZ index *' h).
(** Spacing.hpp:58, [-1.0 + INDEX * interval()]: the product in float, the sum in double. *)
Definition equal_ct32 (N INDEX : Z) : outcome b32 :=
  h <- equal_interval32 N ;; Ok (narrow (b64_ofZ (-1) +' widen (b32_ofZ INDEX *' h))).

(** Spacing.hpp:72, 75, 97-98. *)
Definition invSqrt3_32 : b32 := narrow (invSqrt3 B64Num).
Definition sqrt3div5_32 : b32 := narrow (sqrt3div5 B64Num).
Definition c4_32 : list b32 := map narrow (c4 B64Num).

(** Spacing.hpp:85-102. *)
Definition legendre_rt32 (N index : Z) : outcome b32 :=
  if N =? 2 then i2 <- imul index 2 ;; Ok (narrow (widen invSqrt3_32 *' (b64_ofZ (-1) +' b64_ofZ i2)))
  else if N =? 3 then Ok (narrow (widen sqrt3div5_32 *' (b64_ofZ (-1) +' b64_ofZ index)))
  else if N =? 4 then
    i1 <- iadd index 1 ;;
    c <- rd c4_32 (Z.shiftr (Z.land i1 2) 1) ;;
    s <- isub (Z.land index 2) 1 ;;
    Ok (c *' b32_ofZ s)
  else Ok (b32_ofZ 0).
(** Spacing.hpp:110-132. *)
Definition legendre_ct32 (N INDEX : Z) : outcome b32 :=
  if N =? 2 then Ok (narrow (widen invSqrt3_32 *' (b64_ofZ (-1) +' b64_ofZ INDEX *' b64_ofZ 2)))
  else if N =? 3 then Ok (narrow (widen sqrt3div5_32 *' (b64_ofZ (-1) +' b64_ofZ INDEX)))
  else if N =? 4 then
    c0 <- rd c4_32 0 ;; c1 <- rd c4_32 1 ;;
    Ok (table [Bopp c0; Bopp c1; c1; c0] (b32_ofZ 0) INDEX)
  else Ok (b32_ofZ 0).

(** Spacing.hpp:146, 149. *)
Definition invSqrt5_32 : b32 := narrow (invSqrt5 B64Num).
Definition sqrt3div7_32 : b32 := narrow (sqrt3div7 B64Num).

(** Spacing.hpp:159-188. *)
Definition lobatto_rt32 (N index : Z) : outcome b32 :=
  if N =? 2 then Ok (narrow (b64_ofZ (-1) +' b64_ofZ index *' b64_ofZ 2))
  else if N =? 3 then Ok (narrow (b64_ofZ (-1) +' b64_ofZ index))
  else if N =? 4 then
    s <- isub (Z.land index 2) 1 ;;
    i1 <- iadd index 1 ;;
    Ok (narrow (b64_ofZ s *' (b64_ofZ 1 -'
                  b64_ofZ (Z.shiftr (Z.land i1 2) 1) *' (b64_ofZ 1 -' widen invSqrt5_32))))
  else if N =? 5 then
    rd [narrow (b64_ofZ (-1)); Bopp sqrt3div7_32; b32_ofZ 0; sqrt3div7_32; narrow (b64_ofZ 1)] index
  else Ok (b32_ofZ 0).
(** Spacing.hpp:196-267; for 6 to 9 points double literals are returned. *)
Definition lobatto_ct32 (N INDEX : Z) : outcome b32 :=
  if N =? 2 then Ok (narrow (b64_ofZ (-1) +' b64_ofZ INDEX *' b64_ofZ 2))
  else if N =? 3 then Ok (narrow (b64_ofZ (-1) +' b64_ofZ INDEX))
  else if N =? 4 then
    Ok (table [narrow (b64_ofZ (-1)); Bopp invSqrt5_32; invSqrt5_32; narrow (b64_ofZ 1)] (b32_ofZ 0) INDEX)
  else if N =? 5 then
    Ok (table [narrow (b64_ofZ (-1)); Bopp sqrt3div7_32; b32_ofZ 0; sqrt3div7_32; narrow (b64_ofZ 1)] (b32_ofZ 0) INDEX)
  else narrowM (lobatto_ct B64Num N INDEX).

Definition coord_rt32 (s : spacing) : Z -> Z -> outcome b32 :=
  match s with
  | EqualSpacing => equal_rt32 | GaussLegendreSpacing => legendre_rt32 | GaussLobattoSpacing => lobatto_rt32
  end.
Definition coord_ct32 (s : spacing) : Z -> Z -> outcome b32 :=
  match s with
  | EqualSpacing => equal_ct32 | GaussLegendreSpacing => legendre_ct32 | GaussLobattoSpacing => lobatto_ct32
  end.

(** Quadrature.hpp:48-116 and 140-240: the weights are expressions of int and double. *)
Definition weight_rt32 (q : rule) (N index : Z) : outcome b32 := narrowM (weight_rt B64Num q N index).
Definition weight_ct32 (q : rule) (N INDEX : Z) : outcome b32 := narrowM (weight_ct B64Num q N INDEX).

(** [LagrangeBasis<float, ORDER, SPACING>]. *)
Definition LagrangeBasis32 (ORDER : Z) (s : spacing) : basis F32Num :=
  lagrange_of F32Num ORDER (fun i => n <- nSupport ORDER ;; coord_ct32 s n i).
