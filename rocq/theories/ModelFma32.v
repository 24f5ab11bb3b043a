(** binary32 when the compiler may contract: REAL_TYPE = float, as in ModelFma (the gradient of
    include/shiva/functions/bases/LagrangeBasis.hpp lines 116-143, the sums over the support points
    in ParentElement.hpp and LinearTransform.hpp, the determinant and the cofactors in
    include/shiva/common/MathUtilities.hpp lines 117-134).  A double division and the rounding
    of its result to float stay as they are: a fused multiply-add of floats is contracted from
    a product and a sum of floats only. *)
From Coq Require Import ZArith Bool.
From Flocq Require Import Core IEEE754.BinarySingleNaN.
From Verif Require Import Base Num ModelB64 ModelF32 ModelFma ModelSpacing ModelLagrange.
Open Scope Z_scope.

Record cfloat := {
  cfval  : b32;
  cfprod : option (b32 * b32);
  cfhist : history
}.
Definition contraction32 : Type := operation -> cfloat -> cfloat -> fusion.

(** A number that is no product in sight of the compiler. *)
Definition given32 (n : Z) (x : b32) : cfloat := {| cfval := x; cfprod := None; cfhist := Given n |}.
Definition plain32 (x : b32) : cfloat := given32 0 x.
Definition Plain32 (x : cfloat) : Prop := cfprod x = None.

Definition computed32 (o : operation) (x y : cfloat) (v : b32) : cfloat :=
  {| cfval := v; cfprod := None; cfhist := Done o (cfhist x) (cfhist y) |}.

(** x + y: as it is, fma( a, b, y ) for x = a * b, or fma( a, b, x ) for y = a * b. *)
Definition cfadd (c : contraction32) (x y : cfloat) : cfloat :=
  computed32 OAdd x y
    (match c OAdd x y, cfprod x, cfprod y with
     | FuseLeft, Some (a, b), _ => Bfma mode_NE a b (cfval y)
     | FuseRight, _, Some (a, b) => Bfma mode_NE a b (cfval x)
     | _, _, _ => Bplus mode_NE (cfval x) (cfval y)
     end).
(** x - y: as it is, fma( a, b, -y ) for x = a * b, or fma( -a, b, x ) for y = a * b. *)
Definition cfsub (c : contraction32) (x y : cfloat) : cfloat :=
  computed32 OSub x y
    (match c OSub x y, cfprod x, cfprod y with
     | FuseLeft, Some (a, b), _ => Bfma mode_NE a b (Bopp (cfval y))
     | FuseRight, _, Some (a, b) => Bfma mode_NE (Bopp a) b (cfval x)
     | _, _, _ => Bminus mode_NE (cfval x) (cfval y)
     end).
Definition cfmul (x y : cfloat) : cfloat :=
  {| cfval := Bmult mode_NE (cfval x) (cfval y);
     cfprod := Some (cfval x, cfval y);
     cfhist := Done OMul (cfhist x) (cfhist y) |}.
Definition cfopp (x : cfloat) : cfloat :=
  {| cfval := Bopp (cfval x);
     cfprod := match cfprod x with Some (a, b) => Some (Bopp a, b) | None => None end;
     cfhist := Done OOpp (cfhist x) (cfhist x) |}.
Definition cfdiv (x y : cfloat) : cfloat := computed32 ODiv x y (narrow (Bdiv mode_NE (widen (cfval x)) (widen (cfval y)))).

Definition FmaNum32 (c : contraction32) : Num := {|
  T := cfloat;
  nadd := cfadd c; nsub := cfsub c; nmul := cfmul; nopp := cfopp;
  nofZ := fun z => plain32 (b32_ofZ z);
  nlit := fun m k => plain32 (narrow (b64_lit m k));
  nis0 := fun x => nis0 F32Num (cfval x);
  ndiv := fun x y => Ok (cfdiv x y);
  nlt := fun x y => nlt F32Num (cfval x) (cfval y);
  nmax := plain32 (nmax F32Num)
|}.

(** [LagrangeBasis<float, ORDER, SPACING>]: the coordinates of the support points are
    constant expressions. *)
Definition FmaBasis32 (c : contraction32) (ORDER : Z) (s : spacing) : basis (FmaNum32 c) :=
  lagrange_of (FmaNum32 c) ORDER (fun i => n <- nSupport ORDER ;; x <- coord_ct32 s n i ;; Ok (plain32 x)).
