(** binary64 when the compiler may contract: REAL_TYPE = double as compiled by default by
    nvcc (-fmad=true), hipcc and gcc (-ffp-contract=fast).  A product whose result is added
    to, or subtracted from, another number may be computed together with that addition in
    one fused multiply-add, which rounds once; neither CMakeLists.txt nor the hostconfigs
    pass a flag that forbids it.  Nothing else is changed: no reassociation and no
    reciprocals, which need -ffast-math.

    A number carries its value (the product rounded separately), the two factors if it is a
    product or the opposite of one, and the history of its computation.  A [contraction] is
    the choice made by the compiler at every addition and subtraction: an arbitrary function
    of the operation and of both operands with their histories, so that two places of the
    program, or two iterations of an unrolled loop, may be treated differently.  The factors
    survive a store and a load: a compiler that keeps an element in a register can contract
    across them.  Constant expressions are evaluated by the compiler without contraction;
    numbers from there enter by [plain]. *)
From Coq Require Import ZArith Bool.
From Flocq Require Import Core IEEE754.BinarySingleNaN.
From Verif Require Import Base Num ModelB64 ModelSpacing ModelLagrange.
Open Scope Z_scope.

Inductive operation := OAdd | OSub | OMul | OOpp | ODiv.
Inductive history :=
  | Given (n : Z)                                  (* an input or a constant *)
  | Done (o : operation) (x y : history).
Record cdouble := {
  cval  : b64;
  cprod : option (b64 * b64);
  chist : history
}.
Inductive fusion := Separate | FuseLeft | FuseRight.
Definition contraction : Type := operation -> cdouble -> cdouble -> fusion.

(** A number that is no product in sight of the compiler. *)
Definition given (n : Z) (x : b64) : cdouble := {| cval := x; cprod := None; chist := Given n |}.
Definition plain (x : b64) : cdouble := given 0 x.
Definition Plain (x : cdouble) : Prop := cprod x = None.

Definition computed (o : operation) (x y : cdouble) (v : b64) : cdouble :=
  {| cval := v; cprod := None; chist := Done o (chist x) (chist y) |}.

(** x + y: as it is, fma( a, b, y ) for x = a * b, or fma( a, b, x ) for y = a * b. *)
Definition cadd (c : contraction) (x y : cdouble) : cdouble :=
  computed OAdd x y
    (match c OAdd x y, cprod x, cprod y with
     | FuseLeft, Some (a, b), _ => Bfma mode_NE a b (cval y)
     | FuseRight, _, Some (a, b) => Bfma mode_NE a b (cval x)
     | _, _, _ => Bplus mode_NE (cval x) (cval y)
     end).
(** x - y: as it is, fma( a, b, -y ) for x = a * b, or fma( -a, b, x ) for y = a * b. *)
Definition csub (c : contraction) (x y : cdouble) : cdouble :=
  computed OSub x y
    (match c OSub x y, cprod x, cprod y with
     | FuseLeft, Some (a, b), _ => Bfma mode_NE a b (Bopp (cval y))
     | FuseRight, _, Some (a, b) => Bfma mode_NE (Bopp a) b (cval x)
     | _, _, _ => Bminus mode_NE (cval x) (cval y)
     end).
Definition cmul (x y : cdouble) : cdouble :=
  {| cval := Bmult mode_NE (cval x) (cval y);
     cprod := Some (cval x, cval y);
     chist := Done OMul (chist x) (chist y) |}.
Definition copp (x : cdouble) : cdouble :=
  {| cval := Bopp (cval x);
     cprod := match cprod x with Some (a, b) => Some (Bopp a, b) | None => None end;
     chist := Done OOpp (chist x) (chist x) |}.
Definition cdiv (x y : cdouble) : cdouble := computed ODiv x y (Bdiv mode_NE (cval x) (cval y)).

Definition FmaNum (c : contraction) : Num := {|
  T := cdouble;
  nadd := cadd c; nsub := csub c; nmul := cmul; nopp := copp;
  nofZ := fun z => plain (b64_ofZ z);
  nlit := fun m k => plain (b64_lit m k);
  nis0 := fun x => nis0 B64Num (cval x);
  ndiv := fun x y => Ok (cdiv x y);
  nlt := fun x y => nlt B64Num (cval x) (cval y);
  nmax := plain (nmax B64Num)
|}.

(** [LagrangeBasis<double, ORDER, SPACING>]: the coordinates of the support points are
    constant expressions. *)
Definition FmaBasis (c : contraction) (ORDER : Z) (s : spacing) : basis (FmaNum c) :=
  lagrange_of (FmaNum c) ORDER (fun i => n <- nSupport ORDER ;; x <- coord_ct B64Num s n i ;; Ok (plain x)).
