(** Floating-point types as seen by Shiva's templates.

    Every numeric function of Shiva is a template over REAL_TYPE.  The model is a
    function of a [Num]: the carrier and the arithmetic of REAL_TYPE.  The
    instances are exact real arithmetic [RNum], exact rational arithmetic [QNum]
    (executable), and IEEE binary64 (file ModelB64).  Simplification: literals and
    mixed int/double subexpressions are evaluated in REAL_TYPE itself, which is what
    C++ does for REAL_TYPE = double. *)
From Verif Require Import Base.
From Coq Require Import Reals QArith Qreals Qreduction.
Open Scope Z_scope.

Record Num := {
  T    : Type;
  nadd : T -> T -> T;
  nsub : T -> T -> T;
  nmul : T -> T -> T;
  nopp : T -> T;
  nofZ : Z -> T;                 (* conversion from int *)
  nlit : Z -> nat -> T;          (* the decimal literal m * 10^-k *)
  nis0 : T -> bool;              (* x == 0 *)
  ndiv : T -> T -> outcome T;    (* division at run time *)
  nlt  : T -> T -> bool;         (* x < y *)
  nmax : T                       (* std::numeric_limits<REAL_TYPE>::max() *)
}.

(** Checked operators for fold expressions. *)
Definition naddM (N : Num) (x y : T N) : outcome (T N) := Ok (nadd N x y).
Definition nmulM (N : Num) (x y : T N) : outcome (T N) := Ok (nmul N x y).

(** Division inside a constant expression: division by zero is ill-formed
    ([expr.mul]/4 with [expr.const]), also in IEEE arithmetic. *)
Definition ndiv_const (N : Num) (x y : T N) : outcome (T N) :=
  if nis0 N y then IllFormed else ndiv N x y.

(** DBL_MAX = (2^53 - 1) * 2^971. *)
Definition dbl_max : Z := (2 ^ 53 - 1) * 2 ^ 971.

(** Exact real arithmetic; dividing by zero is a fault. *)
Definition Req0 (x : R) : bool := if Req_EM_T x 0 then true else false.
Definition RNum : Num := {|
  T := R;
  nadd := Rplus; nsub := Rminus; nmul := Rmult; nopp := Ropp;
  nofZ := IZR;
  nlit := fun m k => (IZR m / IZR (10 ^ Z.of_nat k))%R;
  nis0 := Req0;
  ndiv := fun x y => if Req0 y then UB DivByZero else Ok (x / y)%R;
  nlt := fun x y => if Rlt_dec x y then true else false;
  nmax := IZR dbl_max
|}.

(** Exact rational arithmetic. *)
Definition QNum : Num := {|
  T := Q;
  nadd := fun x y => Qred (x + y); nsub := fun x y => Qred (x - y);
  nmul := fun x y => Qred (x * y); nopp := fun x => Qred (- x);
  nofZ := inject_Z;
  nlit := fun m k => Qred (m # Z.to_pos (10 ^ Z.of_nat k));
  nis0 := fun x => Qeq_bool x 0;
  ndiv := fun x y => if Qeq_bool y 0 then UB DivByZero else Ok (Qred (x / y));
  nlt := fun x y => negb (Qle_bool y x);
  nmax := inject_Z dbl_max
|}.
