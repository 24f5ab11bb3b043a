(** IEEE 754 binary64 as an instance of [Num]: REAL_TYPE = double on an IEC 60559
    implementation, rounding to nearest even, each operation rounded separately (no
    extended intermediate precision, no contraction of [a * b + c] into a fused operation;
    a compiler may do either unless told not to; ModelFma.v models the latter).  The arithmetic is Flocq's; there is one
    NaN and its payload is not modelled. *)
From Coq Require Import ZArith Bool.
From Flocq Require Import Core IEEE754.BinarySingleNaN.
From Verif Require Import Base Num.
Open Scope Z_scope.

Definition prec64 : Z := 53.
Definition emax64 : Z := 1024.
Global Instance prec64_gt_0 : Prec_gt_0 prec64 := eq_refl.
Global Instance prec64_lt_emax64 : Prec_lt_emax prec64 emax64 := eq_refl.

Definition b64 : Type := binary_float prec64 emax64.

Definition b64_zero : b64 := B754_zero false.

(** int to double. *)
Definition b64_ofZ (z : Z) : b64 := binary_normalize prec64 emax64 _ _ mode_NE z 0 false.

(** The decimal literal m * 10^-k, rounded once to nearest ([lex.fcon]/3 permits either
    neighbour; compilers round to nearest). *)
Definition b64_lit (m : Z) (k : nat) : b64 :=
  match m with
  | Z0 => b64_zero
  | Zpos p =>
      SF2B _ (proj1 (Bdiv_correct_aux prec64 emax64 _ _ mode_NE
                       false p 0 false (Z.to_pos (10 ^ Z.of_nat k)) 0))
  | Zneg p =>
      SF2B _ (proj1 (Bdiv_correct_aux prec64 emax64 _ _ mode_NE
                       true p 0 false (Z.to_pos (10 ^ Z.of_nat k)) 0))
  end.

(** Division at run time does not trap: x / 0 is an infinity or NaN. *)
Definition B64Num : Num := {|
  T := b64;
  nadd := Bplus mode_NE; nsub := Bminus mode_NE; nmul := Bmult mode_NE;
  nopp := Bopp;
  nofZ := b64_ofZ;
  nlit := b64_lit;
  nis0 := fun x => Beqb x b64_zero;
  ndiv := fun x y => Ok (Bdiv mode_NE x y);
  nlt := Bltb;
  nmax := @Bmax_float prec64 emax64 _ _
|}.
