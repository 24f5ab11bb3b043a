(** Model of include/shiva/common/MathUtilities.hpp. *)
From Verif Require Import Base Num ModelAssert ModelCArray.
Open Scope Z_scope.

(** MathUtilities.hpp:42-52, [pow<T, EXPONENT>( base )]: [result] starts at 1 and is
    multiplied [EXPONENT] times; the loop body never runs for EXPONENT <= 0.  [mul]
    is the multiplication of [T]. *)
Fixpoint pow_loop {A} (mul : A -> A -> outcome A) (base : A) (n : nat) (result : A) : outcome A :=
  match n with
  | O => Ok result
  | S n' => r <- mul result base ;; pow_loop mul base n' r
  end.
Definition pow {A} (one : A) (mul : A -> A -> outcome A) (EXPONENT : Z) (base : A) : outcome A :=
  pow_loop mul base (Z.to_nat EXPONENT) one.

Definition pow_int (EXPONENT base : Z) : outcome Z := pow 1 imul EXPONENT base.
Definition pow_real (N : Num) (EXPONENT : Z) (base : T N) : outcome (T N) :=
  pow (nofZ N 1) (nmulM N) EXPONENT base.

(** MathUtilities.hpp:60-76, [factorial<int, N>::value]: a binary left fold over
    0..N-1 of [ISEQ + 1], initialising a constexpr variable. *)
Definition factorial (N : Z) : outcome Z :=
  ISEQ <- make_integer_sequence N ;;
  constexpr_ (fold_binary_left imul (Ok 1) (map (fun i => iadd i 1) ISEQ)).

(** MathUtilities.hpp:84-94, [binomialCoefficient<int, N, K>::value]. *)
Definition binomialCoefficient (N K : Z) : outcome Z :=
  if (0 <=? K) && (K <=? N) then
    fN <- factorial N ;;
    fK <- factorial K ;;
    NmK <- constexpr_ (isub N K) ;;
    fNK <- factorial NmK ;;
    constexpr_ (d <- imul fK fNK ;; idiv fN d)
  else IllFormed.

Section Inverse.
Context (N : Num).
Notation "x * y" := (nmul N x y).
Notation "x + y" := (nadd N x y).
Notation "x - y" := (nsub N x y).

(** The straight-line arithmetic shared by both overloads of [inverse]
    (MathUtilities.hpp:104-134 and 147-177): [rdm i j] reads [matrix(i,j)], [wrm i j x]
    assigns it; statements in the order of the source. *)
Definition inverse_body {M : Type}
  (rdm : Z -> Z -> M -> outcome (T N)) (wrm : Z -> Z -> T N -> M -> outcome M)
  (m : M) : outcome (M * T N) :=
  s00 <- rdm 0 0 m ;; s01 <- rdm 0 1 m ;; s02 <- rdm 0 2 m ;;
  s10 <- rdm 1 0 m ;; s11 <- rdm 1 1 m ;; s12 <- rdm 1 2 m ;;
  s20 <- rdm 2 0 m ;; s21 <- rdm 2 1 m ;; s22 <- rdm 2 2 m ;;
  m <- wrm 0 0 (s11 * s22 - s12 * s21) m ;;
  m <- wrm 0 1 (s02 * s21 - s01 * s22) m ;;
  m <- wrm 0 2 (s01 * s12 - s02 * s11) m ;;
  (* det = s00 * matrix(0,0) + s10 * matrix(0,1) + s20 * matrix(0,2) *)
  a <- rdm 0 0 m ;; b <- rdm 0 1 m ;; c <- rdm 0 2 m ;;
  let det := s00 * a + s10 * b + s20 * c in
  invDet <- ndiv N (nofZ N 1) det ;;
  (* matrix(0,k) *= invDet *)
  x <- rdm 0 0 m ;; m <- wrm 0 0 (x * invDet) m ;;
  x <- rdm 0 1 m ;; m <- wrm 0 1 (x * invDet) m ;;
  x <- rdm 0 2 m ;; m <- wrm 0 2 (x * invDet) m ;;
  m <- wrm 1 0 ((s12 * s20 - s10 * s22) * invDet) m ;;
  m <- wrm 1 1 ((s00 * s22 - s02 * s20) * invDet) m ;;
  m <- wrm 1 2 ((s02 * s10 - s00 * s12) * invDet) m ;;
  m <- wrm 2 0 ((s10 * s21 - s11 * s20) * invDet) m ;;
  m <- wrm 2 1 ((s01 * s20 - s00 * s21) * invDet) m ;;
  m <- wrm 2 2 ((s00 * s11 - s01 * s10) * invDet) m ;;
  Ok (m, det).

(** MathUtilities.hpp:102-135, [inverse( REAL_TYPE (&matrix)[3][3], det )]: a built-in
    3x3 array, a list of three rows. Returns the new matrix and [det]. *)
Definition inverse_c (m : list (list (T N))) : outcome (list (list (T N)) * T N) :=
  inverse_body
    (fun i j m => row <- rd m i ;; rd row j)
    (fun i j x m => row <- rd m i ;; row' <- wr row j x ;; wr m i row')
    m.

(** MathUtilities.hpp:145-178, [inverse( MATRIX_TYPE & matrix, det )] for an array
    object [a] in the buffer [mem], each access being a run-time [matrix( i, j )]. *)
Definition by_paren : path := {| brackets := 0; last := Paren |}.
Definition inverse_a (c : ctx) (a : arr) (mem : list (T N)) : outcome (list (T N) * T N) :=
  inverse_body
    (fun i j mem => fetch c a by_paren [i; j] mem)
    (fun i j x mem => put c a by_paren [i; j] x mem)
    mem.
End Inverse.
