(** Properties C17-C21: powers, factorials, binomials, the matrix inverse. *)
From Verif Require Import Base Num ModelAssert ModelCArray ModelMath SpecIndex SpecCArray SpecMath
  ProofCArray ProofCount ProofRep ProofMath.
From Coq Require Import Reals Factorial QArith.
Open Scope Z_scope.

(** C17. *)
Theorem C17_pow_int : forall E b, is_int b ->
  (0 <= E -> (is_int (b ^ E) -> pow_int E b = Ok (b ^ E)) /\
             (~ is_int (b ^ E) -> pow_int E b = UB IntOverflow)) /\
  (E < 0 -> pow_int E b = Ok 1).
Proof. exact pow_int_lemma. Qed.
Print Assumptions C17_pow_int.

Theorem C17_pow_real : forall E (x : R),
  (0 <= E -> pow_real RNum E x = Ok (x ^ Z.to_nat E)%R) /\ (E < 0 -> pow_real RNum E x = Ok 1%R).
Proof. exact pow_real_lemma. Qed.
Print Assumptions C17_pow_real.

Example C17_witness : pow_int 5 (-3) = Ok (-243) /\ pow_int 31 2 = UB IntOverflow.
Proof. split; reflexivity. Qed.

(** C18. *)
Theorem C18_factorial : forall N,
  (0 <= N <= 12 -> factorial N = Ok (Z.of_nat (fact (Z.to_nat N)))) /\
  (~ (0 <= N <= 12) -> factorial N = IllFormed).
Proof. exact factorial_lemma. Qed.
Print Assumptions C18_factorial.

Example C18_witness : factorial 12 = Ok 479001600 /\ factorial 13 = IllFormed.
Proof. split; reflexivity. Qed.

(** C19. *)
Theorem C19_binomial : forall N K,
  (forall v, binomialCoefficient N K = Ok v -> Count (Subset N K) v) /\
  (0 <= K <= N -> N <= 12 -> exists v, binomialCoefficient N K = Ok v) /\
  (~ (0 <= K <= N /\ N <= 12) -> binomialCoefficient N K = IllFormed).
Proof. exact binomial_lemma. Qed.
Print Assumptions C19_binomial.

Example C19_witness : binomialCoefficient 12 6 = Ok 924 /\ binomialCoefficient 13 1 = IllFormed.
Proof. split; reflexivity. Qed.

(** C20.  The overload for CArray-like objects, on a 3x3 array (or view) holding A. *)
Theorem C20_inverse_array : forall c a mem (A : amap R),
  dims a = [3; 3] -> is_writable a = true -> Holds a mem A ->
  let MA := fun i j => A [i; j] in
  (det 3 MA <> 0%R ->
     exists mem' B, inverse_a RNum c a mem = Ok (mem', det 3 MA) /\
       Holds a mem' B /\ SameOutside a mem mem' /\ Inverse 3 MA (fun i j => B [i; j])) /\
  (det 3 MA = 0%R -> inverse_a RNum c a mem = UB DivByZero).
Proof. exact inverse_a33_lemma. Qed.
Print Assumptions C20_inverse_array.

(** The overload for built-in arrays. *)
Theorem C20_inverse_builtin : forall A : matrix,
  (det 3 A <> 0%R -> exists B, inverse_c RNum (rows_of A) = Ok (rows_of B, det 3 A) /\ Inverse 3 A B) /\
  (det 3 A = 0%R -> inverse_c RNum (rows_of A) = UB DivByZero).
Proof. exact inverse_c_lemma. Qed.
Print Assumptions C20_inverse_builtin.

(** Both overloads give the same matrix and determinant, whatever the number type. *)
Theorem C20_overloads_agree : forall (N : Num) c a mem (A : amap (T N)) m' d,
  dims a = [3; 3] -> is_writable a = true -> Holds a mem A ->
  inverse_c N (rows_of (fun i j => A [i; j])) = Ok (m', d) ->
  exists mem' B, inverse_a N c a mem = Ok (mem', d) /\ Holds a mem' B /\
    m' = rows_of (fun i j => B [i; j]).
Proof. exact overloads_agree_lemma. Qed.
Print Assumptions C20_overloads_agree.

(** A non-trivial case, executed over the rationals. *)
Example C20_witness :
  inverse_c QNum (map (map (fun z => inject_Z z)) [[2; 0; 1]; [0; 4; 0]; [1; 0; 1]]) =
  Ok ([[1; 0; -1]; [0; 1 # 4; 0]; [-1; 0; 2]]%Q, 4%Q)
  /\ exists mem A, Holds (owning [3; 3]) mem A /\ (det 3 (fun i j => A [i; j]) = 24%R).
Proof. split; [reflexivity | exact diag_234_example]. Qed.

(** C21.  On larger arrays only the leading 3x3 block is inverted, and "det" is that
    block's determinant; everything else is left as it was. *)
Theorem C21_inverse_leading_block : forall c a d0 d1 mem (A : amap R),
  dims a = [d0; d1] -> 3 <= d0 -> 3 <= d1 -> is_writable a = true -> Holds a mem A ->
  (det 3 (fun i j => A [i; j]) <> 0%R ->
     exists mem' B, inverse_a RNum c a mem = Ok (mem', det 3 (fun i j => A [i; j])) /\
       Holds a mem' B /\ SameOutside a mem mem' /\
       Inverse 3 (fun i j => A [i; j]) (fun i j => B [i; j]) /\
       forall i j, 0 <= i < d0 -> 0 <= j < d1 -> 3 <= i \/ 3 <= j -> B [i; j] = A [i; j]) /\
  (det 3 (fun i j => A [i; j]) = 0%R -> inverse_a RNum c a mem = UB DivByZero).
Proof. exact inverse_a_lemma. Qed.
Print Assumptions C21_inverse_leading_block.

(** So it does not compute the inverse of an invertible 4x4 array. *)
Theorem C21_inverse_any_size_refuted : exists c a mem A mem' B d,
  dims a = [4; 4] /\ is_writable a = true /\ Holds a mem A /\
  det 4 (fun i j => A [i; j]) <> 0%R /\
  inverse_a RNum c a mem = Ok (mem', d) /\ Holds a mem' B /\
  ~ Inverse 4 (fun i j => A [i; j]) (fun i j => B [i; j]) /\
  d <> det 4 (fun i j => A [i; j]).
Proof. exact inverse_large_refuted_lemma. Qed.
Print Assumptions C21_inverse_any_size_refuted.

(** On arrays with fewer than three rows or columns it aborts under bounds checking ... *)
Theorem C21_small_aborts : forall c a mem d0 d1, runtime_checked c -> dims a = [d0; d1] ->
  view_ok (buflen mem) a -> d0 < 3 \/ d1 < 3 -> inverse_a RNum c a mem = Aborted.
Proof. exact inverse_small_checked_lemma. Qed.
Print Assumptions C21_small_aborts.

(** ... and without it accesses memory beyond a 1x1 or 2x2 array at the end of its buffer. *)
Theorem C21_small_out_of_bounds : forall c a mem n, unchecked c -> dims a = [n; n] -> n <= 2 ->
  view_ok (buflen mem) a -> base a + n * n = buflen mem -> inverse_a RNum c a mem = UB OutOfBounds.
Proof. exact inverse_small_unchecked_lemma. Qed.
Print Assumptions C21_small_out_of_bounds.

Example C21_witness :
  runtime_checked (host_runtime true) /\ unchecked (host_runtime false) /\ view_ok 4 (owning [2; 2]) /\
  inverse_a QNum (host_runtime true) (owning [2; 2]) [1; 0; 0; 1]%Q = Aborted /\
  inverse_a QNum (host_runtime false) (owning [2; 2]) [1; 0; 0; 1]%Q = UB OutOfBounds.
Proof. split; [split; reflexivity|]. split; [split; reflexivity|]. split; [exact view_ok_22|]. split; reflexivity. Qed.
