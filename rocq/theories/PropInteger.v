(** Property C126: powers, factorials and binomial coefficients in integer types other than [int]. *)
From Verif Require Import Base ModelMath ModelInteger SpecMath SpecInteger ProofInteger.
From Coq Require Import Factorial.
Open Scope Z_scope.

(** C126.  In every standard integer type the factorial is right as long as it is a value of the
    type.  Beyond that, signed types at least as wide as [int] are rejected by the compiler; all
    others accept the program and yield what is left of the factorial, which is wrong (types
    narrower than [int] up to 12, since 13! overflows the [int] they are computed in). *)
Theorem C126_factorial : forall t N, Standard t ->
  let f := Z.of_nat (fact (Z.to_nat N)) in
  (0 <= N <= last_factorial t -> factorial_in t N = Ok f /\ Value t f) /\
  (Value t N -> last_factorial t < N -> Checked t -> factorial_in t N = IllFormed) /\
  (Value t N -> last_factorial t < N -> ~ Checked t ->
     (bits t < 32 -> 12 < N -> factorial_in t N = IllFormed) /\
     (bits t < 32 /\ N <= 12 \/ 32 <= bits t ->
        exists v, factorial_in t N = Ok v /\ Remainder t f v /\ v <> f)) /\
  (~ (0 <= N /\ Value t N) -> factorial_in t N = IllFormed).
Proof. exact factorial_in_lemma. Qed.
Print Assumptions C126_factorial.

(** "An accepted factorial is right" is false of unsigned types. *)
Theorem C126_factorial_right_refuted : exists t N v, Standard t /\ 32 <= bits t /\ Value t N /\
  factorial_in t N = Ok v /\ v <> Z.of_nat (fact (Z.to_nat N)).
Proof. exact factorial_silent. Qed.
Print Assumptions C126_factorial_right_refuted.

Example C126_witness :
  factorial_in Long 20 = Ok 2432902008176640000 /\ factorial_in Long 21 = IllFormed /\
  factorial_in Uint 13 = Ok 1932053504 /\ factorial_in Short 8 = Ok (-25216) /\
  factorial_in Uchar 6 = Ok 208 /\ factorial_in Short 13 = IllFormed.
Proof. repeat split; vm_compute; reflexivity. Qed.

(** Binomial coefficients: right as long as the factorial of [N] is a value of the type; rejected
    beyond that in signed types at least as wide as [int]. *)
Theorem C126_binomial : forall t N K, Standard t ->
  (0 <= K <= N -> N <= last_factorial t ->
     exists v, binomialCoefficient_in t N K = Ok v /\ Count (Subset N K) v) /\
  (Checked t -> ~ (0 <= K <= N /\ N <= last_factorial t) -> binomialCoefficient_in t N K = IllFormed) /\
  (~ (0 <= K <= N /\ Value t N) -> binomialCoefficient_in t N K = IllFormed).
Proof. exact binomial_in_lemma. Qed.
Print Assumptions C126_binomial.

(** In unsigned types a coefficient that would be a value of the type can come out wrong. *)
Theorem C126_binomial_right_refuted : exists t N K v w,
  Standard t /\ 0 <= K <= N /\ Value t N /\ Count (Subset N K) w /\ Value t w /\
  binomialCoefficient_in t N K = Ok v /\ v <> w.
Proof. exact binomial_silent. Qed.
Print Assumptions C126_binomial_right_refuted.

Example C126_witness_binomial :
  binomialCoefficient_in Long 20 10 = Ok 184756 /\ binomialCoefficient_in Uint 13 1 = Ok 4 /\
  binomialCoefficient_in Uint 40 20 = IllFormed /\ binomialCoefficient_in Uchar 6 3 = Ok 5.
Proof. repeat split; vm_compute; reflexivity. Qed.

(** Powers: right whenever they are values of the type; otherwise undefined in signed types at least
    as wide as [int], and what is left of them in the other types, [unsigned short] only for bases
    up to 32768. *)
Theorem C126_pow : forall t E b, Standard t -> Value t b -> 0 <= E ->
  (Value t (b ^ E) -> pow_in t E b = Ok (b ^ E)) /\
  (~ Value t (b ^ E) -> Checked t -> pow_in t E b = UB IntOverflow) /\
  (~ Checked t -> t <> Ushort \/ b <= 32768 -> exists v, pow_in t E b = Ok v /\ Remainder t (b ^ E) v).
Proof. exact pow_in_lemma. Qed.
Print Assumptions C126_pow.

(** Powers of [unsigned short]s, which as unsigned numbers should wrap around, can be undefined:
    the product is computed in [int]. *)
Theorem C126_unsigned_pow_defined_refuted : exists b E, Value Ushort b /\ 0 <= E /\ pow_in Ushort E b = UB IntOverflow.
Proof. exact ushort_overflow. Qed.
Print Assumptions C126_unsigned_pow_defined_refuted.

Example C126_witness_pow :
  pow_in Uchar 3 255 = Ok 255 /\ pow_in Short 3 (-300) = Ok 832 /\ pow_in Ulong 64 2 = Ok 0 /\
  pow_in Long 63 2 = UB IntOverflow /\ pow_in Long 62 2 = Ok (2 ^ 62).
Proof. repeat split; vm_compute; reflexivity. Qed.

(** For [int] these are the functions of C17 to C19. *)
Theorem C126_int : (forall N, is_int N -> factorial_in Int N = factorial N) /\
  (forall N K, is_int N -> is_int K -> binomialCoefficient_in Int N K = binomialCoefficient N K) /\
  (forall E b, is_int b -> pow_in Int E b = pow_int E b).
Proof. exact int_lemma. Qed.
Print Assumptions C126_int.
