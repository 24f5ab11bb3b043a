(** Property C127: powers, and the coordinates, lengths and volumes of n-cubes and n-simplices, in
    doubles and floats. *)
From Coq Require Import ZArith Reals Factorial Lra Lia.
From Flocq Require Import Core IEEE754.BinarySingleNaN.
From Verif Require Import Base Num ModelB64 ModelF32 ModelMath ModelShapes SpecShape ProofShape64 ProofShape32.
Open Scope R_scope.

(** C127.  [pow<double, E>( b )] differs from the power as if by E - 1 roundings, for every exponent
    and every base whose power is well inside the range of the type. *)
Theorem C127_pow_double : forall (b : b64) E, is_finite b = true -> (0 <= E <= INT_MAX)%Z ->
  bpow radix2 (-1020) <= Rabs (B2R b ^ Z.to_nat E) <= bpow radix2 1020 ->
  exists v, pow_real B64Num E b = Ok v /\ Near64 (Z.to_nat (E - 1)) v (B2R b ^ Z.to_nat E).
Proof. exact pow64_lemma. Qed.
Print Assumptions C127_pow_double.

(** Exact when the power of the significand fits: in particular for integers. *)
Theorem C127_pow_double_exact : forall (b : b64) m e E, is_finite b = true -> B2R b = IZR m * bpow radix2 e ->
  (1 <= E <= INT_MAX)%Z -> (Z.abs (m ^ E) < 2 ^ 53)%Z -> (-1074 <= e * E <= 900)%Z ->
  exists v, pow_real B64Num E b = Ok v /\ is_finite v = true /\ B2R v = B2R b ^ Z.to_nat E.
Proof. exact pow_exact64_lemma. Qed.
Print Assumptions C127_pow_double_exact.

Theorem C127_pow_float : forall (b : b32) E, is_finite b = true -> (0 <= E <= 2 ^ 19)%Z ->
  bpow radix2 (-124) <= Rabs (B2R b ^ Z.to_nat E) <= bpow radix2 124 ->
  exists v, pow_real F32Num E b = Ok v /\ Near32 (Z.to_nat (E - 1)) v (B2R b ^ Z.to_nat E).
Proof. exact pow32_lemma. Qed.
Print Assumptions C127_pow_float.

Theorem C127_pow_float_exact : forall (b : b32) m e E, is_finite b = true -> B2R b = IZR m * bpow radix2 e ->
  (1 <= E <= INT_MAX)%Z -> (Z.abs (m ^ E) < 2 ^ 24)%Z -> (-149 <= e * E <= 100)%Z ->
  exists v, pow_real F32Num E b = Ok v /\ is_finite v = true /\ B2R v = B2R b ^ Z.to_nat E.
Proof. exact pow_exact32_lemma. Qed.
Print Assumptions C127_pow_float_exact.

(** 3.5 cubed is 42.875, exactly; 0.1 cubed is not 0.001 in doubles. *)
Example C127_witness_pow :
  holds (pow_real B64Num 3 (b64_lit 35 1)) (fun v => Beqb v (b64_lit 42875 3)) = true /\
  holds (pow_real B64Num 3 (b64_lit 1 1)) (fun v => negb (Beqb v (b64_lit 1 3))) = true /\
  is_finite (b64_lit 35 1) = true /\ B2R (b64_lit 35 1) = IZR 7 * bpow radix2 (-1) /\
  (Z.abs (7 ^ 3) < 2 ^ 53)%Z /\ (-1074 <= -1 * 3 <= 900)%Z.
Proof.
  do 3 (split; [vm_compute; reflexivity|]). split; [|lia].
  apply B2R_35.
Qed.

(** C127.  In doubles the coordinates and the length carry one rounding each, the volume of the n-cube
    2N - 1 and the volume of the n-simplex 3N - 1. *)
Theorem C127_shape_double : forall MIN MAX DIVISOR N,
  (MIN < MAX)%Z -> (0 < DIVISOR <= INT_MAX)%Z -> is_int MIN -> is_int MAX ->
  (MAX - MIN <= INT_MAX)%Z -> (1 <= N <= 28)%Z ->
  let L := IZR (MAX - MIN) / IZR DIVISOR in
  (exists x, minCoord B64Num MIN MAX DIVISOR = Ok x /\ Near64 1 x (IZR MIN / IZR DIVISOR)) /\
  (exists x, maxCoord B64Num MIN MAX DIVISOR = Ok x /\ Near64 1 x (IZR MAX / IZR DIVISOR)) /\
  (exists x, length_ B64Num MIN MAX DIVISOR = Ok x /\ Near64 1 x L) /\
  (exists v, cube_volume B64Num MIN MAX DIVISOR N = Ok v /\ Near64 (Z.to_nat (2 * N - 1)) v (L ^ Z.to_nat N)) /\
  (exists v, simplex_volume B64Num MIN MAX DIVISOR N = Ok v /\
     Near64 (Z.to_nat (3 * N - 1)) v (L ^ Z.to_nat N / INR (fact (Z.to_nat N)))).
Proof. exact shape64_lemma. Qed.
Print Assumptions C127_shape_double.

(** With a power of two as divisor, coordinates and lengths are exact, and so is the volume of the
    n-cube as long as the power of the integer length is below 2^53. *)
Theorem C127_shape_double_exact : forall MIN MAX k N,
  (MIN < MAX)%Z -> (0 <= k <= 30)%Z -> is_int MIN -> is_int MAX ->
  (MAX - MIN <= INT_MAX)%Z -> (1 <= N)%Z -> ((MAX - MIN) ^ N < 2 ^ 53)%Z -> (k * N <= 1000)%Z ->
  let D := (2 ^ k)%Z in
  (exists x, minCoord B64Num MIN MAX D = Ok x /\ is_finite x = true /\ B2R x = IZR MIN / IZR D) /\
  (exists x, maxCoord B64Num MIN MAX D = Ok x /\ is_finite x = true /\ B2R x = IZR MAX / IZR D) /\
  (exists x, length_ B64Num MIN MAX D = Ok x /\ is_finite x = true /\ B2R x = IZR (MAX - MIN) / IZR D) /\
  (exists v, cube_volume B64Num MIN MAX D N = Ok v /\ is_finite v = true /\
     B2R v = (IZR (MAX - MIN) / IZR D) ^ Z.to_nat N).
Proof. exact shape_exact64_lemma. Qed.
Print Assumptions C127_shape_double_exact.

(** "The length is the difference of the coordinates" is false of the computed numbers. *)
Theorem C127_length_refuted : exists MIN MAX DIVISOR a b l,
  minCoord B64Num MIN MAX DIVISOR = Ok a /\ maxCoord B64Num MIN MAX DIVISOR = Ok b /\
  length_ B64Num MIN MAX DIVISOR = Ok l /\ Bltb (Bminus mode_NE b a) l = true.
Proof. exact length_differs_lemma. Qed.
Print Assumptions C127_length_refuted.

(** The unit cube of [NCube<double, 3, -1, 1, 2>] and the reference cube [NCube<double, 3, -1, 1, 1>]. *)
Example C127_witness_shape :
  holds (cube_volume B64Num (-1) 1 2 3) (fun v => Beqb v (b64_ofZ 1)) = true /\
  holds (cube_volume B64Num (-1) 1 1 3) (fun v => Beqb v (b64_ofZ 8)) = true /\
  holds (simplex_volume B64Num 0 1 1 3) (fun v => Bltb v (b64_lit 17 2) && Bltb (b64_lit 16 2) v) = true.
Proof. repeat split; vm_compute; reflexivity. Qed.

(** Floats, integers of any size: converting the bound and the divisor rounds too. *)
Theorem C127_shape_float : forall MIN MAX DIVISOR N,
  (MIN < MAX)%Z -> (0 < DIVISOR <= INT_MAX)%Z -> is_int MIN -> is_int MAX ->
  (MAX - MIN <= INT_MAX)%Z -> (1 <= N <= 3)%Z ->
  let L := IZR (MAX - MIN) / IZR DIVISOR in
  (exists x, minCoord F32Num MIN MAX DIVISOR = Ok x /\ Near32 4 x (IZR MIN / IZR DIVISOR)) /\
  (exists x, maxCoord F32Num MIN MAX DIVISOR = Ok x /\ Near32 4 x (IZR MAX / IZR DIVISOR)) /\
  (exists x, length_ F32Num MIN MAX DIVISOR = Ok x /\ Near32 4 x L) /\
  (exists v, cube_volume F32Num MIN MAX DIVISOR N = Ok v /\ Near32 (5 * Z.to_nat N - 1) v (L ^ Z.to_nat N)) /\
  (exists v, simplex_volume F32Num MIN MAX DIVISOR N = Ok v /\
     Near32 (6 * Z.to_nat N - 1) v (L ^ Z.to_nat N / INR (fact (Z.to_nat N)))).
Proof. exact shape32_lemma. Qed.
Print Assumptions C127_shape_float.

(** "One rounding" is false of floats with large integers: a coordinate below one becomes one. *)
Theorem C127_float_one_rounding_refuted : exists MIN MAX DIVISOR x,
  (MIN < MAX)%Z /\ (0 < DIVISOR <= INT_MAX)%Z /\ is_int MIN /\ is_int MAX /\ (MAX < DIVISOR)%Z /\
  maxCoord F32Num MIN MAX DIVISOR = Ok x /\ B2R x = 1 /\ ~ Near32 1 x (IZR MAX / IZR DIVISOR).
Proof. exact float_large_lemma. Qed.
Print Assumptions C127_float_one_rounding_refuted.

(** Floats, integers below 2^24: as in doubles. *)
Theorem C127_shape_float_small : forall MIN MAX DIVISOR N,
  (MIN < MAX)%Z -> (0 < DIVISOR < 2 ^ 24)%Z -> (Z.abs MIN < 2 ^ 24)%Z ->
  (Z.abs MAX < 2 ^ 24)%Z -> (MAX - MIN < 2 ^ 24)%Z -> (1 <= N <= 3)%Z ->
  let L := IZR (MAX - MIN) / IZR DIVISOR in
  (exists x, minCoord F32Num MIN MAX DIVISOR = Ok x /\ Near32 1 x (IZR MIN / IZR DIVISOR)) /\
  (exists x, maxCoord F32Num MIN MAX DIVISOR = Ok x /\ Near32 1 x (IZR MAX / IZR DIVISOR)) /\
  (exists x, length_ F32Num MIN MAX DIVISOR = Ok x /\ Near32 1 x L) /\
  (exists v, cube_volume F32Num MIN MAX DIVISOR N = Ok v /\ Near32 (2 * Z.to_nat N - 1) v (L ^ Z.to_nat N)) /\
  (exists v, simplex_volume F32Num MIN MAX DIVISOR N = Ok v /\
     Near32 (3 * Z.to_nat N - 1) v (L ^ Z.to_nat N / INR (fact (Z.to_nat N)))).
Proof. exact shape32_small_lemma. Qed.
Print Assumptions C127_shape_float_small.

Theorem C127_shape_float_exact : forall MIN MAX k N,
  (MIN < MAX)%Z -> (0 <= k <= 23)%Z -> (Z.abs MIN < 2 ^ 24)%Z -> (Z.abs MAX < 2 ^ 24)%Z ->
  (MAX - MIN < 2 ^ 24)%Z -> (1 <= N)%Z -> ((MAX - MIN) ^ N < 2 ^ 24)%Z -> (k * N <= 120)%Z ->
  let D := (2 ^ k)%Z in
  (exists x, minCoord F32Num MIN MAX D = Ok x /\ is_finite x = true /\ B2R x = IZR MIN / IZR D) /\
  (exists x, maxCoord F32Num MIN MAX D = Ok x /\ is_finite x = true /\ B2R x = IZR MAX / IZR D) /\
  (exists x, length_ F32Num MIN MAX D = Ok x /\ is_finite x = true /\ B2R x = IZR (MAX - MIN) / IZR D) /\
  (exists v, cube_volume F32Num MIN MAX D N = Ok v /\ is_finite v = true /\
     B2R v = (IZR (MAX - MIN) / IZR D) ^ Z.to_nat N).
Proof. exact shape_exact32_lemma. Qed.
Print Assumptions C127_shape_float_exact.

Example C127_witness_float :
  holds (cube_volume F32Num (-1) 1 2 3) (fun v => Beqb v (b32_ofZ 1)) = true /\
  holds (cube_volume F32Num 0 3 4 3) (fun v => Beqb v (narrow (b64_lit 421875 6))) = true /\
  holds (maxCoord F32Num 0 1 3) (fun x => negb (Beqb x (b32_ofZ 0))) = true.
Proof. repeat split; vm_compute; reflexivity. Qed.
