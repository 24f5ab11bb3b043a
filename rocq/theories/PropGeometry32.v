(** Properties of the matrix inverse and of scaled cells in IEEE binary32 (REAL_TYPE = float).
    [B2R] is the real value of a finite float, [bpow radix2 e] is 2^e. *)
From Coq Require Import ZArith Reals List.
From Flocq Require Import Core IEEE754.BinarySingleNaN.
From Verif Require Import Base Num ModelB64 ModelF32 ModelAssert ModelCArray ModelMath ModelTransforms ModelTransforms32
  SpecMath SpecF32 SpecAccuracy SpecAccuracy32 ProofDiv32 ProofInverse32 ProofFix32 ProofScaling32.
Open Scope Z_scope.

(** C122.  Dividing floats in double and storing the quotient as a float is the division of
    floats: it makes no difference whether the dividend is written 1, 1.0 or 1.0f.  This covers
    zeros, subnormal numbers, infinities and NaN. *)
Theorem C122_division : forall x y : b32,
  narrow (Bdiv mode_NE (widen x) (widen y)) = Bdiv mode_NE x y.
Proof. exact fdiv_exact. Qed.
Print Assumptions C122_division.

(** Lengths between 2^-40 and 2^40: the Jacobian is exact, its inverse is correctly rounded,
    and the determinant, formed in double, has a relative error of at most 2^-24 + 2^-52. *)
Theorem C122_scaling : forall c h0 h1 h2,
  (forall h, In h [h0; h1; h2] -> is_finite h = true /\ (bpow radix2 (-40) <= Rabs (B2R h) <= bpow radix2 40)%R) ->
  (exists j0 j1 j2, scaling_jacobian_wrapper32 c [h0; h1; h2] = Ok [j0; j1; j2] /\
     IsFloat j0 (B2R h0 / 2)%R /\ IsFloat j1 (B2R h1 / 2)%R /\ IsFloat j2 (B2R h2 / 2)%R) /\
  exists d q0 q1 q2, scaling_inverseJacobian_wrapper32 c [h0; h1; h2] = Ok (d, [q0; q1; q2]) /\
    (forall h q, In (h, q) [(h0, q0); (h1, q1); (h2, q2)] -> is_finite q = true /\
       (Rabs (B2R q - / (B2R h / 2)) <= bpow radix2 (-24) * Rabs (/ (B2R h / 2)))%R) /\
    is_finite d = true /\
    (Rabs (B2R d - B2R h0 / 2 * (B2R h1 / 2) * (B2R h2 / 2))
       <= (bpow radix2 (-24) + bpow radix2 (-52)) * Rabs (B2R h0 / 2 * (B2R h1 / 2) * (B2R h2 / 2)))%R.
Proof. exact scaling32_lemma. Qed.
Print Assumptions C122_scaling.

(** The Jacobian is exact for every normal length but the smallest. *)
Theorem C122_jacobian_exact : forall c h0 h1 h2,
  (forall h, In h [h0; h1; h2] -> is_finite h = true /\ (bpow radix2 (-125) <= Rabs (B2R h))%R) ->
  exists j0 j1 j2, scaling_jacobian_wrapper32 c [h0; h1; h2] = Ok [j0; j1; j2] /\
    IsFloat j0 (B2R h0 / 2)%R /\ IsFloat j1 (B2R h1 / 2)%R /\ IsFloat j2 (B2R h2 / 2)%R.
Proof. exact scaling32_exact_lemma. Qed.
Print Assumptions C122_jacobian_exact.

(** A uniformly scaled cell gives what a scaled cell of three equal lengths gives. *)
Theorem C122_uniform : forall c h,
  (exists v, uniform_jacobian_wrapper32 c h = Ok [v] /\ scaling_jacobian_wrapper32 c [h; h; h] = Ok [v; v; v]) /\
  exists d q, uniform_inverseJacobian_wrapper32 c h = Ok (d, [q]) /\
    scaling_inverseJacobian_wrapper32 c [h; h; h] = Ok (d, [q; q; q]).
Proof. exact uniform32_lemma. Qed.
Print Assumptions C122_uniform.

(** The determinant of a cube of side 10^-15 is returned as 0 ... *)
Theorem C122_small_cell_refuted : exists h : b32, is_finite h = true /\ (/ 10 ^ 16 < B2R h)%R /\
  forall c, exists d q, scaling_inverseJacobian_wrapper32 c [h; h; h] = Ok (d, [q; q; q]) /\
    is_finite q = true /\ B2R d = 0%R.
Proof. exact scaling32_underflow_refuted. Qed.
Print Assumptions C122_small_cell_refuted.

(** ... and that of a cube of side 10^14 is infinite. *)
Theorem C122_large_cell_refuted : exists h : b32, is_finite h = true /\ (B2R h < 10 ^ 15)%R /\
  forall c, exists d q, scaling_inverseJacobian_wrapper32 c [h; h; h] = Ok (d, [q; q; q]) /\
    is_finite q = true /\ is_finite d = false.
Proof. exact scaling32_overflow_refuted. Qed.
Print Assumptions C122_large_cell_refuted.

Example C122_witness : is_finite (narrow (b64_lit 3 1)) = true /\
  (bpow radix2 (-40) <= Rabs (B2R (narrow (b64_lit 3 1))) <= bpow radix2 40)%R.
Proof. exact three_tenths32. Qed.

(** The determinant returned by the inverse of a 3x3 matrix of floats. *)
Theorem C122_determinant : forall A, Entries32 A ->
  exists X d, inverse_c F32Num (rows_of A) = Ok (rows_of X, d) /\ is_finite d = true /\
    (Rabs (B2R d - det 3 (real_matrix32 A))
       <= 6 * bpow radix2 (-24) * perm 3 (absm (real_matrix32 A)) + bpow radix2 (-112))%R.
Proof. exact det32_lemma. Qed.
Print Assumptions C122_determinant.

(** The inverse, for determinants that are not lost in the rounding errors: each entry is
    off by at most 24 units 2^-24 of P/|det| times the entry of the inverse computed with all
    terms of its cofactor taken positive, P being the determinant with all terms positive. *)
Theorem C122_inverse : forall A, Entries32 A ->
  (bpow radix2 (-40) <= Rabs (det 3 (real_matrix32 A)))%R ->
  (14 * bpow radix2 (-24) * perm 3 (absm (real_matrix32 A)) <= Rabs (det 3 (real_matrix32 A)))%R ->
  exists X d B, inverse_c F32Num (rows_of A) = Ok (rows_of X, d) /\ Inverse 3 (real_matrix32 A) B /\
    (Rabs (B2R d - det 3 (real_matrix32 A)) <= 7 * bpow radix2 (-24) * perm 3 (absm (real_matrix32 A)))%R /\
    forall i j, 0 <= i < 3 -> 0 <= j < 3 -> is_finite (X i j) = true /\
      (Rabs (B2R (X i j) - B i j) <=
        24 * bpow radix2 (-24) * (perm 3 (absm (real_matrix32 A)) / Rabs (det 3 (real_matrix32 A)))
          * (perm 2 (minor (absm (real_matrix32 A)) j i) / Rabs (det 3 (real_matrix32 A))) + bpow radix2 (-105))%R.
Proof. exact inverse32_lemma. Qed.
Print Assumptions C122_inverse.

(** Multiples of one power of two by integers up to 128: the determinant is exact ... *)
Theorem C122_determinant_exact : forall A e, -30 <= e <= 30 ->
  (forall i j, 0 <= i < 3 -> 0 <= j < 3 -> is_finite (A i j) = true /\
     exists m, Z.abs m <= 128 /\ B2R (A i j) = (IZR m * bpow radix2 e)%R) ->
  exists X d, inverse_c F32Num (rows_of A) = Ok (rows_of X, d) /\ is_finite d = true /\
    B2R d = det 3 (real_matrix32 A).
Proof. exact exact_det32. Qed.
Print Assumptions C122_determinant_exact.

(** ... and if it is plus or minus a power of two, so is the inverse. *)
Theorem C122_inverse_exact : forall A e k, -30 <= e <= 30 ->
  Rabs (det 3 (real_matrix32 A)) = bpow radix2 k ->
  (forall i j, 0 <= i < 3 -> 0 <= j < 3 -> is_finite (A i j) = true /\
     exists m, Z.abs m <= 128 /\ B2R (A i j) = (IZR m * bpow radix2 e)%R) ->
  exists X d, inverse_c F32Num (rows_of A) = Ok (rows_of X, d) /\
    (forall i j, 0 <= i < 3 -> 0 <= j < 3 -> is_finite (X i j) = true) /\
    Inverse 3 (real_matrix32 A) (real_matrix32 X).
Proof. exact exact_inverse32. Qed.
Print Assumptions C122_inverse_exact.

(** Without the condition: the matrix ((4097, 4098, 0), (4096, 4097, 0), (0, 0, 1)) of
    determinant 1, for which the determinant is computed as 0 and the inverse is not finite, ... *)
Theorem C122_invertible_refuted : exists A X d, Entries32 A /\ det 3 (real_matrix32 A) = 1%R /\
  inverse_c F32Num (rows_of A) = Ok (rows_of X, d) /\ B2R d = 0%R /\ is_finite (X 0 0) = false.
Proof. exact invertible_refuted32. Qed.
Print Assumptions C122_invertible_refuted.

(** ... and a singular matrix of integers below 10000 for which the determinant 1024 and a
    finite "inverse" are returned. *)
Theorem C122_singular_refuted : exists A X d, Entries32 A /\ det 3 (real_matrix32 A) = 0%R /\
  inverse_c F32Num (rows_of A) = Ok (rows_of X, d) /\ B2R d = 1024%R /\
  forall i j, 0 <= i < 3 -> 0 <= j < 3 -> is_finite (X i j) = true.
Proof. exact singular_refuted32. Qed.
Print Assumptions C122_singular_refuted.

(** A matrix that meets the conditions of the accuracy theorem. *)
Example C122_inverse_witness : exists A, Entries32 A /\ det 3 (real_matrix32 A) = 19%R /\ perm 3 (absm (real_matrix32 A)) = 23%R /\
  (bpow radix2 (-40) <= Rabs (det 3 (real_matrix32 A)))%R /\
  (14 * bpow radix2 (-24) * perm 3 (absm (real_matrix32 A)) <= Rabs (det 3 (real_matrix32 A)))%R.
Proof. exact good_matrix32. Qed.
