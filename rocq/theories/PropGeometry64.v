(** Properties of the matrix inverse and of scaled cells in IEEE binary64 (REAL_TYPE = double).
    [B2R] is the real value of a finite double, [bpow radix2 e] is 2^e. *)
From Coq Require Import ZArith Reals List.
From Flocq Require Import Core IEEE754.BinarySingleNaN.
From Verif Require Import Base Num ModelB64 ModelAssert ModelCArray ModelMath ModelTransforms SpecMath SpecB64 SpecAccuracy
  ProofInverse64 ProofFix64 ProofScaling64.
Open Scope Z_scope.

(** C82.  Lengths between 2^-300 and 2^300: the Jacobian is exact, its inverse is correctly
    rounded, the determinant has a relative error of at most three units 2^-53. *)
Theorem C82_scaling_double : forall c h0 h1 h2,
  (forall h, In h [h0; h1; h2] -> is_finite h = true /\ (bpow radix2 (-300) <= Rabs (B2R h) <= bpow radix2 300)%R) ->
  (exists j0 j1 j2, scaling_jacobian_wrapper B64Num c [h0; h1; h2] = Ok [j0; j1; j2] /\
     IsNum j0 (B2R h0 / 2)%R /\ IsNum j1 (B2R h1 / 2)%R /\ IsNum j2 (B2R h2 / 2)%R) /\
  exists d q0 q1 q2, scaling_inverseJacobian_wrapper B64Num c [h0; h1; h2] = Ok (d, [q0; q1; q2]) /\
    (forall h q, In (h, q) [(h0, q0); (h1, q1); (h2, q2)] -> is_finite q = true /\
       (Rabs (B2R q - / (B2R h / 2)) <= bpow radix2 (-53) * Rabs (/ (B2R h / 2)))%R) /\
    is_finite d = true /\
    (Rabs (B2R d - B2R h0 / 2 * (B2R h1 / 2) * (B2R h2 / 2))
       <= 3 * bpow radix2 (-53) * Rabs (B2R h0 / 2 * (B2R h1 / 2) * (B2R h2 / 2)))%R.
Proof. exact scaling64_lemma. Qed.
Print Assumptions C82_scaling_double.

(** The Jacobian is exact for every normal length but the smallest. *)
Theorem C82_jacobian_exact : forall c h0 h1 h2,
  (forall h, In h [h0; h1; h2] -> is_finite h = true /\ (bpow radix2 (-1021) <= Rabs (B2R h))%R) ->
  exists j0 j1 j2, scaling_jacobian_wrapper B64Num c [h0; h1; h2] = Ok [j0; j1; j2] /\
    IsNum j0 (B2R h0 / 2)%R /\ IsNum j1 (B2R h1 / 2)%R /\ IsNum j2 (B2R h2 / 2)%R.
Proof. exact scaling64_exact_lemma. Qed.
Print Assumptions C82_jacobian_exact.

(** Not every cell of positive size has a nonzero determinant: 10^-120 cubed underflows. *)
Theorem C82_small_cell_refuted : exists h : b64, is_finite h = true /\ (0 < B2R h)%R /\
  forall c, exists d q, scaling_inverseJacobian_wrapper B64Num c [h; h; h] = Ok (d, [q; q; q]) /\
    is_finite q = true /\ B2R d = 0%R.
Proof. exact scaling64_underflow_refuted. Qed.
Print Assumptions C82_small_cell_refuted.

Example C82_witness : is_finite (b64_lit 3 1) = true /\
  (bpow radix2 (-300) <= Rabs (B2R (b64_lit 3 1)) <= bpow radix2 300)%R.
Proof. exact three_tenths. Qed.

(** C83.  The determinant returned by the inverse of a 3x3 matrix of doubles. *)
Theorem C83_determinant_double : forall A, Entries64 A ->
  exists X d, inverse_c B64Num (rows_of A) = Ok (rows_of X, d) /\ is_finite d = true /\
    (Rabs (B2R d - det 3 (real_matrix A))
       <= 6 * bpow radix2 (-53) * perm 3 (absm (real_matrix A)) + bpow radix2 (-767))%R.
Proof. exact det64_lemma. Qed.
Print Assumptions C83_determinant_double.

(** The inverse, for determinants that are not lost in the rounding errors: each entry is
    off by at most 24 units 2^-53 of P/|det| times the entry of the inverse computed with all
    terms of its cofactor taken positive, P being the determinant with all terms positive. *)
Theorem C83_inverse_double : forall A, Entries64 A ->
  (bpow radix2 (-400) <= Rabs (det 3 (real_matrix A)))%R ->
  (14 * bpow radix2 (-53) * perm 3 (absm (real_matrix A)) <= Rabs (det 3 (real_matrix A)))%R ->
  exists X d B, inverse_c B64Num (rows_of A) = Ok (rows_of X, d) /\ Inverse 3 (real_matrix A) B /\
    (Rabs (B2R d - det 3 (real_matrix A)) <= 7 * bpow radix2 (-53) * perm 3 (absm (real_matrix A)))%R /\
    forall i j, 0 <= i < 3 -> 0 <= j < 3 -> is_finite (X i j) = true /\
      (Rabs (B2R (X i j) - B i j) <=
        24 * bpow radix2 (-53) * (perm 3 (absm (real_matrix A)) / Rabs (det 3 (real_matrix A)))
          * (perm 2 (minor (absm (real_matrix A)) j i) / Rabs (det 3 (real_matrix A))) + bpow radix2 (-670))%R.
Proof. exact inverse64_lemma. Qed.
Print Assumptions C83_inverse_double.

(** Multiples of one power of two by integers up to 65536: the determinant is exact ... *)
Theorem C83_determinant_exact : forall A e, -300 <= e <= 300 ->
  (forall i j, 0 <= i < 3 -> 0 <= j < 3 -> is_finite (A i j) = true /\
     exists m, Z.abs m <= 2 ^ 16 /\ B2R (A i j) = (IZR m * bpow radix2 e)%R) ->
  exists X d, inverse_c B64Num (rows_of A) = Ok (rows_of X, d) /\ is_finite d = true /\
    B2R d = det 3 (real_matrix A).
Proof. exact exact_det_lemma. Qed.
Print Assumptions C83_determinant_exact.

(** ... and if it is plus or minus a power of two, so is the inverse. *)
Theorem C83_inverse_exact : forall A e k, -300 <= e <= 300 ->
  Rabs (det 3 (real_matrix A)) = bpow radix2 k ->
  (forall i j, 0 <= i < 3 -> 0 <= j < 3 -> is_finite (A i j) = true /\
     exists m, Z.abs m <= 2 ^ 16 /\ B2R (A i j) = (IZR m * bpow radix2 e)%R) ->
  exists X d, inverse_c B64Num (rows_of A) = Ok (rows_of X, d) /\
    (forall i j, 0 <= i < 3 -> 0 <= j < 3 -> is_finite (X i j) = true) /\
    Inverse 3 (real_matrix A) (real_matrix X).
Proof. exact exact_inverse_lemma. Qed.
Print Assumptions C83_inverse_exact.

(** Without the condition: an integer matrix of determinant 1 for which the determinant is
    computed as 0 and the inverse is not finite, ... *)
Theorem C83_invertible_refuted : exists A X d, Entries64 A /\ det 3 (real_matrix A) = 1%R /\
  inverse_c B64Num (rows_of A) = Ok (rows_of X, d) /\ B2R d = 0%R /\ is_finite (X 0 0) = false.
Proof. exact invertible_refuted_lemma. Qed.
Print Assumptions C83_invertible_refuted.

(** ... and a singular integer matrix for which a determinant other than 0 and a finite
    "inverse" are returned. *)
Theorem C83_singular_refuted : exists A X d, Entries64 A /\ det 3 (real_matrix A) = 0%R /\
  inverse_c B64Num (rows_of A) = Ok (rows_of X, d) /\ B2R d = (-67108864)%R /\
  forall i j, 0 <= i < 3 -> 0 <= j < 3 -> is_finite (X i j) = true.
Proof. exact singular_refuted_lemma. Qed.
Print Assumptions C83_singular_refuted.

(** A matrix that meets the conditions of the accuracy theorem. *)
Example C83_witness : exists A, Entries64 A /\ det 3 (real_matrix A) = 19%R /\ perm 3 (absm (real_matrix A)) = 23%R /\
  (bpow radix2 (-400) <= Rabs (det 3 (real_matrix A)))%R /\
  (14 * bpow radix2 (-53) * perm 3 (absm (real_matrix A)) <= Rabs (det 3 (real_matrix A)))%R.
Proof. exact good_matrix. Qed.
