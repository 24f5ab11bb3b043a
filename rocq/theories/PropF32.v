(** Properties with REAL_TYPE = float (IEEE binary32).  [B2R] is the real value of a finite
    float, [bpow radix2 e] is 2^e. *)
From Coq Require Import ZArith Reals List.
From Flocq Require Import Core IEEE754.BinarySingleNaN.
From Verif Require Import Base Num ModelB64 ModelF32 ModelPmpl ModelSpacing ModelQuadrature ModelLagrange
  SpecNumeric SpecF32 ProofCheck32 ProofNodes32 ProofQuad32.
Open Scope Z_scope.

(** C119.  Run-time and compile-time accessors give the same float wherever both are defined;
    with doubles this fails for the 4-point Gauss-Lobatto rule (C65). *)
Theorem C119_coordinates_same_float : forall s N i, 0 <= i < N ->
  match s with
  | EqualSpacing => 2 <= N <= INT_MAX
  | GaussLegendreSpacing => 2 <= N <= 4
  | GaussLobattoSpacing => 2 <= N <= 5
  end ->
  same32 (coord_rt32 s N i) (coord_ct32 s N i).
Proof. exact accessors32_lemma. Qed.
Print Assumptions C119_coordinates_same_float.

Theorem C119_weights_same_float : forall q N i, 0 <= i < N ->
  match q with
  | QuadratureGaussLegendre => 2 <= N <= 4
  | QuadratureGaussLobatto => 2 <= N <= 5
  end ->
  same32 (weight_rt32 q N i) (weight_ct32 q N i).
Proof. exact weights_accessors32_lemma. Qed.
Print Assumptions C119_weights_same_float.

(** The tables in float are those in double to half a unit in the last place. *)
Theorem C119_tables : forall q N i,
  2 <= N <= (match q with QuadratureGaussLegendre => 4 | QuadratureGaussLobatto => 9 end) -> 0 <= i < N ->
  exists w w' x x', weight_ct32 q N i = Ok w /\ weight_ct B64Num q N i = Ok w' /\
    coord_ct32 (rule_spacing q) N i = Ok x /\ coord_ct B64Num (rule_spacing q) N i = Ok x' /\
    is_finite w = true /\ is_finite x = true /\ is_finite w' = true /\ is_finite x' = true /\
    (Rabs (B2R w - B2R w') <= bpow radix2 (-24))%R /\ (Rabs (B2R x - B2R x') <= bpow radix2 (-25))%R.
Proof. exact tables32_lemma. Qed.
Print Assumptions C119_tables.

(** Positive weights; polynomials up to the degree of the rule are integrated to 23 bits. *)
Theorem C119_quadrature_float : forall q N,
  2 <= N <= (match q with QuadratureGaussLegendre => 4 | QuadratureGaussLobatto => 9 end) ->
  exists w x, Points32 (weight_ct32 q N) N w /\ Points32 (coord_ct32 (rule_spacing q) N) N x /\
    (forall i, 0 <= i < N -> is_finite (w i) = true /\ is_finite (x i) = true /\ (0 < B2R (w i) < 2)%R) /\
    (Rabs (Zsum N (fun i => B2R (w i)) - 2) <= bpow radix2 (-23))%R /\
    forall p P,
      Z.of_nat (length p) <= (match q with QuadratureGaussLegendre => 2 * N | QuadratureGaussLobatto => 2 * N - 2 end) ->
      (forall t, derivable_pt_lim P t (peval p t)) ->
      (Rabs (Zsum N (fun i => B2R (w i) * peval p (B2R (x i))) - (P 1 - P (-1)))
         <= bpow radix2 (-23) * norm1 p)%R.
Proof. exact quad32_lemma. Qed.
Print Assumptions C119_quadrature_float.

(** Equally spaced points, up to 2^20 of them. *)
Theorem C119_equal_spacing_float : forall N, 2 <= N <= 2 ^ 20 ->
  exists x, Points32 (coord_ct32 EqualSpacing N) N x /\ Points32 (coord_rt32 EqualSpacing N) N x /\
    (forall i, 0 <= i < N -> is_finite (x i) = true /\ (-1 <= B2R (x i) <= 1)%R /\
       (Rabs (B2R (x i) - (-1 + 2 * IZR i / IZR (N - 1))) <= bpow radix2 (-21))%R) /\
    (forall i j, 0 <= i < j -> j < N -> (B2R (x i) < B2R (x j))%R) /\
    B2R (x 0) = (-1)%R /\
    (B2R (x (N - 1)) = 1%R \/ B2R (x (N - 1)) = (1 - bpow radix2 (-23))%R).
Proof. exact equal32_lemma. Qed.
Print Assumptions C119_equal_spacing_float.

(** With more (2^24 + 2, for example) distinct indices can have the same point. *)
Theorem C119_distinct_points_refuted : exists N i j x, 2 <= N <= INT_MAX /\ 0 <= i < j /\ j < N /\
  coord_ct32 EqualSpacing N i = Ok x /\ coord_ct32 EqualSpacing N j = Ok x.
Proof. exact equal32_coincide. Qed.
Print Assumptions C119_distinct_points_refuted.

(** The last of 42 points is not 1. *)
Theorem C119_last_point_exact_refuted : exists x, coord_ct32 EqualSpacing 42 41 = Ok x /\
  B2R x = (1 - bpow radix2 (-23))%R.
Proof. exact equal32_last_42. Qed.
Print Assumptions C119_last_point_exact_refuted.

Example C119_witness : exists x, coord_ct32 EqualSpacing 5 4 = Ok x /\ IsFloat x 1%R.
Proof. exact equal32_witness. Qed.

(** C120.  Any table of floats in [-1,1] pairwise at least 2^-q apart: at its own point a
    function is 1 up to ORDER units 2^-24, at another point exactly 0. *)
Theorem C120_nodal_float : forall ORDER q coordinate x i,
  0 <= ORDER <= 2 ^ 23 -> 0 <= q <= 120 ->
  Points32 coordinate (ORDER + 1) x -> Separated32 q (ORDER + 1) x ->
  0 <= i < ORDER + 1 ->
  (exists v, bvalue (lagrange_of F32Num ORDER coordinate) i (x i) = Ok v /\
     is_finite v = true /\ (1 - IZR ORDER * bpow radix2 (-24) <= B2R v <= 1)%R) /\
  ((ORDER + 1) * (q + 1) < 128 ->
   forall j, 0 <= j < ORDER + 1 -> j <> i ->
   exists v, bvalue (lagrange_of F32Num ORDER coordinate) i (x j) = Ok v /\ IsFloat v 0%R).
Proof. exact nodal32_lemma. Qed.
Print Assumptions C120_nodal_float.

Theorem C120_bundled_nodal_float : forall s ORDER,
  match s with
  | EqualSpacing => 1 <= ORDER <= 24
  | GaussLegendreSpacing => 1 <= ORDER <= 3
  | GaussLobattoSpacing => 1 <= ORDER <= 8
  end ->
  exists x, Points32 (coord_ct32 s (ORDER + 1)) (ORDER + 1) x /\
  forall i, 0 <= i < ORDER + 1 ->
  (exists v, bvalue (LagrangeBasis32 ORDER s) i (x i) = Ok v /\
     is_finite v = true /\ (1 - IZR ORDER * bpow radix2 (-24) <= B2R v <= 1)%R) /\
  (forall j, 0 <= j < ORDER + 1 -> j <> i ->
   exists v, bvalue (LagrangeBasis32 ORDER s) i (x j) = Ok v /\ IsFloat v 0%R).
Proof. exact bundled_nodal32_lemma. Qed.
Print Assumptions C120_bundled_nodal_float.

(** Own value exactly 1 fails, for example for Gauss-Lobatto of order 4. *)
Theorem C120_own_value_exact_refuted : exists x v, coord_ct32 GaussLobattoSpacing 5 1 = Ok x /\
  bvalue (LagrangeBasis32 4 GaussLobattoSpacing) 1 x = Ok v /\ B2R v = (1 - 3 * bpow radix2 (-24))%R.
Proof. exact own_value32_refuted. Qed.
Print Assumptions C120_own_value_exact_refuted.

(** On [-1,1] a basis function is a number within a relative error of 6 ORDER 2^-24 (and an
    absolute error for underflow) of the exact basis function of the same points. *)
Theorem C120_value_accuracy : forall ORDER q coordinate x i y,
  0 <= ORDER < INT_MAX -> 0 <= q <= 120 -> (ORDER + 1) * (q + 1) < 128 ->
  Points32 coordinate (ORDER + 1) x -> Separated32 q (ORDER + 1) x ->
  0 <= i < ORDER + 1 -> InReference32 y ->
  exists v phi, bvalue (lagrange_of F32Num ORDER coordinate) i y = Ok v /\
    bvalue (lagrange_of RNum ORDER (fun k => Ok (B2R (x k)))) i (B2R y) = Ok phi /\
    is_finite v = true /\
    (Rabs (B2R v - phi) <= 6 * IZR ORDER * bpow radix2 (-24) * Rabs phi
                           + bpow radix2 (-149 + (ORDER + 1) * (q + 3)))%R.
Proof. exact accuracy32_lemma. Qed.
Print Assumptions C120_value_accuracy.

Theorem C120_bundled_accuracy : forall s ORDER i y,
  match s with
  | EqualSpacing => 1 <= ORDER <= 24
  | GaussLegendreSpacing => 1 <= ORDER <= 3
  | GaussLobattoSpacing => 1 <= ORDER <= 8
  end -> ORDER <= 9 ->
  0 <= i < ORDER + 1 -> InReference32 y ->
  exists x v phi, Points32 (coord_ct32 s (ORDER + 1)) (ORDER + 1) x /\
    bvalue (LagrangeBasis32 ORDER s) i y = Ok v /\
    bvalue (lagrange_of RNum ORDER (fun k => Ok (B2R (x k)))) i (B2R y) = Ok phi /\
    is_finite v = true /\
    (Rabs (B2R v - phi) <= 6 * IZR ORDER * bpow radix2 (-24) * Rabs phi + bpow radix2 (-79))%R.
Proof. exact bundled_accuracy32_lemma. Qed.
Print Assumptions C120_bundled_accuracy.

(** 1/2 is a point at which the theorem applies. *)
Example C120_witness : InReference32 (narrow (b64_lit 5 1)) /\ B2R (narrow (b64_lit 5 1)) = (/ 2)%R.
Proof. exact half_reference32. Qed.

(** C121.  What passes is within the tolerance; NaN and infinite values never pass. *)
Theorem C121_check_sound : forall a b tol : b32, check F32Num a b tol = true ->
  is_finite a = true /\ is_finite b = true /\
  (is_finite tol = true -> (Rabs (B2R a - B2R b) < Rabs (B2R tol))%R).
Proof. exact check32_sound. Qed.
Print Assumptions C121_check_sound.

(** What is within the tolerance, less two units in its last place, passes, for tolerances
    whose square neither underflows nor overflows. *)
Theorem C121_check_complete : forall a b tol : b32,
  is_finite a = true -> is_finite b = true -> is_finite tol = true ->
  (bpow radix2 (-63) <= Rabs (B2R tol) <= bpow radix2 63)%R ->
  (Rabs (B2R a - B2R b) <= (1 - bpow radix2 (-22)) * Rabs (B2R tol))%R ->
  check F32Num a b tol = true.
Proof. exact check32_complete. Qed.
Print Assumptions C121_check_complete.

(** Equal values pass exactly when the square of the tolerance does not round to 0. *)
Theorem C121_check_equal_values : forall a tol : b32, is_finite a = true -> is_finite tol = true ->
  (check F32Num a a tol = true <-> (bpow radix2 (-150) < B2R tol * B2R tol)%R).
Proof. exact check32_self. Qed.
Print Assumptions C121_check_equal_values.

(** There is (2^-80, for example) a positive tolerance for which a value is not close to itself. *)
Theorem C121_every_tolerance_refuted : exists a tol : b32, is_finite a = true /\ is_finite tol = true /\
  (0 < B2R tol)%R /\ check F32Num a a tol = false.
Proof. exact check32_underflow_refuted. Qed.
Print Assumptions C121_every_tolerance_refuted.

(** Values well within a large tolerance do not pass when both squares overflow. *)
Theorem C121_large_values_refuted : exists a b tol : b32,
  is_finite a = true /\ is_finite b = true /\ is_finite tol = true /\
  (2 * Rabs (B2R a - B2R b) < B2R tol)%R /\ check F32Num a b tol = false.
Proof. exact check32_overflow_refuted. Qed.
Print Assumptions C121_large_values_refuted.

Example C121_witness : check F32Num (narrow (b64_lit 1 1)) (narrow (b64_lit 1001 4)) (narrow (b64_lit 1 3)) = true /\
  check F32Num (narrow (b64_lit 1 1)) (narrow (b64_lit 1011 4)) (narrow (b64_lit 1 3)) = false.
Proof. split; vm_compute; reflexivity. Qed.
