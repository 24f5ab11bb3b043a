(** Properties in IEEE binary64 (REAL_TYPE = double).  [B2R] is the real value of a finite
    double, [bpow radix2 e] is 2^e. *)
From Coq Require Import ZArith Reals List.
From Flocq Require Import Core IEEE754.BinarySingleNaN.
From Verif Require Import Base Num ModelB64 ModelPmpl ModelSpacing ModelQuadrature ModelLagrange
  SpecNumeric SpecB64 ProofCheck64 ProofNodes64 ProofQuad64.
Open Scope Z_scope.

(** C52.  What passes is within the tolerance; NaN and infinite values never pass. *)
Theorem C52_check_sound : forall a b tol : b64, check B64Num a b tol = true ->
  is_finite a = true /\ is_finite b = true /\
  (is_finite tol = true -> (Rabs (B2R a - B2R b) < Rabs (B2R tol))%R).
Proof. exact check64_sound. Qed.
Print Assumptions C52_check_sound.

(** What is within the tolerance, less two units in its last place, passes, for tolerances
    whose square neither underflows nor overflows. *)
Theorem C52_check_complete : forall a b tol : b64,
  is_finite a = true -> is_finite b = true -> is_finite tol = true ->
  (bpow radix2 (-511) <= Rabs (B2R tol) <= bpow radix2 511)%R ->
  (Rabs (B2R a - B2R b) <= (1 - bpow radix2 (-51)) * Rabs (B2R tol))%R ->
  check B64Num a b tol = true.
Proof. exact check64_complete. Qed.
Print Assumptions C52_check_complete.

(** Equal values pass exactly when the square of the tolerance does not round to 0. *)
Theorem C52_check_equal_values : forall a tol : b64, is_finite a = true -> is_finite tol = true ->
  (check B64Num a a tol = true <-> (bpow radix2 (-1075) < B2R tol * B2R tol)%R).
Proof. exact check64_self. Qed.
Print Assumptions C52_check_equal_values.

(** There is (2^-600, for example) a positive tolerance for which a value is not close to itself. *)
Theorem C52_every_tolerance_refuted : exists a tol : b64, is_finite a = true /\ is_finite tol = true /\
  (0 < B2R tol)%R /\ check B64Num a a tol = false.
Proof. exact check64_underflow_refuted. Qed.
Print Assumptions C52_every_tolerance_refuted.

(** Values well within a large tolerance do not pass when both squares overflow. *)
Theorem C52_large_values_refuted : exists a b tol : b64,
  is_finite a = true /\ is_finite b = true /\ is_finite tol = true /\
  (2 * Rabs (B2R a - B2R b) < B2R tol)%R /\ check B64Num a b tol = false.
Proof. exact check64_overflow_refuted. Qed.
Print Assumptions C52_large_values_refuted.

Example C52_witness : check B64Num (b64_lit 1 1) (b64_lit 1000001 7) (b64_lit 1 6) = true /\
  check B64Num (b64_lit 1 1) (b64_lit 1000011 7) (b64_lit 1 6) = false.
Proof. split; vm_compute; reflexivity. Qed.

(** C56. *)
Theorem C56_equal_spacing_double : forall N, 2 <= N <= INT_MAX ->
  exists x, Points64 (coord_ct B64Num EqualSpacing N) N x /\ Points64 (coord_rt B64Num EqualSpacing N) N x /\
    (forall i, 0 <= i < N -> is_finite (x i) = true /\ (-1 <= B2R (x i) <= 1)%R /\
       (Rabs (B2R (x i) - (-1 + 2 * IZR i / IZR (N - 1))) <= bpow radix2 (-50))%R) /\
    (forall i j, 0 <= i < j -> j < N -> (B2R (x i) < B2R (x j))%R) /\
    B2R (x 0) = (-1)%R /\
    (B2R (x (N - 1)) = 1%R \/ B2R (x (N - 1)) = (1 - bpow radix2 (-52))%R).
Proof. exact equal64_lemma. Qed.
Print Assumptions C56_equal_spacing_double.

(** Both alternatives of the last point occur; this is the inexact one. *)
Theorem C56_last_point_exact_refuted : exists x, coord_ct B64Num EqualSpacing 50 49 = Ok x /\
  B2R x = (1 - bpow radix2 (-52))%R.
Proof. exact equal64_last_50. Qed.
Print Assumptions C56_last_point_exact_refuted.

(** The points are not symmetric about 0, as they are over the reals (C22). *)
Theorem C56_symmetric_refuted : exists a b, coord_ct B64Num EqualSpacing 4 1 = Ok a /\
  coord_ct B64Num EqualSpacing 4 2 = Ok b /\ B2R b <> (- B2R a)%R.
Proof. exact equal64_asym_4. Qed.
Print Assumptions C56_symmetric_refuted.

(** One point: not a number (or infinite) whatever the index. *)
Theorem C56_one_point_not_finite : forall i, exists x, coord_ct B64Num EqualSpacing 1 i = Ok x /\
  coord_rt B64Num EqualSpacing 1 i = Ok x /\ is_finite x = false.
Proof. exact equal64_one_point. Qed.
Print Assumptions C56_one_point_not_finite.

Example C56_witness : exists x, coord_ct B64Num EqualSpacing 5 4 = Ok x /\ IsNum x 1%R.
Proof. exact equal64_witness. Qed.

(** C57.  Any table of doubles in [-1,1] pairwise at least 2^-q apart: at its own point a
    function is 1 up to ORDER units 2^-53, at another point exactly 0. *)
Theorem C57_nodal_double : forall ORDER q coordinate x i,
  0 <= ORDER < INT_MAX -> 0 <= q <= 1000 ->
  Points64 coordinate (ORDER + 1) x -> Separated q (ORDER + 1) x ->
  0 <= i < ORDER + 1 ->
  (exists v, bvalue (lagrange_of B64Num ORDER coordinate) i (x i) = Ok v /\
     is_finite v = true /\ (1 - IZR ORDER * bpow radix2 (-53) <= B2R v <= 1)%R) /\
  ((ORDER + 1) * (q + 1) < 1024 ->
   forall j, 0 <= j < ORDER + 1 -> j <> i ->
   exists v, bvalue (lagrange_of B64Num ORDER coordinate) i (x j) = Ok v /\ IsNum v 0%R).
Proof. exact nodal64_lemma. Qed.
Print Assumptions C57_nodal_double.

(** The bundled spacings meet those conditions: tabulated ones for every order they
    support, equally spaced points up to order 126. *)
Theorem C57_bundled_nodal_double : forall s ORDER,
  match s with
  | EqualSpacing => 1 <= ORDER <= 126
  | GaussLegendreSpacing => 1 <= ORDER <= 3
  | GaussLobattoSpacing => 1 <= ORDER <= 8
  end ->
  exists x, Points64 (coord_ct B64Num s (ORDER + 1)) (ORDER + 1) x /\
  forall i, 0 <= i < ORDER + 1 ->
  (exists v, bvalue (LagrangeBasis B64Num ORDER s) i (x i) = Ok v /\
     is_finite v = true /\ (1 - IZR ORDER * bpow radix2 (-53) <= B2R v <= 1)%R) /\
  (forall j, 0 <= j < ORDER + 1 -> j <> i ->
   exists v, bvalue (LagrangeBasis B64Num ORDER s) i (x j) = Ok v /\ IsNum v 0%R).
Proof. exact bundled_nodal64_lemma. Qed.
Print Assumptions C57_bundled_nodal_double.

(** Own value exactly 1 fails, for example for Gauss-Lobatto of order 5. *)
Theorem C57_own_value_exact_refuted : exists x v, coord_ct B64Num GaussLobattoSpacing 6 0 = Ok x /\
  bvalue (LagrangeBasis B64Num 5 GaussLobattoSpacing) 0 x = Ok v /\ B2R v = (1 - bpow radix2 (-52))%R.
Proof. exact own_value_refuted. Qed.
Print Assumptions C57_own_value_exact_refuted.

(** C65.  Run-time and compile-time accessors give the same double ... *)
Theorem C65_coordinates_same_double : forall s N i, 0 <= i < N ->
  match s with
  | EqualSpacing => 2 <= N <= INT_MAX
  | GaussLegendreSpacing => 2 <= N <= 4
  | GaussLobattoSpacing => N = 2 \/ N = 3 \/ N = 5
  end ->
  same64 (coord_rt B64Num s N i) (coord_ct B64Num s N i).
Proof. exact accessors64_lemma. Qed.
Print Assumptions C65_coordinates_same_double.

Theorem C65_weights_same_double : forall q N i, 0 <= i < N ->
  match q with
  | QuadratureGaussLegendre => 2 <= N <= 4
  | QuadratureGaussLobatto => N = 2 \/ N = 3 \/ N = 5
  end ->
  same64 (weight_rt B64Num q N i) (weight_ct B64Num q N i).
Proof. exact weights_accessors64_lemma. Qed.
Print Assumptions C65_weights_same_double.

(** ... but not for the interior points and weights of the 4-point Gauss-Lobatto rule. *)
Theorem C65_lobatto4_same_double_refuted : forall i, i = 1 \/ i = 2 ->
  ~ same64 (coord_rt B64Num GaussLobattoSpacing 4 i) (coord_ct B64Num GaussLobattoSpacing 4 i) /\
  ~ same64 (weight_rt B64Num QuadratureGaussLobatto 4 i) (weight_ct B64Num QuadratureGaussLobatto 4 i).
Proof. exact lobatto4_lemma. Qed.
Print Assumptions C65_lobatto4_same_double_refuted.

Example C65_witness : same64 (coord_rt B64Num GaussLobattoSpacing 5 1) (coord_ct B64Num GaussLobattoSpacing 5 1).
Proof. exact (accessors64_lemma GaussLobattoSpacing 5 1 ltac:(split; reflexivity || discriminate) ltac:(right; right; reflexivity)). Qed.

(** C66.  On [-1,1] a basis function computed in doubles is a number within a relative error
    of 6 ORDER 2^-53 (and an absolute error for underflow) of the exact basis function of the
    same points. *)
Theorem C66_value_accuracy : forall ORDER q coordinate x i y,
  0 <= ORDER < INT_MAX -> 0 <= q <= 1000 -> (ORDER + 1) * (q + 1) < 1024 ->
  Points64 coordinate (ORDER + 1) x -> Separated q (ORDER + 1) x ->
  0 <= i < ORDER + 1 -> InReference y ->
  exists v phi, bvalue (lagrange_of B64Num ORDER coordinate) i y = Ok v /\
    bvalue (lagrange_of RNum ORDER (fun k => Ok (B2R (x k)))) i (B2R y) = Ok phi /\
    is_finite v = true /\
    (Rabs (B2R v - phi) <= 6 * IZR ORDER * bpow radix2 (-53) * Rabs phi
                           + bpow radix2 (-1074 + (ORDER + 1) * (q + 3)))%R.
Proof. exact accuracy64_lemma. Qed.
Print Assumptions C66_value_accuracy.

Theorem C66_bundled_accuracy : forall s ORDER i y,
  match s with
  | EqualSpacing => 1 <= ORDER <= 126
  | GaussLegendreSpacing => 1 <= ORDER <= 3
  | GaussLobattoSpacing => 1 <= ORDER <= 8
  end -> ORDER <= 15 ->
  0 <= i < ORDER + 1 -> InReference y ->
  exists x v phi, Points64 (coord_ct B64Num s (ORDER + 1)) (ORDER + 1) x /\
    bvalue (LagrangeBasis B64Num ORDER s) i y = Ok v /\
    bvalue (lagrange_of RNum ORDER (fun k => Ok (B2R (x k)))) i (B2R y) = Ok phi /\
    is_finite v = true /\
    (Rabs (B2R v - phi) <= 6 * IZR ORDER * bpow radix2 (-53) * Rabs phi + bpow radix2 (-960))%R.
Proof. exact bundled_accuracy64_lemma. Qed.
Print Assumptions C66_bundled_accuracy.

(** 1/2 is a point at which the theorem applies. *)
Example C66_witness : InReference (b64_lit 5 1) /\ B2R (b64_lit 5 1) = (/ 2)%R.
Proof. exact half_reference. Qed.

(** C67.  The rules as stored in doubles: positive weights, and polynomials up to the degree
    of the rule are integrated up to the precision of the tables. *)
Theorem C67_quadrature_double : forall q N,
  2 <= N <= (match q with QuadratureGaussLegendre => 4 | QuadratureGaussLobatto => 9 end) ->
  exists w x, Points64 (weight_ct B64Num q N) N w /\ Points64 (coord_ct B64Num (rule_spacing q) N) N x /\
    (forall i, 0 <= i < N -> is_finite (w i) = true /\ is_finite (x i) = true /\ (0 < B2R (w i) < 2)%R) /\
    (Rabs (Zsum N (fun i => B2R (w i)) - 2) <= bpow radix2 (- (if N <=? 5 then 53 else 45)))%R /\
    forall p P,
      Z.of_nat (length p) <= (match q with QuadratureGaussLegendre => 2 * N | QuadratureGaussLobatto => 2 * N - 2 end) ->
      (forall t, derivable_pt_lim P t (peval p t)) ->
      (Rabs (Zsum N (fun i => B2R (w i) * peval p (B2R (x i))) - (P 1 - P (-1)))
         <= bpow radix2 (- (if N <=? 5 then 53 else 45)) * norm1 p)%R.
Proof. exact quad64_lemma. Qed.
Print Assumptions C67_quadrature_double.

Example C67_witness : exists w, weight_ct B64Num QuadratureGaussLegendre 2 0 = Ok w /\ IsNum w 1%R.
Proof. exact weight64_witness. Qed.
