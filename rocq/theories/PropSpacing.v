(** Properties C22-C27: spacings and quadrature rules, over exact real arithmetic. *)
From Verif Require Import Base Num ModelSpacing ModelQuadrature SpecNumeric ProofSpacing ProofQuadrature.
From Coq Require Import Reals QArith.
Open Scope Z_scope.

(** C22. *)
Theorem C22_equal_spacing : forall N, 2 <= N <= INT_MAX ->
  exists x h, equal_interval RNum N = Ok h /\ (0 < h)%R /\
    (forall i, coord_ct RNum EqualSpacing N i = Ok (x i) /\ coord_rt RNum EqualSpacing N i = Ok (x i)) /\
    x 0 = (-1)%R /\ x (N - 1) = 1%R /\
    (forall i, (x (i + 1)%Z - x i = h)%R) /\
    Increasing N x /\ OddSymmetric N x.
Proof. exact equal_spacing_lemma. Qed.
Print Assumptions C22_equal_spacing.

Theorem C22_one_point_divides_by_zero : forall i,
  coord_ct RNum EqualSpacing 1 i = UB DivByZero /\ coord_rt RNum EqualSpacing 1 i = UB DivByZero.
Proof. exact equal_one_lemma. Qed.
Print Assumptions C22_one_point_divides_by_zero.

Example C22_witness : map (coord_ct QNum EqualSpacing 5) [0; 1; 2; 3; 4] =
  map Ok [-1 # 1; -1 # 2; 0; 1 # 2; 1]%Q.
Proof. reflexivity. Qed.

(** C23.  The nodes approximate the N distinct roots of P_N to 36 decimals. *)
Theorem C23_gauss_legendre_nodes : forall N, 2 <= N <= 4 ->
  exists x r, Points (coord_ct RNum GaussLegendreSpacing N) N x /\
    Points (coord_rt RNum GaussLegendreSpacing N) N x /\
    Increasing N x /\ OddSymmetric N x /\
    (forall i, 0 <= i < N -> (-1 < x i < 1)%R) /\
    Increasing N r /\
    (forall i, 0 <= i < N -> legendre (Z.to_nat N) (r i) = 0%R /\ (Rabs (x i - r i) <= tenth 36)%R).
Proof. exact legendre_roots_lemma. Qed.
Print Assumptions C23_gauss_legendre_nodes.

(** Any other number of points is accepted, and every point is 0. *)
Theorem C23_other_sizes_collapse : forall N i, ~ (2 <= N <= 4) ->
  coord_ct RNum GaussLegendreSpacing N i = Ok 0%R /\ coord_rt RNum GaussLegendreSpacing N i = Ok 0%R.
Proof. exact legendre_other_lemma. Qed.
Print Assumptions C23_other_sizes_collapse.

(** C24.  The interior nodes approximate the N-2 distinct critical points of P_(N-1). *)
Theorem C24_gauss_lobatto_nodes : forall N, 2 <= N <= 9 ->
  exists x r, Points (coord_ct RNum GaussLobattoSpacing N) N x /\
    Increasing N x /\ OddSymmetric N x /\ x 0 = (-1)%R /\ x (N - 1) = 1%R /\
    (forall i j, 0 < i < j -> j < N - 1 -> (r i < r j)%R) /\
    (forall i, 0 < i < N - 1 ->
       derivable_pt_lim (legendre (Z.to_nat (N - 1))) (r i) 0%R /\
       (Rabs (x i - r i) <= tenth (if N <=? 5 then 36 else if N =? 6 then 15 else 13))%R).
Proof. exact lobatto_roots_lemma. Qed.
Print Assumptions C24_gauss_lobatto_nodes.

Theorem C24_other_sizes_collapse : forall N i, ~ (2 <= N <= 9) ->
  coord_ct RNum GaussLobattoSpacing N i = Ok 0%R /\ coord_rt RNum GaussLobattoSpacing N i = Ok 0%R.
Proof. exact lobatto_other_lemma. Qed.
Print Assumptions C24_other_sizes_collapse.

Example C24_witness : map (coord_ct QNum GaussLobattoSpacing 3) [0; 1; 2] = map Ok [-1 # 1; 0; 1]%Q /\
  (legendre 2 (1 / 2) = - 1 / 8)%R.
Proof. split; [reflexivity | exact legendre_2_half]. Qed.

(** C25. *)
Theorem C25_accessors_agree : forall s N i, 0 <= i < N ->
  ~ (s = GaussLobattoSpacing /\ 6 <= N <= 9) -> coord_rt RNum s N i = coord_ct RNum s N i.
Proof. exact accessors_agree_lemma. Qed.
Print Assumptions C25_accessors_agree.

(** For Gauss-Lobatto with 6..9 points they differ at every point but the middle one. *)
Theorem C25_accessors_agree_lobatto_refuted : forall N i, 6 <= N <= 9 -> 0 <= i < N -> 2 * i <> N - 1 ->
  coord_rt RNum GaussLobattoSpacing N i = Ok 0%R /\
  exists x, coord_ct RNum GaussLobattoSpacing N i = Ok x /\ x <> 0%R.
Proof. exact accessors_disagree_lemma. Qed.
Print Assumptions C25_accessors_agree_lobatto_refuted.

Example C25_witness : coord_rt QNum GaussLobattoSpacing 6 0 = Ok 0%Q /\ coord_ct QNum GaussLobattoSpacing 6 0 = Ok (-1 # 1)%Q.
Proof. split; reflexivity. Qed.

(** C26. *)
Theorem C26_weights : forall q N,
  2 <= N <= (match q with QuadratureGaussLegendre => 4 | QuadratureGaussLobatto => 9 end) ->
  exists w, Points (weight_ct RNum q N) N w /\
    (forall i, 0 <= i < N -> (0 < w i < 2)%R) /\
    (Rabs (Zsum N w - 2) <= tenth (if N <=? 5 then 33 else 13))%R /\
    (forall i, 0 <= i < N -> (Rabs (w (N - 1 - i)%Z - w i) <= tenth 13)%R) /\
    (~ (q = QuadratureGaussLobatto /\ N = 8) -> EvenSymmetric N w).
Proof. exact weights_lemma. Qed.
Print Assumptions C26_weights.

Theorem C26_exact_symmetry_refuted : exists i wl wr, 0 <= i < 8 /\
  weight_ct RNum QuadratureGaussLobatto 8 i = Ok wl /\
  weight_ct RNum QuadratureGaussLobatto 8 (8 - 1 - i) = Ok wr /\ wl <> wr.
Proof. exact weight_asym_refuted_lemma. Qed.
Print Assumptions C26_exact_symmetry_refuted.

(** The run-time weights agree with the compile-time ones to 33 decimals ... *)
Theorem C26_runtime_weights : forall q N i,
  2 <= N <= (match q with QuadratureGaussLegendre => 4 | QuadratureGaussLobatto => 5 end) -> 0 <= i < N ->
  exists a b, weight_rt RNum q N i = Ok a /\ weight_ct RNum q N i = Ok b /\ (Rabs (a - b) <= tenth 33)%R.
Proof. exact weight_rt_lemma. Qed.
Print Assumptions C26_runtime_weights.

(** ... but are not equal for the 4-point Gauss-Lobatto rule. *)
Theorem C26_runtime_weights_equal_refuted : exists i a b, 0 <= i < 4 /\
  weight_rt RNum QuadratureGaussLobatto 4 i = Ok a /\ weight_ct RNum QuadratureGaussLobatto 4 i = Ok b /\ a <> b.
Proof. exact weight_rt_exact_refuted_lemma. Qed.
Print Assumptions C26_runtime_weights_equal_refuted.

Theorem C26_unsupported_rejected : forall q N i,
  (~ (2 <= N <= match q with QuadratureGaussLegendre => 4 | QuadratureGaussLobatto => 9 end) ->
     weight_ct RNum q N i = IllFormed) /\
  (~ (2 <= N <= match q with QuadratureGaussLegendre => 4 | QuadratureGaussLobatto => 5 end) ->
     weight_rt RNum q N i = IllFormed).
Proof. exact weight_unsupported_lemma. Qed.
Print Assumptions C26_unsupported_rejected.

(** C27.  [P] is any antiderivative of the polynomial [p], so P 1 - P (-1) is its
    integral over [-1,1]; the degree of [p] is below its length. *)
Theorem C27_quadrature_exactness : forall q N p P,
  2 <= N <= (match q with QuadratureGaussLegendre => 4 | QuadratureGaussLobatto => 9 end) ->
  Z.of_nat (length p) <= (match q with QuadratureGaussLegendre => 2 * N | QuadratureGaussLobatto => 2 * N - 2 end) ->
  (forall x, derivable_pt_lim P x (peval p x)) ->
  exists w x, Points (weight_ct RNum q N) N w /\ Points (coord_ct RNum (rule_spacing q) N) N x /\
    (Rabs (Zsum N (fun i => w i * peval p (x i)) - (P 1 - P (-1))) <=
       tenth (if N <=? 5 then 33 else 13) * norm1 p)%R.
Proof. exact exactness_lemma. Qed.
Print Assumptions C27_quadrature_exactness.

(** The degree bound is sharp: the next monomial is integrated with a visible error. *)
Theorem C27_degree_is_sharp : forall q N P,
  2 <= N <= (match q with QuadratureGaussLegendre => 4 | QuadratureGaussLobatto => 9 end) ->
  let n := Z.to_nat (match q with QuadratureGaussLegendre => 2 * N | QuadratureGaussLobatto => 2 * N - 2 end) in
  (forall x, derivable_pt_lim P x (x ^ n)%R) ->
  exists w x, Points (weight_ct RNum q N) N w /\ Points (coord_ct RNum (rule_spacing q) N) N x /\
    (1 / 20000 <= Rabs (Zsum N (fun i => w i * x i ^ n) - (P 1 - P (-1))))%R.
Proof. exact sharp_lemma. Qed.
Print Assumptions C27_degree_is_sharp.

(** Every polynomial has an antiderivative, so the hypotheses can be met. *)
Example C27_witness : forall p, exists P, forall x, derivable_pt_lim P x (peval p x).
Proof. exact antiderivative_exists. Qed.
