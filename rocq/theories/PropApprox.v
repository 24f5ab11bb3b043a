(** C106 - C108: errors of interpolation, bounds on interpolated values, errors of quadrature. *)
From Verif Require Import Base Num SpecIndex SpecNumeric SpecBasis SpecApprox ModelAssert ModelSpacing ModelQuadrature ModelLagrange
  ModelBasisProduct ProofApprox.
From Coq Require Import Reals QArith.
Open Scope R_scope.

(** C106.  [F 0] is the function, [F k] its k-th derivative. *)
Theorem C106_remainder : forall ORDER coordinate x (F : nat -> R -> R) a b y,
  (0 <= ORDER < INT_MAX)%Z -> Points coordinate (ORDER + 1) x -> Distinct (ORDER + 1) x ->
  (forall i, (0 <= i <= ORDER)%Z -> a <= x i <= b) -> a <= y <= b ->
  (forall k t, (Z.of_nat k <= ORDER)%Z -> a <= t <= b -> derivable_pt_lim (F k) t (F (S k) t)) ->
  exists v xi, (forall i, (0 <= i <= ORDER)%Z -> lagrange_value RNum ORDER coordinate i y = Ok (v i)) /\ a <= xi <= b /\
    F O y - Zsum (ORDER + 1) (fun i => F O (x i) * v i) =
      F (Z.to_nat (ORDER + 1)) xi / INR (fact (Z.to_nat (ORDER + 1))) * Zprod (ORDER + 1) (fun i => y - x i).
Proof. exact lagrange_remainder_lemma. Qed.
Print Assumptions C106_remainder.

(** [D j k] is the k-th derivative of [f] in direction [j]; [M] bounds the derivatives whose order is the number of points. *)
Theorem C106_element_error : forall a b bases ds (D : nat -> nat -> list R -> R) f L M var xi,
  Forall2 Evaluates bases ds -> Forall Nodal ds -> ds <> [] ->
  Forall (fun d => forall i, (0 <= i < npts d)%Z -> a <= pt d i <= b) ds ->
  length xi = length ds -> length M = length ds -> InCube a b xi -> Amplifies ds L xi ->
  (forall t, InRange (counts ds) t -> var t = Ok (f (gridpoint ds t))) ->
  (forall j p, (j < length ds)%nat -> length p = length ds -> InCube a b p -> D j 0%nat p = f p) ->
  (forall j k d p, nth_error ds j = Some d -> (k < Z.to_nat (npts d))%nat -> length p = length ds -> InCube a b p ->
     Partial (D j k) j p (D j (S k) p)) ->
  (forall j d p, nth_error ds j = Some d -> length p = length ds -> InCube a b p ->
     Rabs (D j (Z.to_nat (npts d)) p) <= nth j M 0) ->
  exists v, parent_value RNum (Z.of_nat (length ds)) bases var xi = Ok v /\ Rabs (f xi - v) <= error_bound ds L M xi.
Proof. exact parent_error. Qed.
Print Assumptions C106_element_error.

(** Elements of order 1 on [-1,1]^d: at most the sum of M_j / 2 (1 - xi_j^2). *)
Theorem C106_multilinear_error : forall specs (D : nat -> nat -> list R -> R) f M var xi,
  Forall (fun so => snd so = 1%Z /\ fst so <> GaussLegendreSpacing) specs -> specs <> [] ->
  length xi = length specs -> length M = length specs -> InCube (-1) 1 xi ->
  (forall t, InRange (map (fun _ => 2%Z) specs) t -> var t = Ok (f (map (fun i => 2 * IZR i - 1) t))) ->
  (forall j p, (j < length specs)%nat -> length p = length specs -> InCube (-1) 1 p -> D j 0%nat p = f p) ->
  (forall j k p, (j < length specs)%nat -> (k < 2)%nat -> length p = length specs -> InCube (-1) 1 p ->
     Partial (D j k) j p (D j (S k) p)) ->
  (forall j p, (j < length specs)%nat -> length p = length specs -> InCube (-1) 1 p -> Rabs (D j 2%nat p) <= nth j M 0) ->
  exists v, parent_value RNum (Z.of_nat (length specs)) (map (fun so => LagrangeBasis RNum (snd so) (fst so)) specs) var xi = Ok v /\
    Rabs (f xi - v) <= fold_right Rplus 0 (map (fun mx => fst mx / 2 * (1 - snd mx * snd mx)) (combine M xi)).
Proof. exact multilinear_error_lemma. Qed.
Print Assumptions C106_multilinear_error.

(** x^2 on a square meets the hypotheses with M = (2, 0), and its error 1 - x^2 is the bound. *)
Example C106_hypotheses : exists D : nat -> nat -> list R -> R,
  (forall j p, (j < 2)%nat -> length p = 2%nat -> InCube (-1) 1 p -> D j 0%nat p = (nth 0 p 0 * nth 0 p 0)) /\
  (forall j k p, (j < 2)%nat -> (k < 2)%nat -> length p = 2%nat -> InCube (-1) 1 p -> Partial (D j k) j p (D j (S k) p)) /\
  (forall j p, (j < 2)%nat -> length p = 2%nat -> InCube (-1) 1 p -> Rabs (D j 2%nat p) <= nth j [2; 0] 0).
Proof. exact square_example. Qed.
Example C106_witness :
  (v <- parent_value QNum 2 (repeat (LagrangeBasis QNum 1 EqualSpacing) 2)
     (fun t => Ok (inject_Z ((2 * nth 0 t 0 - 1) * (2 * nth 0 t 0 - 1))%Z)) [1 # 2; 1 # 3]%Q ;; Ok (Qred ((1 # 2) * (1 # 2) - v))) =
  Ok (-3 # 4)%Q.
Proof. reflexivity. Qed.

(** C107: order 1 with the end points of the interval - values between the smallest and the largest datum. *)
Theorem C107_no_overshoot : forall specs u var lo hi xi,
  Forall (fun so => snd so = 1%Z /\ fst so <> GaussLegendreSpacing) specs -> specs <> [] ->
  length xi = length specs -> InCube (-1) 1 xi ->
  (forall t, InRange (map (fun so => snd so + 1)%Z specs) t -> var t = Ok (u t) /\ lo <= u t <= hi) ->
  exists v, parent_value RNum (Z.of_nat (length specs)) (map (fun so => LagrangeBasis RNum (snd so) (fst so)) specs) var xi = Ok v /\
    lo <= v <= hi.
Proof. exact no_overshoot_lemma. Qed.
Print Assumptions C107_no_overshoot.

(** From order 2 on: at every point that is no support point, some data in [0, 1] give a negative value. *)
Theorem C107_higher_orders_refuted : forall s o x y,
  match s with
  | EqualSpacing => (1 <= o < INT_MAX)%Z
  | GaussLegendreSpacing => (1 <= o <= 3)%Z
  | GaussLobattoSpacing => (1 <= o <= 8)%Z
  end -> (2 <= o)%Z -> Points (coord_ct RNum s (o + 1)) (o + 1) x -> (forall i, (0 <= i <= o)%Z -> x i <> y) ->
  exists i v, (0 <= i <= o)%Z /\
    parent_value RNum 1 [LagrangeBasis RNum o s] (fun t => Ok (if (nth 0 t 0 =? i)%Z then 1 else 0)) [y] = Ok v /\ v < 0.
Proof. exact overshoot_lemma. Qed.
Print Assumptions C107_higher_orders_refuted.

Theorem C107_gauss_legendre_refuted : exists v,
  parent_value RNum 1 [LagrangeBasis RNum 1 GaussLegendreSpacing] (fun t => Ok (if (nth 0 t 0 =? 0)%Z then 1 else 0)) [1] = Ok v /\ v < 0.
Proof. exact legendre_overshoot_lemma. Qed.
Print Assumptions C107_gauss_legendre_refuted.

Example C107_witness :
  parent_value QNum 1 [LagrangeBasis QNum 2 EqualSpacing] (fun t => Ok (if (nth 0 t 0 =? 0)%Z then 1%Q else 0%Q)) [1 # 2]%Q = Ok (-1 # 8)%Q.
Proof. reflexivity. Qed.

(** C108: [f] within [delta] of a polynomial [p] that the rule integrates; [P] an antiderivative of [f]. *)
Theorem C108_quadrature_error : forall q N f P p delta,
  (2 <= N <= (match q with QuadratureGaussLegendre => 4 | QuadratureGaussLobatto => 9 end))%Z ->
  (Z.of_nat (length p) <= (match q with QuadratureGaussLegendre => 2 * N | QuadratureGaussLobatto => 2 * N - 2 end))%Z ->
  (forall t, -1 <= t <= 1 -> derivable_pt_lim P t (f t)) ->
  (forall t, -1 <= t <= 1 -> Rabs (f t - peval p t) <= delta) ->
  exists w x, Points (weight_ct RNum q N) N w /\ Points (coord_ct RNum (rule_spacing q) N) N x /\
    Rabs (Zsum N (fun i => w i * f (x i)) - (P 1 - P (-1))) <=
      (4 + tenth (if (N <=? 5)%Z then 33 else 13)) * delta + tenth (if (N <=? 5)%Z then 33 else 13) * norm1 p.
Proof. exact quadrature_error_lemma. Qed.
Print Assumptions C108_quadrature_error.

(** t^4 is within 1/8 of t^2 - 1/8 on [-1,1]. *)
Example C108_hypotheses : (forall t, derivable_pt_lim (fun t => t ^ 5 / 5) t (t ^ 4)) /\
  (forall t, -1 <= t <= 1 -> Rabs (t ^ 4 - peval [- (1 / 8); 0; 1] t) <= 1 / 8).
Proof. exact quartic_example. Qed.
