(** Properties C28-C31: the one-dimensional Lagrange basis over exact real arithmetic.
    [coordinate] is any spacing's [coordinate<i>()] for [ORDER + 1] points, [x i] the value it
    returns, and [Distinct] says that the points are pairwise different. *)
From Verif Require Import Base Num ModelSpacing ModelLagrange SpecNumeric SpecBasis ProofLagrange.
From Coq Require Import Reals QArith.
Open Scope Z_scope.

(** C28. *)
Theorem C28_lagrange_nodal : forall ORDER coordinate x i j,
  0 <= ORDER < INT_MAX -> Points coordinate (ORDER + 1) x -> Distinct (ORDER + 1) x ->
  0 <= i < ORDER + 1 -> 0 <= j < ORDER + 1 ->
  lagrange_value RNum ORDER coordinate i (x j) = Ok (if i =? j then 1%R else 0%R).
Proof. exact nodal_lemma. Qed.
Print Assumptions C28_lagrange_nodal.

Theorem C28_lagrange_degree : forall ORDER coordinate x i,
  0 <= ORDER < INT_MAX -> Points coordinate (ORDER + 1) x -> Distinct (ORDER + 1) x ->
  0 <= i < ORDER + 1 ->
  exists p, Z.of_nat (length p) = ORDER + 1 /\ forall y, lagrange_value RNum ORDER coordinate i y = Ok (peval p y).
Proof. exact degree_lemma. Qed.
Print Assumptions C28_lagrange_degree.

Example C28_hypotheses_met : Points (fun i => Ok (pts013 i)) (2 + 1) pts013 /\ Distinct (2 + 1) pts013.
Proof. exact pts013_ok. Qed.

Example C28_witness :
  map (fun i => lagrange_value QNum 2 (fun k => Ok (nth (Z.to_nat k) [0; 1; 3]%Q 0%Q)) i 3%Q) [0; 1; 2] =
    map Ok [0; 0; 1]%Q /\
  map (fun i => lagrange_value QNum 2 (fun k => Ok (nth (Z.to_nat k) [0; 1; 3]%Q 0%Q)) i 2%Q) [0; 1; 2] =
    map Ok [-1 # 3; 1; 1 # 3]%Q.
Proof. split; reflexivity. Qed.

(** C29. *)
Theorem C29_unity_and_reproduction : forall ORDER coordinate x y,
  0 <= ORDER < INT_MAX -> Points coordinate (ORDER + 1) x -> Distinct (ORDER + 1) x ->
  exists v, (forall i, 0 <= i < ORDER + 1 -> lagrange_value RNum ORDER coordinate i y = Ok (v i)) /\
    Zsum (ORDER + 1) v = 1%R /\
    (forall p, Z.of_nat (length p) <= ORDER + 1 ->
       Zsum (ORDER + 1) (fun i => peval p (x i) * v i)%R = peval p y).
Proof. exact reproduction_lemma. Qed.
Print Assumptions C29_unity_and_reproduction.

(** C30. *)
Theorem C30_gradient_is_derivative : forall ORDER coordinate x y,
  0 <= ORDER < INT_MAX -> Points coordinate (ORDER + 1) x -> Distinct (ORDER + 1) x ->
  exists v g,
    (forall i t, 0 <= i < ORDER + 1 -> lagrange_value RNum ORDER coordinate i t = Ok (v i t)) /\
    (forall i, 0 <= i < ORDER + 1 ->
       lagrange_gradient RNum ORDER coordinate i y = Ok (g i) /\ derivable_pt_lim (v i) y (g i)) /\
    Zsum (ORDER + 1) g = 0%R.
Proof. exact gradient_lemma. Qed.
Print Assumptions C30_gradient_is_derivative.

Theorem C30_gradient_of_interpolated_polynomial : forall ORDER coordinate x y p d,
  0 <= ORDER < INT_MAX -> Points coordinate (ORDER + 1) x -> Distinct (ORDER + 1) x ->
  Z.of_nat (length p) <= ORDER + 1 -> derivable_pt_lim (peval p) y d ->
  exists g, (forall i, 0 <= i < ORDER + 1 -> lagrange_gradient RNum ORDER coordinate i y = Ok (g i)) /\
    Zsum (ORDER + 1) (fun i => peval p (x i) * g i)%R = d.
Proof. exact gradient_reproduction_lemma. Qed.
Print Assumptions C30_gradient_of_interpolated_polynomial.

Example C30_witness :
  map (fun i => lagrange_gradient QNum 2 (fun k => Ok (nth (Z.to_nat k) [0; 1; 3]%Q 0%Q)) i 2%Q) [0; 1; 2] =
    map Ok [0; -1 # 2; 1 # 2]%Q.
Proof. reflexivity. Qed.

(** C31. *)
Theorem C31_bundled_bases : forall s ORDER,
  (match s with
   | EqualSpacing => 1 <= ORDER < INT_MAX
   | GaussLegendreSpacing => 1 <= ORDER <= 3
   | GaussLobattoSpacing => 1 <= ORDER <= 8
   end) ->
  exists x v g, Points (coord_ct RNum s (ORDER + 1)) (ORDER + 1) x /\
    numSupportPoints (LagrangeBasis RNum ORDER s) = Ok (ORDER + 1) /\
    (forall i y, 0 <= i < ORDER + 1 -> bvalue (LagrangeBasis RNum ORDER s) i y = Ok (v i y)) /\
    (forall i y, 0 <= i < ORDER + 1 -> bgradient (LagrangeBasis RNum ORDER s) i y = Ok (g i y)) /\
    NodalBasis (ORDER + 1) x v g.
Proof. exact bundled_lemma. Qed.
Print Assumptions C31_bundled_bases.

Theorem C31_order_zero : forall s y,
  numSupportPoints (LagrangeBasis RNum 0 s) = Ok 1 /\
  bvalue (LagrangeBasis RNum 0 s) 0 y = Ok 1%R /\ bgradient (LagrangeBasis RNum 0 s) 0 y = Ok 0%R.
Proof. exact order0_lemma. Qed.
Print Assumptions C31_order_zero.

Theorem C31_unsupported_orders : forall s ORDER i y, ORDER < INT_MAX -> 0 <= i < ORDER + 1 ->
  (match s with
   | EqualSpacing => False
   | GaussLegendreSpacing => 4 <= ORDER
   | GaussLobattoSpacing => 9 <= ORDER
   end) ->
  bvalue (LagrangeBasis RNum ORDER s) i y = IllFormed /\ bgradient (LagrangeBasis RNum ORDER s) i y = IllFormed.
Proof. exact unsupported_lemma. Qed.
Print Assumptions C31_unsupported_orders.

Example C31_witness :
  map (fun i => bvalue (LagrangeBasis QNum 2 GaussLobattoSpacing) i (1 # 2)%Q) [0; 1; 2] =
    map Ok [-1 # 8; 3 # 4; 3 # 8]%Q.
Proof. reflexivity. Qed.
