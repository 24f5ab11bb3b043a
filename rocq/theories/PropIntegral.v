(** Properties C71-C75: quadrature, basis and cell transform together, over exact real
    arithmetic.  Vocabulary in SpecIntegral: [quadrature rs ws xs f] is the sum over all tuples of
    points of the product of the weights times [f] at the point; [Rules rs ws xs]: [ws] and [xs]
    are what the library's rules [rs] return; [Integral d f V]: [V] is the iterated integral of
    [f] over [-1,1]^d; [sparse ts] the polynomial with the terms [ts]. *)
From Verif Require Import Base Num SpecIndex SpecMath ModelAssert ModelCArray ModelSpacing ModelQuadrature ModelLagrange
  ModelBasisProduct ModelTransforms SpecCArray SpecNumeric SpecBasis SpecIntegral ProofIntegral ProofVolume ProofMatrix.
From Coq Require Import Reals QArith.
Open Scope Z_scope.

(** C71.  [n] decimals: 33, or 13 if a rule with 6 to 9 points takes part. *)
Theorem C71_tensor_quadrature : forall rs ws xs ts V n,
  Forall supported rs -> Rules rs ws xs -> (1 <= n)%nat -> Forall (fun r => (n <= digits r)%nat) rs ->
  Forall (fun t => Forall2 (fun k r => 0 <= k <= degree r) (snd t) rs) ts ->
  Integral (length rs) (sparse ts) V ->
  (Rabs (quadrature rs ws xs (sparse ts) - V) <= 3 ^ length rs * tenth n * size ts)%R.
Proof. exact tensor_quadrature_lemma. Qed.
Print Assumptions C71_tensor_quadrature.

Example C71_rules_exist : forall rs, Forall supported rs -> exists ws xs, Rules rs ws xs.
Proof. exact rules_exist_lemma. Qed.
Example C71_integrals_exist : forall d ts, Forall (fun t => length (snd t) = d) ts -> exists V, Integral d (sparse ts) V.
Proof. exact integral_exists_lemma. Qed.
(** x^3 y^4 on [-1,1]^2 with 2 Gauss and 4 Lobatto points. *)
Example C71_witness : let rs := [(QuadratureGaussLegendre, 2); (QuadratureGaussLobatto, 4)] in
  Forall supported rs /\ Forall (fun r => (33 <= digits r)%nat) rs /\
  Forall2 (fun k r => 0 <= k <= degree r) [3; 4] rs /\ ~ Forall2 (fun k r => 0 <= k <= degree r) [4; 3] rs.
Proof.
  repeat split; repeat constructor; unfold supported, degree; simpl; try discriminate.
  intros H. inversion H as [|? ? ? ? (_ & K) _]. apply K. reflexivity.
Qed.

(** C72.  A cell with eight vertices X(a,b,e), no coordinate larger than [M] in absolute value,
    and the determinants [inverseJacobian] returns at the points of a rule of degree 2 or more
    per direction. *)
Theorem C72_hexahedron_volume : forall c bases ds mem X rs ws xs detJ M n,
  Forall2 Evaluates bases ds -> Forall Nodal ds -> length ds = 3%nat ->
  Forall (fun d => npts d = 2 /\ pt d 0 = (-1)%R /\ pt d 1 = 1%R) ds ->
  Holds (owning [2; 2; 2; 3]) mem X ->
  (forall t, InRange [2; 2; 2; 3] t -> (Rabs (X t) <= M)%R) ->
  Forall supported rs -> length rs = 3%nat -> Forall (fun r => 2 <= degree r) rs -> Rules rs ws xs ->
  (1 <= n)%nat -> Forall (fun r => (n <= digits r)%nat) rs ->
  (forall q, InRange (map snd rs) q -> exists invJ,
     inverseJacobian_wrapper RNum c 3 bases mem (point_at xs q) = Ok (detJ (point_at xs q), invJ)) ->
  (Rabs (quadrature rs ws xs detJ - hexVolume (fun a b e i => X [a; b; e; i])) <= 27 * tenth n * (384 * M ^ 3))%R.
Proof. exact volume_lemma. Qed.
Print Assumptions C72_hexahedron_volume.

(** The volume formula is the integral of the Jacobian determinant over the reference cell. *)
Theorem C72_volume_is_integral : forall ds X (K : list R -> matrix),
  length ds = 3%nat -> Forall Nodal ds -> Forall (fun d => npts d = 2 /\ pt d 0 = (-1)%R /\ pt d 1 = 1%R) ds ->
  (forall xi i j, length xi = 3%nat -> 0 <= i < 3 -> (j < 3)%nat ->
     Partial (fun p => BoxSum [2; 2; 2] (fun t => tensor ds t p * X (t ++ [i]))%R) j xi (K xi i (Z.of_nat j))) ->
  Integral 3 (fun xi => det 3 (K xi)) (hexVolume (fun a b e i => X [a; b; e; i])).
Proof. exact volume_integral_lemma. Qed.
Print Assumptions C72_volume_is_integral.

(** The formula on a box with edges 2, 3, 5. *)
Example C72_witness_box :
  hexVolume (fun a b e i => IZR (if i =? 0 then 7 + 2 * a else if i =? 1 then 3 * b else 5 * e)) = 30%R.
Proof. exact box_volume. Qed.

(** A box with one vertex pulled out, under the 3-point Lobatto rule (-1, 0, 1; 1/3, 4/3, 1/3) in
    each direction: the sum over the code's determinants is the volume by the formula. *)
Example C72_witness_cell :
  let hexQ := [LagrangeBasis QNum 1 EqualSpacing; LagrangeBasis QNum 1 EqualSpacing; LagrangeBasis QNum 1 EqualSpacing] in
  let X := fun k i => (if Z.testbit k i then 2 * (i + 1) else 0) + (if k =? 7 then 8 else 0) in
  (m <- setData QNum (host_runtime true) hexQ (fun k i => Ok (inject_Z (X k i))) 100 (repeat 0%Q 24) ;;
   s <- foldM (fun xyz s =>
          let '(x, y, z) := xyz in
          '(d, _) <- inverseJacobian_wrapper QNum (host_runtime true) 3 hexQ m [x; y; z] ;;
          let w t := if Qeq_bool t 0 then (4 # 3)%Q else (1 # 3)%Q in
          Ok (Qred (s + w x * w y * w z * d)))
        (list_prod (list_prod [-1 # 1; 0; 1] [-1 # 1; 0; 1]) [-1 # 1; 0; 1])%Q 0%Q ;;
   Ok s) = Ok (136 # 1)%Q /\
  hexVolume (fun a b e i => IZR (X (a + 2 * b + 4 * e) i)) = 136%R.
Proof. split; [reflexivity | exact cell_volume]. Qed.

(** C73. *)
Theorem C73_basis_symmetry : forall s ORDER i y,
  (match s with
   | EqualSpacing => 1 <= ORDER < INT_MAX
   | GaussLegendreSpacing => 1 <= ORDER <= 3
   | GaussLobattoSpacing => 1 <= ORDER <= 8
   end) -> 0 <= i <= ORDER ->
  exists a d, bvalue (LagrangeBasis RNum ORDER s) i y = Ok a /\
    bvalue (LagrangeBasis RNum ORDER s) (ORDER - i) (- y)%R = Ok a /\
    bgradient (LagrangeBasis RNum ORDER s) i y = Ok d /\
    bgradient (LagrangeBasis RNum ORDER s) (ORDER - i) (- y)%R = Ok (- d)%R.
Proof. exact symmetric_lemma. Qed.
Print Assumptions C73_basis_symmetry.

Example C73_witness :
  bvalue (LagrangeBasis QNum 2 EqualSpacing) 0 (1 # 2)%Q = Ok (-1 # 8)%Q /\
  bvalue (LagrangeBasis QNum 2 EqualSpacing) 2 (-1 # 2)%Q = Ok (-1 # 8)%Q.
Proof. split; reflexivity. Qed.

(** C74.  The mass matrix of the basis on the rule's own points is exactly diagonal, with the
    weights on the diagonal ... *)
Theorem C74_lumped_mass : forall r w x v g i j, supported r -> Collocated r w x v g ->
  0 <= i < snd r -> 0 <= j < snd r ->
  Zsum (snd r) (fun q => w q * (v i (x q) * v j (x q)))%R = (if i =? j then w i else 0)%R.
Proof. exact collocated_mass_lemma. Qed.
Print Assumptions C74_lumped_mass.

(** ... the weights are the integrals of the basis functions ... *)
Theorem C74_weights_are_integrals : forall r w x v g i p P, supported r -> Collocated r w x v g -> 0 <= i < snd r ->
  Z.of_nat (length p) = snd r -> (forall y, v i y = peval p y) ->
  (forall t, derivable_pt_lim P t (v i t)) ->
  (Rabs (w i - (P 1 - P (-1))) <= tenth (digits r) * norm1 p)%R.
Proof. exact collocated_weight_lemma. Qed.
Print Assumptions C74_weights_are_integrals.

(** ... and for Gauss-Legendre this diagonal matrix is the matrix of integrals. *)
Theorem C74_gauss_mass_is_exact : forall N w x v g i j p q P, 2 <= N <= 4 ->
  Collocated (QuadratureGaussLegendre, N) w x v g -> 0 <= i < N -> 0 <= j < N ->
  Z.of_nat (length p) = N -> (forall y, v i y = peval p y) ->
  Z.of_nat (length q) = N -> (forall y, v j y = peval q y) ->
  (forall t, derivable_pt_lim P t (v i t * v j t)%R) ->
  (Rabs ((if i =? j then w i else 0) - (P 1 - P (-1))) <= tenth 33 * (norm1 p * norm1 q))%R.
Proof. exact collocated_mass_integral_lemma. Qed.
Print Assumptions C74_gauss_mass_is_exact.

(** Any product of two polynomials within the rule's degree. *)
Theorem C74_product_matrices : forall r w x p q P, supported r -> Rule r w x ->
  Z.of_nat (length p) + Z.of_nat (length q) <= degree r + 2 ->
  (forall t, derivable_pt_lim P t (peval p t * peval q t)%R) ->
  (Rabs (Zsum (snd r) (fun i => w i * (peval p (x i) * peval q (x i))) - (P 1 - P (-1))) <=
     tenth (digits r) * (norm1 p * norm1 q))%R.
Proof. exact product_lemma. Qed.
Print Assumptions C74_product_matrices.

Example C74_collocated_exist : forall r, supported r -> exists w x v g, Collocated r w x v g.
Proof. exact collocated_exists. Qed.
Example C74_functions_are_polynomials : forall r w x v g i, supported r -> Collocated r w x v g -> 0 <= i < snd r ->
  exists p, Z.of_nat (length p) = snd r /\ forall y, v i y = peval p y.
Proof. exact collocated_degree_lemma. Qed.

(** C75.  Integration by parts with the differentiation matrix g_j(x_i). *)
Theorem C75_summation_by_parts : forall r w x v g i j p q, supported r -> Collocated r w x v g ->
  0 <= i < snd r -> 0 <= j < snd r ->
  Z.of_nat (length p) = snd r -> (forall y, v i y = peval p y) ->
  Z.of_nat (length q) = snd r -> (forall y, v j y = peval q y) ->
  (Rabs (w i * g j (x i) + w j * g i (x j) - (v i 1 * v j 1 - v i (-1) * v j (-1))) <=
     2 * IZR (snd r) * tenth (digits r) * (norm1 p * norm1 q))%R.
Proof. exact collocated_parts_lemma. Qed.
Print Assumptions C75_summation_by_parts.

Theorem C75_lobatto_boundary : forall N w x v g i, 2 <= N <= 9 ->
  Collocated (QuadratureGaussLobatto, N) w x v g -> 0 <= i < N ->
  v i (-1)%R = (if i =? 0 then 1 else 0)%R /\ v i 1%R = (if i =? N - 1 then 1 else 0)%R.
Proof. exact lobatto_boundary_lemma. Qed.
Print Assumptions C75_lobatto_boundary.

(** 3-point Lobatto: w_0 g_1(x_0) = 1/3 * 2 and w_1 g_0(x_1) = 4/3 * (-1/2). *)
Example C75_witness :
  bgradient (LagrangeBasis QNum 2 GaussLobattoSpacing) 1 (-1 # 1)%Q = Ok (2 # 1)%Q /\
  bgradient (LagrangeBasis QNum 2 GaussLobattoSpacing) 0 0%Q = Ok (-1 # 2)%Q.
Proof. split; reflexivity. Qed.
