(** Properties C32-C37: tensor-product bases, interpolated shapes and parent elements over
    exact real arithmetic.  A list [ds] of directions says, per dimension, which functions the
    class of that dimension computes ([Evaluates]), whether its derivative is one
    ([Differentiates]) and whether it is the interpolation basis of its points ([Nodal]).
    [C34_lagrange_directions] shows that every list of bundled Lagrange bases qualifies. *)
From Verif Require Import Base Num SpecIndex ModelAssert ModelSpacing ModelLagrange ModelBasisProduct SpecNumeric SpecBasis
  ProofTensor ProofSupport.
From Coq Require Import Reals QArith.
Open Scope Z_scope.

(** C32. *)
Theorem C32_value_is_product : forall bases ds idx xi,
  Forall2 Evaluates bases ds -> ds <> [] -> InRange (counts ds) idx -> (length ds <= length xi)%nat ->
  product_value RNum bases idx xi = Ok (tensor ds idx xi).
Proof. exact product_value_ok. Qed.
Print Assumptions C32_value_is_product.

(** An interpolated shape is the tensor product of its bases; it compiles only if there is one
    basis per dimension of the geometry. *)
Theorem C32_shape_is_product : forall geomDims bases idx xi,
  (shape_value RNum geomDims bases idx xi =
     if Z.of_nat (length bases) =? geomDims then product_value RNum bases idx xi else IllFormed) /\
  (shape_gradient RNum geomDims bases idx xi =
     if Z.of_nat (length bases) =? geomDims then product_gradient RNum bases idx xi else IllFormed).
Proof. exact shape_lemma. Qed.
Print Assumptions C32_shape_is_product.

Example C32_witness :
  product_value QNum [LagrangeBasis QNum 2 GaussLobattoSpacing; LagrangeBasis QNum 1 EqualSpacing]
    [1; 0] [(1 # 2)%Q; (1 # 3)%Q] = Ok (1 # 4)%Q.
Proof. reflexivity. Qed.

(** C33. *)
Theorem C33_gradient_is_gradient_of_value : forall bases ds idx xi,
  Forall2 Evaluates bases ds -> Forall Differentiates ds -> ds <> [] ->
  Z.of_nat (length ds) <= INT_MAX -> InRange (counts ds) idx -> (length ds <= length xi)%nat ->
  exists f g,
    (forall p, (length ds <= length p)%nat -> product_value RNum bases idx p = Ok (f p)) /\
    product_gradient RNum bases idx xi = Ok g /\ length g = length ds /\
    (forall j, (j < length ds)%nat -> Partial f j xi (nth j g 0%R)).
Proof. exact product_gradient_lemma. Qed.
Print Assumptions C33_gradient_is_gradient_of_value.

Example C33_witness :
  product_gradient QNum [LagrangeBasis QNum 2 GaussLobattoSpacing; LagrangeBasis QNum 1 EqualSpacing]
    [1; 0] [(1 # 2)%Q; (1 # 3)%Q] = Ok [-1 # 3; -3 # 8]%Q.
Proof. reflexivity. Qed.

(** C34. *)
Theorem C34_lagrange_directions : forall specs : list (spacing * Z),
  Forall (fun so => match fst so with
    | EqualSpacing => 1 <= snd so < INT_MAX
    | GaussLegendreSpacing => 1 <= snd so <= 3
    | GaussLobattoSpacing => 1 <= snd so <= 8
    end) specs ->
  exists ds, Forall2 Evaluates (map (fun so => LagrangeBasis RNum (snd so) (fst so)) specs) ds /\
    Forall Nodal ds /\ counts ds = map (fun so => snd so + 1) specs /\
    Forall2 (fun so d => Points (coord_ct RNum (fst so) (snd so + 1)) (snd so + 1) (pt d)) specs ds.
Proof. exact lagrange_directions_lemma. Qed.
Print Assumptions C34_lagrange_directions.

Theorem C34_nodal : forall bases ds i j,
  Forall2 Evaluates bases ds -> Forall Nodal ds -> ds <> [] ->
  InRange (counts ds) i -> InRange (counts ds) j ->
  product_value RNum bases i (gridpoint ds j) = Ok (if tuple_eqb i j then 1%R else 0%R).
Proof. exact product_nodal_lemma. Qed.
Print Assumptions C34_nodal.

Theorem C34_partition_of_unity : forall bases ds xi,
  Forall2 Evaluates bases ds -> Forall Nodal ds -> ds <> [] -> (length ds <= length xi)%nat ->
  supportLoop RNum bases (fun t acc => v <- product_value RNum bases t xi ;; Ok (acc + v)%R) 0%R = Ok 1%R.
Proof. exact product_unity_lemma. Qed.
Print Assumptions C34_partition_of_unity.

Theorem C34_gradients_sum_to_zero : forall bases ds xi k,
  Forall2 Evaluates bases ds -> Forall Nodal ds -> ds <> [] ->
  Z.of_nat (length ds) <= INT_MAX -> (length ds <= length xi)%nat -> 0 <= k < Z.of_nat (length ds) ->
  supportLoop RNum bases
    (fun t acc => g <- product_gradient RNum bases t xi ;; gk <- rd g k ;; Ok (acc + gk)%R) 0%R = Ok 0%R.
Proof. exact product_gradient_zero_lemma. Qed.
Print Assumptions C34_gradients_sum_to_zero.

(** The loop of a basis or of an interpolated shape calls its function once per support point,
    last dimension fastest, and stops at the first call that does not return normally. *)
Theorem C34_loop_visits_each_support_point : forall (F : Num) (S : Type) (bases : list (basis F)) ns
  (f : list Z -> S -> outcome S) s E,
  bases <> [] -> Forall2 (fun b n => numSupportPoints b = Ok n /\ 0 <= n) bases ns ->
  LexEnum (repeat 0 (length ns)) ns E ->
  supportLoop F bases f s = foldM f E s /\
  (forall geomDims, shape_supportLoop F geomDims bases f s =
     if Z.of_nat (length bases) =? geomDims then foldM f E s else IllFormed).
Proof. exact loop_lemma. Qed.
Print Assumptions C34_loop_visits_each_support_point.

Example C34_witness_loop :
  supportLoop QNum [LagrangeBasis QNum 2 GaussLobattoSpacing; LagrangeBasis QNum 1 EqualSpacing]
    (fun t tr => Ok (tr ++ [t])) [] = Ok [[0; 0]; [0; 1]; [1; 0]; [1; 1]; [2; 0]; [2; 1]].
Proof. reflexivity. Qed.

(** The sums without the loop. *)
Theorem C34_sums : forall ds xi, Forall Nodal ds -> (length ds <= length xi)%nat ->
  BoxSum (counts ds) (fun t => tensor ds t xi) = 1%R.
Proof. exact sum_lemma. Qed.
Print Assumptions C34_sums.

(** C35. *)
Theorem C35_value_at_support_points : forall bases ds u var j,
  Forall2 Evaluates bases ds -> Forall Nodal ds -> ds <> [] ->
  (forall t, InRange (counts ds) t -> var t = Ok (u t)) -> InRange (counts ds) j ->
  parent_value RNum (Z.of_nat (length ds)) bases var (gridpoint ds j) = Ok (u j).
Proof. exact parent_support_lemma. Qed.
Print Assumptions C35_value_at_support_points.

Theorem C35_constants : forall bases ds k var xi,
  Forall2 Evaluates bases ds -> Forall Nodal ds -> ds <> [] ->
  (forall t, InRange (counts ds) t -> var t = Ok k) -> (length ds <= length xi)%nat ->
  parent_value RNum (Z.of_nat (length ds)) bases var xi = Ok k.
Proof. exact parent_constant_lemma. Qed.
Print Assumptions C35_constants.

Theorem C35_linear_in_field : forall bases ds u w a b var1 var2 var3 xi,
  Forall2 Evaluates bases ds -> ds <> [] ->
  (forall t, InRange (counts ds) t -> var1 t = Ok (u t) /\ var2 t = Ok (w t) /\ var3 t = Ok (a * u t + b * w t)%R) ->
  (length ds <= length xi)%nat ->
  exists p q, parent_value RNum (Z.of_nat (length ds)) bases var1 xi = Ok p /\
    parent_value RNum (Z.of_nat (length ds)) bases var2 xi = Ok q /\
    parent_value RNum (Z.of_nat (length ds)) bases var3 xi = Ok (a * p + b * q)%R.
Proof. exact parent_linear_lemma. Qed.
Print Assumptions C35_linear_in_field.

Theorem C35_value_is_sum : forall bases ds u var xi,
  Forall2 Evaluates bases ds -> ds <> [] ->
  (forall t, InRange (counts ds) t -> var t = Ok (u t)) -> (length ds <= length xi)%nat ->
  parent_value RNum (Z.of_nat (length ds)) bases var xi =
    Ok (BoxSum (counts ds) (fun t => tensor ds t xi * u t)%R).
Proof. exact parent_sum_lemma. Qed.
Print Assumptions C35_value_is_sum.

Theorem C35_dimension_mismatch : forall c shapeDims bases var xi, Z.of_nat (length bases) <> shapeDims ->
  parent_value RNum shapeDims bases var xi = IllFormed /\ parent_gradient RNum c shapeDims bases var xi = IllFormed.
Proof. exact parent_dim_lemma. Qed.
Print Assumptions C35_dimension_mismatch.

Example C35_witness :
  parent_value QNum 2 [LagrangeBasis QNum 2 GaussLobattoSpacing; LagrangeBasis QNum 1 EqualSpacing]
    (fun t => Ok (inject_Z (10 * nth 0 t 0 + nth 1 t 0))) [(1 # 2)%Q; (1 # 3)%Q] = Ok (47 # 3)%Q.
Proof. reflexivity. Qed.

(** C36. *)
Theorem C36_reproduces_tensor_polynomials : forall bases ds c var xi,
  Forall2 Evaluates bases ds -> Forall Nodal ds -> ds <> [] ->
  (forall t, InRange (counts ds) t -> var t = Ok (tpoly (counts ds) c (gridpoint ds t))) ->
  (length ds <= length xi)%nat ->
  parent_value RNum (Z.of_nat (length ds)) bases var xi = Ok (tpoly (counts ds) c xi).
Proof. exact parent_polynomial_lemma. Qed.
Print Assumptions C36_reproduces_tensor_polynomials.

(** C37. *)
Theorem C37_gradient_differentiates_interpolant : forall c bases ds u var xi,
  Forall2 Evaluates bases ds -> Forall Differentiates ds -> ds <> [] ->
  Z.of_nat (length ds) <= INT_MAX ->
  (forall t, InRange (counts ds) t -> var t = Ok (u t)) -> (length ds <= length xi)%nat ->
  exists f g,
    (forall p, (length ds <= length p)%nat -> parent_value RNum (Z.of_nat (length ds)) bases var p = Ok (f p)) /\
    parent_gradient RNum c (Z.of_nat (length ds)) bases var xi = Ok g /\ length g = length ds /\
    (forall j, (j < length ds)%nat -> Partial f j xi (nth j g 0%R)).
Proof. exact parent_gradient_lemma. Qed.
Print Assumptions C37_gradient_differentiates_interpolant.

Theorem C37_gradient_of_tensor_polynomials : forall c bases ds coef var xi,
  Forall2 Evaluates bases ds -> Forall Nodal ds -> ds <> [] -> Z.of_nat (length ds) <= INT_MAX ->
  (forall t, InRange (counts ds) t -> var t = Ok (tpoly (counts ds) coef (gridpoint ds t))) ->
  (length ds <= length xi)%nat ->
  exists g, parent_gradient RNum c (Z.of_nat (length ds)) bases var xi = Ok g /\ length g = length ds /\
    (forall j, (j < length ds)%nat -> Partial (tpoly (counts ds) coef) j xi (nth j g 0%R)).
Proof. exact parent_gradient_polynomial_lemma. Qed.
Print Assumptions C37_gradient_of_tensor_polynomials.

Example C37_witness :
  parent_gradient QNum (host_runtime true) 2
    [LagrangeBasis QNum 2 GaussLobattoSpacing; LagrangeBasis QNum 1 EqualSpacing]
    (fun t => Ok (inject_Z (10 * nth 0 t 0 + nth 1 t 0))) [(1 # 2)%Q; (1 # 3)%Q] = Ok [10; 1 # 2]%Q.
Proof. vm_compute. reflexivity. Qed.
