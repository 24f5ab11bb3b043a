(** C129: a change of unit by powers of two is exact for linear elements. *)
From Coq Require Import Reals.
From Flocq Require Import Core IEEE754.BinarySingleNaN.
From Verif Require Import Base Num ModelB64 ModelF32 ModelAssert SpecIndex ModelCArray SpecCArray SpecB64 SpecF32 ModelSpacing ModelLagrange
  ModelBasisProduct ModelTransforms SpecScale.
From Verif Require ProofScaleCell64 ProofScaleCell32.
From Verif Require Import ProofScaleRefute.
Open Scope Z_scope.

(** Doubles.  Nodal values that are all multiplied by the same power of two give a value and a
    gradient multiplied by exactly that power, at every point of the element. *)
Theorem C129_field : forall ss, ss <> [] -> (length ss <= 3)%nat -> Forall (fun s => s = EqualSpacing \/ s = GaussLobattoSpacing) ss ->
  forall xi, Forall InReference xi -> (length ss <= length xi)%nat ->
  forall B K, 0 <= B -> 0 <= K -> B + K <= 800 -> forall c, PowerOfTwo K c ->
  forall var var' w w',
  (forall t, InRange (map (fun _ => 2) ss) t ->
     var t = Ok (w t) /\ var' t = Ok (w' t) /\ Moderate B (w t) /\ Scaled c (w t) (w' t)) ->
  forall cx, exists v v' g g',
    let bs := map (fun s => LagrangeBasis B64Num 1 s) ss in
    parent_value B64Num (Z.of_nat (length ss)) bs var xi = Ok v /\ parent_value B64Num (Z.of_nat (length ss)) bs var' xi = Ok v' /\
    parent_gradient B64Num cx (Z.of_nat (length ss)) bs var xi = Ok g /\ parent_gradient B64Num cx (Z.of_nat (length ss)) bs var' xi = Ok g' /\
    Scaled c v v' /\ length g = length ss /\ length g' = length ss /\
    forall j, (j < length ss)%nat -> Scaled c (nth j g (b64_ofZ 0)) (nth j g' (b64_ofZ 0)).
Proof. exact ProofScaleCell64.scaled_field_lemma. Qed.
Print Assumptions C129_field.

(** The same for floats, over a smaller range. *)
Theorem C129_field_float : forall ss, ss <> [] -> (length ss <= 3)%nat -> Forall (fun s => s = EqualSpacing \/ s = GaussLobattoSpacing) ss ->
  forall xi, Forall InReference32 xi -> (length ss <= length xi)%nat ->
  forall B K, 0 <= B -> 0 <= K -> B + K <= 28 -> forall c, PowerOfTwo K c ->
  forall var var' w w',
  (forall t, InRange (map (fun _ => 2) ss) t ->
     var t = Ok (w t) /\ var' t = Ok (w' t) /\ Moderate B (w t) /\ Scaled c (w t) (w' t)) ->
  forall cx, exists v v' g g',
    let bs := map (fun s => LagrangeBasis32 1 s) ss in
    parent_value F32Num (Z.of_nat (length ss)) bs var xi = Ok v /\ parent_value F32Num (Z.of_nat (length ss)) bs var' xi = Ok v' /\
    parent_gradient F32Num cx (Z.of_nat (length ss)) bs var xi = Ok g /\ parent_gradient F32Num cx (Z.of_nat (length ss)) bs var' xi = Ok g' /\
    Scaled c v v' /\ length g = length ss /\ length g' = length ss /\
    forall j, (j < length ss)%nat -> Scaled c (nth j g (b32_ofZ 0)) (nth j g' (b32_ofZ 0)).
Proof. exact ProofScaleCell32.scaled_field_lemma. Qed.
Print Assumptions C129_field_float.

(** Doubles.  Multiplying coordinate [i] of every vertex of a hexahedron by [c i], plus or minus
    a power of two, multiplies row [i] of the Jacobian by [c i], the determinant by the product
    of the three factors and, unless the determinant is zero, column [j] of the inverse by the
    reciprocal of [c j]: all of it without any rounding. *)
Theorem C129_cell : forall cx ss xi c mem mem' X X', length ss = 3%nat -> Forall (fun s => s = EqualSpacing \/ s = GaussLobattoSpacing) ss ->
  Forall InReference xi -> length xi = 3%nat ->
  (forall i, 0 <= i < 3 -> PowerOfTwo 60 (c i)) ->
  Holds (owning [2; 2; 2; 3]) mem X -> Holds (owning [2; 2; 2; 3]) mem' X' ->
  (forall s i, InRange [2; 2; 2] s -> 0 <= i < 3 -> Moderate 60 (X (s ++ [i])) /\ Scaled (c i) (X (s ++ [i])) (X' (s ++ [i]))) ->
  exists J J' A A' d d' invJ invJ' Y Y',
    let bs := map (fun s => LagrangeBasis B64Num 1 s) ss in
    jacobian_wrapper B64Num cx 3 bs mem xi = Ok J /\ jacobian_wrapper B64Num cx 3 bs mem' xi = Ok J' /\
    Holds (owning [3; 3]) J A /\ Holds (owning [3; 3]) J' A' /\
    inverseJacobian_wrapper B64Num cx 3 bs mem xi = Ok (d, invJ) /\ inverseJacobian_wrapper B64Num cx 3 bs mem' xi = Ok (d', invJ') /\
    Holds (owning [3; 3]) invJ Y /\ Holds (owning [3; 3]) invJ' Y' /\
    (forall i j, 0 <= i < 3 -> 0 <= j < 3 -> Scaled (c i) (A [i; j]) (A' [i; j])) /\
    Scaled (c 0%Z * c 1%Z * c 2%Z)%R d d' /\
    (B2R d <> 0%R -> forall i j, 0 <= i < 3 -> 0 <= j < 3 -> Scaled (/ c j)%R (Y [i; j]) (Y' [i; j])).
Proof. exact ProofScaleCell64.scaled_cell_lemma. Qed.
Print Assumptions C129_cell.

(** Floats: the Jacobian. *)
Theorem C129_jacobian_float : forall cx ss xi B K c mem mem' X X', length ss = 3%nat -> Forall (fun s => s = EqualSpacing \/ s = GaussLobattoSpacing) ss ->
  Forall InReference32 xi -> length xi = 3%nat ->
  0 <= B -> 0 <= K -> B + K <= 28 -> (forall i, 0 <= i < 3 -> PowerOfTwo K (c i)) ->
  Holds (owning [2; 2; 2; 3]) mem X -> Holds (owning [2; 2; 2; 3]) mem' X' ->
  (forall s i, InRange [2; 2; 2] s -> 0 <= i < 3 -> Moderate B (X (s ++ [i])) /\ Scaled (c i) (X (s ++ [i])) (X' (s ++ [i]))) ->
  exists J J' A A',
    let bs := map (fun s => LagrangeBasis32 1 s) ss in
    jacobian_wrapper F32Num cx 3 bs mem xi = Ok J /\ jacobian_wrapper F32Num cx 3 bs mem' xi = Ok J' /\
    Holds (owning [3; 3]) J A /\ Holds (owning [3; 3]) J' A' /\
    (forall i j, 0 <= i < 3 -> 0 <= j < 3 -> Scaled (c i) (A [i; j]) (A' [i; j])).
Proof. exact ProofScaleCell32.scaled_jacobian_lemma. Qed.
Print Assumptions C129_jacobian_float.

(** The inverse in floats, already for coordinates and factors between 2^-14 and 2^14: it is not
    always scaled exactly. *)
Theorem C129_float_inverse_refuted : exists cx xi mem mem' d d' invJ invJ', Forall InReference32 xi /\ length xi = 3%nat /\ length mem = 24%nat /\
  Forall2 (fun x x' => Moderate 14 x /\ Scaled (bpow radix2 (-14)) x x') mem mem' /\
  let bs := map (fun s => LagrangeBasis32 1 s) [EqualSpacing; EqualSpacing; EqualSpacing] in
  inverseJacobian_wrapper F32Num cx 3 bs mem xi = Ok (d, invJ) /\ inverseJacobian_wrapper F32Num cx 3 bs mem' xi = Ok (d', invJ') /\
  is_finite d = true /\ B2R d <> 0%R /\ exists y y', nth_error invJ 1 = Some y /\ nth_error invJ' 1 = Some y' /\
    is_finite y = true /\ is_finite y' = true /\ B2R y' <> (bpow radix2 14 * B2R y)%R.
Proof. exact float_inverse_lemma. Qed.
Print Assumptions C129_float_inverse_refuted.

(** Other factors: three times as large does not give exactly 27 times the determinant. *)
Theorem C129_factor_three_refuted : exists cx xi mem mem' d d' invJ invJ', Forall InReference xi /\ length xi = 3%nat /\ length mem = 24%nat /\
  Forall2 (fun x x' => Moderate 60 x /\ Scaled 3%R x x') mem mem' /\
  let bs := map (fun s => LagrangeBasis B64Num 1 s) [EqualSpacing; EqualSpacing; EqualSpacing] in
  inverseJacobian_wrapper B64Num cx 3 bs mem xi = Ok (d, invJ) /\ inverseJacobian_wrapper B64Num cx 3 bs mem' xi = Ok (d', invJ') /\
  is_finite d = true /\ is_finite d' = true /\ B2R d' <> (3 * 3 * 3 * B2R d)%R.
Proof. exact factor_three_lemma. Qed.
Print Assumptions C129_factor_three_refuted.

(** Other sizes: a cube of edge 2^-360 has determinant zero, and 2^60 times as large it has not. *)
Theorem C129_tiny_cell_refuted : exists cx xi mem mem' d d' invJ invJ', Forall InReference xi /\ length xi = 3%nat /\ length mem = 24%nat /\
  Forall2 (fun x x' => Moderate 360 x /\ Scaled (bpow radix2 60) x x') mem mem' /\
  let bs := map (fun s => LagrangeBasis B64Num 1 s) [EqualSpacing; EqualSpacing; EqualSpacing] in
  inverseJacobian_wrapper B64Num cx 3 bs mem xi = Ok (d, invJ) /\ inverseJacobian_wrapper B64Num cx 3 bs mem' xi = Ok (d', invJ') /\
  is_finite d = true /\ is_finite d' = true /\ B2R d = 0%R /\ (0 < B2R d')%R.
Proof. exact tiny_cell_lemma. Qed.
Print Assumptions C129_tiny_cell_refuted.

(** The cube [0,2]^3 and the box [0,4] x [-2,0] x [0,1], with the factors 2, -1 and 1/2. *)
Example C129_witness : (forall i, 0 <= i < 3 -> PowerOfTwo 60 (factor i)) /\
  exists X X', Holds (owning [2; 2; 2; 3]) (map d64 cube_a) X /\ Holds (owning [2; 2; 2; 3]) (map d64 cube_b) X' /\
  forall s i, InRange [2; 2; 2] s -> 0 <= i < 3 -> Moderate 60 (X (s ++ [i])) /\ Scaled (factor i) (X (s ++ [i])) (X' (s ++ [i])).
Proof. exact (conj factor_power cubes_witness). Qed.
Example C129_witness_factors : factor 0 = 2%R /\ factor 1 = (-1)%R /\ factor 2 = (/ 2)%R.
Proof. repeat split. Qed.
