(** C128: identities of linear and quadratic bases that survive rounding, and those that do not. *)
From Coq Require Import Reals.
From Flocq Require Import Core IEEE754.BinarySingleNaN.
From Verif Require Import Base Num ModelB64 ModelF32 SpecIndex SpecB64 SpecF32 ModelSpacing ModelLagrange ModelBasisProduct ProofNodes64.
From Verif Require ProofLinear64 ProofLinear32 ProofPositive64 ProofPositive32.
Open Scope Z_scope.

(** Linear basis with nodes at the end points, doubles: at every point of [-1,1] both values are
    in [0,1], their computed sum is exactly 1, and the derivatives are exactly -1/2 and 1/2. *)
Theorem C128_linear : forall s y, s = EqualSpacing \/ s = GaussLobattoSpacing -> InReference y ->
  exists v0 v1 g0 g1,
    bvalue (LagrangeBasis B64Num 1 s) 0 y = Ok v0 /\ bvalue (LagrangeBasis B64Num 1 s) 1 y = Ok v1 /\
    bgradient (LagrangeBasis B64Num 1 s) 0 y = Ok g0 /\ bgradient (LagrangeBasis B64Num 1 s) 1 y = Ok g1 /\
    is_finite v0 = true /\ (0 <= B2R v0 <= 1)%R /\ is_finite v1 = true /\ (0 <= B2R v1 <= 1)%R /\
    IsNum (Bplus mode_NE v0 v1) 1%R /\ IsNum g0 (- / 2)%R /\ IsNum g1 (/ 2)%R.
Proof. exact ProofLinear64.linear_lemma. Qed.
Print Assumptions C128_linear.

(** Floats. *)
Theorem C128_linear_float : forall s y, s = EqualSpacing \/ s = GaussLobattoSpacing -> InReference32 y ->
  exists v0 v1 g0 g1,
    bvalue (LagrangeBasis32 1 s) 0 y = Ok v0 /\ bvalue (LagrangeBasis32 1 s) 1 y = Ok v1 /\
    bgradient (LagrangeBasis32 1 s) 0 y = Ok g0 /\ bgradient (LagrangeBasis32 1 s) 1 y = Ok g1 /\
    is_finite v0 = true /\ (0 <= B2R v0 <= 1)%R /\ is_finite v1 = true /\ (0 <= B2R v1 <= 1)%R /\
    IsFloat (Bplus mode_NE v0 v1) 1%R /\ IsFloat g0 (- / 2)%R /\ IsFloat g1 (/ 2)%R.
Proof. exact ProofLinear32.linear_lemma. Qed.
Print Assumptions C128_linear_float.

(** Between the nodes the first value only falls and the second only rises. *)
Theorem C128_monotone : forall s y z, s = EqualSpacing \/ s = GaussLobattoSpacing -> InReference y -> InReference z -> (B2R y <= B2R z)%R ->
  exists v0 v1 w0 w1,
    bvalue (LagrangeBasis B64Num 1 s) 0 y = Ok v0 /\ bvalue (LagrangeBasis B64Num 1 s) 1 y = Ok v1 /\
    bvalue (LagrangeBasis B64Num 1 s) 0 z = Ok w0 /\ bvalue (LagrangeBasis B64Num 1 s) 1 z = Ok w1 /\
    (B2R w0 <= B2R v0)%R /\ (B2R v1 <= B2R w1)%R.
Proof. exact ProofLinear64.monotone_lemma. Qed.
Print Assumptions C128_monotone.

Theorem C128_monotone_float : forall s y z, s = EqualSpacing \/ s = GaussLobattoSpacing -> InReference32 y -> InReference32 z -> (B2R y <= B2R z)%R ->
  exists v0 v1 w0 w1,
    bvalue (LagrangeBasis32 1 s) 0 y = Ok v0 /\ bvalue (LagrangeBasis32 1 s) 1 y = Ok v1 /\
    bvalue (LagrangeBasis32 1 s) 0 z = Ok w0 /\ bvalue (LagrangeBasis32 1 s) 1 z = Ok w1 /\
    (B2R w0 <= B2R v0)%R /\ (B2R v1 <= B2R w1)%R.
Proof. exact ProofLinear32.monotone_lemma. Qed.
Print Assumptions C128_monotone_float.

(** Orders one and two, all three families of points: reflecting the point and the index leaves
    the value and changes the sign of the derivative, exactly. *)
Theorem C128_reflection : forall s ORDER i y, 1 <= ORDER <= 2 -> 0 <= i <= ORDER -> InReference y ->
  (exists v v', bvalue (LagrangeBasis B64Num ORDER s) i y = Ok v /\
     bvalue (LagrangeBasis B64Num ORDER s) (ORDER - i) (Bopp y) = Ok v' /\
     is_finite v = true /\ is_finite v' = true /\ B2R v' = B2R v) /\
  (exists g g', bgradient (LagrangeBasis B64Num ORDER s) i y = Ok g /\
     bgradient (LagrangeBasis B64Num ORDER s) (ORDER - i) (Bopp y) = Ok g' /\
     is_finite g = true /\ is_finite g' = true /\ B2R g' = (- B2R g)%R).
Proof. exact ProofLinear64.reflection_lemma. Qed.
Print Assumptions C128_reflection.

Theorem C128_reflection_float : forall s ORDER i y, 1 <= ORDER <= 2 -> 0 <= i <= ORDER -> InReference32 y ->
  (exists v v', bvalue (LagrangeBasis32 ORDER s) i y = Ok v /\
     bvalue (LagrangeBasis32 ORDER s) (ORDER - i) (Bopp y) = Ok v' /\
     is_finite v = true /\ is_finite v' = true /\ B2R v' = B2R v) /\
  (exists g g', bgradient (LagrangeBasis32 ORDER s) i y = Ok g /\
     bgradient (LagrangeBasis32 ORDER s) (ORDER - i) (Bopp y) = Ok g' /\
     is_finite g = true /\ is_finite g' = true /\ B2R g' = (- B2R g)%R).
Proof. exact ProofLinear32.reflection_lemma. Qed.
Print Assumptions C128_reflection_float.

(** Order three: no longer. *)
Theorem C128_cubic_reflection_refuted : exists i y v v', 0 <= i <= 3 /\ InReference y /\
  bvalue (LagrangeBasis B64Num 3 GaussLobattoSpacing) i y = Ok v /\
  bvalue (LagrangeBasis B64Num 3 GaussLobattoSpacing) (3 - i) (Bopp y) = Ok v' /\ B2R v' <> B2R v.
Proof. exact ProofPositive64.cubic_reflection_lemma. Qed.
Print Assumptions C128_cubic_reflection_refuted.

(** A linear element with nodes at the corners, any number of directions: every shape function
    is in [0,1] at every point of [-1,1]^d. *)
Theorem C128_unit_values : forall ss xi t, ss <> [] -> Forall (fun s => s = EqualSpacing \/ s = GaussLobattoSpacing) ss ->
  Forall InReference xi -> (length ss <= length xi)%nat -> InRange (map (fun _ => 2) ss) t ->
  exists v, parent_value_at B64Num (Z.of_nat (length ss)) (map (fun s => LagrangeBasis B64Num 1 s) ss) t xi = Ok v /\
    is_finite v = true /\ (0 <= B2R v <= 1)%R.
Proof. exact ProofPositive64.unit_values_lemma. Qed.
Print Assumptions C128_unit_values.

Theorem C128_unit_values_float : forall ss xi t, ss <> [] -> Forall (fun s => s = EqualSpacing \/ s = GaussLobattoSpacing) ss ->
  Forall InReference32 xi -> (length ss <= length xi)%nat -> InRange (map (fun _ => 2) ss) t ->
  exists v, parent_value_at F32Num (Z.of_nat (length ss)) (map (fun s => LagrangeBasis32 1 s) ss) t xi = Ok v /\
    is_finite v = true /\ (0 <= B2R v <= 1)%R.
Proof. exact ProofPositive32.unit_values_lemma. Qed.
Print Assumptions C128_unit_values_float.

(** Up to three directions: data that are not negative give a value that is not negative. *)
Theorem C128_positive : forall ss xi var w, ss <> [] -> (length ss <= 3)%nat -> Forall (fun s => s = EqualSpacing \/ s = GaussLobattoSpacing) ss ->
  Forall InReference xi -> (length ss <= length xi)%nat ->
  (forall t, InRange (map (fun _ => 2) ss) t ->
     var t = Ok (w t) /\ is_finite (w t) = true /\ (0 <= B2R (w t) <= bpow radix2 900)%R) ->
  exists v, parent_value B64Num (Z.of_nat (length ss)) (map (fun s => LagrangeBasis B64Num 1 s) ss) var xi = Ok v /\
    is_finite v = true /\ (0 <= B2R v)%R.
Proof. exact ProofPositive64.positive_lemma. Qed.
Print Assumptions C128_positive.

Theorem C128_positive_float : forall ss xi var w, ss <> [] -> (length ss <= 3)%nat -> Forall (fun s => s = EqualSpacing \/ s = GaussLobattoSpacing) ss ->
  Forall InReference32 xi -> (length ss <= length xi)%nat ->
  (forall t, InRange (map (fun _ => 2) ss) t ->
     var t = Ok (w t) /\ is_finite (w t) = true /\ (0 <= B2R (w t) <= bpow radix2 100)%R) ->
  exists v, parent_value F32Num (Z.of_nat (length ss)) (map (fun s => LagrangeBasis32 1 s) ss) var xi = Ok v /\
    is_finite v = true /\ (0 <= B2R v)%R.
Proof. exact ProofPositive32.positive_lemma. Qed.
Print Assumptions C128_positive_float.

(** One direction: the field that is 1 at both nodes is exactly 1 at every point. *)
Theorem C128_one : forall s y, s = EqualSpacing \/ s = GaussLobattoSpacing -> InReference y ->
  exists v, parent_value B64Num 1 [LagrangeBasis B64Num 1 s] (fun _ => Ok (b64_ofZ 1)) [y] = Ok v /\ IsNum v 1%R.
Proof. exact ProofPositive64.one_lemma. Qed.
Print Assumptions C128_one.

Theorem C128_one_float : forall s y, s = EqualSpacing \/ s = GaussLobattoSpacing -> InReference32 y ->
  exists v, parent_value F32Num 1 [LagrangeBasis32 1 s] (fun _ => Ok (b32_ofZ 1)) [y] = Ok v /\ IsFloat v 1%R.
Proof. exact ProofPositive32.one_lemma. Qed.
Print Assumptions C128_one_float.

(** Not so at order two, with Gauss-Legendre points, in three directions, or for the constant 3. *)
Theorem C128_quadratic_one_refuted : exists y v, InReference y /\
  parent_value B64Num 1 [LagrangeBasis B64Num 2 EqualSpacing] (fun _ => Ok (b64_ofZ 1)) [y] = Ok v /\ B2R v <> 1%R.
Proof. exact ProofPositive64.quadratic_one_lemma. Qed.
Print Assumptions C128_quadratic_one_refuted.

Theorem C128_legendre_one_refuted : exists y v, InReference y /\
  parent_value B64Num 1 [LagrangeBasis B64Num 1 GaussLegendreSpacing] (fun _ => Ok (b64_ofZ 1)) [y] = Ok v /\ B2R v <> 1%R.
Proof. exact ProofPositive64.legendre_one_lemma. Qed.
Print Assumptions C128_legendre_one_refuted.

Theorem C128_brick_one_refuted : exists xi v, Forall InReference xi /\ length xi = 3%nat /\
  parent_value B64Num 3 [LagrangeBasis B64Num 1 EqualSpacing; LagrangeBasis B64Num 1 EqualSpacing; LagrangeBasis B64Num 1 EqualSpacing]
    (fun _ => Ok (b64_ofZ 1)) xi = Ok v /\ (1 < B2R v)%R.
Proof. exact ProofPositive64.brick_one_lemma. Qed.
Print Assumptions C128_brick_one_refuted.

Theorem C128_overshoot_refuted : exists y v, InReference y /\
  parent_value B64Num 1 [LagrangeBasis B64Num 1 EqualSpacing] (fun _ => Ok (b64_ofZ 3)) [y] = Ok v /\ (3 < B2R v)%R.
Proof. exact ProofPositive64.overshoot_lemma. Qed.
Print Assumptions C128_overshoot_refuted.

(** 1/2 is a point, and two directions with the index (1, 0), at which the theorems apply. *)
Example C128_witness : InReference (b64_lit 5 1) /\ B2R (b64_lit 5 1) = (/ 2)%R.
Proof. exact half_reference. Qed.
Example C128_witness_index : InRange (map (fun _ => 2) [EqualSpacing; GaussLobattoSpacing]) [1; 0].
Proof. repeat constructor; lia. Qed.
