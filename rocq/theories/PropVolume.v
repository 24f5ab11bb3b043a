(** C125: volumes of hexahedra from determinants computed in doubles and floats. *)
From Coq Require Import ZArith Reals List Lia.
From Flocq Require Import Core IEEE754.BinarySingleNaN.
From Verif Require Import Base Num ModelB64 SpecB64 ModelF32 SpecF32 SpecIndex SpecNumeric SpecBasis ModelAssert ModelCArray SpecCArray ModelSpacing ModelQuadrature
  ModelLagrange ModelBasisProduct ModelTransforms SpecElement64 SpecElement32 SpecIntegral SpecVolume ProofQuad64 ProofQuad32 ProofCell64 ProofCell32 ProofVolume64 ProofVolume32.
Import ListNotations.
Open Scope Z_scope.

(** C125.  Rules of the library in the three directions, of degree 2 at least; eight vertices with coordinates of size at
    most [L].  At every quadrature point the library computes a finite determinant, and the sum of the determinants times
    the weights is off from the volume of the cell by at most 20000 L^3 2^-53, or 20000 L^3 2^-45 with rules of more than
    five points. *)
Theorem C125_volume : forall c specs rs ws xs mem X L, Hex64 specs -> Rules64 rs ws xs -> length rs = 3%nat -> Forall supported rs ->
  Forall (fun r => 2 <= degree r) rs -> Holds (owning [2; 2; 2; 3]) mem X ->
  (bpow radix2 (-110) <= L <= bpow radix2 290)%R ->
  (forall t, InRange [2; 2; 2; 3] t -> is_finite (X t) = true /\ (Rabs (B2R (X t)) <= L)%R) ->
  exists D : list Z -> b64,
    (forall q, InRange (map snd rs) q -> exists invJ,
       inverseJacobian_wrapper B64Num c 3 (map basis64 specs) mem (pick xs q) = Ok (D q, invJ) /\ is_finite (D q) = true) /\
    (Rabs (BoxSum (map snd rs) (fun q => product (map B2R (pick ws q)) * B2R (D q)) - hexVolume (fun a b e i => B2R (X [a; b; e; i])))
       <= 20000 * bpow radix2 (- (if forallb (fun r => (snd r <=? 5)%Z) rs then 53 else 45)) * L ^ 3)%R.
Proof. exact volume64. Qed.
Print Assumptions C125_volume.

(** In floats, to 15000 L^3 2^-23. *)
Theorem C125_volume_float : forall c specs rs ws xs mem X L, Hex64 specs -> Rules32 rs ws xs -> length rs = 3%nat -> Forall supported rs ->
  Forall (fun r => 2 <= degree r) rs -> Holds (owning [2; 2; 2; 3]) mem X ->
  (bpow radix2 (-8) <= L <= bpow radix2 20)%R ->
  (forall t, InRange [2; 2; 2; 3] t -> is_finite (X t) = true /\ (Rabs (B2R (X t)) <= L)%R) ->
  exists D : list Z -> b32,
    (forall q, InRange (map snd rs) q -> exists invJ,
       inverseJacobian_wrapper F32Num c 3 (map basis32 specs) mem (pick xs q) = Ok (D q, invJ) /\ is_finite (D q) = true) /\
    (Rabs (BoxSum (map snd rs) (fun q => product (map B2R (pick ws q)) * B2R (D q)) - hexVolume (fun a b e i => B2R (X [a; b; e; i])))
       <= 15000 * bpow radix2 (-23) * L ^ 3)%R.
Proof. exact volume32. Qed.
Print Assumptions C125_volume_float.

(** The cube [0,2]^3, with L = 2, and three different rules. *)
Definition three_rules : list (rule * Z) := [(QuadratureGaussLegendre, 2); (QuadratureGaussLobatto, 3); (QuadratureGaussLobatto, 9)].
Example C125_witness : Hex64 [(EqualSpacing, 1); (GaussLobattoSpacing, 1); (EqualSpacing, 1)] /\
  (exists ws xs, Rules64 three_rules ws xs) /\ (exists ws xs, Rules32 three_rules ws xs) /\
  Forall supported three_rules /\ Forall (fun r => 2 <= degree r) three_rules /\
  (exists X, Holds (owning [2; 2; 2; 3]) cube64 X /\ forall t, InRange [2; 2; 2; 3] t -> is_finite (X t) = true /\ (Rabs (B2R (X t)) <= 2)%R) /\
  (exists X, Holds (owning [2; 2; 2; 3]) cube32 X /\ forall t, InRange [2; 2; 2; 3] t -> is_finite (X t) = true /\ (Rabs (B2R (X t)) <= 2)%R).
Proof.
  split. { split; [reflexivity|]. repeat (constructor; [cbn; auto|]). constructor. }
  assert (S : forall q N, In (q, N) three_rules -> 2 <= N <= match q with QuadratureGaussLegendre => 4 | QuadratureGaussLobatto => 9 end).
  { intros q N H. cbn in H. destruct H as [H|[H|[H|[]]]]; injection H as <- <-; lia. }
  split.
  { exists (map (fun r => w64 (fst r) (snd r)) three_rules), (map (fun r => n64 (fst r) (snd r)) three_rules). unfold three_rules in *.
    cbn [map fst snd].
    assert (F2 := rule64_facts QuadratureGaussLegendre 2 (S _ _ (or_introl eq_refl))).
    assert (F3 := rule64_facts QuadratureGaussLobatto 3 (S _ _ (or_intror (or_introl eq_refl)))).
    assert (F9 := rule64_facts QuadratureGaussLobatto 9 (S _ _ (or_intror (or_intror (or_introl eq_refl))))).
    apply a_rule64; [apply F2|apply F2|]. apply a_rule64; [apply F3|apply F3|]. apply a_rule64; [apply F9|apply F9|]. apply no_rules64. }
  split.
  { exists (map (fun r => w32 (fst r) (snd r)) three_rules), (map (fun r => n32 (fst r) (snd r)) three_rules). unfold three_rules in *.
    cbn [map fst snd].
    assert (F2 := rule32_facts QuadratureGaussLegendre 2 (S _ _ (or_introl eq_refl))).
    assert (F3 := rule32_facts QuadratureGaussLobatto 3 (S _ _ (or_intror (or_introl eq_refl)))).
    assert (F9 := rule32_facts QuadratureGaussLobatto 9 (S _ _ (or_intror (or_intror (or_introl eq_refl))))).
    apply a_rule32; [apply F2|apply F2|]. apply a_rule32; [apply F3|apply F3|]. apply a_rule32; [apply F9|apply F9|]. apply no_rules32. }
  split. { repeat (constructor; [unfold supported; cbn; lia|]). constructor. }
  split. { repeat (constructor; [cbn; lia|]). constructor. }
  split; [exact cube64_ok|exact cube32_ok].
Qed.
