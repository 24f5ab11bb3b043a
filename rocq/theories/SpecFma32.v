(** Vocabulary for results computed in floats with contraction. *)
From Coq Require Import Reals.
From Flocq Require Import Core IEEE754.BinarySingleNaN.
From Verif Require Import Base Num ModelB64 ModelF32 ModelFma ModelFma32 SpecF32 SpecMath SpecAccuracy SpecAccuracy32 SpecElement64 SpecElement32 ModelSpacing ModelLagrange.
Open Scope Z_scope.

(** The real value. *)
Definition freal (x : cfloat) : R := B2R (cfval x).
Definition FFinite (x : cfloat) : Prop := is_finite (cfval x) = true.

(** Inputs: numbers that were not computed as products in sight of the compiler, with the
    same ranges as without contraction. *)
Definition FReference (y : cfloat) : Prop := Plain32 y /\ InReference32 (cfval y).
Definition FData (w : cfloat) : Prop := Plain32 w /\ Data32 (cfval w).
Definition FEntries (A : Z -> Z -> cfloat) : Prop := forall i j, 0 <= i < 3 -> 0 <= j < 3 ->
  Plain32 (A i j) /\ FFinite (A i j) /\ (Rabs (freal (A i j)) <= bpow radix2 30)%R.
Definition freal_matrix (A : Z -> Z -> cfloat) : matrix := fun i j => freal (A i j).

Definition basisC32 (c : contraction32) (so : spacing * Z) : basis (FmaNum32 c) := FmaBasis32 c (snd so) (fst so).
