(** Vocabulary for results computed in doubles with contraction. *)
From Coq Require Import Reals.
From Flocq Require Import Core IEEE754.BinarySingleNaN.
From Verif Require Import Base Num ModelB64 ModelFma SpecB64 SpecMath SpecAccuracy SpecElement64 ModelSpacing ModelLagrange.
Open Scope Z_scope.

(** The real value. *)
Definition creal (x : cdouble) : R := B2R (cval x).
Definition CFinite (x : cdouble) : Prop := is_finite (cval x) = true.

(** Inputs: numbers that were not computed as products in sight of the compiler, with the
    same ranges as without contraction. *)
Definition CReference (y : cdouble) : Prop := Plain y /\ InReference (cval y).
Definition CData (w : cdouble) : Prop := Plain w /\ Data64 (cval w).
Definition CEntries (A : Z -> Z -> cdouble) : Prop := forall i j, 0 <= i < 3 -> 0 <= j < 3 -> CData (A i j).
Definition creal_matrix (A : Z -> Z -> cdouble) : matrix := fun i j => creal (A i j).

Definition basisC (c : contraction) (so : spacing * Z) : basis (FmaNum c) := FmaBasis c (snd so) (fst so).
