(** Vocabulary for the accuracy of elements and cells computed in floats (single precision). *)
From Coq Require Import Reals.
From Flocq Require Import Core IEEE754.BinarySingleNaN.
From Verif Require Import Base Num SpecIndex SpecNumeric SpecMath SpecBasis SpecElement64 ModelF32 SpecF32 ModelSpacing ModelLagrange.
Open Scope Z_scope.

(** A spacing and an order for which the single-precision results are stated: any of the three
    bundled spacings with two to four points. *)
Definition Supported32 (so : spacing * Z) : Prop := 1 <= snd so <= 3.
Definition basis32 (so : spacing * Z) : basis F32Num := LagrangeBasis32 (snd so) (fst so).
(** [d] is the exact interpolation basis of the points of the spacing as stored in floats. *)
Definition Grid32 (so : spacing * Z) (d : direction) : Prop :=
  npts d = snd so + 1 /\
  (exists x, Points32 (coord_ct32 (fst so) (snd so + 1)) (snd so + 1) x /\
     forall i, 0 <= i < snd so + 1 -> pt d i = B2R (x i)) /\
  Nodal d.

(** Data of a cell or field: finite floats of size at most 2^20. *)
Definition Data32 (w : b32) : Prop := is_finite w = true /\ (Rabs (B2R w) <= bpow radix2 20)%R.

(** The derivatives of the position, all summands in absolute value, and a bit more. *)
Definition cell_size32 (ds : list direction) (xi : list R) (X : list Z -> R) : matrix := fun i j =>
  (BoxSum (counts ds) (fun t => dtensor_size (Z.to_nat j) ds t xi * Rabs (X (t ++ [i]))) + bpow radix2 (-40))%R.
