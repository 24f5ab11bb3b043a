(** How much interpolation can amplify. *)
From Coq Require Import Reals.
From Verif Require Import Base Num SpecNumeric SpecBasis ModelSpacing.
Open Scope R_scope.

(** A bound for the sum of the absolute values of the basis functions on [-1,1]. *)
Definition Stability (so : spacing * Z) : R :=
  match fst so with
  | EqualSpacing => if (snd so <=? 15)%Z then (8 / 5) ^ Z.to_nat (snd so) else 2 ^ Z.to_nat (snd so)
  | GaussLegendreSpacing | GaussLobattoSpacing => 3
  end.
(** The product over the directions of an element. *)
Definition ElementStability (specs : list (spacing * Z)) : R := fold_right Rmult 1 (map Stability specs).
(** A spacing and an order that give a Lagrange basis. *)
Definition ValidOrder (so : spacing * Z) : Prop :=
  match fst so with
  | EqualSpacing => 1 <= snd so < INT_MAX
  | GaussLegendreSpacing => 1 <= snd so <= 3
  | GaussLobattoSpacing => 1 <= snd so <= 8
  end%Z.
(** [d] is the interpolation basis of the points of the spacing, in the reals. *)
Definition GridR (so : spacing * Z) (d : direction) : Prop :=
  npts d = (snd so + 1)%Z /\ Points (coord_ct RNum (fst so) (snd so + 1)) (snd so + 1) (pt d) /\ Nodal d.

(** The same for the derivatives on [-1,1], every summand of the product rule in absolute value. *)
Definition GradientStability (so : spacing * Z) : R :=
  IZR (snd so) ^ 2 * match fst so with EqualSpacing => Stability so | _ => 2 end.
(** The product over the directions of an element, for the derivative in direction [j] (counted from 0). *)
Fixpoint ElementGradientStability (j : nat) (specs : list (spacing * Z)) : R :=
  match specs with
  | [] => 1
  | so :: specs' =>
      match j with
      | O => GradientStability so * ElementStability specs'
      | S j' => Stability so * ElementGradientStability j' specs'
      end
  end.
