(** Vocabulary for the accuracy of elements and cells computed in doubles. *)
From Coq Require Import Reals.
From Flocq Require Import Core IEEE754.BinarySingleNaN.
From Verif Require Import Base Num ModelB64 SpecIndex SpecNumeric SpecMath SpecBasis SpecB64 SpecAccuracy ModelSpacing ModelLagrange.
Open Scope Z_scope.

(** A spacing and an order for which the double-precision results are stated. *)
Definition Supported64 (so : spacing * Z) : Prop :=
  match fst so with
  | EqualSpacing => 1 <= snd so <= 15
  | GaussLegendreSpacing => 1 <= snd so <= 3
  | GaussLobattoSpacing => 1 <= snd so <= 8
  end.
Definition basis64 (so : spacing * Z) : basis B64Num := LagrangeBasis B64Num (snd so) (fst so).
(** [d] is the exact interpolation basis of the points of the spacing as stored in doubles. *)
Definition Grid64 (so : spacing * Z) (d : direction) : Prop :=
  npts d = snd so + 1 /\
  (exists x, Points64 (coord_ct B64Num (fst so) (snd so + 1)) (snd so + 1) x /\
     forall i, 0 <= i < snd so + 1 -> pt d i = B2R (x i)) /\
  Nodal d.

(** The numbers of support points, and a count of roundings. *)
Definition sizes64 (specs : list (spacing * Z)) : list Z := map (fun so => snd so + 1) specs.
Definition roundings64 (specs : list (spacing * Z)) : Z :=
  fold_right Z.add 0 (map (fun so => 6 * snd so + 2) specs) + fold_right Z.mul 1 (sizes64 specs) + 2.

(** f_(i_1)(x_1) * ... * f_(i_d)(x_d) differentiated in direction [j], every summand in absolute value. *)
Fixpoint dtensor_size (j : nat) (ds : list direction) (idx : list Z) (xi : list R) {struct ds} : R :=
  match ds, idx, xi with
  | d :: ds', i :: idx', x :: xi' =>
      match j with
      | O => gradient_size (npts d) (pt d) i x * Rabs (tensor ds' idx' xi')
      | S j' => Rabs (fval d i x) * dtensor_size j' ds' idx' xi'
      end
  | _, _, _ => 1
  end%R.

(** Data of a cell or field: finite doubles of size at most 2^300. *)
Definition Data64 (w : b64) : Prop := is_finite w = true /\ (Rabs (B2R w) <= bpow radix2 300)%R.

(** The derivatives of the position, all summands in absolute value, and a bit more. *)
Definition cell_size (ds : list direction) (xi : list R) (X : list Z -> R) : matrix := fun i j =>
  (BoxSum (counts ds) (fun t => dtensor_size (Z.to_nat j) ds t xi * Rabs (X (t ++ [i]))) + bpow radix2 (-340))%R.

(** The shape function of vertex [s] (three indices 0 or 1) of the cube [-1,1]^3. *)
Definition trilinear (s : list Z) (p : list R) : R :=
  Rprod (map (fun ax => if fst ax =? 0 then (1 - snd ax) / 2 else (1 + snd ax) / 2) (combine s p))%R.
(** Three directions with the support points -1 and 1. *)
Definition Hex64 (specs : list (spacing * Z)) : Prop :=
  length specs = 3%nat /\ Forall (fun so => In so [(EqualSpacing, 1); (GaussLobattoSpacing, 1)]) specs.
