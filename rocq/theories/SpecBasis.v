(** Mathematical vocabulary for interpolation on tensor-product grids. *)
From Verif Require Import Base Num SpecIndex SpecNumeric ModelLagrange.
From Coq Require Import Reals.
Open Scope Z_scope.

(** [v i] (with derivative [g i]) is the polynomial interpolation basis of the
    points x_0 .. x_(N-1). *)
Record NodalBasis (N : Z) (x : Z -> R) (v g : Z -> R -> R) : Prop := {
  nb_nodal  : forall i j, 0 <= i < N -> 0 <= j < N -> v i (x j) = if i =? j then 1%R else 0%R;
  nb_degree : forall i, 0 <= i < N -> exists p, Z.of_nat (length p) = N /\ forall y, v i y = peval p y;
  nb_unity  : forall y, Zsum N (fun i => v i y) = 1%R;
  nb_reproduce : forall p y, Z.of_nat (length p) <= N ->
    Zsum N (fun i => peval p (x i) * v i y)%R = peval p y;
  nb_deriv  : forall i y, 0 <= i < N -> derivable_pt_lim (v i) y (g i y);
  nb_zero   : forall y, Zsum N (fun i => g i y) = 0%R
}.

(** One direction of a tensor-product grid: how many points, which points, and the values and
    derivatives of the one-dimensional functions. *)
Record direction := {
  npts : Z;
  pt   : Z -> R;
  fval : Z -> R -> R;
  fder : Z -> R -> R
}.
Definition counts (ds : list direction) : list Z := map npts ds.

(** The class [b] computes the functions of the direction [d]. *)
Definition Evaluates (b : basis RNum) (d : direction) : Prop :=
  numSupportPoints b = Ok (npts d) /\ 0 < npts d /\
  forall i y, 0 <= i < npts d -> bvalue b i y = Ok (fval d i y) /\ bgradient b i y = Ok (fder d i y).
(** The derivatives are derivatives. *)
Definition Differentiates (d : direction) : Prop :=
  forall i y, 0 <= i < npts d -> derivable_pt_lim (fval d i) y (fder d i y).
(** The functions are the interpolation basis of the points. *)
Definition Nodal (d : direction) : Prop := NodalBasis (npts d) (pt d) (fval d) (fder d).

(** Any number type: the basis class [b] can be evaluated at [x]. *)
Definition DefinedAt (N : Num) (b : basis N) (x : T N) : Prop :=
  exists n, numSupportPoints b = Ok n /\ 0 < n /\
    forall i, 0 <= i < n -> exists v g, bvalue b i x = Ok v /\ bgradient b i x = Ok g.

(** f_(i_1)(x_1) * ... * f_(i_d)(x_d). *)
Fixpoint tensor (ds : list direction) (idx : list Z) (xi : list R) : R :=
  match ds, idx, xi with
  | d :: ds', i :: idx', x :: xi' => (fval d i x * tensor ds' idx' xi')%R
  | _, _, _ => 1%R
  end.

(** The grid point with index tuple [idx]. *)
Fixpoint gridpoint (ds : list direction) (idx : list Z) : list R :=
  match ds, idx with
  | d :: ds', i :: idx' => pt d i :: gridpoint ds' idx'
  | _, _ => []
  end.

(** Sum over all tuples in range for [ns], first component outermost. *)
Fixpoint BoxSum (ns : list Z) (f : list Z -> R) : R :=
  match ns with
  | [] => f []
  | n :: ns' => Zsum n (fun i => BoxSum ns' (fun t => f (i :: t)))
  end.

(** x_1^(e_1) * ... * x_d^(e_d). *)
Fixpoint monomial (e : list Z) (xi : list R) : R :=
  match e, xi with
  | k :: e', x :: xi' => (x ^ Z.to_nat k * monomial e' xi')%R
  | _, _ => 1%R
  end.
(** The polynomial with coefficients [c e], of degree less than n_k in coordinate k. *)
Definition tpoly (ns : list Z) (c : list Z -> R) (xi : list R) : R :=
  BoxSum ns (fun e => c e * monomial e xi)%R.

(** [f] has partial derivative [d] with respect to coordinate [j] (counted from 0) at [xi]. *)
Definition Partial (f : list R -> R) (j : nat) (xi : list R) (d : R) : Prop :=
  derivable_pt_lim (fun t => f (upd xi j t)) (nth j xi 0%R) d.
