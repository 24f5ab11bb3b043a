(** Mathematical vocabulary for integrals over the reference cell [-1,1]^d. *)
From Verif Require Import Base Num SpecIndex SpecNumeric SpecBasis ModelSpacing ModelQuadrature ModelLagrange.
From Coq Require Import Reals.
Open Scope Z_scope.

(** [v] is the iterated integral of [f] over [-1,1]^d: integrate over the last d-1 coordinates
    for every value of the first, then take an antiderivative in the first. *)
Fixpoint Integral (d : nat) (f : list R -> R) (v : R) : Prop :=
  match d with
  | O => v = f []
  | S d' => exists g G,
      (forall x, Integral d' (fun t => f (x :: t)) (g x)) /\
      (forall x, derivable_pt_lim G x (g x)) /\
      v = (G 1 - G (-1))%R
  end.

(** A polynomial in several variables as a list of terms: coefficient and exponents. *)
Definition sparse (ts : list (R * list Z)) (xi : list R) : R :=
  fold_right (fun t s => fst t * monomial (snd t) xi + s)%R 0%R ts.
(** The sum of the absolute values of its coefficients. *)
Definition size (ts : list (R * list Z)) : R := fold_right (fun t s => Rabs (fst t) + s)%R 0%R ts.

(** A quadrature rule of the library: its class and its number of points; which sizes there are,
    and up to which degree the rule is exact. *)
Definition supported (r : rule * Z) : Prop :=
  2 <= snd r <= match fst r with QuadratureGaussLegendre => 4 | QuadratureGaussLobatto => 9 end.
Definition degree (r : rule * Z) : Z :=
  match fst r with QuadratureGaussLegendre => 2 * snd r - 1 | QuadratureGaussLobatto => 2 * snd r - 3 end.
(** The decimals to which its tables satisfy the defining equations. *)
Definition digits (r : rule * Z) : nat := if snd r <=? 5 then 33 else 13.

(** [w] are the rule's weights, [x] its points. *)
Definition Rule (r : rule * Z) (w x : Z -> R) : Prop :=
  Points (weight_ct RNum (fst r) (snd r)) (snd r) w /\
  Points (coord_ct RNum (rule_spacing (fst r)) (snd r)) (snd r) x.
(** One rule per coordinate, with its weights and points. *)
Definition Rules (rs : list (rule * Z)) (ws xs : list (Z -> R)) : Prop :=
  length ws = length rs /\ length xs = length rs /\
  forall k r w x, nth_error rs k = Some r -> nth_error ws k = Some w -> nth_error xs k = Some x -> Rule r w x.

(** w_1(i_1) * ... * w_d(i_d), and the point (x_1(i_1), ..., x_d(i_d)). *)
Fixpoint weights_at (ws : list (Z -> R)) (idx : list Z) : R :=
  match ws, idx with
  | w :: ws', i :: idx' => (w i * weights_at ws' idx')%R
  | _, _ => 1%R
  end.
Fixpoint point_at (xs : list (Z -> R)) (idx : list Z) : list R :=
  match xs, idx with
  | x :: xs', i :: idx' => x i :: point_at xs' idx'
  | _, _ => []
  end.
(** The tensor-product quadrature of [f]. *)
Definition quadrature (rs : list (rule * Z)) (ws xs : list (Z -> R)) (f : list R -> R) : R :=
  BoxSum (map snd rs) (fun q => weights_at ws q * f (point_at xs q))%R.

(** [w], [x] are the weights and points of the rule [r], and [v], [g] the values and derivatives
    the library computes for the Lagrange basis whose nodes are these points. *)
Definition Collocated (r : rule * Z) (w x : Z -> R) (v g : Z -> R -> R) : Prop :=
  Rule r w x /\
  forall i y, 0 <= i < snd r ->
    bvalue (LagrangeBasis RNum (snd r - 1) (rule_spacing (fst r))) i y = Ok (v i y) /\
    bgradient (LagrangeBasis RNum (snd r - 1) (rule_spacing (fst r))) i y = Ok (g i y).

(** The standard formula for the volume of the hexahedron with vertices X(a,b,e), a, b, e in
    {0,1}, whose faces are bilinear surfaces (Grandy 1997): a sum of three triple products of
    vertex differences, over 12. *)
Definition triple (u v w : Z -> R) : R :=
  (u 0%Z * (v 1%Z * w 2%Z - v 2%Z * w 1%Z) - u 1%Z * (v 0%Z * w 2%Z - v 2%Z * w 0%Z) +
   u 2%Z * (v 0%Z * w 1%Z - v 1%Z * w 0%Z))%R.
Definition hexVolume (X : Z -> Z -> Z -> Z -> R) : R :=
  let p0 := X 0 0 0 in let p1 := X 1 0 0 in let p2 := X 1 1 0 in let p3 := X 0 1 0 in
  let p4 := X 0 0 1 in let p5 := X 1 0 1 in let p6 := X 1 1 1 in let p7 := X 0 1 1 in
  ((triple (fun i => (p3 i - p1 i) + (p7 i - p2 i)) (fun i => p6 i - p3 i) (fun i => p2 i - p0 i) +
    triple (fun i => (p4 i - p3 i) + (p5 i - p7 i)) (fun i => p6 i - p4 i) (fun i => p7 i - p0 i) +
    triple (fun i => (p1 i - p4 i) + (p2 i - p5 i)) (fun i => p6 i - p1 i) (fun i => p5 i - p0 i)) / 12)%R.
