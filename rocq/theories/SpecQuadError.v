(** Integrals over boxes and the error of the tensor-product rules on them. *)
From Verif Require Import Base SpecIndex SpecNumeric SpecBasis SpecIntegral SpecConvergence ModelSpacing ModelQuadrature.
From Coq Require Import Reals.
Open Scope R_scope.

(** [v] is the iterated integral of [f] over the box with centre [c] and side lengths [h]. *)
Fixpoint BoxIntegral (c h : list R) (f : list R -> R) (v : R) : Prop :=
  match c, h with
  | a :: c', l :: h' => exists g G,
      (forall x, a - l / 2 <= x <= a + l / 2 -> BoxIntegral c' h' (fun t => f (x :: t)) (g x)) /\
      (forall x, a - l / 2 <= x <= a + l / 2 -> derivable_pt_lim G x (g x)) /\
      v = G (a + l / 2) - G (a - l / 2)
  | _, _ => v = f []
  end.

(** The determinant of the map of [-1,1]^n to the box. *)
Definition jacobian (h : list R) : R := fold_right (fun l s => l / 2 * s) 1 h.

(** b 0 / 0! + ... + b (m-1) / (m-1)! *)
Fixpoint series (b : nat -> R) (m : nat) : R :=
  match m with O => 0 | S k => series b k + b k / INR (fact k) end.
(** The number of the derivative that decides about the error of a rule. *)
Definition smoothness (r : rule * Z) : nat := Z.to_nat (degree r + 1).
(** What a direction contributes: [b k] bounds the k-th derivative, [l] is the side length, [eps] the error of the tables. *)
Definition direction_error (eps : R) (r : rule * Z) (b : nat -> R) (l : R) : R :=
  (4 + eps) * ((l / 2) ^ smoothness r * b (smoothness r) / INR (fact (smoothness r))) +
  eps * series (fun k => (l / 2) ^ k * b k) (smoothness r).
Fixpoint directions_error (eps : R) (rs : list (rule * Z)) (B : list (nat -> R)) (h : list R) : R :=
  match rs, B, h with
  | r :: rs', b :: B', l :: h' => direction_error eps r b l + directions_error eps rs' B' h'
  | _, _, _ => 0
  end.
