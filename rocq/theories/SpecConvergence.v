(** Box cells and the order of convergence on them. *)
From Verif Require Import Base SpecIndex SpecNumeric SpecBasis SpecStability ModelSpacing.
From Coq Require Import Reals.
Open Scope R_scope.

(** The point of the box with centre [c] and side lengths [h] that belongs to the point [xi] of [-1,1]^n. *)
Fixpoint place (c h xi : list R) : list R :=
  match c, h, xi with
  | a :: c', l :: h', x :: xi' => (a + l / 2 * x) :: place c' h' xi'
  | _, _, _ => []
  end.
(** [p] lies in that box. *)
Fixpoint InBox (c h p : list R) : Prop :=
  match c, h, p with
  | [], [], [] => True
  | a :: c', l :: h', x :: p' => a - l / 2 <= x <= a + l / 2 /\ InBox c' h' p'
  | _, _, _ => False
  end.

(** Errors of values: one power more than the order of the element in every direction. *)
Fixpoint value_convergence (specs : list (spacing * Z)) (M h : list R) : R :=
  match specs, M, h with
  | so :: specs', m :: M', l :: h' =>
      m * l ^ Z.to_nat (snd so + 1) / INR (fact (Z.to_nat (snd so + 1))) + Stability so * value_convergence specs' M' h'
  | _, _, _ => 0
  end.
(** Errors of the derivative in direction [j]: the order of the element in that direction. *)
Fixpoint gradient_convergence (j : nat) (specs : list (spacing * Z)) (M h : list R) : R :=
  match specs, M, h with
  | so :: specs', m :: M', l :: h' =>
      match j with
      | O => m * l ^ Z.to_nat (snd so) / INR (fact (Z.to_nat (snd so))) * ElementStability specs' + value_convergence specs' M' h'
      | S j' => m * l ^ Z.to_nat (snd so + 1) / INR (fact (Z.to_nat (snd so + 1))) + Stability so * gradient_convergence j' specs' M' h'
      end
  | _, _, _ => 0
  end.
