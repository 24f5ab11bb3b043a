(** Quadrature rules as the library gives them in doubles and floats. *)
From Coq Require Import ZArith List Reals.
From Flocq Require Import Core IEEE754.BinarySingleNaN.
From Verif Require Import Base Num SpecIndex ModelB64 SpecB64 ModelF32 SpecF32 ModelSpacing ModelQuadrature.
Import ListNotations.
Open Scope Z_scope.

(** One rule per coordinate (its class and number of points), with its weights and points. *)
Inductive Rules64 : list (rule * Z) -> list (Z -> b64) -> list (Z -> b64) -> Prop :=
| no_rules64 : Rules64 [] [] []
| a_rule64 q N w x rs ws xs :
    Points64 (weight_ct B64Num q N) N w -> Points64 (coord_ct B64Num (rule_spacing q) N) N x ->
    Rules64 rs ws xs -> Rules64 ((q, N) :: rs) (w :: ws) (x :: xs).
Inductive Rules32 : list (rule * Z) -> list (Z -> b32) -> list (Z -> b32) -> Prop :=
| no_rules32 : Rules32 [] [] []
| a_rule32 q N w x rs ws xs :
    Points32 (weight_ct32 q N) N w -> Points32 (coord_ct32 (rule_spacing q) N) N x ->
    Rules32 rs ws xs -> Rules32 ((q, N) :: rs) (w :: ws) (x :: xs).

(** The entries of [l] at the indices [idx], one function per index. *)
Fixpoint pick {A} (l : list (Z -> A)) (idx : list Z) : list A :=
  match l, idx with
  | f :: l', i :: idx' => f i :: pick l' idx'
  | _, _ => []
  end.
(** The product of real numbers. *)
Definition product (l : list R) : R := fold_right Rmult 1%R l.
