(** The accuracy of the tables of quadrature rules in doubles. *)
From Coq Require Import ZArith List Reals.
From Flocq Require Import Core.
From Verif Require Import Base SpecIntegral ModelQuadrature.
Import ListNotations.

(** Up to five points per direction the rules are exact to 2^-53, otherwise to 2^-45. *)
Definition table64 (rs : list (rule * Z)) : R := bpow radix2 (- (if forallb (fun r => snd r <=? 5)%Z rs then 53 else 45)).
