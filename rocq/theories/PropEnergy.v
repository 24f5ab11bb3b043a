(** Properties C114 and C115: the mass and the stiffness matrix of an element, assembled with the
    library's basis functions, quadrature rules and inverse Jacobians over exact real arithmetic.
    A field on the nodes is a function [u] of the index tuple. *)
From Verif Require Import Base Num SpecIndex SpecMath ModelAssert ModelCArray ModelSpacing ModelQuadrature ModelLagrange
  ModelBasisProduct ModelTransforms SpecCArray SpecNumeric SpecBasis SpecIntegral SpecEnergy ProofTensor ProofIntegral ProofEnergy.
From Coq Require Import Reals QArith.
Open Scope Z_scope.

(** C114.  The quadratic form of the mass matrix with a density (which includes the determinant of
    the Jacobian) that is positive at the quadrature points: it is never negative, and only the
    zero field has mass zero if and only if each direction has at least as many quadrature points
    as nodes. *)
Theorem C114_mass_matrix : forall bases ds rs ws xs (density : list R -> R) (val : (list Z -> R) -> list R -> R),
  Forall2 Evaluates bases ds -> Forall Nodal ds -> ds <> [] ->
  Forall supported rs -> Rules rs ws xs -> length rs = length ds ->
  (forall q, InRange (map snd rs) q -> (0 < density (point_at xs q))%R) ->
  (forall u xi, length xi = length ds ->
     parent_value RNum (Z.of_nat (length ds)) bases (fun t => Ok (u t)) xi = Ok (val u xi)) ->
  (forall u, 0 <= quadrature rs ws xs (fun xi => density xi * (val u xi * val u xi)))%R /\
  ((forall u, quadrature rs ws xs (fun xi => density xi * (val u xi * val u xi))%R = 0%R ->
      forall t, InRange (counts ds) t -> u t = 0%R) <-> Full (counts ds) (map snd rs)).
Proof. exact mass_lemma. Qed.
Print Assumptions C114_mass_matrix.

(** Non-vacuity: all hypotheses about the basis and the rules hold for every product of bundled
    bases and rules. *)
Example C114_hypotheses : forall (specs : list (spacing * Z)) rs,
  Forall spec_ok specs -> specs <> [] -> Forall supported rs -> length rs = length specs ->
  exists bases ds ws xs val, Forall2 Evaluates bases ds /\ Forall Nodal ds /\ ds <> [] /\ Rules rs ws xs /\
    length rs = length ds /\ counts ds = map (fun s => snd s + 1) specs /\
    (forall u xi, length xi = length ds ->
       parent_value RNum (Z.of_nat (length ds)) bases (fun t => Ok (u t)) xi = Ok (val u xi)).
Proof. exact mass_hypotheses_lemma. Qed.
Example C114_enough_points : Full [3; 3; 3] (map snd [(QuadratureGaussLegendre, 3); (QuadratureGaussLobatto, 4); (QuadratureGaussLegendre, 4)]) /\
  ~ Full [3; 3; 3] (map snd [(QuadratureGaussLegendre, 3); (QuadratureGaussLobatto, 2); (QuadratureGaussLegendre, 4)]).
Proof. exact full_example_lemma. Qed.

(** C115.  The energy of the gradient, measured at each quadrature point by a positive definite
    form: never negative, zero for constant fields, and zero for constant fields only if and only
    if at most one quadrature point is missing, in at most one direction. *)
Theorem C115_gradient_energy : forall c bases ds rs ws xs (form : list R -> list R -> R)
    (grad : (list Z -> R) -> list R -> list R),
  Forall2 Evaluates bases ds -> Forall Nodal ds -> ds <> [] -> Z.of_nat (length ds) <= INT_MAX ->
  Forall supported rs -> Rules rs ws xs -> length rs = length ds ->
  (forall q, InRange (map snd rs) q -> PositiveDefinite (length ds) (form (point_at xs q))) ->
  (forall u xi, length xi = length ds ->
     parent_gradient RNum c (Z.of_nat (length ds)) bases (fun t => Ok (u t)) xi = Ok (grad u xi)) ->
  (forall u, 0 <= quadrature rs ws xs (fun xi => form xi (grad u xi)))%R /\
  (forall u k, (forall t, InRange (counts ds) t -> u t = k) -> quadrature rs ws xs (fun xi => form xi (grad u xi)) = 0%R) /\
  ((forall u, quadrature rs ws xs (fun xi => form xi (grad u xi)) = 0%R ->
      exists k, forall t, InRange (counts ds) t -> u t = k) <-> OneMissing (counts ds) (map snd rs)).
Proof. exact stiffness_lemma. Qed.
Print Assumptions C115_gradient_energy.

(** The diffusion matrix of a hexahedron: the gradient is taken to physical coordinates with the
    inverse Jacobian the library computes, the geometry may use another basis than the field. *)
Theorem C115_diffusion_matrix : forall c bases ds gbases gds mem X rs ws xs (detJ : list R -> R) (invJ : list R -> list R)
    (grad : (list Z -> R) -> list R -> list R),
  Forall2 Evaluates bases ds -> Forall Nodal ds -> length ds = 3%nat ->
  Forall2 Evaluates gbases gds -> Forall Differentiates gds -> length gds = 3%nat ->
  Holds (owning (counts gds ++ [3])) mem X ->
  Forall supported rs -> Rules rs ws xs -> length rs = 3%nat ->
  (forall q, InRange (map snd rs) q ->
     inverseJacobian_wrapper RNum c 3 gbases mem (point_at xs q) = Ok (detJ (point_at xs q), invJ (point_at xs q)) /\
     (0 < detJ (point_at xs q))%R) ->
  (forall u xi, length xi = 3%nat -> parent_gradient RNum c 3 bases (fun t => Ok (u t)) xi = Ok (grad u xi)) ->
  (forall u, 0 <= quadrature rs ws xs (fun xi => detJ xi * norm2 (invJ xi) (grad u xi)))%R /\
  (forall u k, (forall t, InRange (counts ds) t -> u t = k) ->
     quadrature rs ws xs (fun xi => detJ xi * norm2 (invJ xi) (grad u xi))%R = 0%R) /\
  ((forall u, quadrature rs ws xs (fun xi => detJ xi * norm2 (invJ xi) (grad u xi))%R = 0%R ->
      exists k, forall t, InRange (counts ds) t -> u t = k) <-> OneMissing (counts ds) (map snd rs)).
Proof. exact diffusion_lemma. Qed.
Print Assumptions C115_diffusion_matrix.

(** Bilinear elements with two points per direction, and quadratic ones with two points in one
    direction, are fine; quadratic ones with two points in two directions are not. *)
Example C115_enough_points : OneMissing [2; 2; 2] [2; 2; 2] /\ OneMissing [3; 3; 3] [3; 2; 3] /\
  ~ OneMissing [3; 3; 3] [2; 2; 3] /\ ~ OneMissing [4; 4; 4] [2; 4; 4].
Proof. exact missing_example_lemma. Qed.
(** The hypotheses of C115_diffusion_matrix are met by every product of bundled bases, and by the
    reference cell itself as geometry. *)
Example C115_gradients_exist : forall c (specs : list (spacing * Z)), Forall spec_ok specs -> length specs = 3%nat ->
  exists bases ds grad, Forall2 Evaluates bases ds /\ Forall Nodal ds /\ length ds = 3%nat /\
    counts ds = map (fun s => snd s + 1) specs /\
    (forall u xi, length xi = 3%nat -> parent_gradient RNum c 3 bases (fun t => Ok (u t)) xi = Ok (grad u xi)).
Proof. exact gradients_exist_lemma. Qed.
Example C115_geometry_exists : forall c rs ws xs, Forall supported rs -> Rules rs ws xs -> length rs = 3%nat ->
  exists gbases gds mem X detJ invJ,
    Forall2 Evaluates gbases gds /\ Forall Differentiates gds /\ length gds = 3%nat /\
    Holds (owning (counts gds ++ [3])) mem X /\
    (forall q, InRange (map snd rs) q ->
       inverseJacobian_wrapper RNum c 3 gbases mem (point_at xs q) = Ok (detJ (point_at xs q), invJ (point_at xs q)) /\
       (0 < detJ (point_at xs q))%R).
Proof. exact geometry_exists_lemma. Qed.
