(** C96: where the Jacobian is constant, and what jacobianIsConstInCell says. *)
From Verif Require Import Base Num SpecIndex ModelCArray SpecCArray ModelSpacing ModelLagrange ModelBasisProduct ModelTransforms
  ModelAssert SpecNumeric SpecMath SpecBasis ProofTransform ProofConst.
From Coq Require Import Reals QArith.
Open Scope Z_scope.

(** A cell of LinearTransform has the same Jacobian at all points exactly if its vertices are the
    image of the grid of support points under an affine map. *)
Theorem C96_constant_iff_affine : forall c bases ds mem X,
  Forall2 Evaluates bases ds -> Forall Nodal ds -> Forall (fun d => 2 <= npts d) ds ->
  ds <> [] -> (length ds <= 3)%nat -> Holds (owning (counts ds ++ [Z.of_nat (length ds)])) mem X ->
  ((forall xi xi', length xi = 3%nat -> length xi' = 3%nat ->
      jacobian_wrapper RNum c (Z.of_nat (length ds)) bases mem xi = jacobian_wrapper RNum c (Z.of_nat (length ds)) bases mem xi') <->
   exists (o : Z -> R) (A : matrix), forall t i, InRange (counts ds) t -> 0 <= i < Z.of_nat (length ds) ->
     X (t ++ [i]) = (o i + Zsum (Z.of_nat (length ds)) (fun k => A i k * nth (Z.to_nat k) (gridpoint ds t) 0%R))%R).
Proof. exact constant_lemma. Qed.
Print Assumptions C96_constant_iff_affine.

(** For eight vertices it is enough to look at the corners of the parent cell: the Jacobian is the
    same there, and then everywhere, exactly if the cell is a parallelepiped. *)
Theorem C96_constant_iff_parallelepiped : forall c bases ds mem X,
  Forall2 Evaluates bases ds -> Forall Nodal ds -> length ds = 3%nat ->
  Forall (fun d => npts d = 2 /\ pt d 0 = (-1)%R /\ pt d 1 = 1%R) ds ->
  Holds (owning [2; 2; 2; 3]) mem X ->
  ((forall xi xi', In xi [[-1; -1; -1]; [-1; -1; 1]; [-1; 1; -1]; [-1; 1; 1]; [1; -1; -1]; [1; -1; 1]; [1; 1; -1]; [1; 1; 1]]%R ->
      In xi' [[-1; -1; -1]; [-1; -1; 1]; [-1; 1; -1]; [-1; 1; 1]; [1; -1; -1]; [1; -1; 1]; [1; 1; -1]; [1; 1; 1]]%R ->
      jacobian_wrapper RNum c 3 bases mem xi = jacobian_wrapper RNum c 3 bases mem xi') ->
   forall a b e i, InRange [2; 2; 2; 3] [a; b; e; i] -> X [a; b; e; i] =
     (X [0; 0; 0; i]%Z + IZR a * (X [1; 0; 0; i]%Z - X [0; 0; 0; i]%Z) + IZR b * (X [0; 1; 0; i]%Z - X [0; 0; 0; i]%Z)
      + IZR e * (X [0; 0; 1; i]%Z - X [0; 0; 0; i]%Z))%R) /\
  ((forall a b e i, InRange [2; 2; 2; 3] [a; b; e; i] -> X [a; b; e; i] =
     (X [0; 0; 0; i]%Z + IZR a * (X [1; 0; 0; i]%Z - X [0; 0; 0; i]%Z) + IZR b * (X [0; 1; 0; i]%Z - X [0; 0; 0; i]%Z)
      + IZR e * (X [0; 0; 1; i]%Z - X [0; 0; 0; i]%Z))%R) ->
   forall xi xi', length xi = 3%nat -> length xi' = 3%nat ->
     jacobian_wrapper RNum c 3 bases mem xi = jacobian_wrapper RNum c 3 bases mem xi').
Proof. exact hex_constant. Qed.
Print Assumptions C96_constant_iff_parallelepiped.

(** The two transforms that claim a constant Jacobian have one: theirs is the derivative, at every
    point, of the map onto the box with corner [o] and edges [h]. *)
Theorem C96_scaling_claim : scaling_jacobianIsConstInCell = true /\ forall c (h0 h1 h2 : R) (o : list R),
  exists s : list R, scaling_jacobian_wrapper RNum c [h0; h1; h2] = Ok s /\
  forall xi i j, length xi = 3%nat -> (i < 3)%nat -> (j < 3)%nat ->
    Partial (fun p => nth i o 0 + nth i [h0; h1; h2] 0 * ((nth i p 0 + 1) / 2))%R j xi (if Nat.eqb i j then nth i s 0%R else 0%R).
Proof. exact (conj eq_refl scaling_constant). Qed.
Print Assumptions C96_scaling_claim.
Theorem C96_uniform_claim : uniform_jacobianIsConstInCell = true /\ forall c (h : R) (o : list R),
  exists v : R, uniform_jacobian_wrapper RNum c h = Ok [v] /\
  forall xi i j, length xi = 3%nat -> (i < 3)%nat -> (j < 3)%nat ->
    Partial (fun p => nth i o 0 + nth i [h; h; h] 0 * ((nth i p 0 + 1) / 2))%R j xi (if Nat.eqb i j then v else 0%R).
Proof. exact (conj eq_refl uniform_constant). Qed.
Print Assumptions C96_uniform_claim.
(** The third one does not claim it, and could not: a cell whose Jacobian changes. *)
Theorem C96_linear_claim : linear_jacobianIsConstInCell = false /\
  exists bases cell xi xi' J J', (length bases = 3 /\ length xi = 3 /\ length xi' = 3)%nat /\
    jacobian_wrapper QNum (host_runtime true) 3 bases cell xi = Ok J /\
    jacobian_wrapper QNum (host_runtime true) 3 bases cell xi' = Ok J' /\ ~ Forall2 Qeq J J'.
Proof. exact (conj eq_refl linear_varies). Qed.
Print Assumptions C96_linear_claim.

(** A skewed cell has the same Jacobian at two corners; with one vertex moved it has not. *)
Example C96_witness :
  let hexQ := [LagrangeBasis QNum 1 EqualSpacing; LagrangeBasis QNum 1 EqualSpacing; LagrangeBasis QNum 1 EqualSpacing] in
  let at_ m p := (J <- jacobian_wrapper QNum (host_runtime true) 3 hexQ m p ;; Ok (map Qred J)) in
  let skew := [0;0;0; 0;1;4; 0;3;0; 0;4;4; 2;0;0; 2;1;4; 2;3;0; 2;4;4]%Q in
  let moved := [0;0;0; 0;1;4; 0;3;0; 0;4;4; 2;0;0; 2;1;4; 2;3;0; 2;4;5]%Q in
  at_ skew [1; 1; 1]%Q = Ok [1; 0; 0; 0; 3 # 2; 1 # 2; 0; 0; 2]%Q /\ at_ skew [-1; 1; 0]%Q = at_ skew [1; 1; 1]%Q /\
  at_ moved [-1; -1; -1]%Q = at_ skew [1; 1; 1]%Q /\ at_ moved [1; 1; 1]%Q = Ok [1; 0; 0; 0; 3 # 2; 1 # 2; 1 # 2; 1 # 2; 5 # 2]%Q.
Proof. repeat split; reflexivity. Qed.
