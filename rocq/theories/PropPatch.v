(** C105: gradients in physical coordinates, and cells moved by an affine map. *)
From Verif Require Import Base Num SpecIndex SpecMath ModelAssert ModelCArray ModelSpacing ModelLagrange ModelBasisProduct
  ModelMath ModelTransforms SpecCArray SpecNumeric SpecBasis ProofPatch.
From Coq Require Import Reals QArith.
Open Scope Z_scope.

(** [G k = sum_j g_j * invJ[j][k]] is the one vector whose products with the columns of the Jacobian are the
    parent gradient: the chain rule du/dxi_j = sum_k du/dx_k * dx_k/dxi_j. *)
Theorem C105_chain_rule : forall c bases ds mem X var u xi,
  Forall2 Evaluates bases ds -> length ds = 3%nat -> length xi = 3%nat ->
  Holds (owning (counts ds ++ [3])) mem X -> (forall t, InRange (counts ds) t -> var t = Ok (u t)) ->
  forall d invJ B, inverseJacobian_wrapper RNum c 3 bases mem xi = Ok (d, invJ) -> Holds (owning [3; 3]) invJ B ->
  exists g J K, parent_gradient RNum c 3 bases var xi = Ok g /\ jacobian_wrapper RNum c 3 bases mem xi = Ok J /\
    Holds (owning [3; 3]) J K /\
    forall G : Z -> R,
      (forall k, 0 <= k < 3 -> G k = Rsum (map (fun j => nth (Z.to_nat j) g 0 * B [j; k])%R (zseq 3))) <->
      (forall j, 0 <= j < 3 -> Rsum (map (fun k => G k * K [k; j])%R (zseq 3)) = nth (Z.to_nat j) g 0%R).
Proof. exact chain_rule_lemma. Qed.
Print Assumptions C105_chain_rule.

(** The patch test: a field equal to [alpha + beta . x] at the vertices has physical gradient [beta] at every point
    of every cell, however distorted. *)
Theorem C105_patch_test : forall c bases ds mem X var xi (alpha : R) (beta : Z -> R),
  Forall2 Evaluates bases ds -> Forall Nodal ds -> length ds = 3%nat -> length xi = 3%nat ->
  Holds (owning (counts ds ++ [3])) mem X ->
  (forall t, InRange (counts ds) t -> var t = Ok (alpha + Rsum (map (fun k => beta k * X (t ++ [k]))%R (zseq 3)))%R) ->
  exists g, parent_gradient RNum c 3 bases var xi = Ok g /\
    forall d invJ B, inverseJacobian_wrapper RNum c 3 bases mem xi = Ok (d, invJ) -> Holds (owning [3; 3]) invJ B ->
    forall k, 0 <= k < 3 -> Rsum (map (fun j => nth (Z.to_nat j) g 0 * B [j; k])%R (zseq 3)) = beta k.
Proof. exact patch_lemma. Qed.
Print Assumptions C105_patch_test.

(** Vertices moved by [x -> o + M x]: the Jacobian becomes M J. *)
Theorem C105_moved_jacobian : forall c bases ds mem mem' X X' xi (o : Z -> R) (M : matrix),
  Forall2 Evaluates bases ds -> Forall Nodal ds -> ds <> [] -> (length ds <= 3)%nat -> length xi = 3%nat ->
  Holds (owning (counts ds ++ [Z.of_nat (length ds)])) mem X -> Holds (owning (counts ds ++ [Z.of_nat (length ds)])) mem' X' ->
  (forall t i, InRange (counts ds) t -> 0 <= i < Z.of_nat (length ds) ->
     X' (t ++ [i]) = (o i + Rsum (map (fun k => M i k * X (t ++ [k]))%R (zseq (length ds))))%R) ->
  exists J J' K K', jacobian_wrapper RNum c (Z.of_nat (length ds)) bases mem xi = Ok J /\
    jacobian_wrapper RNum c (Z.of_nat (length ds)) bases mem' xi = Ok J' /\
    Holds (owning [Z.of_nat (length ds); Z.of_nat (length ds)]) J K /\
    Holds (owning [Z.of_nat (length ds); Z.of_nat (length ds)]) J' K' /\
    forall i j, 0 <= i < Z.of_nat (length ds) -> 0 <= j < Z.of_nat (length ds) ->
      K' [i; j] = matmul (length ds) M (fun k j => K [k; j]) i j.
Proof. exact moved_jacobian_lemma. Qed.
Print Assumptions C105_moved_jacobian.

(** ... the determinant is multiplied by det M and the inverse B becomes the B' with B' M = B; a singular M makes the
    inverse fail. *)
Theorem C105_moved_inverse : forall c bases ds mem mem' X X' xi (o : Z -> R) (M : matrix),
  Forall2 Evaluates bases ds -> Forall Nodal ds -> length ds = 3%nat -> length xi = 3%nat ->
  Holds (owning (counts ds ++ [3])) mem X -> Holds (owning (counts ds ++ [3])) mem' X' ->
  (forall t i, InRange (counts ds) t -> 0 <= i < Z.of_nat (length ds) ->
     X' (t ++ [i]) = (o i + Rsum (map (fun k => M i k * X (t ++ [k]))%R (zseq (length ds))))%R) ->
  forall d invJ B, inverseJacobian_wrapper RNum c 3 bases mem xi = Ok (d, invJ) -> Holds (owning [3; 3]) invJ B ->
  (det 3 M <> 0%R -> exists invJ' B', inverseJacobian_wrapper RNum c 3 bases mem' xi = Ok (det 3 M * d, invJ')%R /\
     Holds (owning [3; 3]) invJ' B' /\
     forall i j, 0 <= i < 3 -> 0 <= j < 3 -> matmul 3 (fun i j => B' [i; j]) M i j = B [i; j]) /\
  (det 3 M = 0%R -> inverseJacobian_wrapper RNum c 3 bases mem' xi = UB DivByZero).
Proof. exact moved_inverse_lemma. Qed.
Print Assumptions C105_moved_inverse.

(** Rigid motions and reflections: lengths and angles (J^T J) and volumes (|det J|) stay. *)
Theorem C105_rigid_motion : forall c bases ds mem mem' X X' xi (o : Z -> R) (M : matrix),
  Forall2 Evaluates bases ds -> Forall Nodal ds -> length ds = 3%nat -> length xi = 3%nat ->
  Holds (owning (counts ds ++ [3])) mem X -> Holds (owning (counts ds ++ [3])) mem' X' ->
  (forall t i, InRange (counts ds) t -> 0 <= i < Z.of_nat (length ds) ->
     X' (t ++ [i]) = (o i + Rsum (map (fun k => M i k * X (t ++ [k]))%R (zseq (length ds))))%R) ->
  (forall i j, 0 <= i < 3 -> 0 <= j < 3 -> matmul 3 (fun a b => M b a) M i j = delta i j) ->
  exists J J' K K', jacobian_wrapper RNum c 3 bases mem xi = Ok J /\ jacobian_wrapper RNum c 3 bases mem' xi = Ok J' /\
    Holds (owning [3; 3]) J K /\ Holds (owning [3; 3]) J' K' /\
    (forall i j, 0 <= i < 3 -> 0 <= j < 3 ->
      matmul 3 (fun a b => K' [b; a]) (fun a b => K' [a; b]) i j = matmul 3 (fun a b => K [b; a]) (fun a b => K [a; b]) i j) /\
    Rabs (det 3 (fun i j => K' [i; j])) = Rabs (det 3 (fun i j => K [i; j])).
Proof. exact rigid_lemma. Qed.
Print Assumptions C105_rigid_motion.

(** A distorted hexahedron, vertex (a, b, c) at (4 a + b c, 4 b - a c, 4 c + a b), field 1 + 2 x - 3 y + 5 z. *)
Definition C105_mesh : list Q :=
  flat_map (fun t => let '(a, b, c) := t in map inject_Z [4 * a + b * c; 4 * b - a * c; 4 * c + a * b])
    [(0, 0, 0); (0, 0, 1); (0, 1, 0); (0, 1, 1); (1, 0, 0); (1, 0, 1); (1, 1, 0); (1, 1, 1)].
Definition C105_field (t : list Z) : outcome Q :=
  let k := Z.to_nat (3 * (4 * nth 0 t 0 + 2 * nth 1 t 0 + nth 2 t 0)) in
  Ok (1 + 2 * nth k C105_mesh 0 - 3 * nth (k + 1) C105_mesh 0 + 5 * nth (k + 2) C105_mesh 0)%Q.
Example C105_witness :
  let b := repeat (LagrangeBasis QNum 1 EqualSpacing) 3 in
  let xi := [1 # 2; 1 # 3; -1 # 5]%Q in
  let c := host_runtime true in
  (g <- parent_gradient QNum c 3 b C105_field xi ;;
   '(_, B) <- inverseJacobian_wrapper QNum c 3 b C105_mesh xi ;;
   Ok (map (fun k => Qred (nth 0 g 0 * nth k B 0 + nth 1 g 0 * nth (3 + k) B 0 + nth 2 g 0 * nth (6 + k) B 0))%Q [0; 1; 2]%nat)) =
  Ok [2; -3 # 1; 5]%Q.
Proof. vm_compute. reflexivity. Qed.
