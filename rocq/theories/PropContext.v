(** C97: results do not depend on where the code is compiled and evaluated.

    A context [ctx] says whether the code runs on the host or on a device, in a constant expression
    or at run time, and with bounds checks or without.  [Ok] outcomes are compared with everything
    else: the same results, or the same fault.  (A fault in a constant expression is then rejected
    by the compiler: [constexpr_] in Base.v.) *)
From Verif Require Import Base Num ModelAssert ModelCArray ModelLagrange ModelSpacing ModelBasisProduct ModelMath ModelTransforms
  SpecIndex SpecCArray ProofContext.
From Coq Require Import QArith.
Open Scope Z_scope.

(** LinearTransform: [mem] holds the vertices ([DataType]), [J] is a [JacobianType]. *)
Theorem C97_jacobian : forall (N : Num) c c' gd bases ns mem xi J,
  bases <> [] -> supportCounts N bases = Ok ns ->
  view_ok (buflen mem) (owning (ns ++ [numDims N bases])) -> pos_dims [numDims N bases; numDims N bases] ->
  buflen J = numDims N bases * numDims N bases ->
  jacobian_point N c gd bases mem xi J = jacobian_point N c' gd bases mem xi J /\
  jacobian_wrapper N c gd bases mem xi = jacobian_wrapper N c' gd bases mem xi.
Proof.
  intros N c c' gd bases ns mem xi J Hne Hs Hv Hd HJ.
  exact (conj (proj1 (point_same N c c' gd bases ns mem Hne Hs Hv Hd xi J HJ)) (wrapper_same N c c' gd bases ns mem Hne Hs Hv Hd xi)).
Qed.
Print Assumptions C97_jacobian.
Theorem C97_quadrature_jacobian : forall (N : Num) c c' gd bases ns mem qcoord QA J,
  bases <> [] -> supportCounts N bases = Ok ns ->
  view_ok (buflen mem) (owning (ns ++ [numDims N bases])) -> pos_dims [numDims N bases; numDims N bases] ->
  buflen J = numDims N bases * numDims N bases ->
  jacobian_quadrature N c gd bases qcoord QA mem J = jacobian_quadrature N c' gd bases qcoord QA mem J.
Proof.
  intros N c c' gd bases ns mem qcoord QA J Hne Hs Hv Hd HJ.
  exact (proj1 (quadrature_same N c c' gd bases ns mem Hne Hs Hv Hd qcoord QA J HJ)).
Qed.
Print Assumptions C97_quadrature_jacobian.
(** In three dimensions; in one and two the outcome does depend on the checks (C43). *)
Theorem C97_inverse_jacobian : forall (N : Num) c c' gd bases ns mem xi J,
  length bases = 3%nat -> supportCounts N bases = Ok ns -> view_ok (buflen mem) (owning (ns ++ [3])) -> buflen J = 9 ->
  inverseJacobian_point N c gd bases mem xi J = inverseJacobian_point N c' gd bases mem xi J /\
  inverseJacobian_wrapper N c gd bases mem xi = inverseJacobian_wrapper N c' gd bases mem xi.
Proof. exact inverse_jacobian_same. Qed.
Print Assumptions C97_inverse_jacobian.
Theorem C97_inverse : forall (N : Num) c c' a n1 n2 mem,
  view_ok (buflen mem) a -> dims a = [n1; n2] -> 3 <= n1 -> 3 <= n2 -> is_writable a = true ->
  inverse_a N c a mem = inverse_a N c' a mem.
Proof. intros N c c' a n1 n2 mem Hv Hd H1 H2 Hw. exact (proj1 (inverse_same N c c' a n1 n2 mem Hv Hd H1 H2 Hw)). Qed.
Print Assumptions C97_inverse.
Theorem C97_setData : forall (N : Num) c c' bases n0 n1 n2 coords mem,
  length bases = 3%nat -> supportCounts N bases = Ok [n0; n1; n2] -> view_ok (buflen mem) (owning [n0; n1; n2; 3]) ->
  exists M, forall fuel, (M <= fuel)%nat -> setData N c bases coords fuel mem = setData N c' bases coords fuel mem.
Proof. exact setData_same. Qed.
Print Assumptions C97_setData.
Theorem C97_gradient : forall (N : Num) c c' gd bases ns var xi,
  bases <> [] -> supportCounts N bases = Ok ns -> Forall (fun n => 0 < n) ns -> numDims N bases <= 3 ->
  parent_gradient N c gd bases var xi = parent_gradient N c' gd bases var xi.
Proof. exact parent_gradient_same. Qed.
Print Assumptions C97_gradient.
Theorem C97_scaling : forall (N : Num) c c' h J, buflen J = 3 ->
  scaling_jacobian N c h J = scaling_jacobian N c' h J /\
  scaling_inverseJacobian N c h J = scaling_inverseJacobian N c' h J.
Proof. exact scaling_same. Qed.
Print Assumptions C97_scaling.
Theorem C97_uniform : forall (N : Num) c c' h J, buflen J = 1 ->
  uniform_jacobian N c h J = uniform_jacobian N c' h J /\
  uniform_inverseJacobian N c h J = uniform_inverseJacobian N c' h J.
Proof. exact uniform_same. Qed.
Print Assumptions C97_uniform.

(** The sizes matter: reading outside an array is where the checks decide. *)
Theorem C97_sizes_matter : exists a (mem : list Z) c c', view_ok (buflen mem) a /\ dims a = [2; 2] /\
  (length mem = 4)%nat /\ fetch c a by_paren [2; 0] mem = Aborted /\ fetch c' a by_paren [2; 0] mem = UB OutOfBounds.
Proof. exact sizes_matter. Qed.
Print Assumptions C97_sizes_matter.

Example C97_witness :
  let bases := repeat (LagrangeBasis QNum 1 EqualSpacing) 3 in
  bases <> [] /\ supportCounts QNum bases = Ok [2; 2; 2] /\
  view_ok (buflen (repeat 0%Q 24)) (owning ([2; 2; 2] ++ [numDims QNum bases])) /\
  pos_dims [numDims QNum bases; numDims QNum bases] /\
  is_ok (jacobian_wrapper QNum {| tgt := DeviceCuda; has_builtin := true; const_eval := false; bounds_check := false |} 3 bases
           (repeat 0%Q 24) [0; 0; 0]%Q) = true.
Proof.
  cbv zeta. split; [discriminate|]. split; [reflexivity|].
  split; [split; [|split; cbn; discriminate]|split; [|reflexivity]]; (split; [discriminate|]); (split; [|cbn; discriminate]);
    repeat constructor.
Qed.
