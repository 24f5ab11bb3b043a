(** Model of include/shiva/geometry/mapping/: LinearTransform.hpp, Scaling.hpp,
    UniformScaling.hpp and JacobianTransforms.hpp.  Arrays ([CArrayNd] objects) are
    buffers accessed through the operators of ModelCArray.  A declaration without
    initialiser calls the variadic constructor with no argument (CArray.hpp:89-91),
    which zeroes the buffer. *)
From Verif Require Import Base Num ModelAssert ModelCArray ModelIndex ModelSequence ModelLagrange
  ModelBasisProduct ModelMath ModelSpacing.
Open Scope Z_scope.

Section LinearTransform.
Context (F : Num) (c : ctx).
(** INTERPOLATED_SHAPE: the dimension of its geometry and its bases. *)
Context (geomDims : Z) (bases : list (basis F)).
Notation dim := (numDims F bases).
Notation paren_ := {| brackets := 0; last := Paren |}.

(** LinearTransform.hpp:67, [JacobianType]. *)
Definition jacobian_array : arr := owning [dim; dim].
(** LinearTransform.hpp:75-79, [DataType]: the support counts followed by [numDims]. *)
Definition data_dims : outcome (list Z) := ns <- supportCounts F bases ;; Ok (ns ++ [dim]).

(** LinearTransform.hpp:91. *)
Definition linear_jacobianIsConstInCell : bool := false.

(** LinearTransform.hpp:111-127, [setData( coords )]; [coords k i] is [coords[k][i]].
    Lines 116 and 124 compile for three bases only.  [fuel] bounds the model of
    [forRange]. *)
Definition setData (coords : Z -> Z -> outcome (T F)) (fuel : nat) (m_vertexCoords : list (T F))
  : outcome (list (T F)) :=
  if Nat.eqb (length bases) 3 then
    ns <- supportCounts F bases ;;
    '(_, m) <- forRange (reading (fun aa m =>
        a <- rd aa 0 ;; b <- rd aa 1 ;; c2 <- rd aa 2 ;;
        forSequence dim (fun i m =>
          x <- imul 2 b ;; y <- iadd a x ;; z <- imul 4 c2 ;; k <- iadd y z ;;
          v <- coords k i ;;
          put c (owning (ns ++ [dim])) paren_ [a; b; c2; i] v m) m)) ns fuel [0; 0; 0] m_vertexCoords ;;
    Ok m
  else IllFormed.

(** LinearTransform.hpp:98-104, [getData()]: the stored array itself. *)
Definition getData (m_vertexCoords : list (T F)) : list (T F) := m_vertexCoords.

(** LinearTransform.hpp:158-183, [jacobian( transform, pointCoordsParent, J )]. *)
Definition jacobian_point (m_vertexCoords : list (T F)) (point : list (T F)) (J : list (T F))
  : outcome (list (T F)) :=
  ns <- supportCounts F bases ;;
  shape_supportLoop F geomDims bases (fun sp J =>
    dNadXi <- shape_gradient F geomDims bases sp point ;;
    forNestedSequence [dim; dim] (fun ij J =>
      i <- rd ij 0 ;; j <- rd ij 1 ;;
      old <- fetch c jacobian_array paren_ [i; j] J ;;
      d <- fetch c (const_array [dim]) paren_ [j] dNadXi ;;
      x <- fetch c (const_array (ns ++ [dim])) paren_ (sp ++ [i]) (getData m_vertexCoords) ;;
      put c jacobian_array paren_ [i; j] (nadd F old (nmul F d x)) J) J) J.

(** LinearTransform.hpp:203-240, [jacobian<QUADRATURE, QA...>( transform, J )]; [qcoord] is
    [QUADRATURE::coordinate<QA>()].  [qcoords] is a [REAL_TYPE[3]]: missing entries are
    zero, more than three are ill-formed. *)
Definition jacobian_quadrature (qcoord : Z -> outcome (T F)) (QA : list Z)
  (m_vertexCoords : list (T F)) (J : list (T F)) : outcome (list (T F)) :=
  ns <- supportCounts F bases ;;
  qs <- constexpr_ (sequenceM (map qcoord QA)) ;;
  qcoords <- (if Nat.leb (length qs) 3 then Ok (qs ++ repeat (nofZ F 0) (3 - length qs)) else IllFormed) ;;
  shape_supportLoop F geomDims bases (fun sp J =>
    dNadXi <- constexpr_ (shape_gradient F geomDims bases sp qcoords) ;;
    forNestedSequence [dim; dim] (fun ij J =>
      i <- rd ij 0 ;; j <- rd ij 1 ;;
      old <- fetch c jacobian_array paren_ [j; i] J ;;
      d <- fetch c (const_array [dim]) paren_ [i] dNadXi ;;
      x <- fetch c (const_array (ns ++ [dim])) paren_ (sp ++ [j]) (getData m_vertexCoords) ;;
      put c jacobian_array paren_ [j; i] (nadd F old (nmul F d x)) J) J) J.

(** LinearTransform.hpp:254-265, [inverseJacobian( transform, parentCoords, invJ, detJ )]:
    returns [invJ] and [detJ]. *)
Definition inverseJacobian_point (m_vertexCoords : list (T F)) (point : list (T F)) (invJ : list (T F))
  : outcome (list (T F) * T F) :=
  J <- jacobian_point m_vertexCoords point invJ ;; inverse_a F c jacobian_array J.

(** JacobianTransforms.hpp:46-54, [jacobian( cell, parentCoords )]: [J{ 0.0 }], then the
    three-argument function.  [parentCoords] is a [REAL_TYPE[3]]. *)
Definition jacobian_wrapper (m_vertexCoords : list (T F)) (point : list (T F)) : outcome (list (T F)) :=
  if Nat.eqb (length point) 3 then
    J <- list_init (nofZ F 0) [dim; dim] [nofZ F 0] ;;
    jacobian_point m_vertexCoords point J
  else IllFormed.

(** JacobianTransforms.hpp:56-65, [inverseJacobian( cell, parentCoords )]: the tuple
    [( detJ, invJ )]. *)
Definition inverseJacobian_wrapper (m_vertexCoords : list (T F)) (point : list (T F))
  : outcome (T F * list (T F)) :=
  if Nat.eqb (length point) 3 then
    invJ <- list_init (nofZ F 0) [dim; dim] [nofZ F 0] ;;
    '(invJ, detJ) <- inverseJacobian_point m_vertexCoords point invJ ;;
    Ok (detJ, invJ)
  else IllFormed.
End LinearTransform.

Section Scaling.
Context (F : Num) (c : ctx).
Notation paren_ := {| brackets := 0; last := Paren |}.
Notation half := (nlit F 5 1).
Notation eighth := (nlit F 125 3).

(** Scaling.hpp:62 and UniformScaling.hpp:54. *)
Definition scaling_jacobianIsConstInCell : bool := true.
Definition uniform_jacobianIsConstInCell : bool := true.

(** Scaling.hpp:91, default [m_length]. *)
Definition scaling_default : list (T F) := [nofZ F 1; nofZ F 1; nofZ F 1].

(** Scaling.hpp:81-86, [setData( h )]: componentwise copy into [m_length]. *)
Definition scaling_setData (h m_length : list (T F)) : outcome (list (T F)) :=
  h0 <- rd h 0 ;; m <- wr m_length 0 h0 ;;
  h1 <- rd h 1 ;; m <- wr m 1 h1 ;;
  h2 <- rd h 2 ;; wr m 2 h2.
(** Scaling.hpp:68, [getData()]. *)
Definition scaling_getData (m_length : list (T F)) : list (T F) := m_length.

(** Scaling.hpp:50, [JacobianType]. *)
Definition scaling_jacobian_array : arr := owning [3].

(** Scaling.hpp:104-113, [jacobian( cell, J )]. *)
Definition scaling_jacobian (m_length J : list (T F)) : outcome (list (T F)) :=
  let h := scaling_getData m_length in
  h0 <- rd h 0 ;; J <- put c scaling_jacobian_array paren_ [0] (nmul F half h0) J ;;
  h1 <- rd h 1 ;; J <- put c scaling_jacobian_array paren_ [1] (nmul F half h1) J ;;
  h2 <- rd h 2 ;; put c scaling_jacobian_array paren_ [2] (nmul F half h2) J.

(** Scaling.hpp:125-135, [inverseJacobian( cell, invJ, detJ )]. *)
Definition scaling_inverseJacobian (m_length invJ : list (T F)) : outcome (list (T F) * T F) :=
  let h := scaling_getData m_length in
  h0 <- rd h 0 ;; q0 <- ndiv F (nofZ F 2) h0 ;; invJ <- put c scaling_jacobian_array paren_ [0] q0 invJ ;;
  h1 <- rd h 1 ;; q1 <- ndiv F (nofZ F 2) h1 ;; invJ <- put c scaling_jacobian_array paren_ [1] q1 invJ ;;
  h2 <- rd h 2 ;; q2 <- ndiv F (nofZ F 2) h2 ;; invJ <- put c scaling_jacobian_array paren_ [2] q2 invJ ;;
  let detJ := nmul F (nmul F (nmul F eighth h0) h1) h2 in
  Ok (invJ, detJ).

(** JacobianTransforms.hpp:27-34 and 36-44 for Scaling. *)
Definition scaling_jacobian_wrapper (m_length : list (T F)) : outcome (list (T F)) :=
  J <- list_init (nofZ F 0) [3] [] ;; scaling_jacobian m_length J.
Definition scaling_inverseJacobian_wrapper (m_length : list (T F)) : outcome (T F * list (T F)) :=
  invJ <- list_init (nofZ F 0) [3] [] ;;
  '(invJ, detJ) <- scaling_inverseJacobian m_length invJ ;; Ok (detJ, invJ).

(** UniformScaling.hpp:78, default [m_length]. *)
Definition uniform_default : T F := nofZ F 1.
(** UniformScaling.hpp:72-73, [setData( h )], and 60, [getData()]. *)
Definition uniform_setData (h m_length : T F) : T F := h.
Definition uniform_getData (m_length : T F) : T F := m_length.

(** UniformScaling.hpp:43, [JacobianType] is [Scalar<REAL_TYPE>], a [CArrayNd<REAL_TYPE, 1>]
    (CArray.hpp:257-258). *)
Definition uniform_jacobian_array : arr := owning [1].

(** UniformScaling.hpp:92-98, [jacobian( cell, J )]. *)
Definition uniform_jacobian (m_length : T F) (J : list (T F)) : outcome (list (T F)) :=
  let h := uniform_getData m_length in
  put c uniform_jacobian_array paren_ [0] (nmul F half h) J.

(** UniformScaling.hpp:108-116, [inverseJacobian( cell, invJ, detJ )]. *)
Definition uniform_inverseJacobian (m_length : T F) (invJ : list (T F)) : outcome (list (T F) * T F) :=
  let h := uniform_getData m_length in
  q <- ndiv F (nofZ F 2) h ;;
  invJ <- put c uniform_jacobian_array paren_ [0] q invJ ;;
  Ok (invJ, nmul F (nmul F (nmul F eighth h) h) h).

(** JacobianTransforms.hpp:27-34 and 36-44 for UniformScaling. *)
Definition uniform_jacobian_wrapper (m_length : T F) : outcome (list (T F)) :=
  J <- list_init (nofZ F 0) [1] [] ;; uniform_jacobian m_length J.
Definition uniform_inverseJacobian_wrapper (m_length : T F) : outcome (T F * list (T F)) :=
  invJ <- list_init (nofZ F 0) [1] [] ;;
  '(invJ, detJ) <- uniform_inverseJacobian m_length invJ ;; Ok (detJ, invJ).
End Scaling.
