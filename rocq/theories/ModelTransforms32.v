(** Scaling and UniformScaling with REAL_TYPE = float.  The literals 0.5, 2.0 and 0.125 are
    doubles: the products and quotients with them are evaluated in double and rounded to float
    by the assignment.  [2 / h] of UniformScaling is int / float, a float division. *)
From Coq Require Import ZArith List.
From Flocq Require Import Core IEEE754.BinarySingleNaN.
From Verif Require Import Base Num ModelAssert ModelCArray ModelB64 ModelF32 ModelTransforms.
Import ListNotations.
Open Scope Z_scope.

Section Scaling32.
Context (c : ctx).
Notation paren_ := {| brackets := 0; last := Paren |}.
Notation half64 := (b64_lit 5 1).
Notation eighth64 := (b64_lit 125 3).

(** Scaling.hpp:104-113. *)
Definition scaling_jacobian32 (m_length J : list b32) : outcome (list b32) :=
  let h := m_length in (* getData(), Scaling.hpp:68 *)
  h0 <- rd h 0 ;; J <- put c scaling_jacobian_array paren_ [0] (narrow (half64 *' widen h0)) J ;;
  h1 <- rd h 1 ;; J <- put c scaling_jacobian_array paren_ [1] (narrow (half64 *' widen h1)) J ;;
  h2 <- rd h 2 ;; put c scaling_jacobian_array paren_ [2] (narrow (half64 *' widen h2)) J.

(** Scaling.hpp:125-135; the whole of [0.125 * h[0] * h[1] * h[2]] is a double expression. *)
Definition scaling_inverseJacobian32 (m_length invJ : list b32) : outcome (list b32 * b32) :=
  let h := m_length in (* getData(), Scaling.hpp:68 *)
  h0 <- rd h 0 ;; invJ <- put c scaling_jacobian_array paren_ [0] (narrow (Bdiv mode_NE (b64_ofZ 2) (widen h0))) invJ ;;
  h1 <- rd h 1 ;; invJ <- put c scaling_jacobian_array paren_ [1] (narrow (Bdiv mode_NE (b64_ofZ 2) (widen h1))) invJ ;;
  h2 <- rd h 2 ;; invJ <- put c scaling_jacobian_array paren_ [2] (narrow (Bdiv mode_NE (b64_ofZ 2) (widen h2))) invJ ;;
  let detJ := narrow (eighth64 *' widen h0 *' widen h1 *' widen h2) in
  Ok (invJ, detJ).

(** JacobianTransforms.hpp:27-34 and 36-44 for Scaling. *)
Definition scaling_jacobian_wrapper32 (m_length : list b32) : outcome (list b32) :=
  J <- list_init (b32_ofZ 0) [3] [] ;; scaling_jacobian32 m_length J.
Definition scaling_inverseJacobian_wrapper32 (m_length : list b32) : outcome (b32 * list b32) :=
  invJ <- list_init (b32_ofZ 0) [3] [] ;;
  '(invJ, detJ) <- scaling_inverseJacobian32 m_length invJ ;; Ok (detJ, invJ).

(** UniformScaling.hpp:92-98. *)
Definition uniform_jacobian32 (m_length : b32) (J : list b32) : outcome (list b32) :=
  let h := m_length in (* getData(), UniformScaling.hpp:60 *)
  put c uniform_jacobian_array paren_ [0] (narrow (half64 *' widen h)) J.

(** UniformScaling.hpp:108-116. *)
Definition uniform_inverseJacobian32 (m_length : b32) (invJ : list b32) : outcome (list b32 * b32) :=
  let h := m_length in (* getData(), UniformScaling.hpp:60 *)
  invJ <- put c uniform_jacobian_array paren_ [0] (Bdiv mode_NE (b32_ofZ 2) h) invJ ;;
  Ok (invJ, narrow (eighth64 *' widen h *' widen h *' widen h)).

(** JacobianTransforms.hpp:27-34 and 36-44 for UniformScaling. *)
Definition uniform_jacobian_wrapper32 (m_length : b32) : outcome (list b32) :=
  J <- list_init (b32_ofZ 0) [1] [] ;; uniform_jacobian32 m_length J.
Definition uniform_inverseJacobian_wrapper32 (m_length : b32) : outcome (b32 * list b32) :=
  invJ <- list_init (b32_ofZ 0) [1] [] ;;
  '(invJ, detJ) <- uniform_inverseJacobian32 m_length invJ ;; Ok (detJ, invJ).
End Scaling32.
