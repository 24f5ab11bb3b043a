(** Model of include/shiva/common/ShivaErrorHandling.hpp and the assertion part of
    include/shiva/common/ShivaMacros.hpp. *)
From Verif Require Import Base.

(** Where the code runs: host, CUDA device ([__CUDA_ARCH__] defined) or HIP device
    ([__HIP_DEVICE_COMPILE__] defined). *)
Inductive target : Set := Host | DeviceCuda | DeviceHip.

(** Compilation and evaluation context of an expression. *)
Record ctx : Set := {
  tgt          : target;
  has_builtin  : bool;  (* __has_builtin(__builtin_is_constant_evaluated), or MSVC's *)
  const_eval   : bool;  (* the expression is evaluated at compile time *)
  bounds_check : bool   (* SHIVA_ENABLE_BOUNDS_CHECK is defined *)
}.

(** The ordinary situation: host, run time. *)
Definition host_runtime (bc : bool) : ctx :=
  {| tgt := Host; has_builtin := true; const_eval := false; bounds_check := bc |}.

(** ShivaErrorHandling.hpp:31-58, [shivaAssertionFailed( file, line, callAbort, ... )].
    The printed text is not modelled.  On a device the function traps whatever
    [callAbort] is (lines 38-42). *)
Definition shivaAssertionFailed (t : target) (callAbort : bool) : outcome unit :=
  match t with
  | Host => if callAbort then Aborted else Ok tt
  | DeviceCuda => Aborted
  | DeviceHip => Aborted
  end.

(** ShivaMacros.hpp:122-137, [SHIVA_IS_CONST_EVAL()]. *)
Definition IS_CONST_EVAL (c : ctx) : bool :=
  match tgt c with
  | DeviceCuda => false
  | _ => if has_builtin c then const_eval c else false
  end.

(** ShivaMacros.hpp:146-153, [SHIVA_ASSERT_MSG( cond, ... )].  Calling the
    non-constexpr [shivaAssertionFailed] during constant evaluation is not a
    constant expression: the program is ill-formed. *)
Definition ASSERT_MSG (c : ctx) (cond : bool) : outcome unit :=
  if negb cond then
    if negb (IS_CONST_EVAL c) then
      if const_eval c then IllFormed else shivaAssertionFailed (tgt c) true
    else Ok tt
  else Ok tt.
