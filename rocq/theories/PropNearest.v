(** Property C133: which tabulated points and weights are correctly rounded. *)
From Verif Require Import Base Num ModelB64 ModelF32 SpecB64 ModelSpacing ModelQuadrature SpecNumeric SpecTables SpecNearest
  ProofTables64 ProofNearest ProofTables.
From Coq Require Import Reals.
From Flocq Require Import Core IEEE754.BinarySingleNaN.
Open Scope Z_scope.

(** In float, every point and weight of every tabulated size is the float nearest to the exact one. *)
Theorem C133_float : forall q N r i, Tabulated q N -> ExactPoints q N r -> 0 <= i < N ->
  exists x w, coord_ct32 (rule_spacing q) N i = Ok x /\ weight_ct32 q N i = Ok w /\
    Nearest32 x (r i) /\ Nearest32 w (ExactWeight q N (r i)).
Proof. exact float_lemma. Qed.
Print Assumptions C133_float.

(** So are those of the run-time accessors, which exist up to five points. *)
Theorem C133_runtime_float : forall q N r i, Tabulated q N -> N <= 5 -> ExactPoints q N r -> 0 <= i < N ->
  exists x w, coord_rt32 (rule_spacing q) N i = Ok x /\ weight_rt32 q N i = Ok w /\
    Nearest32 x (r i) /\ Nearest32 w (ExactWeight q N (r i)).
Proof. exact float_rt_lemma. Qed.
Print Assumptions C133_runtime_float.

(** In double, up to five points, every point and weight of the template accessors is the
    double nearest to the exact one. *)
Theorem C133_double : forall q N r i, Tabulated q N -> N <= 5 -> ExactPoints q N r -> 0 <= i < N ->
  exists x w, coord_ct B64Num (rule_spacing q) N i = Ok x /\ weight_ct B64Num q N i = Ok w /\
    Nearest64 x (r i) /\ Nearest64 w (ExactWeight q N (r i)).
Proof. exact double_lemma. Qed.
Print Assumptions C133_double.

(** So are those of the run-time accessors, except the inner two of four Gauss-Lobatto points. *)
Theorem C133_runtime_double : forall q N r i, Tabulated q N -> N <= 5 -> ExactPoints q N r -> 0 <= i < N ->
  ~ (q = QuadratureGaussLobatto /\ N = 4 /\ (i = 1 \/ i = 2)) ->
  exists x w, coord_rt B64Num (rule_spacing q) N i = Ok x /\ weight_rt B64Num q N i = Ok w /\
    Nearest64 x (r i) /\ Nearest64 w (ExactWeight q N (r i)).
Proof. exact double_rt_lemma. Qed.
Print Assumptions C133_runtime_double.

(** There neither the points nor the weights are. *)
Theorem C133_runtime_double_refuted : forall r, ExactPoints QuadratureGaussLobatto 4 r -> forall i, i = 1 \/ i = 2 ->
  (exists x, coord_rt B64Num GaussLobattoSpacing 4 i = Ok x /\ ~ Nearest64 x (r i)) /\
  (exists w, weight_rt B64Num QuadratureGaussLobatto 4 i = Ok w /\ ~ Nearest64 w (ExactWeight QuadratureGaussLobatto 4 (r i))).
Proof. exact runtime_refuted_lemma. Qed.
Print Assumptions C133_runtime_double_refuted.

(** Nor are the four inner points of the six-point Gauss-Lobatto rule. *)
Theorem C133_six_points_refuted : forall r, ExactPoints QuadratureGaussLobatto 6 r -> forall i, 0 < i < 5 ->
  exists x, coord_ct B64Num GaussLobattoSpacing 6 i = Ok x /\ ~ Nearest64 x (r i).
Proof. exact six_points_refuted_lemma. Qed.
Print Assumptions C133_six_points_refuted.

(** For every tabulated size the doubles are finite and within a stated error of the exact numbers. *)
Theorem C133_double_error : forall q N r, Tabulated q N -> ExactPoints q N r ->
  exists x w, Points64 (coord_ct B64Num (rule_spacing q) N) N x /\ Points64 (weight_ct B64Num q N) N w /\
    forall i, 0 <= i < N -> is_finite (x i) = true /\ is_finite (w i) = true /\
      (Rabs (B2R (x i) - r i) <= PointError N + bpow radix2 (-54))%R /\
      (Rabs (B2R (w i) - ExactWeight q N (r i)) <= WeightError N + bpow radix2 (-53))%R.
Proof. exact tables64_lemma. Qed.
Print Assumptions C133_double_error.

(** The exact points of every size exist; the hypotheses are met. *)
Example C133_witness : Tabulated QuadratureGaussLobatto 9 /\ (exists r, ExactPoints QuadratureGaussLobatto 9 r) /\
  Tabulated QuadratureGaussLobatto 4 /\ (exists r, ExactPoints QuadratureGaussLobatto 4 r) /\
  ~ (QuadratureGaussLegendre = QuadratureGaussLobatto /\ 4 = 4 /\ (1 = 1 \/ 1 = 2)).
Proof. exact nearest_witness. Qed.
