(** Property C132: the tabulated points and weights against the exact Gauss rules. *)
From Verif Require Import Base Num ModelSpacing ModelQuadrature SpecNumeric SpecTables ProofTables.
From Coq Require Import Reals Lra.
Open Scope Z_scope.

(** For every tabulated size there is exactly one list of exact points. *)
Theorem C132_exact_points : forall q N, Tabulated q N -> exists r, ExactPoints q N r /\
  forall r', ExactPoints q N r' -> forall i, 0 <= i < N -> r' i = r i.
Proof. exact exact_rule_lemma. Qed.
Print Assumptions C132_exact_points.

(** The tabulated points and weights are within the stated errors of the exact ones. *)
Theorem C132_tables : forall q N r, Tabulated q N -> ExactPoints q N r ->
  exists x w, Points (coord_ct RNum (rule_spacing q) N) N x /\ Points (weight_ct RNum q N) N w /\
    forall i, 0 <= i < N ->
      (Rabs (x i - r i) <= PointError N /\ Rabs (w i - ExactWeight q N (r i)) <= WeightError N)%R.
Proof. exact tables_lemma. Qed.
Print Assumptions C132_tables.

(** They are not the exact numbers rounded to the decimals written: the six-point
    Gauss-Lobatto points -0.7650553239294648 and 0.2852315164806455 are off by more than
    one and four units of the last decimal, the weights 0.55485837703548 (six points) and
    0.34112269248351 (eight points) by more than half a unit. *)
Theorem C132_last_digits_refuted :
  (forall r, ExactPoints QuadratureGaussLobatto 6 r ->
     exists x1 x3 w3, coord_ct RNum GaussLobattoSpacing 6 1 = Ok x1 /\ coord_ct RNum GaussLobattoSpacing 6 3 = Ok x3 /\
       weight_ct RNum QuadratureGaussLobatto 6 3 = Ok w3 /\
       (tenth 16 < Rabs (x1 - r 1%Z) /\ 4 * tenth 16 < Rabs (x3 - r 3%Z) /\
        5 * tenth 15 < Rabs (w3 - ExactWeight QuadratureGaussLobatto 6 (r 3%Z)))%R) /\
  (forall r, ExactPoints QuadratureGaussLobatto 8 r ->
     exists w2, weight_ct RNum QuadratureGaussLobatto 8 2 = Ok w2 /\
       (5 * tenth 15 < Rabs (w2 - ExactWeight QuadratureGaussLobatto 8 (r 2%Z)))%R).
Proof. exact last_digits_lemma. Qed.
Print Assumptions C132_last_digits_refuted.

(** Simpson's rule: the points -1, 0, 1 with weights 1/3, 4/3, 1/3. *)
Example C132_witness : Tabulated QuadratureGaussLobatto 3 /\
  ExactPoints QuadratureGaussLobatto 3 (fun i => IZR (i - 1)) /\
  ExactWeight QuadratureGaussLobatto 3 (-1) = (1 / 3)%R /\ ExactWeight QuadratureGaussLobatto 3 0 = (4 / 3)%R.
Proof. exact simpson. Qed.
