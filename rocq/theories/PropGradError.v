(** C136: the error of interpolated derivatives. *)
From Coq Require Import Reals Lra.
From Verif Require Import Base Num SpecIndex SpecNumeric SpecBasis SpecApprox SpecStability SpecGradError
  ModelAssert ModelSpacing ModelLagrange ModelBasisProduct ProofGradError.
Open Scope R_scope.

(** [f] is the function sampled, [g] its derivative in direction [j], and [E k i] the i-th derivative of [g] in
    direction [k], as far as it is needed: one time less in direction [j] than in the others. *)
Theorem C136_gradient_error : forall specs, Forall ValidOrder specs -> specs <> [] -> (Z.of_nat (length specs) <= INT_MAX)%Z ->
  exists ds, Forall2 GridR specs ds /\
  forall c (E : nat -> nat -> list R -> R) f g j M var xi,
  (j < length specs)%nat -> length xi = length specs -> length M = length specs -> InCube (-1) 1 xi ->
  (forall t, InRange (counts ds) t -> var t = Ok (f (gridpoint ds t))) ->
  (forall p, length p = length specs -> InCube (-1) 1 p -> Partial f j p (g p)) ->
  (forall k p, (k < length specs)%nat -> length p = length specs -> InCube (-1) 1 p -> E k 0%nat p = g p) ->
  (forall k i d p, nth_error ds k = Some d -> (i < times j k d)%nat -> length p = length specs -> InCube (-1) 1 p ->
     Partial (E k i) k p (E k (S i) p)) ->
  (forall k d p, nth_error ds k = Some d -> length p = length specs -> InCube (-1) 1 p -> Rabs (E k (times j k d) p) <= nth k M 0) ->
  exists v, parent_gradient RNum c (Z.of_nat (length specs)) (map (fun so => LagrangeBasis RNum (snd so) (fst so)) specs) var xi = Ok v /\
    length v = length specs /\ Rabs (g xi - nth j v 0) <= gradient_error_bound j ds (map Stability specs) M xi.
Proof. exact gradient_error_lemma. Qed.
Print Assumptions C136_gradient_error.

(** One direction with any increasing points: the bound without the factors. *)
Theorem C136_derivative_error : forall N x v g (F : nat -> R -> R) a b y M, NodalBasis N x v g -> (1 <= N)%Z -> Increasing N x ->
  (forall i, (0 <= i < N)%Z -> a <= x i <= b) -> a <= y <= b ->
  (forall k t, (k < Z.to_nat N)%nat -> a <= t <= b -> derivable_pt_lim (F k) t (F (S k) t)) ->
  (forall t, a <= t <= b -> Rabs (F (Z.to_nat N) t) <= M) ->
  Rabs (F 1%nat y - Zsum N (fun i => F O (x i) * g i y)) <=
    M / INR (fact (Z.to_nat (N - 1))) * Zprod (N - 1) (fun i => Rmax (Rabs (y - x i)) (Rabs (y - x (i + 1)%Z))).
Proof. exact nodal_deriv_bound. Qed.
Print Assumptions C136_derivative_error.

(** x^2 y on a bilinear square meets the hypotheses for its derivative in x, with M = [2; 0]. *)
Example C136_witness :
  let f := fun p => nth 0 p 0 * nth 0 p 0 * nth 1 p 0 in let g := fun p => 2 * nth 0 p 0 * nth 1 p 0 in
  let E := fun (k i : nat) p => match k, i with
    | O, O => g p | O, _ => 2 * nth 1 p 0 | _, O => g p | _, 1%nat => 2 * nth 0 p 0 | _, _ => 0 end in
  Forall ValidOrder [(EqualSpacing, 1%Z); (GaussLobattoSpacing, 1%Z)] /\
  forall ds, Forall2 GridR [(EqualSpacing, 1%Z); (GaussLobattoSpacing, 1%Z)] ds ->
  (forall p, length p = 2%nat -> InCube (-1) 1 p -> Partial f 0 p (g p)) /\
  (forall k p, (k < 2)%nat -> E k 0%nat p = g p) /\
  (forall k i d p, nth_error ds k = Some d -> (i < times 0 k d)%nat -> length p = 2%nat -> InCube (-1) 1 p ->
     Partial (E k i) k p (E k (S i) p)) /\
  (forall k d p, nth_error ds k = Some d -> length p = 2%nat -> InCube (-1) 1 p -> Rabs (E k (times 0 k d) p) <= nth k [2; 0] 0).
Proof. exact gradient_error_example. Qed.
