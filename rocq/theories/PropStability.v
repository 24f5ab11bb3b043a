(** C134: how much interpolation amplifies errors of the data. *)
From Coq Require Import Reals QArith.
From Flocq Require Import Core IEEE754.BinarySingleNaN.
From Verif Require Import Base Num ModelB64 ModelF32 SpecIndex SpecNumeric SpecBasis SpecB64 SpecF32 SpecApprox SpecElement64 SpecElement32 SpecStability
  ModelAssert ModelSpacing ModelLagrange ModelBasisProduct ProofStability ProofStability64.
Open Scope R_scope.

(** Two sets of data at most eps apart give values at most the constant times eps apart. *)
Theorem C134_stability : forall specs u w var1 var2 eps xi, Forall ValidOrder specs -> specs <> [] ->
  length xi = length specs -> InCube (-1) 1 xi ->
  (forall t, InRange (map (fun so => (snd so + 1)%Z) specs) t -> var1 t = Ok (u t) /\ var2 t = Ok (w t) /\ Rabs (u t - w t) <= eps) ->
  exists p q, parent_value RNum (Z.of_nat (length specs)) (map (fun so => LagrangeBasis RNum (snd so) (fst so)) specs) var1 xi = Ok p /\
    parent_value RNum (Z.of_nat (length specs)) (map (fun so => LagrangeBasis RNum (snd so) (fst so)) specs) var2 xi = Ok q /\
    Rabs (p - q) <= ElementStability specs * eps.
Proof. exact stability_lemma. Qed.
Print Assumptions C134_stability.

(** Interpolating f is, up to one plus the constant, as good as any polynomial of the element. *)
Theorem C134_near_best : forall specs, Forall ValidOrder specs -> specs <> [] ->
  exists ds, Forall2 GridR specs ds /\
  forall f c var xi eps, length xi = length specs -> InCube (-1) 1 xi ->
  (forall t, InRange (counts ds) t -> var t = Ok (f (gridpoint ds t))) ->
  (forall p, length p = length specs -> InCube (-1) 1 p -> Rabs (f p - tpoly (counts ds) c p) <= eps) ->
  exists v, parent_value RNum (Z.of_nat (length specs)) (map (fun so => LagrangeBasis RNum (snd so) (fst so)) specs) var xi = Ok v /\
    Rabs (f xi - v) <= (1 + ElementStability specs) * eps.
Proof. exact near_best_lemma. Qed.
Print Assumptions C134_near_best.

(** The error bound of C106 with these constants, for every bundled element. *)
Theorem C134_element_error : forall specs, Forall ValidOrder specs -> specs <> [] ->
  exists ds, Forall2 GridR specs ds /\
  forall (D : nat -> nat -> list R -> R) f M var xi,
  length xi = length specs -> length M = length specs -> InCube (-1) 1 xi ->
  (forall t, InRange (counts ds) t -> var t = Ok (f (gridpoint ds t))) ->
  (forall j p, (j < length ds)%nat -> length p = length ds -> InCube (-1) 1 p -> D j 0%nat p = f p) ->
  (forall j k d p, nth_error ds j = Some d -> (k < Z.to_nat (npts d))%nat -> length p = length ds -> InCube (-1) 1 p ->
     Partial (D j k) j p (D j (S k) p)) ->
  (forall j d p, nth_error ds j = Some d -> length p = length ds -> InCube (-1) 1 p ->
     Rabs (D j (Z.to_nat (npts d)) p) <= nth j M 0) ->
  exists v, parent_value RNum (Z.of_nat (length specs)) (map (fun so => LagrangeBasis RNum (snd so) (fst so)) specs) var xi = Ok v /\
    Rabs (f xi - v) <= error_bound ds (map Stability specs) M xi.
Proof. exact element_error_lemma. Qed.
Print Assumptions C134_element_error.

(** Rounding errors of the interpolation in doubles and in floats, for data of size at most M. *)
Theorem C134_double_error : forall specs, specs <> [] -> (length specs <= 3)%nat -> Forall Supported64 specs ->
  exists ds, Forall2 Grid64 specs ds /\
  forall xi var w M, Forall InReference xi -> (length specs <= length xi)%nat -> 0 <= M ->
  (forall t, InRange (sizes64 specs) t -> var t = Ok (w t) /\ Data64 (w t) /\ Rabs (B2R (w t)) <= M) ->
  exists v, parent_value B64Num (Z.of_nat (length specs)) (map basis64 specs) var xi = Ok v /\ is_finite v = true /\
    Rabs (B2R v - BoxSum (counts ds) (fun t => tensor ds t (map B2R xi) * B2R (w t)))
      <= IZR (roundings64 specs) * bpow radix2 (-53) * (ElementStability specs * M) + bpow radix2 (-400).
Proof. exact double_error_lemma. Qed.
Print Assumptions C134_double_error.

Theorem C134_float_error : forall specs, specs <> [] -> (length specs <= 3)%nat -> Forall Supported32 specs ->
  exists ds, Forall2 Grid32 specs ds /\
  forall xi var w M, Forall InReference32 xi -> (length specs <= length xi)%nat -> 0 <= M ->
  (forall t, InRange (sizes64 specs) t -> var t = Ok (w t) /\ Data32 (w t) /\ Rabs (B2R (w t)) <= M) ->
  exists v, parent_value F32Num (Z.of_nat (length specs)) (map basis32 specs) var xi = Ok v /\ is_finite v = true /\
    Rabs (B2R v - BoxSum (counts ds) (fun t => tensor ds t (map B2R xi) * B2R (w t)))
      <= IZR (roundings64 specs) * bpow radix2 (-24) * (ElementStability specs * M) + bpow radix2 (-64).
Proof. exact float_error_lemma. Qed.
Print Assumptions C134_float_error.

(** No constant works for all orders of equally spaced points: the amplification grows exponentially. *)
Theorem C134_equal_spacing_refuted : forall ORDER, (1 <= ORDER < INT_MAX)%Z ->
  exists (y : R) (u : list Z -> R) v, -1 <= y <= 1 /\ (forall t, u t = 1 \/ u t = -1) /\
    parent_value RNum 1 [LagrangeBasis RNum ORDER EqualSpacing] (fun t => Ok (u t)) [y] = Ok v /\
    2 ^ Z.to_nat ORDER / (4 * (IZR ORDER * IZR ORDER)) <= v.
Proof. exact growth_lemma. Qed.
Print Assumptions C134_equal_spacing_refuted.

(** The largest bundled hexahedron. *)
Example C134_witness : let specs := repeat (GaussLobattoSpacing, 8%Z) 3 in
  Forall ValidOrder specs /\ InCube (-1) 1 [/ 2; -1; / 3] /\ ElementStability specs = 27.
Proof.
  cbv zeta. split; [|split].
  - repeat constructor; cbn; discriminate.
  - repeat constructor; Lra.lra.
  - unfold ElementStability. cbn. ring.
Qed.
(** Data 1 and -1 on sixteen equally spaced points; more than 500 in between. *)
Example C134_witness_growth :
  match parent_value QNum 1 [LagrangeBasis QNum 15 EqualSpacing]
    (fun t => Ok (if Z.even (nth 0 t 0%Z) || (nth 0 t 0 =? 15)%Z then 1%Q else (-1)%Q)) [29 # 30]%Q with
  | Ok v => Qle_bool 500 v
  | _ => false
  end = true.
Proof. vm_compute. reflexivity. Qed.
