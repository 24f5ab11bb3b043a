(** C143: floats compiled with fused multiply-adds (contraction).  [c] ranges over all
    choices a compiler can make; [never] makes none, [always] fuses whenever it can. *)
From Coq Require Import Reals.
From Flocq Require Import Core IEEE754.BinarySingleNaN.
From Verif Require Import Base Num ModelB64 ModelF32 ModelFma ModelFma32 SpecIndex SpecF32 SpecNumeric SpecBasis SpecMath SpecAccuracy SpecAccuracy32 SpecElement64 SpecElement32 SpecFma32 SpecCArray
  ModelAssert ModelCArray ModelSpacing ModelLagrange ModelBasisProduct ModelMath ModelTransforms
  ProofMath ProofFix32 ProofElement32 ProofCell32 ProofInverseFma32 ProofElementFma32 ProofCellFma32 ProofFma32.
Open Scope Z_scope.

(** C143.  What does not depend on the compiler: the values of all basis functions, bit by bit
    those computed without contraction, at every argument (NaN and infinities too), ... *)
Theorem C143_value_reproducible : forall c s ORDER i y,
  match s with
  | EqualSpacing => 1 <= ORDER <= 24
  | GaussLegendreSpacing => 1 <= ORDER <= 3
  | GaussLobattoSpacing => 1 <= ORDER <= 8
  end ->
  0 <= i < ORDER + 1 -> Plain32 y ->
  exists v, bvalue (FmaBasis32 c ORDER s) i y = Ok v /\ bvalue (LagrangeBasis32 ORDER s) i (cfval y) = Ok (cfval v).
Proof. exact value_fma_lemma. Qed.
Print Assumptions C143_value_reproducible.

(** ... the values of their products, ... *)
Theorem C143_product_reproducible : forall c specs idx xi,
  specs <> [] ->
  Forall (fun so => match fst so with EqualSpacing => 1 <= snd so <= 24 | GaussLegendreSpacing => 1 <= snd so <= 3 | GaussLobattoSpacing => 1 <= snd so <= 8 end) specs -> 
  Forall Plain32 xi -> (length specs <= length xi)%nat -> InRange (sizes64 specs) idx ->
  exists v, product_value (FmaNum32 c) (map (basisC32 c) specs) idx xi = Ok v /\
    product_value F32Num (map basis32 specs) idx (map cfval xi) = Ok (cfval v).
Proof. exact product_fma_lemma. Qed.
Print Assumptions C143_product_reproducible.

(** ... and the determinants of matrices of small multiples of one power of two: they are exact. *)
Theorem C143_determinant_exact : forall c A e, -30 <= e <= 30 ->
  (forall i j, 0 <= i < 3 -> 0 <= j < 3 -> FFinite (A i j) /\
     exists m, Z.abs m <= 2 ^ 7 /\ freal (A i j) = (IZR m * bpow radix2 e)%R) ->
  exists X d, inverse_c (FmaNum32 c) (rows_of A) = Ok (rows_of X, d) /\ FFinite d /\ freal d = det 3 (freal_matrix A).
Proof. exact exact_det_fma_lemma. Qed.
Print Assumptions C143_determinant_exact.

(** Determinants in general do depend on it: a matrix with two equal rows has the determinant 0
    without contraction and 1 with it. *)
Theorem C143_determinant_reproducible_refuted : exists A c c' X d X' d', FEntries A /\ det 3 (freal_matrix A) = 0%R /\
  inverse_c (FmaNum32 c) (rows_of A) = Ok (rows_of X, d) /\ freal d = 0%R /\
  inverse_c (FmaNum32 c') (rows_of A) = Ok (rows_of X', d') /\ freal d' = 1%R.
Proof. exact compiler_dependent_lemma. Qed.
Print Assumptions C143_determinant_reproducible_refuted.

(** The model does see contraction: x * x - x * x for x = 2^12 + 1. *)
Example C143_witness_contraction : let x := given32 1 (b32_ofZ 4097) in
  B2SF (cfval (cfsub never (cfmul x x) (cfmul x x))) = SpecFloat.S754_zero false /\
  B2SF (cfval (cfsub always (cfmul x x) (cfmul x x))) = B2SF (b32_ofZ 1).
Proof. exact fma_contracts. Qed.
(** -1/8, the first of three functions at 1/2. *)
Example C143_witness_value : match bvalue (FmaBasis32 always 2 EqualSpacing) 0 (given32 1 (narrow (b64_lit 5 1))) with
  | Ok v => B2SF (cfval v) = B2SF (Bopp (narrow (b64_lit 125 3)))
  | _ => False
  end.
Proof. vm_compute. reflexivity. Qed.

(** Whatever the compiler contracts, the error bounds of C122 and C123 hold.  The
    gradient of a basis function: *)
Theorem C143_gradient_accuracy : forall c so, Supported32 so ->
  exists d, Grid32 so d /\
  forall y i, FReference y -> 0 <= i < snd so + 1 ->
  exists g, bgradient (basisC32 c so) i y = Ok g /\ FFinite g /\
    (Rabs (freal g - fder d i (freal y)) <=
      IZR (6 * snd so + 2) * bpow radix2 (-24) * gradient_size (npts d) (pt d) i (freal y) + bpow radix2 (-124))%R.
Proof. exact gradient_fma_lemma. Qed.
Print Assumptions C143_gradient_accuracy.

(** The value and the gradient of a field: *)
Theorem C143_value_accuracy : forall c specs, specs <> [] -> (length specs <= 3)%nat -> Forall Supported32 specs ->
  exists ds, Forall2 Grid32 specs ds /\
  forall xi var w, Forall FReference xi -> (length specs <= length xi)%nat ->
  (forall t, InRange (sizes64 specs) t -> var t = Ok (w t) /\ FData (w t)) ->
  exists v, parent_value (FmaNum32 c) (Z.of_nat (length specs)) (map (basisC32 c) specs) var xi = Ok v /\ FFinite v /\
    (Rabs (freal v - BoxSum (counts ds) (fun t => tensor ds t (map freal xi) * freal (w t)))
      <= IZR (roundings64 specs) * bpow radix2 (-24) * BoxSum (counts ds) (fun t => Rabs (tensor ds t (map freal xi)) * Rabs (freal (w t)))
         + bpow radix2 (-64))%R.
Proof. exact element_valueC. Qed.
Print Assumptions C143_value_accuracy.

Theorem C143_constant_accuracy : forall c specs, specs <> [] -> (length specs <= 3)%nat -> Forall Supported32 specs ->
  exists ds, Forall2 Grid32 specs ds /\
  forall xi var k, Forall FReference xi -> (length specs <= length xi)%nat -> FData k ->
  (forall t, InRange (sizes64 specs) t -> var t = Ok k) ->
  exists v, parent_value (FmaNum32 c) (Z.of_nat (length specs)) (map (basisC32 c) specs) var xi = Ok v /\ FFinite v /\
    (Rabs (freal v - freal k)
      <= IZR (roundings64 specs) * bpow radix2 (-24) * BoxSum (counts ds) (fun t => Rabs (tensor ds t (map freal xi))) * Rabs (freal k)
         + bpow radix2 (-64))%R.
Proof. exact element_constantC. Qed.
Print Assumptions C143_constant_accuracy.

Theorem C143_field_gradient_accuracy : forall c ctx specs, specs <> [] -> (length specs <= 3)%nat -> Forall Supported32 specs ->
  exists ds, Forall2 Grid32 specs ds /\
  forall xi var w, Forall FReference xi -> (length specs <= length xi)%nat ->
  (forall t, InRange (sizes64 specs) t -> var t = Ok (w t) /\ FData (w t)) ->
  exists g, parent_gradient (FmaNum32 c) ctx (Z.of_nat (length specs)) (map (basisC32 c) specs) var xi = Ok g /\ length g = length specs /\
    forall j, (j < length specs)%nat -> exists D,
      Partial (fun p => BoxSum (counts ds) (fun t => tensor ds t p * freal (w t)))%R j (map freal xi) D /\
      FFinite (nth j g (plain32 (b32_ofZ 0))) /\
      (Rabs (freal (nth j g (plain32 (b32_ofZ 0))) - D)
      <= IZR (roundings64 specs) * bpow radix2 (-24) * BoxSum (counts ds) (fun t => dtensor_size j ds t (map freal xi) * Rabs (freal (w t)))
         + bpow radix2 (-64))%R.
Proof. exact element_gradientC. Qed.
Print Assumptions C143_field_gradient_accuracy.

(** The Jacobian of an interpolated cell: *)
Theorem C143_jacobian_accuracy : forall c ctx specs, specs <> [] -> (length specs <= 3)%nat -> Forall Supported32 specs ->
  exists ds, Forall2 Grid32 specs ds /\
  forall xi mem X, Forall FReference xi -> length xi = 3%nat ->
  Holds (owning (sizes64 specs ++ [Z.of_nat (length specs)])) mem X ->
  (forall t i, InRange (sizes64 specs) t -> 0 <= i < Z.of_nat (length specs) -> FData (X (t ++ [i]))) ->
  exists J Jm, jacobian_wrapper (FmaNum32 c) ctx (Z.of_nat (length specs)) (map (basisC32 c) specs) mem xi = Ok J /\
    Holds (owning [Z.of_nat (length specs); Z.of_nat (length specs)]) J Jm /\
    forall i j, 0 <= i < Z.of_nat (length specs) -> (j < length specs)%nat -> exists D,
      Partial (fun p => BoxSum (counts ds) (fun t => tensor ds t p * freal (X (t ++ [i]))))%R j (map freal xi) D /\
      FFinite (Jm [i; Z.of_nat j]) /\
      (Rabs (freal (Jm [i; Z.of_nat j]) - D)
      <= IZR (roundings64 specs) * bpow radix2 (-24) * BoxSum (counts ds) (fun t => dtensor_size j ds t (map freal xi) * Rabs (freal (X (t ++ [i]))))
         + bpow radix2 (-64))%R.
Proof. exact jacobianC. Qed.
Print Assumptions C143_jacobian_accuracy.

(** The determinant and the inverse of a 3x3 matrix: *)
Theorem C143_determinant_accuracy : forall c A, FEntries A ->
  exists X d, inverse_c (FmaNum32 c) (rows_of A) = Ok (rows_of X, d) /\ FFinite d /\
    (Rabs (freal d - det 3 (freal_matrix A))
       <= 6 * bpow radix2 (-24) * perm 3 (absm (freal_matrix A)) + bpow radix2 (-112))%R.
Proof. exact det_fma_lemma. Qed.
Print Assumptions C143_determinant_accuracy.

Theorem C143_inverse_accuracy : forall c A, FEntries A ->
  (bpow radix2 (-40) <= Rabs (det 3 (freal_matrix A)))%R ->
  (14 * bpow radix2 (-24) * perm 3 (absm (freal_matrix A)) <= Rabs (det 3 (freal_matrix A)))%R ->
  exists X d B, inverse_c (FmaNum32 c) (rows_of A) = Ok (rows_of X, d) /\ Inverse 3 (freal_matrix A) B /\
    (Rabs (freal d - det 3 (freal_matrix A)) <= 7 * bpow radix2 (-24) * perm 3 (absm (freal_matrix A)))%R /\
    forall i j, 0 <= i < 3 -> 0 <= j < 3 -> FFinite (X i j) /\
      (Rabs (freal (X i j) - B i j) <=
        24 * bpow radix2 (-24) * (perm 3 (absm (freal_matrix A)) / Rabs (det 3 (freal_matrix A)))
          * (perm 2 (minor (absm (freal_matrix A)) j i) / Rabs (det 3 (freal_matrix A))) + bpow radix2 (-105))%R.
Proof. exact inverse_fma_lemma. Qed.
Print Assumptions C143_inverse_accuracy.

(** The determinant and the inverse of the Jacobian of an interpolated cell: *)
Theorem C143_cell_accuracy : forall c ctx specs, length specs = 3%nat -> Forall Supported32 specs ->
  exists ds, Forall2 Grid32 specs ds /\
  forall xi mem X, Forall FReference xi -> length xi = 3%nat ->
  Holds (owning (sizes64 specs ++ [3])) mem X ->
  (forall s i, InRange (sizes64 specs) s -> 0 <= i < 3 -> FData (X (s ++ [i]))) ->
  let S := cell_size32 ds (map freal xi) (fun s => freal (X s)) in
  (forall i j, 0 <= i < 3 -> 0 <= j < 3 -> (S i j <= bpow radix2 29)%R) ->
  exists K : matrix,
    (forall i j, 0 <= i < 3 -> (j < 3)%nat ->
      Partial (fun p => BoxSum (counts ds) (fun s => tensor ds s p * freal (X (s ++ [i]))))%R j (map freal xi) (K i (Z.of_nat j))) /\
    exists d invJ Y, inverseJacobian_wrapper (FmaNum32 c) ctx 3 (map (basisC32 c) specs) mem xi = Ok (d, invJ) /\
      Holds (owning [3; 3]) invJ Y /\ FFinite d /\ (Rabs (det 3 K) <= perm 3 S)%R /\
      (Rabs (freal d - det 3 K) <= IZR (5 * roundings64 specs + 12) * bpow radix2 (-24) * perm 3 S + bpow radix2 (-112))%R /\
      ((bpow radix2 (-39) <= Rabs (det 3 K))%R ->
       (IZR (10 * roundings64 specs + 50) * bpow radix2 (-24) * perm 3 S <= Rabs (det 3 K))%R ->
       exists B, Inverse 3 K B /\
       forall i j, 0 <= i < 3 -> 0 <= j < 3 -> FFinite (Y [i; j]) /\
         (Rabs (freal (Y [i; j]) - B i j) <=
           IZR (16 * roundings64 specs + 120) * bpow radix2 (-24) * (perm 3 S / Rabs (det 3 K)) * (perm 2 (minor S j i) / Rabs (det 3 K))
             + bpow radix2 (-105))%R).
Proof. exact cellC. Qed.
Print Assumptions C143_cell_accuracy.

Theorem C143_hexahedron : forall c ctx specs, Hex64 specs ->
  forall xi mem X L, Forall FReference xi -> length xi = 3%nat ->
  Holds (owning [2; 2; 2; 3]) mem X ->
  (bpow radix2 (-8) <= L <= bpow radix2 20)%R ->
  (forall t, InRange [2; 2; 2; 3] t -> Plain32 (X t) /\ FFinite (X t) /\ (Rabs (freal (X t)) <= L)%R) ->
  exists K : matrix,
    (forall i j, 0 <= i < 3 -> (j < 3)%nat ->
      Partial (fun p => BoxSum [2; 2; 2]%Z (fun s => trilinear s p * freal (X (s ++ [i]))))%R j (map freal xi) (K i (Z.of_nat j))) /\
    exists d invJ Y, inverseJacobian_wrapper (FmaNum32 c) ctx 3 (map (basisC32 c) specs) mem xi = Ok (d, invJ) /\
      Holds (owning [3; 3]) invJ Y /\ FFinite d /\
      (Rabs (freal d - det 3 K) <= 1100 * bpow radix2 (-24) * L ^ 3)%R /\
      ((2400 * bpow radix2 (-24) * L ^ 3 <= Rabs (det 3 K))%R ->
       exists B, Inverse 3 K B /\
       forall i j, 0 <= i < 3 -> 0 <= j < 3 -> FFinite (Y [i; j]) /\
         (Rabs (freal (Y [i; j]) - B i j) <= 8000 * bpow radix2 (-24) * (L ^ 5 / (det 3 K) ^ 2))%R).
Proof. exact hexC. Qed.
Print Assumptions C143_hexahedron.

(** Inputs that meet the hypotheses; a matrix that does; the cube [0,2]^3 with every possible
    contraction made. *)
Example C143_witness : FReference (given32 1 (narrow (b64_lit 5 1))) /\ FReference (given32 2 (b32_ofZ 0)) /\ FData (given32 3 (b32_ofZ 7)).
Proof. exact fma_inputs. Qed.
Example C143_witness_matrix : FEntries (crows good_rows32) /\ det 3 (freal_matrix (crows good_rows32)) = 19%R /\
  perm 3 (absm (freal_matrix (crows good_rows32))) = 23%R.
Proof. exact fma_good_matrix. Qed.
Example C143_witness_result :
  match inverseJacobian_wrapper (FmaNum32 always) (host_runtime true) 3 (map (basisC32 always) [(EqualSpacing, 1); (GaussLobattoSpacing, 1); (EqualSpacing, 1)])
          ccube [given32 1 (narrow (b64_lit 5 1)); given32 2 (b32_ofZ 0); given32 3 (b32_ofZ (-1))] with
  | Ok (d, invJ) => (B2SF (cfval d), map (fun x => B2SF (cfval x)) invJ) =
      (B2SF (b32_ofZ 1), map (fun z => B2SF (b32_ofZ z)) [1; 0; 0; 0; 1; 0; 0; 0; 1])
  | _ => False
  end.
Proof. vm_compute. reflexivity. Qed.
