(** C99, C100: doubles compiled with fused multiply-adds (contraction).  [c] ranges over all
    choices a compiler can make; [never] makes none, [always] fuses whenever it can. *)
From Coq Require Import Reals.
From Flocq Require Import Core IEEE754.BinarySingleNaN.
From Verif Require Import Base Num ModelB64 ModelFma SpecIndex SpecB64 SpecNumeric SpecBasis SpecMath SpecAccuracy SpecElement64 SpecFma SpecCArray
  ModelAssert ModelCArray ModelSpacing ModelLagrange ModelBasisProduct ModelMath ModelTransforms
  ProofMath ProofFix64 ProofElement64 ProofCell64 ProofInverseFma ProofElementFma ProofCellFma ProofFma.
Open Scope Z_scope.

(** C99.  What does not depend on the compiler: the values of all basis functions, bit by bit
    those computed without contraction, at every argument (NaN and infinities too), ... *)
Theorem C99_value_reproducible : forall c s ORDER i y,
  match s with
  | EqualSpacing => 1 <= ORDER <= 126
  | GaussLegendreSpacing => 1 <= ORDER <= 3
  | GaussLobattoSpacing => 1 <= ORDER <= 8
  end ->
  0 <= i < ORDER + 1 -> Plain y ->
  exists v, bvalue (FmaBasis c ORDER s) i y = Ok v /\ bvalue (LagrangeBasis B64Num ORDER s) i (cval y) = Ok (cval v).
Proof. exact value_fma_lemma. Qed.
Print Assumptions C99_value_reproducible.

(** ... the values of their products, ... *)
Theorem C99_product_reproducible : forall c specs idx xi,
  specs <> [] -> Forall Supported64 specs -> Forall Plain xi -> (length specs <= length xi)%nat -> InRange (sizes64 specs) idx ->
  exists v, product_value (FmaNum c) (map (basisC c) specs) idx xi = Ok v /\
    product_value B64Num (map basis64 specs) idx (map cval xi) = Ok (cval v).
Proof. exact product_fma_lemma. Qed.
Print Assumptions C99_product_reproducible.

(** ... the Jacobians of scaled cells, their inverses and determinants, ... *)
Theorem C99_scaling_reproducible : forall c ctx h0 h1 h2,
  (exists J, scaling_jacobian_wrapper (FmaNum c) ctx [h0; h1; h2] = Ok J /\
     scaling_jacobian_wrapper B64Num ctx [cval h0; cval h1; cval h2] = Ok (map cval J)) /\
  exists d J, scaling_inverseJacobian_wrapper (FmaNum c) ctx [h0; h1; h2] = Ok (d, J) /\
     scaling_inverseJacobian_wrapper B64Num ctx [cval h0; cval h1; cval h2] = Ok (cval d, map cval J).
Proof. exact scaling_fma_lemma. Qed.
Print Assumptions C99_scaling_reproducible.

(** ... and the determinants of matrices of small multiples of one power of two: they are exact. *)
Theorem C99_determinant_exact : forall c A e, -300 <= e <= 300 ->
  (forall i j, 0 <= i < 3 -> 0 <= j < 3 -> CFinite (A i j) /\
     exists m, Z.abs m <= 2 ^ 16 /\ creal (A i j) = (IZR m * bpow radix2 e)%R) ->
  exists X d, inverse_c (FmaNum c) (rows_of A) = Ok (rows_of X, d) /\ CFinite d /\ creal d = det 3 (creal_matrix A).
Proof. exact exact_det_fma_lemma. Qed.
Print Assumptions C99_determinant_exact.

(** Determinants in general do depend on it: a matrix with two equal rows has the determinant 0
    without contraction and 1 with it. *)
Theorem C99_determinant_reproducible_refuted : exists A c c' X d X' d', CEntries A /\ det 3 (creal_matrix A) = 0%R /\
  inverse_c (FmaNum c) (rows_of A) = Ok (rows_of X, d) /\ creal d = 0%R /\
  inverse_c (FmaNum c') (rows_of A) = Ok (rows_of X', d') /\ creal d' = 1%R.
Proof. exact compiler_dependent_lemma. Qed.
Print Assumptions C99_determinant_reproducible_refuted.

(** The model does see contraction: x * x - x * x for x = 2^27 + 1. *)
Example C99_witness : let x := given 1 (b64_ofZ 134217729) in
  B2SF (cval (csub never (cmul x x) (cmul x x))) = SpecFloat.S754_zero false /\
  B2SF (cval (csub always (cmul x x) (cmul x x))) = B2SF (b64_ofZ 1).
Proof. exact fma_contracts. Qed.
(** -1/8, the first of three functions at 1/2. *)
Example C99_witness_value : match bvalue (FmaBasis always 2 EqualSpacing) 0 (given 1 (b64_lit 5 1)) with
  | Ok v => B2SF (cval v) = B2SF (Bopp (b64_lit 125 3))
  | _ => False
  end.
Proof. vm_compute. reflexivity. Qed.

(** C100.  Whatever the compiler contracts, the error bounds of C83 to C87 and C98 hold.  The
    gradient of a basis function: *)
Theorem C100_gradient_accuracy : forall c so, Supported64 so ->
  exists d, Grid64 so d /\
  forall y i, CReference y -> 0 <= i < snd so + 1 ->
  exists g, bgradient (basisC c so) i y = Ok g /\ CFinite g /\
    (Rabs (creal g - fder d i (creal y)) <=
      IZR (6 * snd so + 2) * bpow radix2 (-53) * gradient_size (npts d) (pt d) i (creal y) + bpow radix2 (-929))%R.
Proof. exact gradient_fma_lemma. Qed.
Print Assumptions C100_gradient_accuracy.

(** The value and the gradient of a field: *)
Theorem C100_value_accuracy : forall c specs, specs <> [] -> (length specs <= 3)%nat -> Forall Supported64 specs ->
  exists ds, Forall2 Grid64 specs ds /\
  forall xi var w, Forall CReference xi -> (length specs <= length xi)%nat ->
  (forall t, InRange (sizes64 specs) t -> var t = Ok (w t) /\ CData (w t)) ->
  exists v, parent_value (FmaNum c) (Z.of_nat (length specs)) (map (basisC c) specs) var xi = Ok v /\ CFinite v /\
    (Rabs (creal v - BoxSum (counts ds) (fun t => tensor ds t (map creal xi) * creal (w t)))
      <= IZR (roundings64 specs) * bpow radix2 (-53) * BoxSum (counts ds) (fun t => Rabs (tensor ds t (map creal xi)) * Rabs (creal (w t)))
         + bpow radix2 (-400))%R.
Proof. exact element_valueC. Qed.
Print Assumptions C100_value_accuracy.

Theorem C100_constant_accuracy : forall c specs, specs <> [] -> (length specs <= 3)%nat -> Forall Supported64 specs ->
  exists ds, Forall2 Grid64 specs ds /\
  forall xi var k, Forall CReference xi -> (length specs <= length xi)%nat -> CData k ->
  (forall t, InRange (sizes64 specs) t -> var t = Ok k) ->
  exists v, parent_value (FmaNum c) (Z.of_nat (length specs)) (map (basisC c) specs) var xi = Ok v /\ CFinite v /\
    (Rabs (creal v - creal k)
      <= IZR (roundings64 specs) * bpow radix2 (-53) * BoxSum (counts ds) (fun t => Rabs (tensor ds t (map creal xi))) * Rabs (creal k)
         + bpow radix2 (-400))%R.
Proof. exact element_constantC. Qed.
Print Assumptions C100_constant_accuracy.

Theorem C100_field_gradient_accuracy : forall c ctx specs, specs <> [] -> (length specs <= 3)%nat -> Forall Supported64 specs ->
  exists ds, Forall2 Grid64 specs ds /\
  forall xi var w, Forall CReference xi -> (length specs <= length xi)%nat ->
  (forall t, InRange (sizes64 specs) t -> var t = Ok (w t) /\ CData (w t)) ->
  exists g, parent_gradient (FmaNum c) ctx (Z.of_nat (length specs)) (map (basisC c) specs) var xi = Ok g /\ length g = length specs /\
    forall j, (j < length specs)%nat -> exists D,
      Partial (fun p => BoxSum (counts ds) (fun t => tensor ds t p * creal (w t)))%R j (map creal xi) D /\
      CFinite (nth j g (plain (b64_ofZ 0))) /\
      (Rabs (creal (nth j g (plain (b64_ofZ 0))) - D)
      <= IZR (roundings64 specs) * bpow radix2 (-53) * BoxSum (counts ds) (fun t => dtensor_size j ds t (map creal xi) * Rabs (creal (w t)))
         + bpow radix2 (-400))%R.
Proof. exact element_gradientC. Qed.
Print Assumptions C100_field_gradient_accuracy.

(** The Jacobian of an interpolated cell: *)
Theorem C100_jacobian_accuracy : forall c ctx specs, specs <> [] -> (length specs <= 3)%nat -> Forall Supported64 specs ->
  exists ds, Forall2 Grid64 specs ds /\
  forall xi mem X, Forall CReference xi -> length xi = 3%nat ->
  Holds (owning (sizes64 specs ++ [Z.of_nat (length specs)])) mem X ->
  (forall t i, InRange (sizes64 specs) t -> 0 <= i < Z.of_nat (length specs) -> CData (X (t ++ [i]))) ->
  exists J Jm, jacobian_wrapper (FmaNum c) ctx (Z.of_nat (length specs)) (map (basisC c) specs) mem xi = Ok J /\
    Holds (owning [Z.of_nat (length specs); Z.of_nat (length specs)]) J Jm /\
    forall i j, 0 <= i < Z.of_nat (length specs) -> (j < length specs)%nat -> exists D,
      Partial (fun p => BoxSum (counts ds) (fun t => tensor ds t p * creal (X (t ++ [i]))))%R j (map creal xi) D /\
      CFinite (Jm [i; Z.of_nat j]) /\
      (Rabs (creal (Jm [i; Z.of_nat j]) - D)
      <= IZR (roundings64 specs) * bpow radix2 (-53) * BoxSum (counts ds) (fun t => dtensor_size j ds t (map creal xi) * Rabs (creal (X (t ++ [i]))))
         + bpow radix2 (-400))%R.
Proof. exact jacobianC. Qed.
Print Assumptions C100_jacobian_accuracy.

(** The determinant and the inverse of a 3x3 matrix: *)
Theorem C100_determinant_accuracy : forall c A, CEntries A ->
  exists X d, inverse_c (FmaNum c) (rows_of A) = Ok (rows_of X, d) /\ CFinite d /\
    (Rabs (creal d - det 3 (creal_matrix A))
       <= 6 * bpow radix2 (-53) * perm 3 (absm (creal_matrix A)) + bpow radix2 (-767))%R.
Proof. exact det_fma_lemma. Qed.
Print Assumptions C100_determinant_accuracy.

Theorem C100_inverse_accuracy : forall c A, CEntries A ->
  (bpow radix2 (-400) <= Rabs (det 3 (creal_matrix A)))%R ->
  (14 * bpow radix2 (-53) * perm 3 (absm (creal_matrix A)) <= Rabs (det 3 (creal_matrix A)))%R ->
  exists X d B, inverse_c (FmaNum c) (rows_of A) = Ok (rows_of X, d) /\ Inverse 3 (creal_matrix A) B /\
    (Rabs (creal d - det 3 (creal_matrix A)) <= 7 * bpow radix2 (-53) * perm 3 (absm (creal_matrix A)))%R /\
    forall i j, 0 <= i < 3 -> 0 <= j < 3 -> CFinite (X i j) /\
      (Rabs (creal (X i j) - B i j) <=
        24 * bpow radix2 (-53) * (perm 3 (absm (creal_matrix A)) / Rabs (det 3 (creal_matrix A)))
          * (perm 2 (minor (absm (creal_matrix A)) j i) / Rabs (det 3 (creal_matrix A))) + bpow radix2 (-670))%R.
Proof. exact inverse_fma_lemma. Qed.
Print Assumptions C100_inverse_accuracy.

(** The determinant and the inverse of the Jacobian of an interpolated cell: *)
Theorem C100_cell_accuracy : forall c ctx specs, length specs = 3%nat -> Forall Supported64 specs ->
  exists ds, Forall2 Grid64 specs ds /\
  forall xi mem X, Forall CReference xi -> length xi = 3%nat ->
  Holds (owning (sizes64 specs ++ [3])) mem X ->
  (forall s i, InRange (sizes64 specs) s -> 0 <= i < 3 -> CData (X (s ++ [i]))) ->
  let S := cell_size ds (map creal xi) (fun s => creal (X s)) in
  (forall i j, 0 <= i < 3 -> 0 <= j < 3 -> (S i j <= bpow radix2 299)%R) ->
  exists K : matrix,
    (forall i j, 0 <= i < 3 -> (j < 3)%nat ->
      Partial (fun p => BoxSum (counts ds) (fun s => tensor ds s p * creal (X (s ++ [i]))))%R j (map creal xi) (K i (Z.of_nat j))) /\
    exists d invJ Y, inverseJacobian_wrapper (FmaNum c) ctx 3 (map (basisC c) specs) mem xi = Ok (d, invJ) /\
      Holds (owning [3; 3]) invJ Y /\ CFinite d /\ (Rabs (det 3 K) <= perm 3 S)%R /\
      (Rabs (creal d - det 3 K) <= IZR (5 * roundings64 specs + 12) * bpow radix2 (-53) * perm 3 S + bpow radix2 (-767))%R /\
      ((bpow radix2 (-399) <= Rabs (det 3 K))%R ->
       (IZR (10 * roundings64 specs + 50) * bpow radix2 (-53) * perm 3 S <= Rabs (det 3 K))%R ->
       exists B, Inverse 3 K B /\
       forall i j, 0 <= i < 3 -> 0 <= j < 3 -> CFinite (Y [i; j]) /\
         (Rabs (creal (Y [i; j]) - B i j) <=
           IZR (16 * roundings64 specs + 120) * bpow radix2 (-53) * (perm 3 S / Rabs (det 3 K)) * (perm 2 (minor S j i) / Rabs (det 3 K))
             + bpow radix2 (-670))%R).
Proof. exact cellC. Qed.
Print Assumptions C100_cell_accuracy.

Theorem C100_hexahedron : forall c ctx specs, Hex64 specs ->
  forall xi mem X L, Forall CReference xi -> length xi = 3%nat ->
  Holds (owning [2; 2; 2; 3]) mem X ->
  (bpow radix2 (-110) <= L <= bpow radix2 290)%R ->
  (forall t, InRange [2; 2; 2; 3] t -> Plain (X t) /\ CFinite (X t) /\ (Rabs (creal (X t)) <= L)%R) ->
  exists K : matrix,
    (forall i j, 0 <= i < 3 -> (j < 3)%nat ->
      Partial (fun p => BoxSum [2; 2; 2]%Z (fun s => trilinear s p * creal (X (s ++ [i]))))%R j (map creal xi) (K i (Z.of_nat j))) /\
    exists d invJ Y, inverseJacobian_wrapper (FmaNum c) ctx 3 (map (basisC c) specs) mem xi = Ok (d, invJ) /\
      Holds (owning [3; 3]) invJ Y /\ CFinite d /\
      (Rabs (creal d - det 3 K) <= 1100 * bpow radix2 (-53) * L ^ 3)%R /\
      ((2400 * bpow radix2 (-53) * L ^ 3 <= Rabs (det 3 K))%R ->
       exists B, Inverse 3 K B /\
       forall i j, 0 <= i < 3 -> 0 <= j < 3 -> CFinite (Y [i; j]) /\
         (Rabs (creal (Y [i; j]) - B i j) <= 8000 * bpow radix2 (-53) * (L ^ 5 / (det 3 K) ^ 2))%R).
Proof. exact hexC. Qed.
Print Assumptions C100_hexahedron.

(** Inputs that meet the hypotheses; a matrix that does; the cube [0,2]^3 with every possible
    contraction made. *)
Example C100_witness : CReference (given 1 (b64_lit 5 1)) /\ CReference (given 2 (b64_ofZ 0)) /\ CData (given 3 (b64_ofZ 7)).
Proof. exact fma_inputs. Qed.
Example C100_witness_matrix : CEntries (crows good_rows) /\ det 3 (creal_matrix (crows good_rows)) = 19%R /\
  perm 3 (absm (creal_matrix (crows good_rows))) = 23%R.
Proof. exact fma_good_matrix. Qed.
Example C100_witness_result :
  match inverseJacobian_wrapper (FmaNum always) (host_runtime true) 3 (map (basisC always) [(EqualSpacing, 1); (GaussLobattoSpacing, 1); (EqualSpacing, 1)])
          ccube [given 1 (b64_lit 5 1); given 2 (b64_ofZ 0); given 3 (b64_ofZ (-1))] with
  | Ok (d, invJ) => (B2SF (cval d), map (fun x => B2SF (cval x)) invJ) =
      (B2SF (b64_ofZ 1), map (fun z => B2SF (b64_ofZ z)) [1; 0; 0; 0; 1; 0; 0; 0; 1])
  | _ => False
  end.
Proof. vm_compute. reflexivity. Qed.
