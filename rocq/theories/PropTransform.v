(** Properties C38-C46: cell transforms over exact real arithmetic.  [ds] lists, per dimension,
    which functions the basis class computes (see PropTensor and [C34_lagrange_directions]);
    [Holds a mem m]: the array object [a] over the buffer [mem] holds the value [m t] at the
    index tuple [t]. *)
From Verif Require Import Base Num SpecIndex SpecMath ModelAssert ModelCArray ModelSpacing ModelLagrange
  ModelBasisProduct ModelMath ModelTransforms SpecCArray SpecNumeric SpecBasis ProofTransform ProofGeneric.
From Coq Require Import Reals QArith.
Open Scope Z_scope.

Notation hex Q := [LagrangeBasis Q 1 EqualSpacing; LagrangeBasis Q 1 EqualSpacing; LagrangeBasis Q 1 EqualSpacing].
(** A skewed hexahedron: vertex k of a box with edges 2, 4, 6, one vertex moved. *)
Definition vertex (k i : Z) : outcome QArith_base.Q :=
  Ok (inject_Z ((if Z.testbit k i then 2 * (i + 1) else 0) + (if k =? 7 then 8 else 0))).

(** C38. *)
Theorem C38_setData_stores_rows : forall (F : Num) c bases n coords (X : Z -> Z -> T F) mem m,
  length bases = 3%nat -> supportCounts F bases = Ok [2; 2; n] ->
  (forall k i, 0 <= k < 4 * n -> 0 <= i < 3 -> coords k i = Ok (X k i)) ->
  Holds (owning [2; 2; n; 3]) mem m ->
  (exists N, forall fuel, (N <= fuel)%nat ->
   exists mem' m', setData F c bases coords fuel mem = Ok mem' /\
    Holds (owning [2; 2; n; 3]) (getData F mem') m' /\
    forall a b e i, 0 <= a < 2 -> 0 <= b < 2 -> 0 <= e < n -> 0 <= i < 3 ->
      m' [a; b; e; i] = X (a + 2 * b + 4 * e) i) /\
  (forall k, 0 <= k < 4 * n ->
   exists a b e, (0 <= a < 2 /\ 0 <= b < 2 /\ 0 <= e < n /\ a + 2 * b + 4 * e = k) /\
     forall a' b' e', 0 <= a' < 2 -> 0 <= b' < 2 -> 0 <= e' < n -> a' + 2 * b' + 4 * e' = k ->
       a' = a /\ b' = b /\ e' = e).
Proof. exact setData_rows_lemma. Qed.
Print Assumptions C38_setData_stores_rows.

Example C38_witness :
  supportCounts QNum (hex QNum) = Ok [2; 2; 2] /\
  (m <- setData QNum (host_runtime true) (hex QNum) vertex 100 (repeat 0%Q 24) ;;
   fetch (host_runtime true) (owning [2; 2; 2; 3]) {| brackets := 0; last := Paren |} [1; 0; 1; 2] m) = Ok 6%Q /\
  vertex 5 2 = Ok 6%Q.
Proof. repeat split; reflexivity. Qed.

(** C39 is false of the code. *)
Theorem C39_distinct_rows_refuted : forall c,
  exists bases : list (basis RNum), exists p q : list Z,
    supportCounts RNum bases = Ok [3; 2; 2] /\ InRange [3; 2; 2] p /\ InRange [3; 2; 2] q /\ p <> q /\
    forall (X : Z -> Z -> R) mem m, Holds (owning [3; 2; 2; 3]) mem m ->
      exists N, forall fuel, (N <= fuel)%nat ->
      exists mem' m', setData RNum c bases (fun k i => Ok (X k i)) fuel mem = Ok mem' /\
        Holds (owning [3; 2; 2; 3]) mem' m' /\ forall i, 0 <= i < 3 -> m' (p ++ [i]) = m' (q ++ [i]).
Proof. exact lost_rows_lemma. Qed.
Print Assumptions C39_distinct_rows_refuted.

(** What setData stores for any support counts, and exactly when the rows are distinct. *)
Theorem C39_setData_row_of_each_point : forall (F : Num) c bases n0 n1 n2 coords (X : Z -> Z -> T F) mem m,
  length bases = 3%nat -> supportCounts F bases = Ok [n0; n1; n2] ->
  (n0 - 1) + 2 * (n1 - 1) + 4 * (n2 - 1) <= INT_MAX ->
  (forall k i, 0 <= k <= (n0 - 1) + 2 * (n1 - 1) + 4 * (n2 - 1) -> 0 <= i < 3 -> coords k i = Ok (X k i)) ->
  Holds (owning [n0; n1; n2; 3]) mem m ->
  exists N, forall fuel, (N <= fuel)%nat ->
  exists mem' m', setData F c bases coords fuel mem = Ok mem' /\
    Holds (owning [n0; n1; n2; 3]) mem' m' /\ SameOutside (owning [n0; n1; n2; 3]) mem mem' /\
    forall a b e i, 0 <= a < n0 -> 0 <= b < n1 -> 0 <= e < n2 -> 0 <= i < 3 ->
      m' [a; b; e; i] = X (a + 2 * b + 4 * e) i.
Proof. exact setData_lemma. Qed.
Print Assumptions C39_setData_row_of_each_point.

Theorem C39_rows_distinct_iff : forall n0 n1 n2, 2 <= n0 -> 2 <= n1 -> 2 <= n2 ->
  ((forall a b e a' b' e', 0 <= a < n0 -> 0 <= b < n1 -> 0 <= e < n2 ->
      0 <= a' < n0 -> 0 <= b' < n1 -> 0 <= e' < n2 ->
      a + 2 * b + 4 * e = a' + 2 * b' + 4 * e' -> (a, b, e) = (a', b', e')) <-> n0 = 2 /\ n1 = 2).
Proof. exact rows_distinct_lemma. Qed.
Print Assumptions C39_rows_distinct_iff.

Example C39_witness :
  setData QNum (host_runtime true)
    [LagrangeBasis QNum 2 EqualSpacing; LagrangeBasis QNum 1 EqualSpacing; LagrangeBasis QNum 1 EqualSpacing]
    (fun k i => Ok (inject_Z k)) 100 (repeat 0%Q 36) =
  Ok [0;0;0; 4;4;4; 2;2;2; 6;6;6; 1;1;1; 5;5;5; 3;3;3; 7;7;7; 2;2;2; 6;6;6; 4;4;4; 8;8;8]%Q.
Proof. reflexivity. Qed.

(** C40: the Jacobian of the map whose i-th component is the sum over the support points of the
    basis value times the i-th vertex coordinate. *)
Theorem C40_jacobian_is_derivative : forall c bases ds mem X xi,
  Forall2 Evaluates bases ds -> Forall Differentiates ds -> ds <> [] -> (length ds <= 3)%nat -> length xi = 3%nat ->
  Holds (owning (counts ds ++ [Z.of_nat (length ds)])) mem X ->
  exists J Jm, jacobian_wrapper RNum c (Z.of_nat (length ds)) bases mem xi = Ok J /\
    buflen J = Z.of_nat (length ds) * Z.of_nat (length ds) /\
    Holds (owning [Z.of_nat (length ds); Z.of_nat (length ds)]) J Jm /\
    forall i j, 0 <= i < Z.of_nat (length ds) -> (j < length ds)%nat ->
      Partial (fun p => BoxSum (counts ds) (fun t => tensor ds t p * X (t ++ [i]))%R) j xi (Jm [i; Z.of_nat j]).
Proof. exact jacobian_lemma. Qed.
Print Assumptions C40_jacobian_is_derivative.

Example C40_witness :
  (m <- setData QNum (host_runtime true) (hex QNum) vertex 100 (repeat 0%Q 24) ;;
   J <- jacobian_wrapper QNum (host_runtime true) 3 (hex QNum) m [1 # 2; 0; 0]%Q ;; Ok (map Qred J)) =
  Ok [2; 3 # 2; 3 # 2; 1; 7 # 2; 3 # 2; 1; 3 # 2; 9 # 2]%Q.
Proof. reflexivity. Qed.

(** C41. *)
Theorem C41_jacobian_accumulates : forall c bases ds mem X xi,
  Forall2 Evaluates bases ds -> Forall Differentiates ds -> ds <> [] ->
  pos_dims [Z.of_nat (length ds); Z.of_nat (length ds)] -> (length ds <= length xi)%nat ->
  Holds (owning (counts ds ++ [Z.of_nat (length ds)])) mem X ->
  exists K : list Z -> R,
    (forall i j, 0 <= i < Z.of_nat (length ds) -> (j < length ds)%nat ->
      Partial (fun p => BoxSum (counts ds) (fun t => tensor ds t p * X (t ++ [i]))%R) j xi (K [i; Z.of_nat j])) /\
    forall J Jm, Holds (owning [Z.of_nat (length ds); Z.of_nat (length ds)]) J Jm ->
      exists J', jacobian_point RNum c (Z.of_nat (length ds)) bases mem xi J = Ok J' /\
        Holds (owning [Z.of_nat (length ds); Z.of_nat (length ds)]) J' (fun t => Jm t + K t)%R.
Proof. exact jacobian_accumulates_lemma. Qed.
Print Assumptions C41_jacobian_accumulates.

(** The reference-argument inverseJacobian inverts incoming contents plus Jacobian. *)
Theorem C41_inverseJacobian_accumulates : forall c bases ds mem X xi,
  Forall2 Evaluates bases ds -> Forall Differentiates ds -> length ds = 3%nat -> (3 <= length xi)%nat ->
  Holds (owning (counts ds ++ [3])) mem X ->
  exists K : matrix,
    (forall i j, 0 <= i < 3 -> (j < 3)%nat ->
      Partial (fun p => BoxSum (counts ds) (fun t => tensor ds t p * X (t ++ [i]))%R) j xi (K i (Z.of_nat j))) /\
    forall J0 Jm, Holds (owning [3; 3]) J0 Jm ->
      let S := fun i j => (Jm [i; j] + K i j)%R in
      (det 3 S <> 0%R -> exists invJ B,
         inverseJacobian_point RNum c 3 bases mem xi J0 = Ok (invJ, det 3 S) /\
         Holds (owning [3; 3]) invJ B /\ Inverse 3 S (fun i j => B [i; j])) /\
      (det 3 S = 0%R -> inverseJacobian_point RNum c 3 bases mem xi J0 = UB DivByZero).
Proof. exact inverse_accumulates_lemma. Qed.
Print Assumptions C41_inverseJacobian_accumulates.

Example C41_witness :
  (m <- setData QNum (host_runtime true) (hex QNum) vertex 100 (repeat 0%Q 24) ;;
   J <- jacobian_point QNum (host_runtime true) 3 (hex QNum) m [1 # 2; 0; 0]%Q (repeat 10%Q 9) ;; Ok (map Qred J)) =
  Ok [12; 23 # 2; 23 # 2; 11; 27 # 2; 23 # 2; 11; 23 # 2; 29 # 2]%Q.
Proof. reflexivity. Qed.

(** C42. *)
Theorem C42_quadrature_jacobian : forall c bases ds mem X qcoord QA qs J,
  Forall2 Evaluates bases ds -> ds <> [] -> (length ds <= 3)%nat ->
  Holds (owning (counts ds ++ [Z.of_nat (length ds)])) mem X ->
  Forall2 (fun q v => qcoord q = Ok v) QA qs -> (length qs <= 3)%nat ->
  Z.of_nat (length J) = Z.of_nat (length ds) * Z.of_nat (length ds) ->
  exists J', jacobian_quadrature RNum c (Z.of_nat (length ds)) bases qcoord QA mem J = Ok J' /\
    jacobian_point RNum c (Z.of_nat (length ds)) bases mem (qs ++ repeat 0%R (3 - length qs)) J = Ok J'.
Proof. exact jacobian_quadrature_lemma. Qed.
Print Assumptions C42_quadrature_jacobian.

(** Whatever the number type, the two agree bit by bit: the same operations in the same order. *)
Theorem C42_any_number_type : forall (N : Num) c bases ns mem X qcoord QA qs J,
  bases <> [] -> (length bases <= 3)%nat -> supportCounts N bases = Ok ns ->
  Holds (owning (ns ++ [Z.of_nat (length bases)])) mem X ->
  Forall2 (fun q v => qcoord q = Ok v) QA qs -> (length qs <= 3)%nat ->
  (forall k b x, nth_error bases k = Some b ->
     nth_error (qs ++ repeat (nofZ N 0) (3 - length qs)) k = Some x -> DefinedAt N b x) ->
  Z.of_nat (length J) = Z.of_nat (length bases) * Z.of_nat (length bases) ->
  exists J', jacobian_quadrature N c (Z.of_nat (length bases)) bases qcoord QA mem J = Ok J' /\
    jacobian_point N c (Z.of_nat (length bases)) bases mem (qs ++ repeat (nofZ N 0) (3 - length qs)) J = Ok J'.
Proof. exact jacobian_quadrature_any. Qed.
Print Assumptions C42_any_number_type.

Example C42_witness :
  (m <- setData QNum (host_runtime true) (hex QNum) vertex 100 (repeat 0%Q 24) ;;
   J <- jacobian_quadrature QNum (host_runtime true) 3 (hex QNum)
          (fun q => Ok (match q with 0%Z => -1 # 2 | _ => 1 # 2 end)%Q) [1; 0; 1] m (repeat 0%Q 9) ;; Ok (map Qred J)) =
  (m <- setData QNum (host_runtime true) (hex QNum) vertex 100 (repeat 0%Q 24) ;;
   J <- jacobian_wrapper QNum (host_runtime true) 3 (hex QNum) m [1 # 2; -1 # 2; 1 # 2]%Q ;; Ok (map Qred J)).
Proof. reflexivity. Qed.

(** C43. *)
Theorem C43_inverseJacobian : forall c bases ds mem X xi,
  Forall2 Evaluates bases ds -> Forall Differentiates ds -> length ds = 3%nat -> length xi = 3%nat ->
  Holds (owning (counts ds ++ [3])) mem X ->
  exists K : matrix,
    (forall i j, 0 <= i < 3 -> (j < 3)%nat ->
      Partial (fun p => BoxSum (counts ds) (fun t => tensor ds t p * X (t ++ [i]))%R) j xi (K i (Z.of_nat j))) /\
    (det 3 K <> 0%R -> exists invJ B,
       inverseJacobian_wrapper RNum c 3 bases mem xi = Ok (det 3 K, invJ) /\
       Holds (owning [3; 3]) invJ B /\ Inverse 3 K (fun i j => B [i; j])) /\
    (det 3 K = 0%R -> inverseJacobian_wrapper RNum c 3 bases mem xi = UB DivByZero).
Proof. exact inverse_jacobian_lemma. Qed.
Print Assumptions C43_inverseJacobian.

(** In dimensions 1 and 2 the reference-argument inverse never succeeds (see C21). *)
Theorem C43_small_dimensions : forall c bases ds mem X xi,
  Forall2 Evaluates bases ds -> ds <> [] -> (length ds <= 2)%nat -> length xi = 3%nat ->
  Holds (owning (counts ds ++ [Z.of_nat (length ds)])) mem X ->
  (runtime_checked c -> inverseJacobian_wrapper RNum c (Z.of_nat (length ds)) bases mem xi = Aborted) /\
  (unchecked c -> inverseJacobian_wrapper RNum c (Z.of_nat (length ds)) bases mem xi = UB OutOfBounds).
Proof. exact inverse_jacobian_small_lemma. Qed.
Print Assumptions C43_small_dimensions.

Example C43_witness :
  (m <- setData QNum (host_runtime true) (hex QNum) vertex 100 (repeat 0%Q 24) ;;
   '(d, B) <- inverseJacobian_wrapper QNum (host_runtime true) 3 (hex QNum) m [1 # 2; 0; 0]%Q ;;
   Ok (Qred d, map Qred B)) =
  Ok (39 # 2, [9 # 13; -3 # 13; -2 # 13; -2 # 13; 5 # 13; -1 # 13; -4 # 39; -1 # 13; 11 # 39])%Q.
Proof. reflexivity. Qed.

(** C44. *)
Theorem C44_scaling : forall c (h0 h1 h2 : R),
  scaling_jacobian_wrapper RNum c [h0; h1; h2] = Ok [h0 / 2; h1 / 2; h2 / 2]%R /\
  (h0 <> 0 -> h1 <> 0 -> h2 <> 0 ->
   scaling_inverseJacobian_wrapper RNum c [h0; h1; h2] =
     Ok (h0 / 2 * (h1 / 2) * (h2 / 2), [/ (h0 / 2); / (h1 / 2); / (h2 / 2)]))%R /\
  ((h0 = 0 \/ h1 = 0 \/ h2 = 0)%R -> scaling_inverseJacobian_wrapper RNum c [h0; h1; h2] = UB DivByZero).
Proof. exact scaling_lemma. Qed.
Print Assumptions C44_scaling.

Theorem C44_scaling_data : forall (F : Num) h0 h1 h2 x y z,
  (exists m, scaling_setData F [h0; h1; h2] [x; y; z] = Ok m /\ scaling_getData F m = [h0; h1; h2]) /\
  scaling_getData F (scaling_default F) = [nofZ F 1; nofZ F 1; nofZ F 1].
Proof. exact scaling_data_lemma. Qed.
Print Assumptions C44_scaling_data.

Example C44_witness :
  (J <- scaling_jacobian_wrapper QNum (host_runtime true) [2; 3; 8]%Q ;; Ok (map Qred J)) = Ok [1; 3 # 2; 4]%Q /\
  scaling_inverseJacobian_wrapper QNum (host_runtime true) [2; 0; 8]%Q = UB DivByZero.
Proof. split; reflexivity. Qed.

(** C45: for every number type, hence also in floating point. *)
Theorem C45_uniform_is_scaling : forall (F : Num) c h,
  (exists v, uniform_jacobian_wrapper F c h = Ok [v] /\ scaling_jacobian_wrapper F c [h; h; h] = Ok [v; v; v]) /\
  (forall q, ndiv F (nofZ F 2) h = Ok q ->
     exists d, uniform_inverseJacobian_wrapper F c h = Ok (d, [q]) /\
       scaling_inverseJacobian_wrapper F c [h; h; h] = Ok (d, [q; q; q])) /\
  (is_ok (ndiv F (nofZ F 2) h) = false ->
     is_ok (uniform_inverseJacobian_wrapper F c h) = false /\
     is_ok (scaling_inverseJacobian_wrapper F c [h; h; h]) = false).
Proof. exact uniform_lemma. Qed.
Print Assumptions C45_uniform_is_scaling.

Theorem C45_uniform_data : forall (F : Num) (h m : T F),
  uniform_getData F (uniform_setData F h m) = h /\
  uniform_getData F (uniform_default F) = nofZ F 1.
Proof. exact uniform_data_lemma. Qed.
Print Assumptions C45_uniform_data.

Theorem C45_uniform_values : forall c (h : R),
  uniform_jacobian_wrapper RNum c h = Ok [h / 2]%R /\
  (h <> 0%R -> uniform_inverseJacobian_wrapper RNum c h = Ok (h / 2 * (h / 2) * (h / 2), [/ (h / 2)])%R) /\
  (h = 0%R -> uniform_inverseJacobian_wrapper RNum c h = UB DivByZero).
Proof. exact uniform_R_lemma. Qed.
Print Assumptions C45_uniform_values.

Example C45_witness :
  ('(d, B) <- uniform_inverseJacobian_wrapper QNum (host_runtime true) 4%Q ;; Ok (Qred d, map Qred B)) =
  Ok (8, [1 # 2])%Q.
Proof. reflexivity. Qed.

(** C46: vertices [X] in the image of the grid under an affine map [x -> o + A x]. *)
Theorem C46_affine_cell : forall c bases ds mem X xi (o : Z -> R) (A : matrix),
  Forall2 Evaluates bases ds -> Forall Nodal ds -> Forall (fun d => 2 <= npts d) ds ->
  ds <> [] -> (length ds <= 3)%nat -> length xi = 3%nat ->
  Holds (owning (counts ds ++ [Z.of_nat (length ds)])) mem X ->
  (forall t i, InRange (counts ds) t -> 0 <= i < Z.of_nat (length ds) ->
     X (t ++ [i]) = (o i + Zsum (Z.of_nat (length ds)) (fun k => A i k * nth (Z.to_nat k) (gridpoint ds t) 0%R))%R) ->
  exists J, jacobian_wrapper RNum c (Z.of_nat (length ds)) bases mem xi = Ok J /\
    Holds (owning [Z.of_nat (length ds); Z.of_nat (length ds)]) J (fun t => A (nth 0 t 0%Z) (nth 1 t 0%Z)).
Proof. exact affine_jacobian_lemma. Qed.
Print Assumptions C46_affine_cell.

(** Bit i of k tells on which side of direction i vertex k lies. *)
Theorem C46_box_agrees_with_scaling : forall c bases ds coords (o h : Z -> R) mem m xi,
  Forall2 Evaluates bases ds -> Forall Nodal ds -> length ds = 3%nat ->
  Forall (fun d => npts d = 2 /\ pt d 0 = (-1)%R /\ pt d 1 = 1%R) ds -> length xi = 3%nat ->
  Holds (owning [2; 2; 2; 3]) mem m ->
  (forall k i, 0 <= k < 8 -> 0 <= i < 3 -> coords k i = Ok (o i + (if Z.testbit k i then h i else 0))%R) ->
  exists N, forall fuel, (N <= fuel)%nat ->
  exists cell J s, setData RNum c bases coords fuel mem = Ok cell /\
    jacobian_wrapper RNum c 3 bases cell xi = Ok J /\
    scaling_jacobian_wrapper RNum c [h 0; h 1; h 2] = Ok s /\
    Holds (owning [3; 3]) J (fun t => if nth 0 t 0 =? nth 1 t 0 then nth (Z.to_nat (nth 0 t 0)) s 0%R else 0%R) /\
    (h 0 <> 0%R -> h 1 <> 0%R -> h 2 <> 0%R ->
     exists d invJ r, inverseJacobian_wrapper RNum c 3 bases cell xi = Ok (d, invJ) /\
       scaling_inverseJacobian_wrapper RNum c [h 0; h 1; h 2] = Ok (d, r) /\
       Holds (owning [3; 3]) invJ (fun t => if nth 0 t 0 =? nth 1 t 0 then nth (Z.to_nat (nth 0 t 0)) r 0%R else 0%R)).
Proof. exact box_lemma. Qed.
Print Assumptions C46_box_agrees_with_scaling.

Theorem C46_translation_invariant : forall c bases ds mem mem' X X' xi (o : Z -> R),
  Forall2 Evaluates bases ds -> Forall Nodal ds -> ds <> [] -> (length ds <= 3)%nat -> length xi = 3%nat ->
  Holds (owning (counts ds ++ [Z.of_nat (length ds)])) mem X ->
  Holds (owning (counts ds ++ [Z.of_nat (length ds)])) mem' X' ->
  (forall t i, InRange (counts ds) t -> 0 <= i < Z.of_nat (length ds) -> X' (t ++ [i]) = (X (t ++ [i]) + o i)%R) ->
  exists J, jacobian_wrapper RNum c (Z.of_nat (length ds)) bases mem xi = Ok J /\
    jacobian_wrapper RNum c (Z.of_nat (length ds)) bases mem' xi = Ok J.
Proof. exact translation_lemma. Qed.
Print Assumptions C46_translation_invariant.

(** The two-point bases of the library meet the hypotheses of the box theorem. *)
Example C46_box_bases : forall s, s = EqualSpacing \/ s = GaussLobattoSpacing ->
  exists d, Evaluates (LagrangeBasis RNum 1 s) d /\ Nodal d /\ npts d = 2 /\ pt d 0 = (-1)%R /\ pt d 1 = 1%R.
Proof. exact box_bases_lemma. Qed.

Example C46_witness :
  (m <- setData QNum (host_runtime true) (hex QNum)
      (fun k i => Ok (inject_Z (7 + if Z.testbit k i then 2 * (i + 1) else 0))) 100 (repeat 0%Q 24) ;;
   J <- jacobian_wrapper QNum (host_runtime true) 3 (hex QNum) m [1 # 2; 1 # 3; -1 # 5]%Q ;; Ok (map Qred J)) =
  Ok [1; 0; 0; 0; 2; 0; 0; 0; 3]%Q.
Proof. reflexivity. Qed.
