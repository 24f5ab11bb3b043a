(** C104: what neighbouring elements and cells share. *)
From Verif Require Import Base Num SpecIndex SpecMath ModelAssert ModelCArray ModelSpacing ModelLagrange ModelBasisProduct
  ModelMath ModelTransforms SpecCArray SpecNumeric SpecBasis ProofConform.
From Coq Require Import Reals QArith.
Open Scope Z_scope.

(** On the layer of support points [a] in some direction, the interpolant depends on the data of that layer
    alone: it is the interpolant of the element without that direction.  [firstn]/[skipn] put the index [a]
    back at its place. *)
Theorem C104_trace : forall bA b bB A d B a var u y z,
  Forall2 Evaluates bA A -> Evaluates b d -> Forall2 Evaluates bB B ->
  Nodal d -> A ++ B <> [] -> 0 <= a < npts d -> length y = length A -> (length B <= length z)%nat ->
  (forall t, InRange (counts (A ++ d :: B)) t -> var t = Ok (u t)) ->
  exists v,
    parent_value RNum (Z.of_nat (length (A ++ d :: B))) (bA ++ b :: bB) var (y ++ pt d a :: z) = Ok v /\
    parent_value RNum (Z.of_nat (length (A ++ B))) (bA ++ bB)
      (fun t => var (firstn (length A) t ++ a :: skipn (length A) t)) (y ++ z) = Ok v.
Proof. exact trace_lemma. Qed.
Print Assumptions C104_trace.

(** Two elements that differ in one direction at most, with the same data on a layer of each: same values there,
    same derivatives along the layer. *)
Theorem C104_layers_agree : forall bA bB b1 b2 A B d1 d2 a1 a2,
  Forall2 Evaluates bA A -> Forall2 Evaluates bB B -> Evaluates b1 d1 -> Evaluates b2 d2 ->
  Forall Nodal A -> Forall Nodal B -> Nodal d1 -> Nodal d2 -> 0 <= a1 < npts d1 -> 0 <= a2 < npts d2 ->
  forall c var1 var2 u w y z, Z.of_nat (length (A ++ d1 :: B)) <= INT_MAX -> length y = length A -> (length B <= length z)%nat ->
  (forall t, InRange (counts (A ++ d1 :: B)) t -> var1 t = Ok (u t)) ->
  (forall t, InRange (counts (A ++ d2 :: B)) t -> var2 t = Ok (w t)) ->
  (forall t1 t2, InRange (counts A) t1 -> InRange (counts B) t2 -> u (t1 ++ a1 :: t2) = w (t1 ++ a2 :: t2)) ->
  (exists v, parent_value RNum (Z.of_nat (length (A ++ d1 :: B))) (bA ++ b1 :: bB) var1 (y ++ pt d1 a1 :: z) = Ok v /\
     parent_value RNum (Z.of_nat (length (A ++ d2 :: B))) (bA ++ b2 :: bB) var2 (y ++ pt d2 a2 :: z) = Ok v) /\
  (exists g1 g2, parent_gradient RNum c (Z.of_nat (length (A ++ d1 :: B))) (bA ++ b1 :: bB) var1 (y ++ pt d1 a1 :: z) = Ok g1 /\
     parent_gradient RNum c (Z.of_nat (length (A ++ d2 :: B))) (bA ++ b2 :: bB) var2 (y ++ pt d2 a2 :: z) = Ok g2 /\
     length g1 = length (A ++ d1 :: B) /\ length g2 = length (A ++ d1 :: B) /\
     forall j, (j < length (A ++ d1 :: B))%nat -> j <> length A -> nth j g1 0%R = nth j g2 0%R).
Proof. exact conform_lemma. Qed.
Print Assumptions C104_layers_agree.

(** The library's bases whose points include -1 and 1: the interpolant is continuous across the face
    [+1] of one element and [-1] of the next, whatever the orders of the two across the face. *)
Theorem C104_continuous : forall c A B p q var1 var2 u w y z,
  Forall (fun so => match fst so with
    | EqualSpacing => 1 <= snd so < INT_MAX
    | GaussLegendreSpacing => 1 <= snd so <= 3
    | GaussLobattoSpacing => 1 <= snd so <= 8
    end) (A ++ B) ->
  match fst p with EqualSpacing => 1 <= snd p < INT_MAX | GaussLegendreSpacing => False | GaussLobattoSpacing => 1 <= snd p <= 8 end ->
  match fst q with EqualSpacing => 1 <= snd q < INT_MAX | GaussLegendreSpacing => False | GaussLobattoSpacing => 1 <= snd q <= 8 end ->
  let bases := map (fun so => LagrangeBasis RNum (snd so) (fst so)) in
  let ns := map (fun so : spacing * Z => snd so + 1) in
  Z.of_nat (length (A ++ p :: B)) <= INT_MAX -> length y = length A -> (length B <= length z)%nat ->
  (forall t, InRange (ns (A ++ p :: B)) t -> var1 t = Ok (u t)) ->
  (forall t, InRange (ns (A ++ q :: B)) t -> var2 t = Ok (w t)) ->
  (forall t1 t2, InRange (ns A) t1 -> InRange (ns B) t2 -> u (t1 ++ snd p :: t2) = w (t1 ++ 0 :: t2)) ->
  (exists v, parent_value RNum (Z.of_nat (length (A ++ p :: B))) (bases (A ++ p :: B)) var1 (y ++ 1%R :: z) = Ok v /\
     parent_value RNum (Z.of_nat (length (A ++ q :: B))) (bases (A ++ q :: B)) var2 (y ++ (-1)%R :: z) = Ok v) /\
  (exists g1 g2, parent_gradient RNum c (Z.of_nat (length (A ++ p :: B))) (bases (A ++ p :: B)) var1 (y ++ 1%R :: z) = Ok g1 /\
     parent_gradient RNum c (Z.of_nat (length (A ++ q :: B))) (bases (A ++ q :: B)) var2 (y ++ (-1)%R :: z) = Ok g2 /\
     length g1 = length (A ++ p :: B) /\ length g2 = length (A ++ p :: B) /\
     forall j, (j < length (A ++ p :: B))%nat -> j <> length A -> nth j g1 0%R = nth j g2 0%R).
Proof. exact lagrange_conform_lemma. Qed.
Print Assumptions C104_continuous.

(** With Gauss-Legendre points the values jump, for every order: the last datum on one side and the first on
    the other being equal is not enough. *)
Theorem C104_gauss_legendre_continuous_refuted : forall o, 1 <= o <= 3 ->
  exists (u w : Z -> R) v1 v2, u o = w 0 /\
    parent_value RNum 1 [LagrangeBasis RNum o GaussLegendreSpacing] (fun t => Ok (u (nth 0 t 0))) [1%R] = Ok v1 /\
    parent_value RNum 1 [LagrangeBasis RNum o GaussLegendreSpacing] (fun t => Ok (w (nth 0 t 0))) [(-1)%R] = Ok v2 /\ v1 <> v2.
Proof. exact legendre_jump_lemma. Qed.
Print Assumptions C104_gauss_legendre_continuous_refuted.

(** Cells that share the vertices of a face: the columns of their Jacobians along the face agree on it. *)
Theorem C104_cells : forall bA bB b1 b2 A B d1 d2 a1 a2,
  Forall2 Evaluates bA A -> Forall2 Evaluates bB B -> Evaluates b1 d1 -> Evaluates b2 d2 ->
  Forall Nodal A -> Forall Nodal B -> Nodal d1 -> Nodal d2 -> 0 <= a1 < npts d1 -> 0 <= a2 < npts d2 ->
  forall c mem1 mem2 X1 X2 y z, (length (A ++ d1 :: B) <= 3)%nat -> length y = length A -> length (y ++ pt d1 a1 :: z) = 3%nat ->
  Holds (owning (counts (A ++ d1 :: B) ++ [Z.of_nat (length (A ++ d1 :: B))])) mem1 X1 ->
  Holds (owning (counts (A ++ d2 :: B) ++ [Z.of_nat (length (A ++ d2 :: B))])) mem2 X2 ->
  (forall t1 t2 i, InRange (counts A) t1 -> InRange (counts B) t2 -> 0 <= i < Z.of_nat (length (A ++ d1 :: B)) ->
     X1 (t1 ++ a1 :: t2 ++ [i]) = X2 (t1 ++ a2 :: t2 ++ [i])) ->
  exists J1 J2 K1 K2,
    jacobian_wrapper RNum c (Z.of_nat (length (A ++ d1 :: B))) (bA ++ b1 :: bB) mem1 (y ++ pt d1 a1 :: z) = Ok J1 /\
    jacobian_wrapper RNum c (Z.of_nat (length (A ++ d2 :: B))) (bA ++ b2 :: bB) mem2 (y ++ pt d2 a2 :: z) = Ok J2 /\
    Holds (owning [Z.of_nat (length (A ++ d1 :: B)); Z.of_nat (length (A ++ d1 :: B))]) J1 K1 /\
    Holds (owning [Z.of_nat (length (A ++ d1 :: B)); Z.of_nat (length (A ++ d1 :: B))]) J2 K2 /\
    forall i j, 0 <= i < Z.of_nat (length (A ++ d1 :: B)) -> (j < length (A ++ d1 :: B))%nat -> j <> length A ->
      K1 [i; Z.of_nat j] = K2 [i; Z.of_nat j].
Proof. exact cells_lemma. Qed.
Print Assumptions C104_cells.

(** A square of order 1 next to one of order 4 (Gauss-Lobatto) in the first direction, order 2 Gauss-Legendre
    along the face. *)
Example C104_hypotheses :
  Forall (fun so => match fst so with
    | EqualSpacing => 1 <= snd so < INT_MAX
    | GaussLegendreSpacing => 1 <= snd so <= 3
    | GaussLobattoSpacing => 1 <= snd so <= 8
    end) [(GaussLegendreSpacing, 2)] /\ 1 <= 1 < INT_MAX /\ 1 <= 4 <= 8.
Proof. exact conform_hyps_lemma. Qed.

(** Two squares of orders 1 and 2 across the face, data 5, 7 on it: value 6 + y on both sides; the derivatives
    across the face differ. *)
Definition C104_left (t : list Z) : outcome Q := Ok (nth (Z.to_nat (2 * nth 0 t 0 + nth 1 t 0)) [1; 2; 5; 7]%Q 0%Q).
Definition C104_right (t : list Z) : outcome Q := Ok (nth (Z.to_nat (2 * nth 0 t 0 + nth 1 t 0)) [5; 7; 0; 3; 8; 8]%Q 0%Q).
Example C104_witness :
  let b o s := LagrangeBasis QNum o s in
  (v <- parent_value QNum 2 [b 1 EqualSpacing; b 1 EqualSpacing] C104_left [1; 1 # 2]%Q ;; Ok (Qred v)) = Ok (13 # 2)%Q /\
  (v <- parent_value QNum 2 [b 2 GaussLobattoSpacing; b 1 EqualSpacing] C104_right [-1; 1 # 2]%Q ;; Ok (Qred v)) = Ok (13 # 2)%Q /\
  (g <- parent_gradient QNum (host_runtime true) 2 [b 1 EqualSpacing; b 1 EqualSpacing] C104_left [1; 1 # 2]%Q ;; Ok (map Qred g)) = Ok [19 # 8; 1]%Q /\
  (g <- parent_gradient QNum (host_runtime true) 2 [b 2 GaussLobattoSpacing; b 1 EqualSpacing] C104_right [-1; 1 # 2]%Q ;; Ok (map Qred g)) =
    Ok [-(37 # 4); 1]%Q.
Proof. repeat split; reflexivity. Qed.
