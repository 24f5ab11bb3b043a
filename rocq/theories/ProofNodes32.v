(** The bundled spacings in binary32, and the Lagrange basis on them. *)
From Coq Require Import ZArith Reals Bool List Lia Lra SpecFloat.
From Flocq Require Import Core IEEE754.BinarySingleNaN.
From Verif Require Import Base ProofBase Num ModelB64 ModelF32 SpecF32 ModelSequence ModelSpacing ModelLagrange
  SpecNumeric ProofPoly ProofLagrange ProofF32 ProofSpacing32 ProofLagrange32.
Local Open Scope R_scope.

(** * General theorems *)
Lemma nodal32_lemma ORDER q coordinate x i :
  (0 <= ORDER <= 2 ^ 23)%Z -> (0 <= q <= 120)%Z ->
  Points32 coordinate (ORDER + 1) x -> Separated32 q (ORDER + 1) x ->
  (0 <= i < ORDER + 1)%Z ->
  (exists v, bvalue (lagrange_of F32Num ORDER coordinate) i (x i) = Ok v /\
     is_finite v = true /\ 1 - IZR ORDER * pow2 (-24) <= B2R v <= 1) /\
  (((ORDER + 1) * (q + 1) < 128)%Z ->
   forall j, (0 <= j < ORDER + 1)%Z -> j <> i ->
   exists v, bvalue (lagrange_of F32Num ORDER coordinate) i (x j) = Ok v /\ IsFloat v 0).
Proof.
  intros HO' Hq Hp [Hf Hs] Hi. assert (HO : (0 <= ORDER < INT_MAX)%Z) by (unfold INT_MAX; lia). split.
  - exists (prod32 (fun k => t32 x i k (x i)) (zseq (Z.to_nat (ORDER + 1)))). split.
    + now apply (lagrange_value32 ORDER q).
    + apply (own_value ORDER q coordinate); try assumption. lia.
  - intros Hb j Hj Hne. destruct (Hf j Hj) as [Fj Bj].
    exists (prod32 (fun k => t32 x i k (x j)) (zseq (Z.to_nat (ORDER + 1)))). split.
    + now apply (lagrange_value32 ORDER q).
    + destruct (value_bound ORDER q coordinate x HO Hq Hp Hf Hs i (x j) Hb Hi Fj Bj) as (F & _ & Zr).
      split; [exact F|]. now apply (Zr j).
Qed.

Lemma accuracy32_lemma ORDER q coordinate x i y :
  (0 <= ORDER < INT_MAX)%Z -> (0 <= q <= 120)%Z -> ((ORDER + 1) * (q + 1) < 128)%Z ->
  Points32 coordinate (ORDER + 1) x -> Separated32 q (ORDER + 1) x ->
  (0 <= i < ORDER + 1)%Z -> InReference32 y ->
  exists v phi, bvalue (lagrange_of F32Num ORDER coordinate) i y = Ok v /\
    bvalue (lagrange_of RNum ORDER (fun k => Ok (B2R (x k)))) i (B2R y) = Ok phi /\
    is_finite v = true /\
    Rabs (B2R v - phi) <= 6 * IZR ORDER * pow2 (-24) * Rabs phi + pow2 (-149 + (ORDER + 1) * (q + 3)).
Proof.
  intros HO Hq Hb Hp [Hf Hs] Hi [Fy By].
  set (pts := zseq (Z.to_nat (ORDER + 1))).
  set (v := prod32 (fun k => t32 x i k y) pts).
  set (phi := lval1 ORDER (fun k => B2R (x k)) i (B2R y)).
  assert (Len : Z.of_nat (length pts) = (ORDER + 1)%Z) by (unfold pts; rewrite zseq_length; lia).
  exists v, phi.
  split; [now apply (lagrange_value32 ORDER q)|].
  split.
  { apply lagrange_value_ok; [exact HO| | |exact Hi].
    - intros k Hk. reflexivity.
    - intros a b Ha Hb' E. destruct (Z.eq_dec a b) as [|Hne]; [assumption|].
      pose proof (Hs a b Ha Hb' Hne) as S. cbv beta in E. rewrite E in S.
      rewrite Rminus_diag_eq, Rabs_R0 in S by reflexivity. pose proof (bpow_gt_0 radix2 (- q)). lra. }
  destruct (value_bound ORDER q coordinate x HO Hq Hp Hf Hs i y Hb Hi Fy By) as (F & _ & _).
  split; [exact F|].
  destruct (prod_rel ORDER q coordinate x Hq Hp Hf Hs i y pts) as (f & b & Bf & Bb & E).
  - apply zseq_ne. lia.
  - intros k Hk. unfold pts in Hk. apply in_zseq in Hk. lia.
  - rewrite Len. exact Hb.
  - exact Hi. - exact Fy. - exact By.
  - fold v in E. change (prodR _ pts) with phi in E.
    rewrite Len in Bb.
    assert (W : Z.to_nat (sumZ (fun k => if (i =? k)%Z then 0 else 1)%Z pts) = Z.to_nat ORDER).
    { f_equal. rewrite sumZ_others by apply NoDup_zseq. rewrite Len.
      destruct (in_dec Z.eq_dec i pts) as [|N]; [lia|].
      exfalso. apply N. unfold pts. apply in_zseq. lia. }
    rewrite W in Bf. set (n := (5 * Z.to_nat ORDER)%nat) in *.
    assert (Nn : IZR (Z.of_nat n) = 5 * IZR ORDER).
    { rewrite <- mult_IZR. f_equal. unfold n. lia. }
    assert (O0 : 0 <= IZR ORDER <= 127).
    { split; apply IZR_le; nia. }
    pose proof u_pos as Up. assert (Uv := u_val).
    set (uu := pow2 (-24)) in *.
    assert (Nu : 0 <= IZR (Z.of_nat n) * uu <= / 6).
    { rewrite Nn, Uv. lra. }
    pose proof (pow_hi n ltac:(fold uu; lra)) as PH. destruct (pow_pair n) as [PP1 PP2]. fold uu in PH, PP1, PP2.
    assert (Hhi : (1 + uu) ^ n - 1 <= 6 * IZR ORDER * uu).
    { rewrite Nn in *. set (h := (1 + uu) ^ n) in *. set (z := IZR ORDER * uu) in *.
      assert (Z0 : 0 <= z) by (unfold z; nra).
      replace (5 * IZR ORDER * uu) with (5 * z) in * by (unfold z; ring).
      replace (6 * IZR ORDER * uu) with (6 * z) by (unfold z; ring).
      destruct (Rle_or_lt (h - 1) (6 * z)) as [|C]; [assumption|].
      exfalso. assert (5 * z * h <= 6 * z).
      { assert (h <= 6 / 5); [|nra].
        assert (h * (1 - / 6) <= 1); [|lra].
        apply Rle_trans with (h * (1 - 5 * z)); [|exact PH].
        apply Rmult_le_compat_l; lra. }
      nra. }
    assert (Ff : Rabs (f - 1) <= 6 * IZR ORDER * uu).
    { apply Rabs_le. lra. }
    rewrite E. replace (phi * f + b - phi) with ((f - 1) * phi + b) by ring.
    apply Rle_trans with (1 := Rabs_triang _ _). rewrite Rabs_mult.
    apply Rplus_le_compat; [|exact Bb]. apply Rmult_le_compat_r; [apply Rabs_pos|exact Ff].
Qed.

(** * Tabulated points *)
(** A float as a multiple of 2^-60. *)
Definition fix60 (o : outcome b32) : option Z :=
  match o with
  | Ok x =>
      match B2SF x with
      | S754_zero _ => Some 0%Z
      | S754_finite s m e =>
          if (-60 <=? e)%Z then Some (SpecFloat.cond_Zopp s (Zpos m) * 2 ^ (e + 60))%Z else None
      | _ => None
      end
  | _ => None
  end.
Lemma fix60_ok o z : fix60 o = Some z ->
  exists x, o = Ok x /\ is_finite x = true /\ B2R x = IZR z * pow2 (-60).
Proof.
  destruct o as [x| | | | ]; try discriminate. destruct x as [s|s| |s m e H]; cbn [fix60 B2SF]; try discriminate.
  - intros [= <-]. eexists. split; [reflexivity|]. split; [reflexivity|]. cbn. lra.
  - destruct (Z.leb_spec (-60) e) as [L|L]; [|discriminate]. intros [= <-].
    eexists. split; [reflexivity|]. split; [reflexivity|]. cbn [B2R].
    unfold F2R. cbn [Fnum Fexp].
    rewrite mult_IZR. change (2 ^ (e + 60))%Z with (Zpower radix2 (e + 60)). rewrite IZR_Zpower by lia.
    rewrite Rmult_assoc, <- bpow_plus. f_equal. f_equal. lia.
Qed.


(** Increasing with steps of at least 2^-4, inside [-1, 1]. *)
Fixpoint chain (lo : Z) (l : list (option Z)) : bool :=
  match l with
  | [] => true
  | Some b :: l' => (lo <=? b)%Z && (b <=? 2 ^ 60)%Z && chain (b + 2 ^ 56) l'
  | None :: _ => false
  end.
Lemma chain_ok lo l : chain lo l = true ->
  exists zs, l = map Some zs /\
    (forall i z, nth_error zs i = Some z -> (lo <= z <= 2 ^ 60)%Z) /\
    (forall i j a b, (i < j)%nat -> nth_error zs i = Some a -> nth_error zs j = Some b -> (a + 2 ^ 56 <= b)%Z).
Proof.
  revert lo. induction l as [|[b|] l IH]; intros lo H; [|cbn [chain] in H|discriminate].
  - exists []. split; [reflexivity|]. split; intros [|i]; discriminate.
  - apply andb_true_iff in H. destruct H as [H C]. apply andb_true_iff in H. destruct H as [L U].
    apply Z.leb_le in L, U. destruct (IH _ C) as (zs & -> & B & S).
    exists (b :: zs). split; [reflexivity|]. split.
    + intros [|i] z E; cbn in E; [injection E as <-; lia|]. apply B in E. lia.
    + intros [|i] [|j] x y Hij Ei Ej; cbn in Ei, Ej; try lia.
      * injection Ei as <-. apply B in Ej. lia.
      * apply (S i j); [lia|assumption|assumption].
Qed.

Lemma nth_error_map_zseq {A} (f : Z -> A) n i : (0 <= i < Z.of_nat n)%Z ->
  nth_error (map f (zseq n)) (Z.to_nat i) = Some (f i).
Proof.
  intros Hi. rewrite nth_error_map, nth_error_zseq by lia. cbn. rewrite Z2Nat.id by lia. reflexivity.
Qed.

Definition unOk (o : outcome b32) : b32 := match o with Ok x => x | _ => b32_zero end.

Lemma table_nodes s N : (0 <= N)%Z ->
  chain (- 2 ^ 60) (map (fun i => fix60 (coord_ct32 s N i)) (zseq (Z.to_nat N))) = true ->
  Points32 (coord_ct32 s N) N (fun i => unOk (coord_ct32 s N i)) /\
  Separated32 4 N (fun i => unOk (coord_ct32 s N i)).
Proof.
  intros HN H. destruct (chain_ok _ _ H) as (zs & E & B & S).
  assert (G : forall i, (0 <= i < N)%Z -> exists x z, coord_ct32 s N i = Ok x /\ is_finite x = true /\
             B2R x = IZR z * pow2 (-60) /\ nth_error zs (Z.to_nat i) = Some z).
  { intros i Hi. assert (Z1 := nth_error_map_zseq (fun i => fix60 (coord_ct32 s N i)) (Z.to_nat N) i ltac:(lia)).
    rewrite E, nth_error_map in Z1. destruct (nth_error zs (Z.to_nat i)) as [z|] eqn:Ez; [|discriminate].
    cbn in Z1. injection Z1 as Z1. symmetry in Z1. destruct (fix60_ok _ _ Z1) as (x & E1 & F1 & R1).
    exists x, z. repeat split; assumption. }
  assert (P60 : pow2 (-60) = / 1152921504606846976) by reflexivity.
  split; [|split].
  - intros i Hi. destruct (G i Hi) as (x & z & -> & _). reflexivity.
  - intros i Hi. destruct (G i Hi) as (x & z & -> & F & R & Ez). split; [exact F|]. cbn [unOk].
    apply B in Ez. rewrite R, P60. destruct Ez as [E1 E2]. apply IZR_le in E1, E2.
    cbn in E1, E2. apply Rabs_le. lra.
  - intros i k Hi Hk Hne.
    destruct (G i Hi) as (xi & zi & -> & _ & Ri & Ei).
    destruct (G k Hk) as (xk & zk & -> & _ & Rk & Ek). cbn [unOk].
    rewrite Ri, Rk, <- Rmult_minus_distr_r, <- minus_IZR, Rabs_mult, <- abs_IZR.
    rewrite (Rabs_pos_eq (pow2 (-60))) by apply bpow_ge_0.
    assert (D : (2 ^ 56 <= Z.abs (zi - zk))%Z).
    { destruct (Z.lt_total i k) as [L|[L|L]]; [| contradiction|].
      - pose proof (S (Z.to_nat i) (Z.to_nat k) zi zk ltac:(lia) Ei Ek). lia.
      - pose proof (S (Z.to_nat k) (Z.to_nat i) zk zi ltac:(lia) Ek Ei). lia. }
    apply IZR_le in D. rewrite P60. set (d := IZR (Z.abs (zi - zk))) in *.
    change (pow2 (- (4))) with (/ 16). cbn in D. lra.
Qed.

(** The numbers of points each spacing supports at compile time. *)
Definition tabulated (s : spacing) (N : Z) : Prop :=
  match s with
  | EqualSpacing => False
  | GaussLegendreSpacing => (2 <= N <= 4)%Z
  | GaussLobattoSpacing => (2 <= N <= 9)%Z
  end.

Lemma legendre_chain : forallb (fun N => chain (- 2 ^ 60)
  (map (fun i => fix60 (coord_ct32 GaussLegendreSpacing N i)) (zseq (Z.to_nat N)))) [2; 3; 4]%Z = true.
Proof. vm_compute. reflexivity. Qed.
Lemma lobatto_chain : forallb (fun N => chain (- 2 ^ 60)
  (map (fun i => fix60 (coord_ct32 GaussLobattoSpacing N i)) (zseq (Z.to_nat N)))) [2; 3; 4; 5; 6; 7; 8; 9]%Z = true.
Proof. vm_compute. reflexivity. Qed.

Lemma tabulated_nodes s N : tabulated s N ->
  exists x, Points32 (coord_ct32 s N) N x /\ Separated32 4 N x.
Proof.
  intros H. exists (fun i => unOk (coord_ct32 s N i)). destruct s; [destruct H| |].
  - cbn in H. apply table_nodes; [lia|].
    apply (proj1 (forallb_forall _ _) legendre_chain N). cbn. lia.
  - cbn in H. apply table_nodes; [lia|].
    apply (proj1 (forallb_forall _ _) lobatto_chain N). cbn. lia.
Qed.

(** * Equally spaced points *)
Lemma equal_nodes N : (2 <= N <= 25)%Z ->
  Points32 (coord_ct32 EqualSpacing N) N (x32 N) /\ Separated32 4 N (x32 N).
Proof.
  intros HN. assert (HN' : (2 <= N <= 2 ^ 20)%Z) by lia.
  split; [|split].
  - intros i Hi. now apply (equal_coord32 N HN').
  - intros i Hi. destruct (x32_ok N HN' i Hi) as (F & _ & B). split; [exact F|]. now apply Rabs_le.
  - assert (Gap : pow2 (- (4)) <= 2 / IZR (N - 1) - pow2 (-20)).
    { assert (P49 : pow2 (-20) = / 1048576) by reflexivity. rewrite P49.
      assert (N1 : 1 <= IZR (N - 1)) by (apply (IZR_le 1); lia).
      change (pow2 (- (4))) with (/ 16).
      assert (IZR (N - 1) <= 24) by (apply IZR_le; lia).
      assert (2 / 24 <= 2 / IZR (N - 1)); [|lra].
      unfold Rdiv. apply Rmult_le_compat_l; [lra|]. apply Rinv_le; lra. }
    pose proof (bpow_gt_0 radix2 (- (4))).
    intros i k Hi Hk Hne. destruct (Z.lt_total i k) as [L|[L|L]]; [| contradiction|].
    + pose proof (x32_sep N HN' i k ltac:(lia) L ltac:(lia)). rewrite Rabs_left1; lra.
    + pose proof (x32_sep N HN' k i ltac:(lia) L ltac:(lia)). rewrite Rabs_pos_eq; lra.
Qed.

Definition supported32 (s : spacing) (ORDER : Z) : Prop :=
  match s with
  | EqualSpacing => (1 <= ORDER <= 24)%Z
  | GaussLegendreSpacing => (1 <= ORDER <= 3)%Z
  | GaussLobattoSpacing => (1 <= ORDER <= 8)%Z
  end.

Lemma LagrangeBasis_coordinate ORDER s i : (0 <= ORDER < INT_MAX)%Z ->
  (n <- nSupport ORDER ;; coord_ct32 s n i) = coord_ct32 s (ORDER + 1) i.
Proof. intros H. rewrite nSupport_ok by exact H. reflexivity. Qed.

Lemma bundled_nodes32 s ORDER : supported32 s ORDER ->
  exists x, (0 <= ORDER <= 24)%Z /\
    Points32 (coord_ct32 s (ORDER + 1)) (ORDER + 1) x /\ Separated32 4 (ORDER + 1) x.
Proof.
  intros H. destruct s; cbn [supported32] in H.
  - destruct (equal_nodes (ORDER + 1)) as [P S]; [lia|]. eexists. split; [lia|]. split; [exact P|exact S].
  - destruct (tabulated_nodes GaussLegendreSpacing (ORDER + 1)) as (x & P & S); [cbn; lia|].
    exists x. split; [lia|]. split; assumption.
  - destruct (tabulated_nodes GaussLobattoSpacing (ORDER + 1)) as (x & P & S); [cbn; lia|].
    exists x. split; [lia|]. split; assumption.
Qed.

Lemma bundled_nodal32_lemma s ORDER : supported32 s ORDER ->
  exists x, Points32 (coord_ct32 s (ORDER + 1)) (ORDER + 1) x /\
  forall i, (0 <= i < ORDER + 1)%Z ->
  (exists v, bvalue (LagrangeBasis32 ORDER s) i (x i) = Ok v /\
     is_finite v = true /\ 1 - IZR ORDER * pow2 (-24) <= B2R v <= 1) /\
  (forall j, (0 <= j < ORDER + 1)%Z -> j <> i ->
   exists v, bvalue (LagrangeBasis32 ORDER s) i (x j) = Ok v /\ IsFloat v 0).
Proof.
  intros H. destruct (bundled_nodes32 s ORDER H) as (x & HO & P & S).
  assert (HO' : (0 <= ORDER < INT_MAX)%Z) by (unfold INT_MAX; lia).
  exists x. split; [exact P|]. intros i Hi.
  destruct (nodal32_lemma ORDER 4 (fun i => n <- nSupport ORDER ;; coord_ct32 s n i) x i) as [A B].
  - lia. - lia.
  - intros k Hk. rewrite LagrangeBasis_coordinate by exact HO'. now apply P.
  - exact S. - exact Hi.
  - split; [exact A|]. apply B. lia.
Qed.

Lemma bundled_accuracy32_lemma s ORDER i y : supported32 s ORDER -> (ORDER <= 9)%Z ->
  (0 <= i < ORDER + 1)%Z -> InReference32 y ->
  exists x v phi, Points32 (coord_ct32 s (ORDER + 1)) (ORDER + 1) x /\
    bvalue (LagrangeBasis32 ORDER s) i y = Ok v /\
    bvalue (lagrange_of RNum ORDER (fun k => Ok (B2R (x k)))) i (B2R y) = Ok phi /\
    is_finite v = true /\
    Rabs (B2R v - phi) <= 6 * IZR ORDER * pow2 (-24) * Rabs phi + pow2 (-79).
Proof.
  intros H HO9 Hi Hy. destruct (bundled_nodes32 s ORDER H) as (x & HO & P & S).
  assert (HO' : (0 <= ORDER < INT_MAX)%Z) by (unfold INT_MAX; lia).
  destruct (accuracy32_lemma ORDER 4 (fun i => n <- nSupport ORDER ;; coord_ct32 s n i) x i y)
    as (v & phi & Ev & Ep & F & B).
  - exact HO'. - lia. - lia.
  - intros k Hk. rewrite LagrangeBasis_coordinate by exact HO'. now apply P.
  - exact S. - exact Hi. - exact Hy.
  - exists x, v, phi. split; [exact P|]. split; [exact Ev|]. split; [exact Ep|]. split; [exact F|].
    eapply Rle_trans; [exact B|]. apply Rplus_le_compat_l. apply bpow_le. lia.
Qed.

Lemma equal32_lemma N : (2 <= N <= 2 ^ 20)%Z ->
  exists x, Points32 (coord_ct32 EqualSpacing N) N x /\ Points32 (coord_rt32 EqualSpacing N) N x /\
    (forall i, (0 <= i < N)%Z -> is_finite (x i) = true /\ -1 <= B2R (x i) <= 1 /\
       Rabs (B2R (x i) - (-1 + 2 * IZR i / IZR (N - 1))) <= pow2 (-21)) /\
    (forall i j, (0 <= i < j)%Z -> (j < N)%Z -> B2R (x i) < B2R (x j)) /\
    B2R (x 0%Z) = -1 /\
    (B2R (x (N - 1)%Z) = 1 \/ B2R (x (N - 1)%Z) = 1 - pow2 (-23)).
Proof.
  intros HN. exists (x32 N). split; [|split; [|split; [|split; [|split]]]].
  - intros i Hi. now apply (equal_coord32 N HN).
  - intros i Hi. now apply (equal_coord32 N HN).
  - intros i Hi. destruct (x32_ok N HN i Hi) as (F & _ & B). split; [exact F|]. split; [exact B|].
    now apply x32_close.
  - intros i j Hij Hj. pose proof (x32_sep N HN i j ltac:(lia) ltac:(lia) Hj).
    pose proof (gap_pos N HN). pose proof (bpow_gt_0 radix2 (-20)). lra.
  - now apply x32_first.
  - now apply x32_last.
Qed.

