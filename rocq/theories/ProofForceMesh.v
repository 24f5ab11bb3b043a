(** Forces on an inner vertex of a mesh cancel. *)
From Coq Require Import ZArith List Reals Lia Lra Permutation.
From Verif Require Import Base ProofBase Num SpecIndex ProofBox ModelAssert ModelCArray SpecCArray ProofCArray ProofRep ModelSpacing ModelQuadrature ModelLagrange
  ModelBasisProduct ModelMath ModelTransforms SpecNumeric SpecMath SpecBasis SpecIntegral SpecMesh SpecForce ProofPoly ProofLagrange ProofSpacing ProofQuadrature ProofTensor
  ProofTransform ProofMath ProofIntegral ProofVolume ProofPatch ProofMesh ProofForce.
Import ListNotations.
Open Scope Z_scope.

Section Cells.
Context (c : ctx) (bases : list (basis RNum)) (ds : list direction) (rs : list (rule * Z)) (ws xs : list (Z -> R)) (n : nat).
Context (HE : Forall2 Evaluates bases ds) (HN : Forall Nodal ds) (Hd : length ds = 3%nat)
  (HU : Forall (fun d => npts d = 2 /\ pt d 0 = (-1)%R /\ pt d 1 = 1%R) ds)
  (Hs : Forall supported rs) (Hl : length rs = 3%nat) (Hdeg : Forall (fun r => 2 <= degree r) rs) (HR : Rules rs ws xs)
  (Hn : (1 <= n)%nat) (Hdig : Forall (fun r => (n <= digits r)%nat) rs).

Lemma xs_length : length xs = 3%nat.
Proof using Hl HR. destruct HR as (_ & H & _). congruence. Qed.
Lemma poly_volume X M : (forall t, InRange [2; 2; 2; 3] t -> (Rabs (X t) <= M)%R) ->
  (Rabs (quadrature rs ws xs (fun xi => det 3 (JM ds X xi)) - hexVolume (fun a b e i => X [a; b; e; i])) <= 27 * tenth n * (384 * M ^ 3))%R.
Proof using All.
  intros HM. set (ts := dterms (colA X) (colB X) (colC X)).
  assert (E : quadrature rs ws xs (fun xi => det 3 (JM ds X xi)) = quadrature rs ws xs (sparse ts)).
  { apply BoxSum_ext. intros q Hq. f_equal. pose proof (point_length rs xs q Hl xs_length Hq) as L.
    destruct (point_at xs q) as [|x [|y [|z [|]]]]; try discriminate. exact (det_Jmat ds X x y z Hd HN HU). }
  rewrite E. rewrite <- volume_sparse. fold ts.
  assert (HMp : (0 <= M)%R).
  { eapply Rle_trans; [apply Rabs_pos|]. apply (HM [0; 0; 0; 0]). apply InRange4; lia. }
  pose proof (tensor_quadrature_lemma rs ws xs ts (isparse ts) n Hs HR Hn Hdig
    (expo_degree rs Hs Hl Hdeg _ _ _)) as T.
  rewrite Hl in T.
  assert (Hlen : Forall (fun t : R * list Z => length (snd t) = 3%nat) ts).
  { apply Forall_forall. intros t Ht. unfold ts, dterms in Ht. apply in_map_iff in Ht.
    destruct Ht as (((p & q) & r) & <- & _). reflexivity. }
  specialize (T (proj1 (Integral_sparse 3 ts Hlen))).
  eapply Rle_trans; [exact T|]. replace (3 ^ 3)%R with 27%R by (cbn; ring).
  apply Rmult_le_compat_l; [pose proof (tenth_pos n); nra|].
  apply size_dterms; [exact HMp|]. intros p i Hi.
  assert (B : forall a b e, 0 <= a < 2 -> 0 <= b < 2 -> 0 <= e < 2 -> (Rabs (X [a; b; e; i]) <= M)%R).
  { intros a b e Ha Hb He. apply HM. apply InRange4; lia. }
  repeat split; apply four_bound; intros a b Ha Hb; apply s8_diff; apply B; lia.
Qed.

Definition shift (x : Z -> Z -> R) (v i : Z) (s : R) : Z -> Z -> R := fun p j => (x p j + if andb (p =? v) (j =? i) then s else 0)%R.

Lemma cell_force x v i k f M : 0 <= i < 3 -> (0 < M)%R -> (forall p j, CellVertex p k -> 0 <= j < 3 -> (Rabs (x p j) <= M)%R) ->
  OccursOnce v k -> CellForce c bases rs ws xs x v i k f ->
  (Rabs (M * f - (hexVolume (fun a b e => shift x v i M (k a b e)) - hexVolume (fun a b e => x (k a b e)))) <= 27 * tenth n * (3456 * M ^ 3))%R.
Proof using All.
  intros Hi HMp HM HO [(a & b & e & mem & X & Ha & Hb & He & Hv & HX & HV & HF)|(HC & ->)].
  - assert (Hcn : counts ds = [2; 2; 2]) by (apply counts_hex; assumption).
    assert (HX3 : Holds (owning (counts ds ++ [3])) mem X) by (rewrite Hcn; exact HX).
    assert (IRt : InRange (counts ds) [a; b; e]) by (rewrite Hcn; repeat (constructor; [lia|]); constructor).
    rewrite (force_sum c bases ds rs ws xs mem X [a; b; e] i f HE Hd Hl xs_length HX3 IRt Hi HF).
    set (X' := fun t => match t with [a'; b'; e'; j] => shift x v i M (k a' b' e') j | _ => 0%R end).
    assert (HMv : MovedNode (counts ds) [a; b; e] i M X X').
    { intros t' j Ht' Hj. rewrite Hcn in Ht'. apply InRange3 in Ht'. destruct Ht' as (a' & b' & e' & -> & Ha' & Hb' & He').
      cbn [app X']. unfold X', shift. rewrite HV by assumption. f_equal.
      assert (Q : (k a' b' e' =? v) = tuple_eqb [a'; b'; e'] [a; b; e]).
      { destruct (tuple_eqb [a'; b'; e'] [a; b; e]) eqn:Et.
        - apply tuple_eqb_spec in Et. injection Et as -> -> ->. now apply Z.eqb_eq.
        - apply Z.eqb_neq. intros K. destruct (HO a' b' e' a b e Ha' Hb' He' Ha Hb He K Hv) as (-> & -> & ->).
          assert (tuple_eqb [a; b; e] [a; b; e] = true) by (now apply tuple_eqb_spec). congruence. }
      rewrite Q. reflexivity. }
    pose proof (moved_quadrature ds rs ws xs [a; b; e] i M X X' IRt Hi HMv) as Q.
    assert (B1 := poly_volume X M). assert (B2 := poly_volume X' (2 * M)).
    rewrite (hex_ext (fun a0 b0 e0 i0 => X [a0; b0; e0; i0]) (fun a b e => x (k a b e))) in B1 by (intros; now apply HV).
    change (fun a0 b0 e0 i0 => X' [a0; b0; e0; i0]) with (fun a b e => shift x v i M (k a b e)) in B2.
    specialize (B1 ltac:(intros t Ht; destruct (InRange_cell t Ht) as (a' & b' & e' & j & -> & Ha' & Hb' & He' & Hj); rewrite HV by assumption;
      apply HM; [exists a', b', e'; auto|assumption])).
    specialize (B2 ltac:(intros t Ht; destruct (InRange_cell t Ht) as (a' & b' & e' & j & -> & Ha' & Hb' & He' & Hj); unfold X', shift;
      eapply Rle_trans; [apply Rabs_triang|]; assert (Rabs (x (k a' b' e') j) <= M)%R by (apply HM; [exists a', b', e'; auto|assumption]);
      destruct (andb (k a' b' e' =? v) (j =? i)); [rewrite (Rabs_pos_eq M) by lra; lra|rewrite Rabs_R0; lra])).
    rewrite Q in B2. set (A := quadrature rs ws xs (fun xi => det 3 (JM ds X xi))) in *.
    set (F := quadrature rs ws xs (force ds X [a; b; e] i)) in *.
    set (H2 := hexVolume (fun a b e => shift x v i M (k a b e))) in *. set (H1 := hexVolume (fun a b e => x (k a b e))) in *.
    replace (M * F - (H2 - H1))%R with ((A + M * F - H2) - (A - H1))%R by ring.
    eapply Rle_trans; [apply Rabs_triang|]. rewrite Rabs_Ropp.
    replace (27 * tenth n * (3456 * M ^ 3))%R with (27 * tenth n * (384 * (2 * M) ^ 3) + 27 * tenth n * (384 * M ^ 3))%R by (cbn [Rpow_def.pow]; ring).
    apply Rplus_le_compat; assumption.
  - rewrite (hex_ext (fun a b e => shift x v i M (k a b e)) (fun a b e => x (k a b e))).
    + replace (M * 0 - _)%R with 0%R by ring. rewrite Rabs_R0. pose proof (tenth_pos n).
      apply Rmult_le_pos; [lra|]. apply Rmult_le_pos; [lra|]. apply pow_le. lra.
    + intros a b e j Ha Hb He Hj. unfold shift. destruct (Z.eqb_spec (k a b e) v) as [E|E].
      * exfalso. apply HC. exists a, b, e. auto.
      * cbn [andb]. ring.
Qed.
End Cells.

Lemma equilibrium_lemma c bases ds rs ws xs x mesh bd v i fs M n :
  Forall2 Evaluates bases ds -> Forall Nodal ds -> length ds = 3%nat ->
  Forall (fun d => npts d = 2 /\ pt d 0 = (-1)%R /\ pt d 1 = 1%R) ds ->
  Forall supported rs -> length rs = 3%nat -> Forall (fun r => 2 <= degree r) rs -> Rules rs ws xs ->
  (1 <= n)%nat -> Forall (fun r => (n <= digits r)%nat) rs ->
  0 <= i < 3 -> (0 < M)%R -> (forall p j, MeshVertex p mesh -> 0 <= j < 3 -> (Rabs (x p j) <= M)%R) ->
  BoundaryFaces mesh bd -> (forall f, In f bd -> ~ OnFace v f) -> Forall (OccursOnce v) mesh ->
  Forall2 (CellForce c bases rs ws xs x v i) mesh fs ->
  (Rabs (Rsum fs) <= INR (length mesh) * (27 * tenth n * (3456 * M ^ 2)))%R.
Proof.
  intros HE HN Hd HU Hs Hl Hdeg HR Hn Hdig Hi HMp HM HB Hv HO HF.
  set (S1 := Rsum (map (fun k => hexVolume (fun a b e => x (k a b e))) mesh)).
  set (S2 := Rsum (map (fun k => hexVolume (fun a b e => shift x v i M (k a b e))) mesh)).
  assert (E : S2 = S1).
  { unfold S1, S2. rewrite (boundary_cones x mesh bd HB), (boundary_cones (shift x v i M) mesh bd HB). apply cones_ext.
    intros p j f Hf Hp Hj. unfold shift. destruct (Z.eqb_spec p v) as [->|N]; [now destruct (Hv f Hf)|]. cbn [andb]. ring. }
  assert (C : (Rabs (M * Rsum fs - (S2 - S1)) <= INR (length mesh) * (27 * tenth n * (3456 * M ^ 3)))%R).
  { unfold S1, S2. clear E S1 S2 HB Hv bd. induction HF as [|k f mesh fs Hk HF IH].
    - unfold Rsum. cbn [map fold_right length INR]. replace (M * 0 - (0 - 0))%R with 0%R by ring. rewrite Rabs_R0. lra.
    - inversion HO as [|? ? HOk HO']; subst.
      assert (IH' := IH ltac:(intros p j (k' & I & Hp) Hj; apply HM; [exists k'; split; [now right|exact Hp]|exact Hj]) HO'). clear IH.
      assert (CF := cell_force c bases ds rs ws xs n HE HN Hd HU Hs Hl Hdeg HR Hn Hdig x v i k f M Hi HMp
        ltac:(intros p j Hp Hj; apply HM; [exists k; split; [now left|exact Hp]|exact Hj]) HOk Hk).
      cbn [length map]. rewrite S_INR. unfold Rsum in *. cbn [fold_right].
      match goal with |- (Rabs (M * (f + ?s) - (?h + ?t - (?h' + ?t'))) <= _)%R =>
        replace (M * (f + s) - (h + t - (h' + t')))%R with ((M * f - (h - h')) + (M * s - (t - t')))%R by ring end.
      eapply Rle_trans; [apply Rabs_triang|]. rewrite Rmult_plus_distr_r, Rmult_1_l, (Rplus_comm _ (27 * _ * _)).
      apply Rplus_le_compat; [exact CF|exact IH']. }
  rewrite E in C. replace (M * Rsum fs - (S1 - S1))%R with (M * Rsum fs)%R in C by ring. rewrite Rabs_mult, (Rabs_pos_eq M) in C by lra.
  apply (Rmult_le_reg_l M); [exact HMp|]. eapply Rle_trans; [exact C|]. apply Req_le. cbn [Rpow_def.pow]. ring.
Qed.

(** Forces exist wherever the determinant does not vanish. *)
Lemma force_exists c bases ds rs ws xs mem X t k : Forall2 Evaluates bases ds -> length ds = 3%nat -> length rs = 3%nat -> length xs = 3%nat ->
  Holds (owning (counts ds ++ [3])) mem X -> InRange (counts ds) t -> 0 <= k < 3 ->
  (forall q, InRange (map snd rs) q -> det 3 (JM ds X (point_at xs q)) <> 0%R) -> exists f, NodeForce c bases rs ws xs mem t k f.
Proof.
  intros HE Hd Hr Hx HX Ht Hk HD. exists (quadrature rs ws xs (force ds X t k)). exists (force ds X t k). split; [|reflexivity].
  intros q Hq. pose proof (point_length rs xs q Hr Hx Hq) as L. set (xi := point_at xs q) in *.
  destruct (wrapper_inverse c bases ds mem X xi HE Hd L HX) as (W & _).
  destruct (W (HD q Hq)) as (invJ & B & E & HB & _).
  assert (Hg : parent_gradient_at RNum 3 bases t xi = Ok (map (fun j => dtensor j ds t xi) (seq 0 (length ds)))).
  { assert (Hb : length bases = 3%nat) by (rewrite (same_length _ _ _ HE); exact Hd).
    unfold parent_gradient_at, parent_ok, numDims. rewrite Hb. cbn [Z.of_nat Z.eqb Pos.eqb Pos.of_succ_nat Pos.succ bind].
    apply product_gradient_ok; [exact HE|destruct ds; discriminate|rewrite Hd; unfold INT_MAX; lia|exact Ht|].
    rewrite Hd. apply Nat.eq_le_incl. symmetry. exact L. }
  do 4 eexists. split; [exact Hg|]. split; [exact E|]. split; [exact HB|].
  symmetry. exact (at_force c bases ds mem X HE Hd HX xi t k _ _ invJ B L Hk Ht Hg E HB).
Qed.

(** The eight cells of ProofMesh and the vertex 13 in their middle. *)
Lemma eight_once : Forall (OccursOnce 13) eightCells.
Proof.
  apply Forall_forall. intros k Hk.
  assert (exists a0 b0 e0, k = unitCell a0 b0 e0 /\ 0 <= a0 < 2 /\ 0 <= b0 < 2 /\ 0 <= e0 < 2) as (a0 & b0 & e0 & -> & Ha0 & Hb0 & He0).
  { cbn in Hk. repeat (destruct Hk as [<-|Hk]; [do 3 eexists; split; [reflexivity|lia]|]). destruct Hk. }
  intros a b e a' b' e' Ha Hb He Ha' Hb' He' H H'. unfold unitCell in *. lia.
Qed.
Lemma eight_forces c bases ds rs ws xs i : Forall2 Evaluates bases ds -> Forall Nodal ds -> length ds = 3%nat ->
  Forall (fun d => npts d = 2 /\ pt d 0 = (-1)%R /\ pt d 1 = 1%R) ds -> length xs = 3%nat -> length rs = 3%nat -> 0 <= i < 3 ->
  exists fs, Forall2 (CellForce c bases rs ws xs (fun v j => IZR (corner v j)) 13 i) eightCells fs.
Proof.
  intros HE HN Hd HU Hx Hr Hi. assert (Hcn : counts ds = [2; 2; 2]) by (apply counts_hex; assumption).
  assert (K : forall a0 b0 e0, 0 <= a0 < 2 -> 0 <= b0 < 2 -> 0 <= e0 < 2 ->
    exists f, CellForce c bases rs ws xs (fun v j => IZR (corner v j)) 13 i (unitCell a0 b0 e0) f).
  { intros a0 b0 e0 Ha Hb He. destruct (cellMemory_ok (fun v j => IZR (corner v j)) (unitCell a0 b0 e0)) as (X & HX & HV).
    assert (HX3 : Holds (owning (counts ds ++ [3])) (cellMemory (fun v j => IZR (corner v j)) (unitCell a0 b0 e0)) X) by (rewrite Hcn; exact HX).
    destruct (force_exists c bases ds rs ws xs _ X [1 - a0; 1 - b0; 1 - e0] i HE Hd Hr Hx HX3) as (f & Hf).
    - rewrite Hcn. repeat (constructor; [lia|]). constructor.
    - exact Hi.
    - intros q Hq. pose proof (point_length rs xs q Hr Hx Hq) as L. destruct (point_at xs q) as [|x [|y [|z [|]]]]; try discriminate.
      unfold JM. rewrite (det_Jmat ds X x y z Hd HN HU).
      assert (E : sparse (dterms (colA X) (colB X) (colC X)) [x; y; z] = (/ 8)%R).
      { rewrite <- det_sparse, det_transpose. unfold triple, hexJ. cbn [Z.eqb Pos.eqb]. unfold bil, colA, colB, colC, four.
        rewrite !HV by lia. rewrite !corner_cell by lia. cbn [Z.eqb Pos.eqb]. rewrite !plus_IZR. unfold s8, sg. cbn [Z.eqb Pos.eqb]. field. }
      rewrite E. lra.
    - exists f. left. exists (1 - a0), (1 - b0), (1 - e0), (cellMemory (fun v j => IZR (corner v j)) (unitCell a0 b0 e0)), X.
      repeat (split; [first [lia|assumption|unfold unitCell; lia]|]). exact Hf. }
  assert (L : forall l, (forall k, In k l -> In k eightCells) -> exists fs, Forall2 (CellForce c bases rs ws xs (fun v j => IZR (corner v j)) 13 i) l fs).
  { induction l as [|k l IH]; intros Hl; [exists []; constructor|].
    destruct IH as (fs & Hfs); [intros k' Hk'; apply Hl; now right|].
    pose proof (Hl k (or_introl eq_refl)) as Hk.
    assert (exists a0 b0 e0, k = unitCell a0 b0 e0 /\ 0 <= a0 < 2 /\ 0 <= b0 < 2 /\ 0 <= e0 < 2) as (a0 & b0 & e0 & -> & Ha0 & Hb0 & He0).
    { cbn in Hk. repeat (destruct Hk as [<-|Hk]; [do 3 eexists; split; [reflexivity|lia]|]). destruct Hk. }
    destruct (K a0 b0 e0 Ha0 Hb0 He0) as (f & Hf). exists (f :: fs). now constructor. }
  apply L. auto.
Qed.
