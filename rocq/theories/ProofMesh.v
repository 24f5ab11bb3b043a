(** The volume of a hexahedron is the sum of the cones over its faces; opposite faces cancel. *)
From Coq Require Import ZArith List Reals Lia Lra Permutation.
From Flocq Require Import Core IEEE754.BinarySingleNaN.
From Verif Require Import Base Num SpecIndex ModelB64 SpecB64 ModelF32 SpecF32 ModelAssert ModelCArray SpecCArray ModelSpacing ModelQuadrature ModelLagrange
  ModelBasisProduct ModelTransforms SpecNumeric SpecMath SpecBasis SpecElement64 SpecElement32 SpecIntegral SpecVolume SpecMesh ProofBox ProofRep ProofTensor ProofIntegral ProofTransform ProofVolume ProofPatch.
From Verif Require ProofVolume64 ProofVolume32.
Import ListNotations.
Open Scope Z_scope.

Section Faces.
Context {V : Type} (x : V -> Z -> R).

Lemma cone_turn f : cone x (turn f) = cone x f.
Proof. destruct f as [[[p q] r] s]. unfold cone, turn, tetrahedron, triple. field. Qed.
Lemma cone_flip f : cone x (flip f) = (- cone x f)%R.
Proof. destruct f as [[[p q] r] s]. unfold cone, flip, tetrahedron, triple. field. Qed.
Lemma cone_opposite f g : Opposite f g -> (cone x f + cone x g = 0)%R.
Proof.
  intros (k & ->). assert (H : cone x (Nat.iter k turn (flip f)) = cone x (flip f)).
  { induction k as [|k IH]; [reflexivity|]. cbn [Nat.iter nat_rect]. rewrite <- IH. apply cone_turn. }
  rewrite H, cone_flip. lra.
Qed.
Definition cones (l : list (quad V)) : R := Rsum (map (cone x) l).
Lemma cones_app l l' : cones (l ++ l') = (cones l + cones l')%R.
Proof. unfold cones, Rsum in *. induction l as [|f l IH]; cbn [app map fold_right]; [lra|]. rewrite IH. lra. Qed.
Lemma cones_perm l l' : Permutation l l' -> cones l = cones l'.
Proof. unfold cones, Rsum. induction 1; cbn in *; lra. Qed.
Lemma cones_paired l : Paired l -> cones l = 0%R.
Proof. induction 1 as [|f g l H _ IH]; [reflexivity|]. unfold cones, Rsum in *. cbn. pose proof (cone_opposite f g H). lra. Qed.

Lemma hex_cones k : hexVolume (fun a b e => x (k a b e)) = cones (cellFaces k).
Proof. unfold cones, cellFaces, Rsum. cbn [map fold_right]. unfold cone, tetrahedron, hexVolume, triple. field. Qed.

Lemma mesh_cones mesh : Rsum (map (fun k => hexVolume (fun a b e => x (k a b e))) mesh) = cones (flat_map cellFaces mesh).
Proof.
  induction mesh as [|k mesh IH]; [reflexivity|].
  change (flat_map cellFaces (k :: mesh)) with (cellFaces k ++ flat_map cellFaces mesh). rewrite cones_app, <- IH, <- hex_cones.
  reflexivity.
Qed.
Lemma boundary_cones mesh bd : BoundaryFaces mesh bd ->
  Rsum (map (fun k => hexVolume (fun a b e => x (k a b e))) mesh) = Rsum (map (cone x) bd).
Proof.
  intros (inner & P & Q). rewrite mesh_cones, (cones_perm _ _ P), cones_app, (cones_paired inner Q). unfold cones. lra.
Qed.

(** Sums of volumes that are each off by at most [e]. *)
Lemma sum_close (P : hexcell V -> R -> Prop) e : forall mesh vs bd, (forall k v, In k mesh -> P k v -> (Rabs (v - hexVolume (fun a b e => x (k a b e))) <= e)%R) ->
  Forall2 P mesh vs -> BoundaryFaces mesh bd ->
  (Rabs (Rsum vs - Rsum (map (cone x) bd)) <= INR (length mesh) * e)%R.
Proof.
  intros mesh vs bd HP H B. rewrite <- (boundary_cones mesh bd B). clear B.
  induction H as [|k v mesh vs Hk _ IH]; [cbn [length map]; unfold Rsum; cbn [fold_right]; rewrite Rminus_0_r, Rabs_R0; cbn [INR]; lra|].
  cbn [length map]. rewrite S_INR. unfold Rsum in *. cbn [fold_right].
  match goal with |- (Rabs (v + ?s - (?h + ?t)) <= _)%R => replace (v + s - (h + t))%R with ((v - h) + (s - t))%R by ring end.
  eapply Rle_trans; [apply Rabs_triang|]. rewrite Rmult_plus_distr_r, Rmult_1_l, (Rplus_comm _ e).
  apply Rplus_le_compat; [exact (HP k v (or_introl eq_refl) Hk)|apply IH]. intros k' v' I. apply HP. now right.
Qed.
End Faces.

Lemma cone_ext {V} (x y : V -> Z -> R) f : (forall v i, OnFace v f -> 0 <= i < 3 -> x v i = y v i) -> cone x f = cone y f.
Proof.
  destruct f as [[[p q] r] s]. cbn. intros H. unfold cone, tetrahedron, triple.
  rewrite !(H p), !(H q), !(H r), !(H s); auto; lia.
Qed.
Lemma cones_ext {V} (x y : V -> Z -> R) bd : (forall v i f, In f bd -> OnFace v f -> 0 <= i < 3 -> x v i = y v i) ->
  Rsum (map (cone x) bd) = Rsum (map (cone y) bd).
Proof. intros H. f_equal. apply map_ext_in. intros f Hf. apply cone_ext. intros v i. apply H, Hf. Qed.

Lemma hex_ext X Y : (forall a b e i, 0 <= a < 2 -> 0 <= b < 2 -> 0 <= e < 2 -> 0 <= i < 3 -> X a b e i = Y a b e i) -> hexVolume X = hexVolume Y.
Proof. intros H. unfold hexVolume, triple. rewrite !H by lia. reflexivity. Qed.
Lemma InRange_cell t : InRange [2; 2; 2; 3] t -> exists a b e i, t = [a; b; e; i] /\ 0 <= a < 2 /\ 0 <= b < 2 /\ 0 <= e < 2 /\ 0 <= i < 3.
Proof.
  intros H. apply InRange_cons in H as (a & t1 & -> & Ha & H). apply InRange_cons in H as (b & t2 & -> & Hb & H).
  apply InRange_cons in H as (e & t3 & -> & He & H). apply InRange_cons in H as (i & t4 & -> & Hi & H).
  assert (t4 = []) as -> by (unfold InRange in H; inversion H; reflexivity). exists a, b, e, i. auto.
Qed.

(** Two bounds, for two positions of the vertices with the same boundary. *)
Lemma moved_close A B s t L e : (Rabs (A - s) <= L * e)%R -> (Rabs (B - t) <= L * e)%R -> s = t -> (Rabs (A - B) <= 2 * L * e)%R.
Proof. intros H K <-. replace (A - B)%R with ((A - s) - (B - s))%R by lra. eapply Rle_trans; [apply Rabs_triang|]. rewrite Rabs_Ropp. lra. Qed.

Section Reals.
Context (c : ctx) (bases : list (basis RNum)) (ds : list direction) (rs : list (rule * Z)) (ws xs : list (Z -> R)) (n : nat).
Context (HE : Forall2 Evaluates bases ds) (HN : Forall Nodal ds) (Hd : length ds = 3%nat)
  (HU : Forall (fun d => npts d = 2 /\ pt d 0 = (-1)%R /\ pt d 1 = 1%R) ds)
  (Hs : Forall supported rs) (Hl : length rs = 3%nat) (Hdeg : Forall (fun r => 2 <= degree r) rs) (HR : Rules rs ws xs)
  (Hn : (1 <= n)%nat) (Hdig : Forall (fun r => (n <= digits r)%nat) rs).

Lemma cell_close {V} (x : V -> Z -> R) M k v : (forall p i, CellVertex p k -> 0 <= i < 3 -> (Rabs (x p i) <= M)%R) ->
  CellVolume c bases rs ws xs x k v -> (Rabs (v - hexVolume (fun a b e => x (k a b e))) <= 27 * tenth n * (384 * M ^ 3))%R.
Proof using All.
  intros HM (mem & X & detJ & HX & HV & HJ & ->).
  rewrite <- (hex_ext (fun a b e i => X [a; b; e; i])) by (intros; now apply HV).
  apply (volume_lemma c bases ds mem X rs ws xs detJ M n); try assumption.
  intros t Ht. destruct (InRange_cell t Ht) as (a & b & e & i & -> & Ha & Hb & He & Hi). rewrite HV by assumption. apply HM; [exists a, b, e; auto|assumption].
Qed.
End Reals.

Lemma mesh_volume_lemma {V} c bases ds rs ws xs (x : V -> Z -> R) mesh bd vs M n :
  Forall2 Evaluates bases ds -> Forall Nodal ds -> length ds = 3%nat ->
  Forall (fun d => npts d = 2 /\ pt d 0 = (-1)%R /\ pt d 1 = 1%R) ds ->
  Forall supported rs -> length rs = 3%nat -> Forall (fun r => 2 <= degree r) rs -> Rules rs ws xs ->
  (1 <= n)%nat -> Forall (fun r => (n <= digits r)%nat) rs ->
  (forall p i, MeshVertex p mesh -> 0 <= i < 3 -> (Rabs (x p i) <= M)%R) ->
  BoundaryFaces mesh bd -> Forall2 (CellVolume c bases rs ws xs x) mesh vs ->
  (Rabs (Rsum vs - Rsum (map (cone x) bd)) <= INR (length mesh) * (27 * tenth n * (384 * M ^ 3)))%R.
Proof.
  intros. eapply sum_close; eauto. intros k v Hk. apply (cell_close c bases ds rs ws xs n); auto. intros p i Hp. apply H9. now exists k.
Qed.
Lemma moved_mesh_lemma {V} c bases ds rs ws xs (x y : V -> Z -> R) mesh bd vs us M n :
  Forall2 Evaluates bases ds -> Forall Nodal ds -> length ds = 3%nat ->
  Forall (fun d => npts d = 2 /\ pt d 0 = (-1)%R /\ pt d 1 = 1%R) ds ->
  Forall supported rs -> length rs = 3%nat -> Forall (fun r => 2 <= degree r) rs -> Rules rs ws xs ->
  (1 <= n)%nat -> Forall (fun r => (n <= digits r)%nat) rs ->
  (forall p i, MeshVertex p mesh -> 0 <= i < 3 -> (Rabs (x p i) <= M)%R) -> (forall p i, MeshVertex p mesh -> 0 <= i < 3 -> (Rabs (y p i) <= M)%R) ->
  BoundaryFaces mesh bd -> (forall p i f, In f bd -> OnFace p f -> 0 <= i < 3 -> x p i = y p i) ->
  Forall2 (CellVolume c bases rs ws xs x) mesh vs -> Forall2 (CellVolume c bases rs ws xs y) mesh us ->
  (Rabs (Rsum vs - Rsum us) <= 2 * INR (length mesh) * (27 * tenth n * (384 * M ^ 3)))%R.
Proof.
  intros. apply (moved_close _ _ (Rsum (map (cone x) bd)) (Rsum (map (cone y) bd)));
    [now apply (mesh_volume_lemma c bases ds rs ws xs)|now apply (mesh_volume_lemma c bases ds rs ws xs)|now apply cones_ext].
Qed.

Lemma cell_close64 {V} c specs rs ws xs (x : V -> Z -> b64) L k v : Hex64 specs -> Rules64 rs ws xs -> length rs = 3%nat -> Forall supported rs ->
  Forall (fun r => 2 <= degree r) rs -> (bpow radix2 (-110) <= L <= bpow radix2 290)%R ->
  (forall p i, CellVertex p k -> 0 <= i < 3 -> is_finite (x p i) = true /\ (Rabs (B2R (x p i)) <= L)%R) ->
  CellVolume64 c (map basis64 specs) rs ws xs x k v ->
  (Rabs (v - hexVolume (fun a b e => (fun p i => B2R (x p i)) (k a b e)))
     <= 20000 * bpow radix2 (- (if forallb (fun r => (snd r <=? 5)%Z) rs then 53 else 45)) * L ^ 3)%R.
Proof.
  intros HH HR Hl HS Hd HL HM (mem & X & D & HX & HV & HJ & ->).
  rewrite <- (hex_ext (fun a b e i => B2R (X [a; b; e; i]))) by (intros; f_equal; now apply HV).
  destruct (ProofVolume64.volume64 c specs rs ws xs mem X L HH HR Hl HS Hd HX HL) as (D' & HD & HB).
  { intros t Ht. destruct (InRange_cell t Ht) as (a & b & e & i & -> & Ha & Hb & He & Hi). rewrite HV by assumption. apply HM; [exists a, b, e; auto|assumption]. }
  erewrite BoxSum_ext; [exact HB|]. intros q Hq. cbv beta. destruct (HJ q Hq) as (i1 & E1). destruct (HD q Hq) as (i2 & E2 & _).
  assert (E : Ok (D q, i1) = Ok (D' q, i2)) by exact (eq_trans (eq_sym E1) E2). injection E as E _. now rewrite E.
Qed.
Lemma cell_close32 {V} c specs rs ws xs (x : V -> Z -> b32) L k v : Hex64 specs -> Rules32 rs ws xs -> length rs = 3%nat -> Forall supported rs ->
  Forall (fun r => 2 <= degree r) rs -> (bpow radix2 (-8) <= L <= bpow radix2 20)%R ->
  (forall p i, CellVertex p k -> 0 <= i < 3 -> is_finite (x p i) = true /\ (Rabs (B2R (x p i)) <= L)%R) ->
  CellVolume32 c (map basis32 specs) rs ws xs x k v ->
  (Rabs (v - hexVolume (fun a b e => (fun p i => B2R (x p i)) (k a b e))) <= 15000 * bpow radix2 (-23) * L ^ 3)%R.
Proof.
  intros HH HR Hl HS Hd HL HM (mem & X & D & HX & HV & HJ & ->).
  rewrite <- (hex_ext (fun a b e i => B2R (X [a; b; e; i]))) by (intros; f_equal; now apply HV).
  destruct (ProofVolume32.volume32 c specs rs ws xs mem X L HH HR Hl HS Hd HX HL) as (D' & HD & HB).
  { intros t Ht. destruct (InRange_cell t Ht) as (a & b & e & i & -> & Ha & Hb & He & Hi). rewrite HV by assumption. apply HM; [exists a, b, e; auto|assumption]. }
  erewrite BoxSum_ext; [exact HB|]. intros q Hq. cbv beta. destruct (HJ q Hq) as (i1 & E1). destruct (HD q Hq) as (i2 & E2 & _).
  assert (E : Ok (D q, i1) = Ok (D' q, i2)) by exact (eq_trans (eq_sym E1) E2). injection E as E _. now rewrite E.
Qed.

Lemma mesh_volume64 {V} c specs rs ws xs (x : V -> Z -> b64) mesh bd vs L : Hex64 specs -> Rules64 rs ws xs -> length rs = 3%nat -> Forall supported rs ->
  Forall (fun r => 2 <= degree r) rs -> (bpow radix2 (-110) <= L <= bpow radix2 290)%R ->
  (forall p i, MeshVertex p mesh -> 0 <= i < 3 -> is_finite (x p i) = true /\ (Rabs (B2R (x p i)) <= L)%R) ->
  BoundaryFaces mesh bd -> Forall2 (CellVolume64 c (map basis64 specs) rs ws xs x) mesh vs ->
  (Rabs (Rsum vs - Rsum (map (cone (fun p i => B2R (x p i))) bd))
     <= INR (length mesh) * (20000 * bpow radix2 (- (if forallb (fun r => (snd r <=? 5)%Z) rs then 53 else 45)) * L ^ 3))%R.
Proof. intros. eapply (sum_close (fun p i => B2R (x p i))); eauto. intros k v Hk. apply (cell_close64 c specs); auto. intros p i Hp. apply H5. now exists k. Qed.
Lemma mesh_volume32 {V} c specs rs ws xs (x : V -> Z -> b32) mesh bd vs L : Hex64 specs -> Rules32 rs ws xs -> length rs = 3%nat -> Forall supported rs ->
  Forall (fun r => 2 <= degree r) rs -> (bpow radix2 (-8) <= L <= bpow radix2 20)%R ->
  (forall p i, MeshVertex p mesh -> 0 <= i < 3 -> is_finite (x p i) = true /\ (Rabs (B2R (x p i)) <= L)%R) ->
  BoundaryFaces mesh bd -> Forall2 (CellVolume32 c (map basis32 specs) rs ws xs x) mesh vs ->
  (Rabs (Rsum vs - Rsum (map (cone (fun p i => B2R (x p i))) bd)) <= INR (length mesh) * (15000 * bpow radix2 (-23) * L ^ 3))%R.
Proof. intros. eapply (sum_close (fun p i => B2R (x p i))); eauto. intros k v Hk. apply (cell_close32 c specs); auto. intros p i Hp. apply H5. now exists k. Qed.

Lemma moved_mesh64 {V} c specs rs ws xs (x y : V -> Z -> b64) mesh bd vs us L : Hex64 specs -> Rules64 rs ws xs -> length rs = 3%nat -> Forall supported rs ->
  Forall (fun r => 2 <= degree r) rs -> (bpow radix2 (-110) <= L <= bpow radix2 290)%R ->
  (forall p i, MeshVertex p mesh -> 0 <= i < 3 -> is_finite (x p i) = true /\ (Rabs (B2R (x p i)) <= L)%R) ->
  (forall p i, MeshVertex p mesh -> 0 <= i < 3 -> is_finite (y p i) = true /\ (Rabs (B2R (y p i)) <= L)%R) ->
  BoundaryFaces mesh bd -> (forall p i f, In f bd -> OnFace p f -> 0 <= i < 3 -> x p i = y p i) ->
  Forall2 (CellVolume64 c (map basis64 specs) rs ws xs x) mesh vs -> Forall2 (CellVolume64 c (map basis64 specs) rs ws xs y) mesh us ->
  (Rabs (Rsum vs - Rsum us) <= 2 * INR (length mesh) * (20000 * bpow radix2 (- (if forallb (fun r => (snd r <=? 5)%Z) rs then 53 else 45)) * L ^ 3))%R.
Proof.
  intros. apply (moved_close _ _ (Rsum (map (cone (fun p i => B2R (x p i))) bd)) (Rsum (map (cone (fun p i => B2R (y p i))) bd)));
    [now apply (mesh_volume64 c specs rs ws xs)|now apply (mesh_volume64 c specs rs ws xs)|].
  apply cones_ext. intros. f_equal. eauto.
Qed.
Lemma moved_mesh32 {V} c specs rs ws xs (x y : V -> Z -> b32) mesh bd vs us L : Hex64 specs -> Rules32 rs ws xs -> length rs = 3%nat -> Forall supported rs ->
  Forall (fun r => 2 <= degree r) rs -> (bpow radix2 (-8) <= L <= bpow radix2 20)%R ->
  (forall p i, MeshVertex p mesh -> 0 <= i < 3 -> is_finite (x p i) = true /\ (Rabs (B2R (x p i)) <= L)%R) ->
  (forall p i, MeshVertex p mesh -> 0 <= i < 3 -> is_finite (y p i) = true /\ (Rabs (B2R (y p i)) <= L)%R) ->
  BoundaryFaces mesh bd -> (forall p i f, In f bd -> OnFace p f -> 0 <= i < 3 -> x p i = y p i) ->
  Forall2 (CellVolume32 c (map basis32 specs) rs ws xs x) mesh vs -> Forall2 (CellVolume32 c (map basis32 specs) rs ws xs y) mesh us ->
  (Rabs (Rsum vs - Rsum us) <= 2 * INR (length mesh) * (15000 * bpow radix2 (-23) * L ^ 3))%R.
Proof.
  intros. apply (moved_close _ _ (Rsum (map (cone (fun p i => B2R (x p i))) bd)) (Rsum (map (cone (fun p i => B2R (y p i))) bd)));
    [now apply (mesh_volume32 c specs rs ws xs)|now apply (mesh_volume32 c specs rs ws xs)|].
  apply cones_ext. intros. f_equal. eauto.
Qed.

(** Memory that holds the vertices of a cell. *)
Definition cellMemory {V A} (x : V -> Z -> A) (k : hexcell V) : list A :=
  map (fun t => match t with [a; b; e; i] => x (k a b e) i | _ => x (k 0 0 0) 0 end) (zbox [2; 2; 2; 3]).
Lemma cellMemory_ok {V A} (x : V -> Z -> A) k : exists X, Holds (owning [2; 2; 2; 3]) (cellMemory x k) X /\ Vertices x k X.
Proof.
  exists (fun t => match t with [a; b; e; i] => x (k a b e) i | _ => x (k 0 0 0) 0 end). split.
  - apply Holds_iff. split.
    + unfold view_ok, pos_dims, buflen, cellMemory. rewrite map_length. cbn [dims owning base length].
      split; [split; [discriminate|split; [repeat constructor|vm_compute; discriminate]]|split; vm_compute; discriminate].
    + intros t Ht. destruct (InRange_cell t Ht) as (a & b & e & i & -> & Ha & Hb & He & Hi).
      assert (Ca : a = 0 \/ a = 1) by lia. assert (Cb : b = 0 \/ b = 1) by lia. assert (Ce : e = 0 \/ e = 1) by lia.
      assert (Ci : i = 0 \/ i = 1 \/ i = 2) by lia.
      destruct Ca; destruct Cb; destruct Ce; destruct Ci as [?|[?|?]]; subst; reflexivity.
  - intros a b e i _ _ _ _. reflexivity.
Qed.
(** In doubles and floats every cell has a computed volume. *)
Lemma volume64_exists {V} c specs rs ws xs (x : V -> Z -> b64) L k : Hex64 specs -> Rules64 rs ws xs -> length rs = 3%nat -> Forall supported rs ->
  Forall (fun r => 2 <= degree r) rs -> (bpow radix2 (-110) <= L <= bpow radix2 290)%R ->
  (forall p i, CellVertex p k -> 0 <= i < 3 -> is_finite (x p i) = true /\ (Rabs (B2R (x p i)) <= L)%R) ->
  exists v, CellVolume64 c (map basis64 specs) rs ws xs x k v.
Proof.
  intros HH HR Hl HS Hd HL HM. destruct (cellMemory_ok x k) as (X & HX & HV).
  destruct (ProofVolume64.volume64 c specs rs ws xs _ X L HH HR Hl HS Hd HX HL) as (D & HD & _).
  { intros t Ht. destruct (InRange_cell t Ht) as (a & b & e & i & -> & Ha & Hb & He & Hi). rewrite HV by assumption. apply HM; [exists a, b, e; auto|assumption]. }
  eexists. exists (cellMemory x k), X, D. split; [exact HX|split; [exact HV|split; [|reflexivity]]].
  intros q Hq. destruct (HD q Hq) as (I & E & _). exists I. exact E.
Qed.
Lemma volume32_exists {V} c specs rs ws xs (x : V -> Z -> b32) L k : Hex64 specs -> Rules32 rs ws xs -> length rs = 3%nat -> Forall supported rs ->
  Forall (fun r => 2 <= degree r) rs -> (bpow radix2 (-8) <= L <= bpow radix2 20)%R ->
  (forall p i, CellVertex p k -> 0 <= i < 3 -> is_finite (x p i) = true /\ (Rabs (B2R (x p i)) <= L)%R) ->
  exists v, CellVolume32 c (map basis32 specs) rs ws xs x k v.
Proof.
  intros HH HR Hl HS Hd HL HM. destruct (cellMemory_ok x k) as (X & HX & HV).
  destruct (ProofVolume32.volume32 c specs rs ws xs _ X L HH HR Hl HS Hd HX HL) as (D & HD & _).
  { intros t Ht. destruct (InRange_cell t Ht) as (a & b & e & i & -> & Ha & Hb & He & Hi). rewrite HV by assumption. apply HM; [exists a, b, e; auto|assumption]. }
  eexists. exists (cellMemory x k), X, D. split; [exact HX|split; [exact HV|split; [|reflexivity]]].
  intros q Hq. destruct (HD q Hq) as (I & E & _). exists I. exact E.
Qed.
(** Over the reals it has one unless the determinant vanishes. *)
Lemma volume_exists {V} c bases ds rs ws xs (x : V -> Z -> R) k : Forall2 Evaluates bases ds -> Forall Nodal ds -> length ds = 3%nat ->
  Forall (fun d => npts d = 2 /\ pt d 0 = (-1)%R /\ pt d 1 = 1%R) ds -> length xs = 3%nat -> length rs = 3%nat ->
  (forall X xi, Vertices x k X -> length xi = 3%nat -> det 3 (fun i j => Jmat ds X xi [i; j]) <> 0%R) ->
  exists v, CellVolume c bases rs ws xs x k v.
Proof.
  intros HE HN Hd HU Hx Hr HJ. destruct (cellMemory_ok x k) as (X & HX & HV).
  assert (Hcn : counts ds = [2; 2; 2]) by (apply counts_hex; assumption).
  assert (HX3 : Holds (owning (counts ds ++ [3])) (cellMemory x k) X) by (rewrite Hcn; exact HX).
  exists (quadrature rs ws xs (fun xi => det 3 (fun i j => Jmat ds X xi [i; j]))).
  exists (cellMemory x k), X, (fun xi => det 3 (fun i j => Jmat ds X xi [i; j])). split; [exact HX|split; [exact HV|split; [|reflexivity]]].
  intros q Hq.
  assert (Hp : length (point_at xs q) = 3%nat).
  { destruct xs as [|x0 [|x1 [|x2 [|]]]]; try discriminate.
    destruct rs as [|r0 [|r1 [|r2 [|]]]]; try discriminate. cbn [map] in Hq. apply InRange3 in Hq.
    destruct Hq as (a & b & e & -> & _). reflexivity. }
  destruct (wrapper_inverse c bases ds (cellMemory x k) X (point_at xs q) HE Hd Hp HX3) as (I & _).
  destruct (I (HJ X _ HV Hp)) as (invJ & B & E & _). exists invJ. exact E.
Qed.

(** The cube [0,2]^3 cut into eight unit cubes; vertex (a,b,e) has the number a + 3 b + 9 e. *)
Definition unitCell (a0 b0 e0 : Z) : hexcell Z := fun a b e => (a0 + a) + 3 * (b0 + b) + 9 * (e0 + e).
Definition eightCells : list (hexcell Z) :=
  flat_map (fun a => flat_map (fun b => map (unitCell a b) [0; 1]) [0; 1]) [0; 1].
Definition corner (v i : Z) : Z := if i =? 0 then v mod 3 else if i =? 1 then (v / 3) mod 3 else v / 9.
Definition face (k : hexcell Z) (j : nat) : quad Z := nth j (cellFaces k) (0, 0, 0, 0).
Definition sides : list (Z * Z) := [(0, 0); (0, 1); (1, 0); (1, 1)].
Definition innerFaces : list (quad Z) :=
  flat_map (fun s => [face (unitCell 0 (fst s) (snd s)) 1; face (unitCell 1 (fst s) (snd s)) 0]) sides ++
  flat_map (fun s => [face (unitCell (fst s) 0 (snd s)) 3; face (unitCell (fst s) 1 (snd s)) 2]) sides ++
  flat_map (fun s => [face (unitCell (fst s) (snd s) 0) 5; face (unitCell (fst s) (snd s) 1) 4]) sides.
Definition outerFaces : list (quad Z) :=
  flat_map (fun s => [face (unitCell 0 (fst s) (snd s)) 0; face (unitCell 1 (fst s) (snd s)) 1]) sides ++
  flat_map (fun s => [face (unitCell (fst s) 0 (snd s)) 2; face (unitCell (fst s) 1 (snd s)) 3]) sides ++
  flat_map (fun s => [face (unitCell (fst s) (snd s) 0) 4; face (unitCell (fst s) (snd s) 1) 5]) sides.
Definition sameb (f g : quad Z) : bool :=
  let '(p, q, r, s) := f in let '(p', q', r', s') := g in (p =? p') && (q =? q') && (r =? r') && (s =? s').
Lemma sameb_ok f g : sameb f g = true <-> f = g.
Proof.
  destruct f as [[[p q] r] s], g as [[[p' q'] r'] s']. cbn. rewrite !Bool.andb_true_iff, !Z.eqb_eq. split.
  - now intros (((-> & ->) & ->) & ->).
  - intros E. injection E as -> -> -> ->. auto.
Qed.
Definition memb f l := existsb (sameb f) l.
Lemma memb_ok f l : memb f l = true <-> In f l.
Proof.
  unfold memb. rewrite existsb_exists. split.
  - intros (g & Hg & E). apply sameb_ok in E. now subst.
  - intros H. exists f. split; [exact H|now apply sameb_ok].
Qed.
Fixpoint nodupb l := match l with [] => true | f :: l' => negb (memb f l') && nodupb l' end.
Lemma nodupb_ok l : nodupb l = true -> NoDup l.
Proof.
  induction l as [|f l IH]; [constructor|]. cbn. rewrite Bool.andb_true_iff, Bool.negb_true_iff. intros (H & K).
  constructor; [|now apply IH]. intros I. apply memb_ok in I. congruence.
Qed.
Lemma eight_boundary : BoundaryFaces eightCells outerFaces.
Proof.
  exists innerFaces. split.
  - apply NoDup_Permutation; [apply nodupb_ok; vm_compute; reflexivity|apply nodupb_ok; vm_compute; reflexivity|].
    assert (A : forallb (fun f => memb f (outerFaces ++ innerFaces)) (flat_map cellFaces eightCells) = true) by (vm_compute; reflexivity).
    assert (B : forallb (fun f => memb f (flat_map cellFaces eightCells)) (outerFaces ++ innerFaces) = true) by (vm_compute; reflexivity).
    rewrite forallb_forall in A, B. intros f. split; intros H; [apply memb_ok, A, H|apply memb_ok, B, H].
  - vm_compute.
    repeat (apply a_pair; [first [exists 0%nat; reflexivity|exists 1%nat; reflexivity|exists 2%nat; reflexivity|exists 3%nat; reflexivity]|]). constructor.
Qed.
(** Vertex 13, at (1,1,1), is on no face of the boundary; and the cones over the boundary add up to 8. *)
Lemma eight_inner f : In f outerFaces -> ~ OnFace 13 f.
Proof.
  assert (A : forallb (fun f => let '(p, q, r, s) := f in negb ((p =? 13) || (q =? 13) || (r =? 13) || (s =? 13))) outerFaces = true)
    by (vm_compute; reflexivity).
  rewrite forallb_forall in A. intros H. specialize (A f H). destruct f as [[[p q] r] s]. cbn.
  rewrite Bool.negb_true_iff, !Bool.orb_false_iff, !Z.eqb_neq in A. intuition congruence.
Qed.
Definition tripleZ (u v w : Z -> Z) : Z :=
  u 0 * (v 1 * w 2 - v 2 * w 1) - u 1 * (v 0 * w 2 - v 2 * w 0) + u 2 * (v 0 * w 1 - v 1 * w 0).
Lemma tripleZ_ok u v w : triple (fun i => IZR (u i)) (fun i => IZR (v i)) (fun i => IZR (w i)) = IZR (tripleZ u v w).
Proof. unfold triple, tripleZ. rewrite plus_IZR, minus_IZR, !mult_IZR, !minus_IZR, !mult_IZR. reflexivity. Qed.
Definition coneZ (y : Z -> Z -> Z) (f : quad Z) : Z := let '(p, q, r, s) := f in
  tripleZ (y p) (y q) (y r) + tripleZ (y p) (y r) (y s) + tripleZ (y p) (y q) (y s) + tripleZ (y q) (y r) (y s).
Lemma coneZ_ok y f : cone (fun v i => IZR (y v i)) f = (IZR (coneZ y f) / 12)%R.
Proof. destruct f as [[[p q] r] s]. unfold cone, tetrahedron, coneZ. rewrite !tripleZ_ok, !plus_IZR. field. Qed.
Lemma eight_cones : Rsum (map (cone (fun v i => IZR (corner v i))) outerFaces) = 8%R.
Proof.
  assert (H : forall l, Rsum (map (cone (fun v i => IZR (corner v i))) l) = (IZR (fold_right Z.add 0%Z (map (coneZ corner) l)) / 12)%R).
  { induction l as [|f l IH]; cbn [map fold_right]; unfold Rsum in *; cbn [fold_right]; [lra|].
    rewrite IH, coneZ_ok, plus_IZR. lra. }
  rewrite H. replace (fold_right Z.add 0 (map (coneZ corner) outerFaces)) with 96 by (vm_compute; reflexivity). lra.
Qed.
Lemma corner_cell a0 b0 e0 a b e i : 0 <= a0 < 2 -> 0 <= b0 < 2 -> 0 <= a < 2 -> 0 <= b < 2 -> 0 <= i < 3 ->
  corner (unitCell a0 b0 e0 a b e) i = if i =? 0 then a0 + a else if i =? 1 then b0 + b else e0 + e.
Proof.
  intros. unfold corner, unitCell. destruct (i =? 0).
  - symmetry. apply (Z.mod_unique_pos _ 3 ((b0 + b) + 3 * (e0 + e)) (a0 + a)); lia.
  - destruct (i =? 1).
    + replace ((a0 + a + 3 * (b0 + b) + 9 * (e0 + e)) / 3) with ((b0 + b) + 3 * (e0 + e))
        by (apply (Z.div_unique_pos _ 3 ((b0 + b) + 3 * (e0 + e)) (a0 + a)); lia).
      symmetry. apply (Z.mod_unique_pos _ 3 (e0 + e) (b0 + b)); lia.
    + symmetry. apply (Z.div_unique_pos _ 9 (e0 + e) ((a0 + a) + 3 * (b0 + b))); lia.
Qed.
(** Every one of the eight cells has a computed volume. *)
Lemma eight_volumes c bases ds rs ws xs : Forall2 Evaluates bases ds -> Forall Nodal ds -> length ds = 3%nat ->
  Forall (fun d => npts d = 2 /\ pt d 0 = (-1)%R /\ pt d 1 = 1%R) ds -> length xs = 3%nat -> length rs = 3%nat ->
  exists vs, Forall2 (CellVolume c bases rs ws xs (fun v i => IZR (corner v i))) eightCells vs.
Proof.
  intros HE HN Hd HU Hx Hr.
  assert (K : forall a0 b0 e0, 0 <= a0 < 2 -> 0 <= b0 < 2 -> exists v, CellVolume c bases rs ws xs (fun v i => IZR (corner v i)) (unitCell a0 b0 e0) v).
  { intros a0 b0 e0 Ha Hb. apply (volume_exists c bases ds); try assumption. intros X xi HV Hxi.
    destruct xi as [|x [|y [|z [|]]]]; try discriminate. rewrite (det_Jmat ds X x y z Hd HN HU).
    assert (E : sparse (dterms (colA X) (colB X) (colC X)) [x; y; z] = (/ 8)%R).
    { rewrite <- det_sparse, det_transpose. unfold triple, hexJ. cbn [Z.eqb Pos.eqb]. unfold bil, colA, colB, colC, four.
      rewrite !HV by lia. rewrite !corner_cell by lia. cbn [Z.eqb Pos.eqb]. rewrite !plus_IZR. unfold s8, sg. cbn [Z.eqb Pos.eqb]. field. }
    rewrite E. lra. }
  unfold eightCells. cbn [flat_map map app].
  destruct (K 0 0 0) as (v0 & H0); [lia|lia|]. destruct (K 0 0 1) as (v1 & H1); [lia|lia|].
  destruct (K 0 1 0) as (v2 & H2); [lia|lia|]. destruct (K 0 1 1) as (v3 & H3); [lia|lia|].
  destruct (K 1 0 0) as (v4 & H4); [lia|lia|]. destruct (K 1 0 1) as (v5 & H5); [lia|lia|].
  destruct (K 1 1 0) as (v6 & H6); [lia|lia|]. destruct (K 1 1 1) as (v7 & H7); [lia|lia|].
  exists [v0; v1; v2; v3; v4; v5; v6; v7]. repeat (constructor; [assumption|]). constructor.
Qed.
Lemma eight_bound p i : MeshVertex p eightCells -> 0 <= i < 3 -> (Rabs (IZR (corner p i)) <= 2)%R.
Proof.
  intros (k & Hk & a & b & e & Ha & Hb & He & ->) Hi.
  assert (exists a0 b0 e0, k = unitCell a0 b0 e0 /\ 0 <= a0 < 2 /\ 0 <= b0 < 2 /\ 0 <= e0 < 2) as (a0 & b0 & e0 & -> & Ha0 & Hb0 & He0).
  { cbn in Hk. repeat (destruct Hk as [<-|Hk]; [do 3 eexists; split; [reflexivity|lia]|]). destruct Hk. }
  rewrite corner_cell by assumption. rewrite <- abs_IZR. apply IZR_le. destruct (i =? 0); [lia|]. destruct (i =? 1); lia.
Qed.
