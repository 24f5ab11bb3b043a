(** Elements in doubles on their faces. *)
From Coq Require Import Reals Lra.
From Flocq Require Import Core IEEE754.BinarySingleNaN.
From Verif Require Import Base ProofBase Num ModelB64 ModelF32 SpecF32 SpecIndex ProofBox SpecNumeric SpecMath SpecBasis SpecAccuracy SpecElement64 SpecElement32 SpecFace
  ModelAssert ModelCArray SpecCArray ModelSpacing ModelLagrange ModelBasisProduct ModelMath ModelTransforms
  ProofTensor ProofGeneric ProofConform ProofFace ProofFaceIEEE ProofF32 ProofNodes32 ProofSum32 ProofElement32.
Open Scope Z_scope.

Definition one32 : b32 := b32_ofZ 1.
Definition mone32 : b32 := b32_ofZ (-1).

(** * Bits *)
Definition same32 (a b : b32) : bool :=
  match B2SF a, B2SF b with
  | SpecFloat.S754_finite s m e, SpecFloat.S754_finite s' m' e' => Bool.eqb s s' && Pos.eqb m m' && Z.eqb e e'
  | _, _ => false
  end.
Lemma same32_ok a b : same32 a b = true -> a = b.
Proof.
  unfold same32. intros H. apply B2SF_inj. destruct (B2SF a); try discriminate. destruct (B2SF b); try discriminate.
  apply andb_prop in H as [H H3]. apply andb_prop in H as [H1 H2].
  apply Bool.eqb_prop in H1. apply Pos.eqb_eq in H2. apply Z.eqb_eq in H3. congruence.
Qed.
Definition gives32 (o : outcome b32) (v : b32) : bool := match o with Ok a => same32 a v | _ => false end.
Lemma gives32_ok o v : gives32 o v = true -> o = Ok v.
Proof. destruct o; try discriminate. intros H. now rewrite (same32_ok _ _ H). Qed.

(** * The faces of the bundled bases *)
Definition ends32 (so : spacing * Z) : bool :=
  gives32 (coord_ct32 (fst so) (snd so + 1) 0) mone32 && gives32 (coord_ct32 (fst so) (snd so + 1) (snd so)) one32.
Definition exact_face32 (so : spacing * Z) : bool :=
  gives32 (bvalue (basis32 so) 0 mone32) one32 && gives32 (bvalue (basis32 so) (snd so) one32) one32.
Definition closed32 : list (spacing * Z) :=
  map (pair EqualSpacing) [1;2;3] ++ map (pair GaussLobattoSpacing) [1;2;3].
Lemma ends_check : forallb ends32 closed32 = true.
Proof. vm_compute. reflexivity. Qed.
Lemma exact_check : forallb exact_face32 closed32 = true.
Proof. vm_compute. reflexivity. Qed.

Lemma in_pairs (s : spacing) (l : list Z) n : In n l -> In (s, n) (map (pair s) l).
Proof. intros H. apply in_map_iff. exists n. auto. Qed.
Lemma closed32_in so : Supported32 so -> fst so <> GaussLegendreSpacing -> In so closed32.
Proof.
  destruct so as [s n]. unfold Supported32. intros H Hs. unfold closed32. apply in_app_iff. cbn [fst snd] in H, Hs.
  destruct s; [left|congruence|right]; apply in_pairs; cbn; lia.
Qed.
Lemma Matching32_Supported p q : Matching32 p q -> (Supported32 p /\ fst p <> GaussLegendreSpacing) /\ Supported32 q /\ fst q <> GaussLegendreSpacing.
Proof. unfold Matching32. tauto. Qed.
Lemma Matching32_value p q : Matching32 p q -> exists v, bvalue (basis32 p) (snd p) one32 = Ok v /\ bvalue (basis32 q) 0 mone32 = Ok v.
Proof.
  intros (Sp & Sq & Op & Oq). pose proof (proj1 (forallb_forall _ _) exact_check) as K. exists one32.
  pose proof (K _ (closed32_in _ Sp Op)) as K1. pose proof (K _ (closed32_in _ Sq Oq)) as K2.
  apply andb_prop in K1 as [_ K1]. apply andb_prop in K2 as [K2 _]. split; now apply gives32_ok.
Qed.
Lemma izero_of x : IsFloat x 0%R -> izero prec32 emax32 x.
Proof.
  intros [F E]. destruct x as [s| | |s m e B]; try discriminate; [now exists s|].
  exfalso. cbn in E. destruct s; apply (eq_0_F2R radix2) in E; discriminate.
Qed.
Lemma face_zeros so : Supported32 so -> fst so <> GaussLegendreSpacing -> forall i, 0 <= i < snd so + 1 ->
  (i <> 0 -> exists v, bvalue (basis32 so) i mone32 = Ok v /\ izero prec32 emax32 v) /\
  (i <> snd so -> exists v, bvalue (basis32 so) i one32 = Ok v /\ izero prec32 emax32 v).
Proof.
  intros H Hs i Hi. pose proof (supported_range so H) as R.
  destruct (bundled_nodal32_lemma (fst so) (snd so)) as (x & HP & HN).
  { destruct so as [[] n]; cbn in *; lia. }
  pose proof (proj1 (forallb_forall _ _) ends_check _ (closed32_in so H Hs)) as K. apply andb_prop in K as [K1 K2].
  apply gives32_ok in K1, K2. rewrite HP in K1, K2 by lia. injection K1 as E1. injection K2 as E2.
  destruct (HN i Hi) as [_ Z]. split; intros Hne.
  - destruct (Z 0 ltac:(lia) ltac:(congruence)) as (v & Ev & Nv). rewrite E1 in Ev. exists v. split; [exact Ev|now apply izero_of].
  - destruct (Z (snd so) ltac:(lia) ltac:(congruence)) as (v & Ev & Nv). rewrite E2 in Ev. exists v. split; [exact Ev|now apply izero_of].
Qed.

(** * Putting the directions together *)
Lemma Loc3_app a e ls rs ms P ls' rs' ms' P' : Loc3 a e ls rs ms P -> Loc3 a e ls' rs' ms' P' ->
  Loc3 a e (ls ++ ls') (rs ++ rs') (ms ++ ms') (P + P').
Proof.
  intros H H'. induction H as [|l r m p ls rs ms P Hh H IH]; [exact H'|]. cbn [app].
  replace (S (p + P) + P')%nat with (S (p + (P + P'))) by lia. now constructor.
Qed.
Lemma LocalsAt_app (N : Num) (bA bB : list (basis N)) y z lA lB : LocalsAt N bA y lA -> length y = length bA -> LocalsAt N bB z lB ->
  LocalsAt N (bA ++ bB) (y ++ z) (lA ++ lB).
Proof.
  intros HA. induction HA as [y|b bs x xi l ls Hb HA IH]; intros L HB.
  - destruct y; [exact HB|discriminate].
  - cbn [app]. constructor; [exact Hb|]. apply IH; [cbn in L; lia|exact HB].
Qed.
Lemma Psum_app A B : Psum (A ++ B) = (Psum A + Psum B)%nat.
Proof. induction A as [|so A IH]; [reflexivity|]. cbn [app Psum]. rewrite IH. lia. Qed.
Lemma ref32 z : Z.abs z <= 1 -> InReference32 (b32_ofZ z).
Proof. intros H. destruct (b32_ofZ_exact z ltac:(lia)) as [F E]. split; [exact F|]. rewrite E, <- abs_IZR. apply IZR_le. lia. Qed.

Lemma in_ln {A} (l : local A) n i : ln l = n + 1 -> 0 <= i <= n -> 0 <= i < ln l.
Proof. lia. Qed.
Lemma ln_in {A} (l : local A) n i : ln l = n + 1 -> 0 <= i < ln l -> 0 <= i < n + 1.
Proof. lia. Qed.

Section Elements.
Context (A B : list (spacing * Z)) (p q : spacing * Z) (y z : list b32).
Context (HA : Forall Supported32 A) (HB : Forall Supported32 B) (HM : Matching32 p q) (Hd : (length (A ++ p :: B) <= 3)%nat).
Context (Hy : Forall InReference32 y) (Hz : Forall InReference32 z) (Ly : length y = length A) (Lz : (length B <= length z)%nat).

Definition Element (so : spacing * Z) (x : b32) (lA lB : list (local b32)) (l : local b32) : Prop :=
  LocalsAt F32Num (map basis32 (A ++ so :: B)) (y ++ x :: z) (lA ++ l :: lB) /\
  lcounts (lA ++ l :: lB) = sizes64 (A ++ so :: B) /\ length lA = length A /\ length lB = length B /\
  LocalAt F32Num (basis32 so) x l /\ ln l = snd so + 1 /\
  exists rs ms, Loc3 (pow2 13) (pow2 (-125)) (lA ++ l :: lB) rs ms (Psum (A ++ so :: B)).

Lemma supp so : Supported32 so -> Forall Supported32 (A ++ so :: B).
Proof using All. intros H. apply Forall_app. split; [exact HA|constructor; assumption]. Qed.
Lemma elements : exists lA lB l1 l2, Element p one32 lA lB l1 /\ Element q mone32 lA lB l2 /\
  lcounts lA = sizes64 A /\ lcounts lB = sizes64 B.
Proof using All.
  destruct (grids_exist A HA) as (dA & GA & LA). destruct (LA y Hy ltac:(lia)) as (lA & A1 & A2 & A3).
  destruct (grids_exist B HB) as (dB & GB & LB). destruct (LB z Hz Lz) as (lB & B1 & B2 & B3).
  pose proof (Matching32_Supported _ _ HM) as ((Sp & _) & Sq & _).
  pose proof (grid_counts _ _ GA) as CA. pose proof (grid_counts _ _ GB) as CB.
  assert (NA : length lA = length A) by (transitivity (length (map basis32 A)); [exact (eq_sym (locals_length _ _ _ _ A1))|apply map_length]).
  assert (NB : length lB = length B) by (transitivity (length (map basis32 B)); [exact (eq_sym (locals_length _ _ _ _ B1))|apply map_length]).
  assert (One : forall so x, Supported32 so -> InReference32 x -> exists l, Element so x lA lB l).
  { intros so x Hso Hx. destruct (grid_exists so Hso) as (d & (Hn & _) & Hl). destruct (Hl x Hx) as (l & L1 & L2 & L3). exists l.
    split; [|split; [|split; [exact NA|split; [exact NB|split; [exact L1|split; [exact (eq_trans L2 Hn)|]]]]]].
    - rewrite map_app. cbn [map]. apply LocalsAt_app; [exact A1|rewrite map_length; exact Ly|]. now constructor.
    - unfold lcounts, sizes64. rewrite !map_app. cbn [map]. f_equal; [exact (eq_trans A2 CA)|]. f_equal; [exact (eq_trans L2 Hn)|exact (eq_trans B2 CB)].
    - exists (rlocals dA (map B2R y) ++ {| ln := npts d; lv := fun i => fval d i (B2R x); lg := fun i => fder d i (B2R x) |} :: rlocals dB (map B2R z)).
      exists (mlocals dA (map B2R y) ++ {| ln := npts d; lv := fun i => Rabs (fval d i (B2R x)); lg := fun i => gradient_size (npts d) (pt d) i (B2R x) |} :: mlocals dB (map B2R z)).
      rewrite Psum_app. apply Loc3_app; [exact A3|]. cbn [Psum]. constructor; [|exact B3]. cbn [lv lg]. intros i Hi.
      destruct (L3 i Hi) as (K1 & K2 & K3 & K4). auto. }
  destruct (One p one32 Sp (ref32 1 ltac:(lia))) as (l1 & E1). destruct (One q mone32 Sq (ref32 (-1) ltac:(lia))) as (l2 & E2).
  exists lA, lB, l1, l2. split; [exact E1|]. split; [exact E2|]. split; [exact (eq_trans A2 CA)|exact (eq_trans B2 CB)].
Qed.

Lemma summands_finite so x lA lB l w G : Supported32 so -> length (A ++ so :: B) = length (A ++ p :: B) -> Element so x lA lB l ->
  (forall t, InRange (sizes64 (A ++ so :: B)) t -> Data32 (w t)) ->
  forall t, InRange (lcounts (lA ++ l :: lB)) t ->
  ifin prec32 emax32 (Bmult mode_NE (mulR (N := F32Num) (factors G 0 (lA ++ l :: lB) t)) (w t)).
Proof using All.
  intros Hso Hlen (E1 & E2 & E3 & E4 & E5 & E6 & rs & ms & E7) Hw t Ht.
  assert (L3 : (length (lA ++ l :: lB) <= 3)%nat).
  { rewrite app_length in *. cbn [length] in *. rewrite E3, E4. rewrite !app_length in *. cbn [length] in *. lia. }
  assert (PB := Psum_bound _ (supp so Hso)).
  assert (NE : lA ++ l :: lB <> []) by (destruct lA; discriminate).
  assert (P3 : (Psum (A ++ so :: B) <= 100)%nat) by lia.
  destruct (summand (lA ++ l :: lB) rs ms (Psum (A ++ so :: B)) w G E7 NE L3 P3) with (t := t) as [S _]; [| |exact Ht|exact (proj1 S)].
  - intros s Hs. apply Hw. rewrite <- E2. exact Hs.
  - rewrite E2. apply points_bound; [exact (supp so Hso)|]. rewrite Hlen. exact Hd.
Qed.

Lemma sum_face lA lB l1 l2 u w G : Element p one32 lA lB l1 -> Element q mone32 lA lB l2 -> lcounts lA = sizes64 A -> lcounts lB = sizes64 B ->
  G <> Z.of_nat (length A) ->
  (forall t, InRange (sizes64 (A ++ p :: B)) t -> Data32 (u t)) -> (forall t, InRange (sizes64 (A ++ q :: B)) t -> Data32 (w t)) ->
  (forall t1 t2, InRange (sizes64 A) t1 -> InRange (sizes64 B) t2 -> u (t1 ++ snd p :: t2) = w (t1 ++ 0 :: t2)) ->
  addL (N := F32Num) (fun t => nmul F32Num (mulR (N := F32Num) (factors G 0 (lA ++ l1 :: lB) t)) (u t)) (zbox (lcounts (lA ++ l1 :: lB))) (nofZ F32Num 0) =
  addL (N := F32Num) (fun t => nmul F32Num (mulR (N := F32Num) (factors G 0 (lA ++ l2 :: lB) t)) (w t)) (zbox (lcounts (lA ++ l2 :: lB))) (nofZ F32Num 0).
Proof using All.
  intros E1 E2 CA CB HG Hu Hw Huw. pose proof (Matching32_Supported _ _ HM) as ((Sp & Op) & Sq & Oq).
  pose proof (supported_range _ Sp) as Rp. pose proof (supported_range _ Sq) as Rq.
  pose proof E1 as (_ & _ & NA & _ & (_ & _ & V1) & N1 & _). pose proof E2 as (_ & _ & _ & _ & (_ & _ & V2) & N2 & _).
  apply (element_face F32Num (ifin prec32 emax32) (izero prec32 emax32) (iclean prec32 emax32)) with (a1 := snd p) (a2 := 0).
  - exact (imul_zero_l prec32 emax32).
  - exact (imul_zero_r prec32 emax32).
  - exact (imul_fin_l prec32 emax32).
  - exact (imul_fin_r prec32 emax32).
  - exact (iadd_zero prec32 emax32).
  - exact (iadd_clean prec32 emax32).
  - discriminate.
  - exact (in_ln l1 _ (snd p) N1 ltac:(lia)).
  - exact (in_ln l2 _ 0 N2 ltac:(lia)).
  - destruct (Matching32_value _ _ HM) as (v & W1 & W2).
    destruct (V1 (snd p) (in_ln l1 _ (snd p) N1 ltac:(lia))) as [K1 _]. destruct (V2 0 (in_ln l2 _ 0 N2 ltac:(lia))) as [K2 _]. congruence.
  - intros i Hi Hne. destruct (V1 i Hi) as [K1 _]. apply (ln_in l1 _ _ N1) in Hi. destruct (face_zeros p Sp Op i Hi) as [_ F]. destruct (F Hne) as (v & W & Z). congruence.
  - intros i Hi Hne. destruct (V2 i Hi) as [K2 _]. apply (ln_in l2 _ _ N2) in Hi. destruct (face_zeros q Sq Oq i Hi) as [F _]. destruct (F Hne) as (v & W & Z). congruence.
  - intros HE. apply HG. rewrite HE. f_equal. exact NA.
  - intros t1 t2 R1 R2. change (InRange (@lcounts b32 lA) t1) in R1. change (InRange (@lcounts b32 lB) t2) in R2. rewrite CA in R1. rewrite CB in R2. now apply Huw.
  - apply (summands_finite p one32 lA lB l1 u G Sp eq_refl E1 Hu).
  - apply (summands_finite q mone32 lA lB l2 w G Sq ltac:(rewrite !app_length; reflexivity) E2 Hw).
Qed.

Lemma ne_mid (lA lB : list (local b32)) l : lA ++ l :: lB <> [].
Proof. destruct lA; discriminate. Qed.
Lemma len_el so x lA lB l : Element so x lA lB l -> length (lA ++ l :: lB) = length (A ++ so :: B).
Proof using All. intros (_ & _ & E3 & E4 & _). rewrite !app_length. cbn [length]. lia. Qed.

Lemma face_field32 c var1 var2 u w :
  (forall t, InRange (sizes64 (A ++ p :: B)) t -> var1 t = Ok (u t) /\ Data32 (u t)) ->
  (forall t, InRange (sizes64 (A ++ q :: B)) t -> var2 t = Ok (w t) /\ Data32 (w t)) ->
  (forall t1 t2, InRange (sizes64 A) t1 -> InRange (sizes64 B) t2 -> u (t1 ++ snd p :: t2) = w (t1 ++ 0 :: t2)) ->
  (exists v, parent_value F32Num (Z.of_nat (length (A ++ p :: B))) (map basis32 (A ++ p :: B)) var1 (y ++ one32 :: z) = Ok v /\
     parent_value F32Num (Z.of_nat (length (A ++ q :: B))) (map basis32 (A ++ q :: B)) var2 (y ++ mone32 :: z) = Ok v) /\
  (exists g1 g2, parent_gradient F32Num c (Z.of_nat (length (A ++ p :: B))) (map basis32 (A ++ p :: B)) var1 (y ++ one32 :: z) = Ok g1 /\
     parent_gradient F32Num c (Z.of_nat (length (A ++ q :: B))) (map basis32 (A ++ q :: B)) var2 (y ++ mone32 :: z) = Ok g2 /\
     length g1 = length (A ++ p :: B) /\ length g2 = length (A ++ p :: B) /\
     forall j, (j < length (A ++ p :: B))%nat -> j <> length A -> nth j g1 one32 = nth j g2 one32).
Proof using All.
  intros Hu Hw Huw. destruct elements as (lA & lB & l1 & l2 & E1 & E2 & CA & CB).
  assert (LL : length (A ++ q :: B) = length (A ++ p :: B)) by (rewrite !app_length; reflexivity).
  pose proof (len_el _ _ _ _ _ E1) as M1. pose proof (len_el _ _ _ _ _ E2) as M2.
  pose proof E1 as (L1 & C1 & _). pose proof E2 as (L2 & C2 & _).
  assert (U1 : forall t, InRange (lcounts (lA ++ l1 :: lB)) t -> var1 t = Ok (u t)) by (intros t Ht; rewrite C1 in Ht; now apply Hu).
  assert (U2 : forall t, InRange (lcounts (lA ++ l2 :: lB)) t -> var2 t = Ok (w t)) by (intros t Ht; rewrite C2 in Ht; now apply Hw).
  split.
  - eexists. split.
    + rewrite <- M1. exact (parent_valueL F32Num _ _ var1 u _ L1 (ne_mid _ _ _) U1).
    + rewrite <- M2. etransitivity; [exact (parent_valueL F32Num _ _ var2 w _ L2 (ne_mid _ _ _) U2)|]. f_equal. symmetry. unfold tval.
      apply sum_face; try assumption; [lia| |]; intros t Ht; [now apply Hu|now apply Hw].
  - change (@length (local b32)) with (@length (local (T F32Num))) in M1, M2.
    destruct (parent_gradientL F32Num c _ _ var1 u _ L1 (ne_mid _ _ _)) as (g1 & G1 & K1 & P1); [unfold INT_MAX; lia|exact U1|].
    destruct (parent_gradientL F32Num c _ _ var2 w _ L2 (ne_mid _ _ _)) as (g2 & G2 & K2 & P2); [unfold INT_MAX; lia|exact U2|].
    exists g1, g2. rewrite M1 in *. rewrite M2 in *. split; [exact G1|]. split; [exact G2|]. split; [exact K1|]. split; [congruence|].
    intros j Hj Hne. rewrite (nth_indep g1 one32 (nofZ F32Num 0)) by congruence. rewrite (nth_indep g2 one32 (nofZ F32Num 0)) by congruence.
    rewrite P1 by exact Hj. rewrite P2 by congruence. unfold tder.
    apply sum_face; try assumption; [lia| |]; intros t Ht; [now apply Hu|now apply Hw].
Qed.

Lemma face_cell32 c mem1 mem2 X1 X2 : length (y ++ one32 :: z) = 3%nat ->
  Holds (owning (sizes64 (A ++ p :: B) ++ [Z.of_nat (length (A ++ p :: B))])) mem1 X1 ->
  Holds (owning (sizes64 (A ++ q :: B) ++ [Z.of_nat (length (A ++ q :: B))])) mem2 X2 ->
  (forall t i, InRange (sizes64 (A ++ p :: B)) t -> 0 <= i < Z.of_nat (length (A ++ p :: B)) -> Data32 (X1 (t ++ [i]))) ->
  (forall t i, InRange (sizes64 (A ++ q :: B)) t -> 0 <= i < Z.of_nat (length (A ++ q :: B)) -> Data32 (X2 (t ++ [i]))) ->
  (forall t1 t2 i, InRange (sizes64 A) t1 -> InRange (sizes64 B) t2 -> 0 <= i < Z.of_nat (length (A ++ p :: B)) ->
     X1 (t1 ++ snd p :: t2 ++ [i]) = X2 (t1 ++ 0 :: t2 ++ [i])) ->
  exists J1 J2 K1 K2,
    jacobian_wrapper F32Num c (Z.of_nat (length (A ++ p :: B))) (map basis32 (A ++ p :: B)) mem1 (y ++ one32 :: z) = Ok J1 /\
    jacobian_wrapper F32Num c (Z.of_nat (length (A ++ q :: B))) (map basis32 (A ++ q :: B)) mem2 (y ++ mone32 :: z) = Ok J2 /\
    Holds (owning [Z.of_nat (length (A ++ p :: B)); Z.of_nat (length (A ++ p :: B))]) J1 K1 /\
    Holds (owning [Z.of_nat (length (A ++ p :: B)); Z.of_nat (length (A ++ p :: B))]) J2 K2 /\
    forall i j, 0 <= i < Z.of_nat (length (A ++ p :: B)) -> (j < length (A ++ p :: B))%nat -> j <> length A ->
      K1 [i; Z.of_nat j] = K2 [i; Z.of_nat j].
Proof using All.
  intros Hx H1 H2 D1 D2 HX. destruct elements as (lA & lB & l1 & l2 & E1 & E2 & CA & CB).
  assert (LL : length (A ++ q :: B) = length (A ++ p :: B)) by (rewrite !app_length; reflexivity).
  pose proof (len_el _ _ _ _ _ E1) as M1. pose proof (len_el _ _ _ _ _ E2) as M2.
  pose proof E1 as (L1 & C1 & _). pose proof E2 as (L2 & C2 & _).
  assert (Hx2 : length (y ++ mone32 :: z) = 3%nat) by (rewrite app_length in *; exact Hx).
  assert (H1' : Holds (owning (lcounts (lA ++ l1 :: lB) ++ [Z.of_nat (length (lA ++ l1 :: lB))])) mem1 X1) by (rewrite C1, M1; exact H1).
  assert (H2' : Holds (owning (lcounts (lA ++ l2 :: lB) ++ [Z.of_nat (length (lA ++ l2 :: lB))])) mem2 X2) by (rewrite C2, M2; exact H2).
  change (@length (local b32)) with (@length (local (T F32Num))) in M1, M2.
  destruct (jacobian_wrapperL F32Num c _ _ mem1 X1 _ L1 (ne_mid _ _ _) Hx) as (J1 & EJ1 & _ & HJ1); [exact H1'|].
  destruct (jacobian_wrapperL F32Num c _ _ mem2 X2 _ L2 (ne_mid _ _ _) Hx2) as (J2 & EJ2 & _ & HJ2); [exact H2'|].
  rewrite M1 in EJ1, HJ1. rewrite M2 in EJ2, HJ2. rewrite LL in HJ2.
  exists J1, J2. eexists. eexists. split; [exact EJ1|]. split; [exact EJ2|]. split; [exact HJ1|]. split; [exact HJ2|].
  intros i j Hi Hj Hne. cbv beta. unfold contribL. cbn [nth]. rewrite Nat2Z.id. unfold tder.
  apply (sum_face lA lB l1 l2 (fun t => X1 (t ++ [i])) (fun t => X2 (t ++ [i])) (Z.of_nat j)); try assumption; [lia| | |].
  - intros t Ht. now apply D1.
  - intros t Ht. apply D2; [exact Ht|]. rewrite LL. exact Hi.
  - intros t1 t2 R1 R2. rewrite <- !app_assoc. cbn [app]. now apply HX.
Qed.
End Elements.
