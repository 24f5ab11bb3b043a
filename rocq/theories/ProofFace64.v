(** Elements in doubles on their faces. *)
From Coq Require Import Reals Lra.
From Flocq Require Import Core IEEE754.BinarySingleNaN.
From Verif Require Import Base ProofBase Num ModelB64 SpecIndex ProofBox SpecB64 SpecNumeric SpecMath SpecBasis SpecAccuracy SpecElement64 SpecFace
  ModelAssert ModelCArray SpecCArray ModelSpacing ModelLagrange ModelBasisProduct ModelMath ModelTransforms
  ProofTensor ProofGeneric ProofConform ProofFace ProofFaceIEEE ProofB64 ProofNodes64 ProofSum64 ProofElement64.
Open Scope Z_scope.

Definition one64 : b64 := b64_ofZ 1.
Definition mone64 : b64 := b64_ofZ (-1).

(** * Bits *)
Definition same64 (a b : b64) : bool :=
  match B2SF a, B2SF b with
  | SpecFloat.S754_finite s m e, SpecFloat.S754_finite s' m' e' => Bool.eqb s s' && Pos.eqb m m' && Z.eqb e e'
  | _, _ => false
  end.
Lemma same64_ok a b : same64 a b = true -> a = b.
Proof.
  unfold same64. intros H. apply B2SF_inj. destruct (B2SF a); try discriminate. destruct (B2SF b); try discriminate.
  apply andb_prop in H as [H H3]. apply andb_prop in H as [H1 H2].
  apply Bool.eqb_prop in H1. apply Pos.eqb_eq in H2. apply Z.eqb_eq in H3. congruence.
Qed.
Definition gives64 (o : outcome b64) (v : b64) : bool := match o with Ok a => same64 a v | _ => false end.
Lemma gives64_ok o v : gives64 o v = true -> o = Ok v.
Proof. destruct o; try discriminate. intros H. now rewrite (same64_ok _ _ H). Qed.

(** * The faces of the bundled bases *)
Definition ends64 (so : spacing * Z) : bool :=
  gives64 (coord_ct B64Num (fst so) (snd so + 1) 0) mone64 && gives64 (coord_ct B64Num (fst so) (snd so + 1) (snd so)) one64.
Definition exact_face64 (so : spacing * Z) : bool :=
  gives64 (bvalue (basis64 so) 0 mone64) one64 && gives64 (bvalue (basis64 so) (snd so) one64) one64.
Definition even_face64 (so : spacing * Z) : bool :=
  match bvalue (basis64 so) 0 mone64 with Ok v => gives64 (bvalue (basis64 so) (snd so) one64) v | _ => false end.
Definition closed64 : list (spacing * Z) :=
  map (pair EqualSpacing) [1;2;3;4;5;6;7;8;9;10;11;12;13;14;15] ++ map (pair GaussLobattoSpacing) [1;2;3;4;5;6;7;8].
Definition exact64 : list (spacing * Z) :=
  map (pair EqualSpacing) [1;2;3;4;5;6;7;8;10;11;12;14;15] ++ map (pair GaussLobattoSpacing) [1;2;3;4].
Lemma ends_check : forallb ends64 closed64 = true.
Proof. vm_compute. reflexivity. Qed.
Lemma exact_check : forallb exact_face64 exact64 = true.
Proof. vm_compute. reflexivity. Qed.
Lemma even_check : forallb even_face64 (map (pair GaussLobattoSpacing) [1;2;3;4;5;6;7;8]) = true.
Proof. vm_compute. reflexivity. Qed.

Lemma in_pairs (s : spacing) (l : list Z) n : In n l -> In (s, n) (map (pair s) l).
Proof. intros H. apply in_map_iff. exists n. auto. Qed.
Lemma closed64_in so : Supported64 so -> fst so <> GaussLegendreSpacing -> In so closed64.
Proof.
  destruct so as [s n]. intros H Hs. unfold closed64. apply in_app_iff.
  destruct s; cbn in H, Hs; [left|congruence|right]; apply in_pairs; cbn; lia.
Qed.
Lemma exact64_in so : FaceExact64 so -> In so exact64.
Proof.
  destruct so as [s n]. intros H. unfold exact64. apply in_app_iff.
  destruct s; cbn in H; [left|contradiction|right]; apply in_pairs; cbn; lia.
Qed.
Lemma FaceExact64_Supported so : FaceExact64 so -> Supported64 so /\ fst so <> GaussLegendreSpacing.
Proof. destruct so as [[] n]; cbn; intros H; split; try lia; congruence || contradiction. Qed.
Lemma Matching64_Supported p q : Matching64 p q -> (Supported64 p /\ fst p <> GaussLegendreSpacing) /\ Supported64 q /\ fst q <> GaussLegendreSpacing.
Proof.
  intros [[H1 H2]|(<- & H1 & H2)]; [split; now apply FaceExact64_Supported|].
  destruct p as [s n]. cbn in H1, H2. subst s. cbn. repeat split; lia || congruence.
Qed.
Lemma Matching64_value p q : Matching64 p q -> exists v, bvalue (basis64 p) (snd p) one64 = Ok v /\ bvalue (basis64 q) 0 mone64 = Ok v.
Proof.
  intros [[H1 H2]|(<- & H1 & H2)].
  - pose proof (proj1 (forallb_forall _ _) exact_check) as K. exists one64.
    pose proof (K _ (exact64_in _ H1)) as K1. pose proof (K _ (exact64_in _ H2)) as K2.
    apply andb_prop in K1 as [_ K1]. apply andb_prop in K2 as [K2 _]. split; now apply gives64_ok.
  - destruct p as [s n]. cbn in H1, H2. subst s.
    assert (I : In (GaussLobattoSpacing, n) (map (pair GaussLobattoSpacing) [1;2;3;4;5;6;7;8])) by (apply in_pairs; cbn; lia).
    pose proof (proj1 (forallb_forall _ _) even_check _ I) as K. unfold even_face64 in K.
    destruct (bvalue (basis64 (GaussLobattoSpacing, n)) 0 mone64) as [v| | | |]; try discriminate. exists v. split; [now apply gives64_ok|reflexivity].
Qed.
Lemma izero_of x : IsNum x 0%R -> izero prec64 emax64 x.
Proof.
  intros [F E]. destruct x as [s| | |s m e B]; try discriminate; [now exists s|].
  exfalso. cbn in E. destruct s; apply (eq_0_F2R radix2) in E; discriminate.
Qed.
Lemma face_zeros so : Supported64 so -> fst so <> GaussLegendreSpacing -> forall i, 0 <= i < snd so + 1 ->
  (i <> 0 -> exists v, bvalue (basis64 so) i mone64 = Ok v /\ izero prec64 emax64 v) /\
  (i <> snd so -> exists v, bvalue (basis64 so) i one64 = Ok v /\ izero prec64 emax64 v).
Proof.
  intros H Hs i Hi. pose proof (supported_range so H) as R.
  destruct (bundled_nodal64_lemma (fst so) (snd so)) as (x & HP & HN).
  { destruct (supported64_of so H) as [S _]. exact S. }
  pose proof (proj1 (forallb_forall _ _) ends_check _ (closed64_in so H Hs)) as K. apply andb_prop in K as [K1 K2].
  apply gives64_ok in K1, K2. rewrite HP in K1, K2 by lia. injection K1 as E1. injection K2 as E2.
  destruct (HN i Hi) as [_ Z]. split; intros Hne.
  - destruct (Z 0 ltac:(lia) ltac:(congruence)) as (v & Ev & Nv). rewrite E1 in Ev. exists v. split; [exact Ev|now apply izero_of].
  - destruct (Z (snd so) ltac:(lia) ltac:(congruence)) as (v & Ev & Nv). rewrite E2 in Ev. exists v. split; [exact Ev|now apply izero_of].
Qed.

(** * Putting the directions together *)
Lemma Loc3_app a e ls rs ms P ls' rs' ms' P' : Loc3 a e ls rs ms P -> Loc3 a e ls' rs' ms' P' ->
  Loc3 a e (ls ++ ls') (rs ++ rs') (ms ++ ms') (P + P').
Proof.
  intros H H'. induction H as [|l r m p ls rs ms P Hh H IH]; [exact H'|]. cbn [app].
  replace (S (p + P) + P')%nat with (S (p + (P + P'))) by lia. now constructor.
Qed.
Lemma LocalsAt_app (N : Num) (bA bB : list (basis N)) y z lA lB : LocalsAt N bA y lA -> length y = length bA -> LocalsAt N bB z lB ->
  LocalsAt N (bA ++ bB) (y ++ z) (lA ++ lB).
Proof.
  intros HA. induction HA as [y|b bs x xi l ls Hb HA IH]; intros L HB.
  - destruct y; [exact HB|discriminate].
  - cbn [app]. constructor; [exact Hb|]. apply IH; [cbn in L; lia|exact HB].
Qed.
Lemma Psum_app A B : Psum (A ++ B) = (Psum A + Psum B)%nat.
Proof. induction A as [|so A IH]; [reflexivity|]. cbn [app Psum]. rewrite IH. lia. Qed.
Lemma ref64 z : Z.abs z <= 1 -> InReference (b64_ofZ z).
Proof. intros H. destruct (b64_ofZ_exact z ltac:(lia)) as [F E]. split; [exact F|]. rewrite E, <- abs_IZR. apply IZR_le. lia. Qed.

Lemma in_ln {A} (l : local A) n i : ln l = n + 1 -> 0 <= i <= n -> 0 <= i < ln l.
Proof. lia. Qed.
Lemma ln_in {A} (l : local A) n i : ln l = n + 1 -> 0 <= i < ln l -> 0 <= i < n + 1.
Proof. lia. Qed.

Section Elements.
Context (A B : list (spacing * Z)) (p q : spacing * Z) (y z : list b64).
Context (HA : Forall Supported64 A) (HB : Forall Supported64 B) (HM : Matching64 p q) (Hd : (length (A ++ p :: B) <= 3)%nat).
Context (Hy : Forall InReference y) (Hz : Forall InReference z) (Ly : length y = length A) (Lz : (length B <= length z)%nat).

Definition Element (so : spacing * Z) (x : b64) (lA lB : list (local b64)) (l : local b64) : Prop :=
  LocalsAt B64Num (map basis64 (A ++ so :: B)) (y ++ x :: z) (lA ++ l :: lB) /\
  lcounts (lA ++ l :: lB) = sizes64 (A ++ so :: B) /\ length lA = length A /\ length lB = length B /\
  LocalAt B64Num (basis64 so) x l /\ ln l = snd so + 1 /\
  exists rs ms, Loc3 (pow2 100) (pow2 (-930)) (lA ++ l :: lB) rs ms (Psum (A ++ so :: B)).

Lemma supp so : Supported64 so -> Forall Supported64 (A ++ so :: B).
Proof using All. intros H. apply Forall_app. split; [exact HA|constructor; assumption]. Qed.
Lemma elements : exists lA lB l1 l2, Element p one64 lA lB l1 /\ Element q mone64 lA lB l2 /\
  lcounts lA = sizes64 A /\ lcounts lB = sizes64 B.
Proof using All.
  destruct (grids_exist A HA) as (dA & GA & LA). destruct (LA y Hy ltac:(lia)) as (lA & A1 & A2 & A3).
  destruct (grids_exist B HB) as (dB & GB & LB). destruct (LB z Hz Lz) as (lB & B1 & B2 & B3).
  pose proof (Matching64_Supported _ _ HM) as ((Sp & _) & Sq & _).
  pose proof (grid_counts _ _ GA) as CA. pose proof (grid_counts _ _ GB) as CB.
  assert (NA : length lA = length A) by (transitivity (length (map basis64 A)); [exact (eq_sym (locals_length _ _ _ _ A1))|apply map_length]).
  assert (NB : length lB = length B) by (transitivity (length (map basis64 B)); [exact (eq_sym (locals_length _ _ _ _ B1))|apply map_length]).
  assert (One : forall so x, Supported64 so -> InReference x -> exists l, Element so x lA lB l).
  { intros so x Hso Hx. destruct (grid_exists so Hso) as (d & (Hn & _) & Hl). destruct (Hl x Hx) as (l & L1 & L2 & L3). exists l.
    split; [|split; [|split; [exact NA|split; [exact NB|split; [exact L1|split; [exact (eq_trans L2 Hn)|]]]]]].
    - rewrite map_app. cbn [map]. apply LocalsAt_app; [exact A1|rewrite map_length; exact Ly|]. now constructor.
    - unfold lcounts, sizes64. rewrite !map_app. cbn [map]. f_equal; [exact (eq_trans A2 CA)|]. f_equal; [exact (eq_trans L2 Hn)|exact (eq_trans B2 CB)].
    - exists (rlocals dA (map B2R y) ++ {| ln := npts d; lv := fun i => fval d i (B2R x); lg := fun i => fder d i (B2R x) |} :: rlocals dB (map B2R z)).
      exists (mlocals dA (map B2R y) ++ {| ln := npts d; lv := fun i => Rabs (fval d i (B2R x)); lg := fun i => gradient_size (npts d) (pt d) i (B2R x) |} :: mlocals dB (map B2R z)).
      rewrite Psum_app. apply Loc3_app; [exact A3|]. cbn [Psum]. constructor; [|exact B3]. cbn [lv lg]. intros i Hi.
      destruct (L3 i Hi) as (K1 & K2 & K3 & K4). auto. }
  destruct (One p one64 Sp (ref64 1 ltac:(lia))) as (l1 & E1). destruct (One q mone64 Sq (ref64 (-1) ltac:(lia))) as (l2 & E2).
  exists lA, lB, l1, l2. split; [exact E1|]. split; [exact E2|]. split; [exact (eq_trans A2 CA)|exact (eq_trans B2 CB)].
Qed.

Lemma summands_finite so x lA lB l w G : Supported64 so -> length (A ++ so :: B) = length (A ++ p :: B) -> Element so x lA lB l ->
  (forall t, InRange (sizes64 (A ++ so :: B)) t -> Data64 (w t)) ->
  forall t, InRange (lcounts (lA ++ l :: lB)) t ->
  ifin prec64 emax64 (Bmult mode_NE (mulR (N := B64Num) (factors G 0 (lA ++ l :: lB) t)) (w t)).
Proof using All.
  intros Hso Hlen (E1 & E2 & E3 & E4 & E5 & E6 & rs & ms & E7) Hw t Ht.
  assert (L3 : (length (lA ++ l :: lB) <= 3)%nat).
  { rewrite app_length in *. cbn [length] in *. rewrite E3, E4. rewrite !app_length in *. cbn [length] in *. lia. }
  assert (PB := Psum_bound _ (supp so Hso)).
  assert (NE : lA ++ l :: lB <> []) by (destruct lA; discriminate).
  assert (P3 : (Psum (A ++ so :: B) <= 1000)%nat) by lia.
  destruct (summand (lA ++ l :: lB) rs ms (Psum (A ++ so :: B)) w G E7 NE L3 P3) with (t := t) as [S _]; [| |exact Ht|exact (proj1 S)].
  - intros s Hs. apply Hw. rewrite <- E2. exact Hs.
  - rewrite E2. apply points_bound; [exact (supp so Hso)|]. rewrite Hlen. exact Hd.
Qed.

Lemma sum_face lA lB l1 l2 u w G : Element p one64 lA lB l1 -> Element q mone64 lA lB l2 -> lcounts lA = sizes64 A -> lcounts lB = sizes64 B ->
  G <> Z.of_nat (length A) ->
  (forall t, InRange (sizes64 (A ++ p :: B)) t -> Data64 (u t)) -> (forall t, InRange (sizes64 (A ++ q :: B)) t -> Data64 (w t)) ->
  (forall t1 t2, InRange (sizes64 A) t1 -> InRange (sizes64 B) t2 -> u (t1 ++ snd p :: t2) = w (t1 ++ 0 :: t2)) ->
  addL (N := B64Num) (fun t => nmul B64Num (mulR (N := B64Num) (factors G 0 (lA ++ l1 :: lB) t)) (u t)) (zbox (lcounts (lA ++ l1 :: lB))) (nofZ B64Num 0) =
  addL (N := B64Num) (fun t => nmul B64Num (mulR (N := B64Num) (factors G 0 (lA ++ l2 :: lB) t)) (w t)) (zbox (lcounts (lA ++ l2 :: lB))) (nofZ B64Num 0).
Proof using All.
  intros E1 E2 CA CB HG Hu Hw Huw. pose proof (Matching64_Supported _ _ HM) as ((Sp & Op) & Sq & Oq).
  pose proof (supported_range _ Sp) as Rp. pose proof (supported_range _ Sq) as Rq.
  pose proof E1 as (_ & _ & NA & _ & (_ & _ & V1) & N1 & _). pose proof E2 as (_ & _ & _ & _ & (_ & _ & V2) & N2 & _).
  apply (element_face B64Num (ifin prec64 emax64) (izero prec64 emax64) (iclean prec64 emax64)) with (a1 := snd p) (a2 := 0).
  - exact (imul_zero_l prec64 emax64).
  - exact (imul_zero_r prec64 emax64).
  - exact (imul_fin_l prec64 emax64).
  - exact (imul_fin_r prec64 emax64).
  - exact (iadd_zero prec64 emax64).
  - exact (iadd_clean prec64 emax64).
  - discriminate.
  - exact (in_ln l1 _ (snd p) N1 ltac:(lia)).
  - exact (in_ln l2 _ 0 N2 ltac:(lia)).
  - destruct (Matching64_value _ _ HM) as (v & W1 & W2).
    destruct (V1 (snd p) (in_ln l1 _ (snd p) N1 ltac:(lia))) as [K1 _]. destruct (V2 0 (in_ln l2 _ 0 N2 ltac:(lia))) as [K2 _]. congruence.
  - intros i Hi Hne. destruct (V1 i Hi) as [K1 _]. apply (ln_in l1 _ _ N1) in Hi. destruct (face_zeros p Sp Op i Hi) as [_ F]. destruct (F Hne) as (v & W & Z). congruence.
  - intros i Hi Hne. destruct (V2 i Hi) as [K2 _]. apply (ln_in l2 _ _ N2) in Hi. destruct (face_zeros q Sq Oq i Hi) as [F _]. destruct (F Hne) as (v & W & Z). congruence.
  - intros HE. apply HG. rewrite HE. f_equal. exact NA.
  - intros t1 t2 R1 R2. change (InRange (@lcounts b64 lA) t1) in R1. change (InRange (@lcounts b64 lB) t2) in R2. rewrite CA in R1. rewrite CB in R2. now apply Huw.
  - apply (summands_finite p one64 lA lB l1 u G Sp eq_refl E1 Hu).
  - apply (summands_finite q mone64 lA lB l2 w G Sq ltac:(rewrite !app_length; reflexivity) E2 Hw).
Qed.

Lemma ne_mid (lA lB : list (local b64)) l : lA ++ l :: lB <> [].
Proof. destruct lA; discriminate. Qed.
Lemma len_el so x lA lB l : Element so x lA lB l -> length (lA ++ l :: lB) = length (A ++ so :: B).
Proof using All. intros (_ & _ & E3 & E4 & _). rewrite !app_length. cbn [length]. lia. Qed.

Lemma face_field64 c var1 var2 u w :
  (forall t, InRange (sizes64 (A ++ p :: B)) t -> var1 t = Ok (u t) /\ Data64 (u t)) ->
  (forall t, InRange (sizes64 (A ++ q :: B)) t -> var2 t = Ok (w t) /\ Data64 (w t)) ->
  (forall t1 t2, InRange (sizes64 A) t1 -> InRange (sizes64 B) t2 -> u (t1 ++ snd p :: t2) = w (t1 ++ 0 :: t2)) ->
  (exists v, parent_value B64Num (Z.of_nat (length (A ++ p :: B))) (map basis64 (A ++ p :: B)) var1 (y ++ one64 :: z) = Ok v /\
     parent_value B64Num (Z.of_nat (length (A ++ q :: B))) (map basis64 (A ++ q :: B)) var2 (y ++ mone64 :: z) = Ok v) /\
  (exists g1 g2, parent_gradient B64Num c (Z.of_nat (length (A ++ p :: B))) (map basis64 (A ++ p :: B)) var1 (y ++ one64 :: z) = Ok g1 /\
     parent_gradient B64Num c (Z.of_nat (length (A ++ q :: B))) (map basis64 (A ++ q :: B)) var2 (y ++ mone64 :: z) = Ok g2 /\
     length g1 = length (A ++ p :: B) /\ length g2 = length (A ++ p :: B) /\
     forall j, (j < length (A ++ p :: B))%nat -> j <> length A -> nth j g1 one64 = nth j g2 one64).
Proof using All.
  intros Hu Hw Huw. destruct elements as (lA & lB & l1 & l2 & E1 & E2 & CA & CB).
  assert (LL : length (A ++ q :: B) = length (A ++ p :: B)) by (rewrite !app_length; reflexivity).
  pose proof (len_el _ _ _ _ _ E1) as M1. pose proof (len_el _ _ _ _ _ E2) as M2.
  pose proof E1 as (L1 & C1 & _). pose proof E2 as (L2 & C2 & _).
  assert (U1 : forall t, InRange (lcounts (lA ++ l1 :: lB)) t -> var1 t = Ok (u t)) by (intros t Ht; rewrite C1 in Ht; now apply Hu).
  assert (U2 : forall t, InRange (lcounts (lA ++ l2 :: lB)) t -> var2 t = Ok (w t)) by (intros t Ht; rewrite C2 in Ht; now apply Hw).
  split.
  - eexists. split.
    + rewrite <- M1. exact (parent_valueL B64Num _ _ var1 u _ L1 (ne_mid _ _ _) U1).
    + rewrite <- M2. etransitivity; [exact (parent_valueL B64Num _ _ var2 w _ L2 (ne_mid _ _ _) U2)|]. f_equal. symmetry. unfold tval.
      apply sum_face; try assumption; [lia| |]; intros t Ht; [now apply Hu|now apply Hw].
  - change (@length (local b64)) with (@length (local (T B64Num))) in M1, M2.
    destruct (parent_gradientL B64Num c _ _ var1 u _ L1 (ne_mid _ _ _)) as (g1 & G1 & K1 & P1); [unfold INT_MAX; lia|exact U1|].
    destruct (parent_gradientL B64Num c _ _ var2 w _ L2 (ne_mid _ _ _)) as (g2 & G2 & K2 & P2); [unfold INT_MAX; lia|exact U2|].
    exists g1, g2. rewrite M1 in *. rewrite M2 in *. split; [exact G1|]. split; [exact G2|]. split; [exact K1|]. split; [congruence|].
    intros j Hj Hne. rewrite (nth_indep g1 one64 (nofZ B64Num 0)) by congruence. rewrite (nth_indep g2 one64 (nofZ B64Num 0)) by congruence.
    rewrite P1 by exact Hj. rewrite P2 by congruence. unfold tder.
    apply sum_face; try assumption; [lia| |]; intros t Ht; [now apply Hu|now apply Hw].
Qed.

Lemma face_cell64 c mem1 mem2 X1 X2 : length (y ++ one64 :: z) = 3%nat ->
  Holds (owning (sizes64 (A ++ p :: B) ++ [Z.of_nat (length (A ++ p :: B))])) mem1 X1 ->
  Holds (owning (sizes64 (A ++ q :: B) ++ [Z.of_nat (length (A ++ q :: B))])) mem2 X2 ->
  (forall t i, InRange (sizes64 (A ++ p :: B)) t -> 0 <= i < Z.of_nat (length (A ++ p :: B)) -> Data64 (X1 (t ++ [i]))) ->
  (forall t i, InRange (sizes64 (A ++ q :: B)) t -> 0 <= i < Z.of_nat (length (A ++ q :: B)) -> Data64 (X2 (t ++ [i]))) ->
  (forall t1 t2 i, InRange (sizes64 A) t1 -> InRange (sizes64 B) t2 -> 0 <= i < Z.of_nat (length (A ++ p :: B)) ->
     X1 (t1 ++ snd p :: t2 ++ [i]) = X2 (t1 ++ 0 :: t2 ++ [i])) ->
  exists J1 J2 K1 K2,
    jacobian_wrapper B64Num c (Z.of_nat (length (A ++ p :: B))) (map basis64 (A ++ p :: B)) mem1 (y ++ one64 :: z) = Ok J1 /\
    jacobian_wrapper B64Num c (Z.of_nat (length (A ++ q :: B))) (map basis64 (A ++ q :: B)) mem2 (y ++ mone64 :: z) = Ok J2 /\
    Holds (owning [Z.of_nat (length (A ++ p :: B)); Z.of_nat (length (A ++ p :: B))]) J1 K1 /\
    Holds (owning [Z.of_nat (length (A ++ p :: B)); Z.of_nat (length (A ++ p :: B))]) J2 K2 /\
    forall i j, 0 <= i < Z.of_nat (length (A ++ p :: B)) -> (j < length (A ++ p :: B))%nat -> j <> length A ->
      K1 [i; Z.of_nat j] = K2 [i; Z.of_nat j].
Proof using All.
  intros Hx H1 H2 D1 D2 HX. destruct elements as (lA & lB & l1 & l2 & E1 & E2 & CA & CB).
  assert (LL : length (A ++ q :: B) = length (A ++ p :: B)) by (rewrite !app_length; reflexivity).
  pose proof (len_el _ _ _ _ _ E1) as M1. pose proof (len_el _ _ _ _ _ E2) as M2.
  pose proof E1 as (L1 & C1 & _). pose proof E2 as (L2 & C2 & _).
  assert (Hx2 : length (y ++ mone64 :: z) = 3%nat) by (rewrite app_length in *; exact Hx).
  assert (H1' : Holds (owning (lcounts (lA ++ l1 :: lB) ++ [Z.of_nat (length (lA ++ l1 :: lB))])) mem1 X1) by (rewrite C1, M1; exact H1).
  assert (H2' : Holds (owning (lcounts (lA ++ l2 :: lB) ++ [Z.of_nat (length (lA ++ l2 :: lB))])) mem2 X2) by (rewrite C2, M2; exact H2).
  change (@length (local b64)) with (@length (local (T B64Num))) in M1, M2.
  destruct (jacobian_wrapperL B64Num c _ _ mem1 X1 _ L1 (ne_mid _ _ _) Hx) as (J1 & EJ1 & _ & HJ1); [exact H1'|].
  destruct (jacobian_wrapperL B64Num c _ _ mem2 X2 _ L2 (ne_mid _ _ _) Hx2) as (J2 & EJ2 & _ & HJ2); [exact H2'|].
  rewrite M1 in EJ1, HJ1. rewrite M2 in EJ2, HJ2. rewrite LL in HJ2.
  exists J1, J2. eexists. eexists. split; [exact EJ1|]. split; [exact EJ2|]. split; [exact HJ1|]. split; [exact HJ2|].
  intros i j Hi Hj Hne. cbv beta. unfold contribL. cbn [nth]. rewrite Nat2Z.id. unfold tder.
  apply (sum_face lA lB l1 l2 (fun t => X1 (t ++ [i])) (fun t => X2 (t ++ [i])) (Z.of_nat j)); try assumption; [lia| | |].
  - intros t Ht. now apply D1.
  - intros t Ht. apply D2; [exact Ht|]. rewrite LL. exact Hi.
  - intros t1 t2 R1 R2. rewrite <- !app_assoc. cbn [app]. now apply HX.
Qed.
End Elements.
