(** Results that contraction cannot change, and one that it does. *)
From Coq Require Import ZArith Reals Bool List Lia Lra Psatz.
From Flocq Require Import Core IEEE754.BinarySingleNaN.
From Verif Require Import Base ProofBase Num ModelB64 ModelF32 ModelFma ModelFma32 SpecF32 SpecIndex SpecMath SpecNumeric SpecBasis SpecAccuracy SpecAccuracy32 SpecElement64 SpecElement32 SpecFma32
  ModelAssert ModelCArray ModelSequence ModelSpacing ModelLagrange ModelBasisProduct ModelMath ModelTransforms
  ProofBox ProofTensor ProofLagrange ProofTransform ProofMath ProofF32 ProofErr32 ProofErrFma32 ProofLagrange32 ProofNodes32 ProofGeneric ProofSum32 ProofSumFma32 ProofGrad32 ProofGradFma32
  ProofInverse32 ProofFix32 ProofInverseFma32 ProofElement32 ProofElementFma32 ProofCell32.
Local Open Scope R_scope.

(** * Basis functions *)
Lemma coordC c s ORDER x : (0 <= ORDER < INT_MAX)%Z -> Points32 (coord_ct32 s (ORDER + 1)) (ORDER + 1) x ->
  let coordinate := fun i => n <- nSupport ORDER ;; coord_ct32 s n i in
  let coordinateC := fun i => n <- nSupport ORDER ;; x <- coord_ct32 s n i ;; Ok (plain32 x) in
  FmaBasis32 c ORDER s = lagrange_of (FmaNum32 c) ORDER coordinateC /\
  (forall k, (0 <= k < ORDER + 1)%Z -> coordinate k = Ok (x k)) /\
  (forall k, (0 <= k < ORDER + 1)%Z -> coordinateC k = Ok (plain32 (x k))).
Proof.
  intros HO HP coordinate coordinateC. split; [reflexivity|].
  assert (H : forall k, (0 <= k < ORDER + 1)%Z -> coordinate k = Ok (x k)).
  { intros k Hk. unfold coordinate. rewrite LagrangeBasis_coordinate by exact HO. now apply HP. }
  split; [exact H|]. intros k Hk. pose proof (H k Hk) as E. unfold coordinateC, coordinate in *.
  destruct (nSupport ORDER) as [n| | | |]; try discriminate. cbn [bind] in *. rewrite E. reflexivity.
Qed.

Lemma value_fma_lemma c s ORDER i y : supported32 s ORDER -> (0 <= i < ORDER + 1)%Z -> Plain32 y ->
  exists v, bvalue (FmaBasis32 c ORDER s) i y = Ok v /\ bvalue (LagrangeBasis32 ORDER s) i (cfval y) = Ok (cfval v).
Proof.
  intros Hs Hi Hy. destruct (bundled_nodes32 s ORDER Hs) as (x & HO24 & HP & [Hf Hsep]).
  assert (HO : (0 <= ORDER < INT_MAX)%Z) by (unfold INT_MAX; lia).
  destruct (coordC c s ORDER x HO HP) as (EB & HC & HCC). exists (valC c ORDER x i y). split.
  - rewrite EB. apply (valueC c ORDER 4 _ x HO ltac:(lia) HCC Hf Hsep). exact Hi.
  - rewrite cval_valC by exact Hy. apply (lagrange_value32 ORDER 4 _ x HO ltac:(lia) HC Hf Hsep). exact Hi.
Qed.

Lemma locals_fma c specs : Forall (fun so => supported32 (fst so) (snd so)) specs -> forall xi, Forall Plain32 xi -> (length specs <= length xi)%nat ->
  exists ls ls32, LocalsAt (FmaNum32 c) (map (basisC32 c) specs) xi ls /\ LocalsAt F32Num (map basis32 specs) (map cfval xi) ls32 /\
    lcounts ls = sizes64 specs /\ lcounts ls32 = sizes64 specs /\
    forall idx, InRange (sizes64 specs) idx -> forall G off, (G < off)%Z -> map cfval (factors G off ls idx) = factors G off ls32 idx.
Proof.
  induction 1 as [|so specs Hso _ IH]; intros xi Hxi Hlen.
  - exists [], []. split; [constructor|]. split; [constructor|]. auto.
  - destruct xi as [|y xi]; [simpl in Hlen; lia|]. inversion Hxi as [|? ? Hy Hxi']; subst.
    destruct (IH xi Hxi' ltac:(simpl in Hlen; lia)) as (ls & ls32 & HL & HL32 & HC & HC32 & HF).
    destruct so as [s ORDER]. rename Hso into Hs. cbn [fst snd] in *.
    destruct (bundled_nodes32 s ORDER Hs) as (x & HO24 & HP & [Hf Hsep]).
  assert (HO : (0 <= ORDER < INT_MAX)%Z) by (unfold INT_MAX; lia).
    destruct (coordC c s ORDER x HO HP) as (EB & HCo & HCC).
    set (l := {| ln := (ORDER + 1)%Z; lv := fun i => valC c ORDER x i y; lg := fun i => gradC c ORDER x i y |}).
    set (l32 := {| ln := (ORDER + 1)%Z; lv := fun i => prod32 (fun k => t32 x i k (cfval y)) (zseq (Z.to_nat (ORDER + 1))); lg := fun i => grad32 ORDER x i (cfval y) |}).
    exists (l :: ls), (l32 :: ls32). split; [|split; [|split; [|split]]].
    + cbn [map]. constructor; [|exact HL]. split; [apply nSupport_ok; exact HO|]. split; [cbn; lia|]. intros i Hi.
      split; [apply (valueC c ORDER 4 _ x HO ltac:(lia) HCC Hf Hsep); exact Hi|].
      apply (gradientC c ORDER 4 _ x HO ltac:(lia) HCC Hf Hsep). exact Hi.
    + cbn [map]. constructor; [|exact HL32]. split; [apply nSupport_ok; exact HO|]. split; [cbn; lia|]. intros i Hi.
      split; [apply (lagrange_value32 ORDER 4 _ x HO ltac:(lia) HCo Hf Hsep); exact Hi|].
      apply (lagrange_gradient32 ORDER 4 _ x); assumption || lia.
    + change (lcounts (l :: ls)) with ((ORDER + 1)%Z :: lcounts ls). rewrite HC. reflexivity.
    + change (lcounts (l32 :: ls32)) with ((ORDER + 1)%Z :: lcounts ls32). rewrite HC32. reflexivity.
    + intros idx Hin G off HG. change (sizes64 ((s, ORDER) :: specs)) with ((ORDER + 1)%Z :: sizes64 specs) in Hin.
      apply InRange_cons in Hin. destruct Hin as (i & t & -> & Hi & Ht). cbn [factors].
      destruct (Z.eqb_spec G off); [lia|]. cbn [map]. rewrite HF by (assumption || lia). f_equal.
      cbn [l l32 lv]. now apply cval_valC.
Qed.

Lemma product_fma_lemma c specs idx xi : specs <> [] -> Forall (fun so => supported32 (fst so) (snd so)) specs -> Forall Plain32 xi -> (length specs <= length xi)%nat ->
  InRange (sizes64 specs) idx ->
  exists v, product_value (FmaNum32 c) (map (basisC32 c) specs) idx xi = Ok v /\
    product_value F32Num (map basis32 specs) idx (map cfval xi) = Ok (cfval v).
Proof.
  intros Hne HS Hxi Hlen Hin. destruct (locals_fma c specs HS xi Hxi Hlen) as (ls & ls32 & HL & HL32 & HC & HC32 & HF).
  assert (Ne : ls <> []) by (intros ->; destruct specs; [congruence|discriminate]).
  assert (Ne32 : ls32 <> []) by (intros ->; destruct specs; [congruence|discriminate]).
  exists (tval (N := FmaNum32 c) ls idx). split.
  - apply product_valueL; [exact HL|exact Ne|]. rewrite HC. exact Hin.
  - rewrite (product_valueL F32Num _ ls32); [|exact HL32|exact Ne32|rewrite HC32; exact Hin].
    f_equal. unfold tval. rewrite cval_mulR, HF by (assumption || lia). reflexivity.
Qed.

(** * Exact determinants *)
Definition Cx (x : cfloat) (e b : Z) (r : R) : Prop :=
  Fx (cfval x) e b r /\ forall p q, cfprod x = Some (p, q) -> is_finite p = true /\ is_finite q = true /\ B2R p * B2R q = r.
Lemma cx_mult x y e f b d r s : Fx (cfval x) e b r -> Fx (cfval y) f d s -> (0 <= b)%Z -> (b * d < 2 ^ 24)%Z -> (-149 <= e + f <= 100)%Z ->
  Cx (cfmul x y) (e + f) (b * d) (r * s).
Proof.
  intros Hx Hy Hb Hd He. split; [exact (fx_mult (cfval x) (cfval y) e f b d r s Hx Hy Hb Hd He)|].
  intros p q E. cbn [cfmul cfprod] in E. injection E as <- <-. destruct Hx as (Fx & Ex & _). destruct Hy as (Fy & Ey & _).
  rewrite Ex, Ey. auto.
Qed.
Lemma fx_fma p q z e b m r s : is_finite p = true -> is_finite q = true -> B2R p * B2R q = r -> (exists n, (Z.abs n <= b)%Z /\ r = IZR n * pow2 e) ->
  Fx z e m s -> (b + m < 2 ^ 24)%Z -> (-149 <= e <= 100)%Z -> Fx (Bfma mode_NE p q z) e (b + m) (r + s).
Proof.
  intros Fp Fq Er (n & Hn & En) (Fz & Ez & k & Hk & Ek) Hb He.
  assert (E : r + s = IZR (n + k) * pow2 e) by (rewrite En, Ek, plus_IZR; ring).
  destruct (B_fma p q z (24 + e) Fp Fq Fz ltac:(lia)) as (F & E').
  { rewrite Er, Ez, E. apply fx_size. lia. }
  split; [exact F|]. split; [|exists (n + k)%Z; split; [lia|exact E]]. rewrite E', Er, Ez, E. apply rnd_id. apply fmt_int; lia.
Qed.
Lemma fx_opp x e b r : Fx x e b r -> Fx (Bopp x) e b (- r).
Proof.
  intros (F & E & m & Hm & Er). split; [now rewrite is_finite_Bopp|]. split; [now rewrite B2R_Bopp, E|].
  exists (- m)%Z. split; [lia|]. rewrite Er, opp_IZR. ring.
Qed.
Section Exact.
Context (c : contraction32).
Lemma cx_plus x y e b d r s : Cx x e b r -> Cx y e d s -> (b + d < 2 ^ 24)%Z -> (-149 <= e <= 100)%Z ->
  Cx (cfadd c x y) e (b + d) (r + s).
Proof.
  intros [Hx Px] [Hy Py] Hb He. split; [|intros p q E; discriminate E].
  assert (Sep : Fx (Bplus mode_NE (cfval x) (cfval y)) e (b + d) (r + s)) by now apply fx_plus.
  unfold cfadd, computed32; cbn [cfval]. destruct (c OAdd x y); [exact Sep| |].
  - destruct (cfprod x) as [[p q]|]; [|exact Sep]. destruct (Px p q eq_refl) as (Fp & Fq & E).
    apply (fx_fma p q (cfval y)); try assumption. apply Hx.
  - destruct (cfprod y) as [[p q]|]; [|exact Sep]. destruct (Py p q eq_refl) as (Fp & Fq & E).
    rewrite Rplus_comm, Z.add_comm. apply (fx_fma p q (cfval x)); try assumption; [apply Hy|lia].
Qed.
Lemma cx_minus x y e b d r s : Cx x e b r -> Cx y e d s -> (b + d < 2 ^ 24)%Z -> (-149 <= e <= 100)%Z ->
  Cx (cfsub c x y) e (b + d) (r - s).
Proof.
  intros [Hx Px] [Hy Py] Hb He. split; [|intros p q E; discriminate E].
  assert (Sep : Fx (Bminus mode_NE (cfval x) (cfval y)) e (b + d) (r - s)) by now apply fx_minus.
  unfold cfsub, computed32; cbn [cfval]. destruct (c OSub x y); [exact Sep| |].
  - destruct (cfprod x) as [[p q]|]; [|exact Sep]. destruct (Px p q eq_refl) as (Fp & Fq & E).
    apply (fx_fma p q (Bopp (cfval y))); try assumption; [apply Hx|now apply fx_opp].
  - destruct (cfprod y) as [[p q]|]; [|exact Sep]. destruct (Py p q eq_refl) as (Fp & Fq & E).
    replace (r - s) with (- s + r) by ring. rewrite Z.add_comm. apply (fx_fma (Bopp p) q (cfval x)); try assumption; [now rewrite is_finite_Bopp| | |lia].
    + rewrite B2R_Bopp, <- E. ring.
    + destruct (fx_opp _ _ _ _ Hy) as (_ & _ & M). exact M.
Qed.

Context (f : Z -> Z -> cfloat) (e b : Z) (He : (-30 <= e <= 30)%Z) (Hb : (0 <= b <= 2 ^ 7)%Z)
  (Hf : forall i j, (0 <= i <= 2)%Z -> (0 <= j <= 2)%Z -> Fx (cfval (f i j)) e b (freal (f i j))).
Let a : matrix := freal_matrix f.
Lemma cx_cof2 p q r s P Q R S : Fx (cfval p) e b P -> Fx (cfval q) e b Q -> Fx (cfval r) e b R -> Fx (cfval s) e b S ->
  Cx (cfsub c (cfmul p q) (cfmul r s)) (e + e) (b * b + b * b) (P * Q - R * S).
Proof.
  intros Hp Hq Hr Hs. apply cx_minus; [apply cx_mult|apply cx_mult| |]; try assumption; try nia.
Qed.
Lemma cx_cof i j : (0 <= i <= 2)%Z -> (0 <= j <= 2)%Z -> Cx (cof (FmaNum32 c) f i j) (e + e) (b * b + b * b) (cof RNum a i j).
Proof.
  intros Hi Hj. assert (Ci : i = 0%Z \/ i = 1%Z \/ i = 2%Z) by lia. assert (Cj : j = 0%Z \/ j = 1%Z \/ j = 2%Z) by lia.
  destruct Ci as [->|[->| ->]]; destruct Cj as [->|[->| ->]]; cbn [cof minor0]; (apply cx_cof2; apply Hf; lia).
Qed.
Lemma cx_det : Cx (det3 (FmaNum32 c) f) (e + (e + e)) (b * (b * b + b * b) + b * (b * b + b * b) + b * (b * b + b * b)) (det3 RNum a).
Proof.
  assert (T : forall i, (0 <= i <= 2)%Z -> Cx (cfmul (f i 0%Z) (cof (FmaNum32 c) f 0 i)) (e + (e + e)) (b * (b * b + b * b))
    (a i 0%Z * cof RNum a 0 i)).
  { intros i Hi. apply cx_mult; [apply Hf; lia|apply cx_cof; lia|lia|nia|lia]. }
  pose proof (T 0%Z ltac:(lia)). pose proof (T 1%Z ltac:(lia)). pose proof (T 2%Z ltac:(lia)).
  apply (cx_plus (cfadd c (cfmul (f 0%Z 0%Z) (cof (FmaNum32 c) f 0 0)) (cfmul (f 1%Z 0%Z) (cof (FmaNum32 c) f 0 1)))
    (cfmul (f 2%Z 0%Z) (cof (FmaNum32 c) f 0 2))); [apply cx_plus| | |]; try assumption; try nia.
Qed.
End Exact.

Lemma exact_det_fma_lemma c A e : (-30 <= e <= 30)%Z ->
  (forall i j, (0 <= i < 3)%Z -> (0 <= j < 3)%Z -> FFinite (A i j) /\
     exists m, (Z.abs m <= 2 ^ 7)%Z /\ freal (A i j) = IZR m * pow2 e) ->
  exists X d, inverse_c (FmaNum32 c) (rows_of A) = Ok (rows_of X, d) /\ FFinite d /\ freal d = det 3 (freal_matrix A).
Proof.
  intros He HA.
  assert (Hf : forall i j, (0 <= i <= 2)%Z -> (0 <= j <= 2)%Z -> Fx (cfval (A i j)) e (2 ^ 7) (freal (A i j))).
  { intros i j Hi Hj. destruct (HA i j ltac:(lia) ltac:(lia)) as (F & m & Hm & E). split; [exact F|]. split; [reflexivity|]. eauto. }
  destruct (cx_det c A e (2 ^ 7) He ltac:(lia) Hf) as [(F & E & _) _].
  exists (inv3 (FmaNum32 c) A (cfdiv (plain32 (b32_ofZ 1)) (det3 (FmaNum32 c) A))), (det3 (FmaNum32 c) A).
  split; [exact (inverse_c_any (FmaNum32 c) A _ eq_refl)|]. split; [exact F|]. unfold freal. rewrite E. apply det3_det.
Qed.

(** * A determinant that depends on the compiler *)
Definition equal_rows := [[1; 0; 0]; [0; 4097; 4097]; [0; 4097; 4097]]%Z.
Definition crows (l : list (list Z)) : Z -> Z -> cfloat := fun i j => given32 (3 * i + j) (of_rows32 l i j).
Definition never : contraction32 := fun _ _ _ => Separate.
Definition always : contraction32 := fun _ _ _ => FuseLeft.
Lemma compiler_dependent_lemma : exists A c c' X d X' d', FEntries A /\ det 3 (freal_matrix A) = 0 /\
  inverse_c (FmaNum32 c) (rows_of A) = Ok (rows_of X, d) /\ freal d = 0 /\
  inverse_c (FmaNum32 c') (rows_of A) = Ok (rows_of X', d') /\ freal d' = 1.
Proof.
  assert (S : forall i j, (Z.abs (nth j (nth i equal_rows []) 0) < 2 ^ 24)%Z) by (apply small_rows_spec; reflexivity).
  pose proof (of_rows32_real _ S) as R.
  exists (crows equal_rows), never, always. do 4 eexists. split; [|split; [|split; [|split; [|split]]]].
  - intros i j _ _. split; [reflexivity|]. destruct (R i j) as [F E]. split; [exact F|].
    change (freal (crows equal_rows i j)) with (real_matrix32 (of_rows32 equal_rows) i j).
    rewrite E, <- abs_IZR. apply Rle_trans with (IZR (2 ^ 24)); [apply IZR_le; specialize (S (Z.to_nat i) (Z.to_nat j)); lia|].
    change (IZR (2 ^ 24)) with (pow2 24). apply bpow_le. lia.
  - change (freal_matrix (crows equal_rows)) with (real_matrix32 (of_rows32 equal_rows)).
    rewrite (det_of_rows32 _ R). apply f_equal. vm_compute. reflexivity.
  - exact (inverse_c_any (FmaNum32 never) _ _ eq_refl).
  - assert (D : B2SF (cfval (det3 (FmaNum32 never) (crows equal_rows))) = SpecFloat.S754_zero false) by (vm_compute; reflexivity).
    unfold freal. rewrite <- SF2R_B2SF, D. reflexivity.
  - exact (inverse_c_any (FmaNum32 always) _ _ eq_refl).
  - assert (D : B2SF (cfval (det3 (FmaNum32 always) (crows equal_rows))) = SpecFloat.S754_finite false 8388608 (-23)) by (vm_compute; reflexivity).
    unfold freal. rewrite <- SF2R_B2SF, D. unfold SF2R, F2R. cbn. lra.
Qed.

(** * Gradients of one-dimensional bases *)
Lemma gradient_fma_lemma c so : Supported32 so ->
  exists d, Grid32 so d /\
  forall y i, FReference y -> (0 <= i < snd so + 1)%Z ->
  exists g, bgradient (basisC32 c so) i y = Ok g /\ FFinite g /\
    Rabs (freal g - fder d i (freal y)) <=
      IZR (6 * snd so + 2) * pow2 (-24) * gradient_size (npts d) (pt d) i (freal y) + pow2 (-124).
Proof.
  intros H. destruct (grid_existsC c so H) as (d & HG & HL). exists d. split; [exact HG|].
  intros y i Hy Hi. destruct (HL y Hy) as (l & (_ & _ & Hl) & Hn & HA). destruct HG as (En & _).
  rewrite Hn, En in *. destruct (Hl i Hi) as (_ & Eg). destruct (HA i Hi) as (_ & _ & (F & E & B & _) & _).
  exists (lg l i). split; [exact Eg|]. split; [exact F|]. eapply Rle_trans; [exact E|].
  apply Rplus_le_compat_r, Rmult_le_compat_r; [eapply Rle_trans; [apply Rabs_pos|exact B]|].
  apply supported_range in H. eapply Rle_trans; [apply Rel_upper; lia|].
  apply Rmult_le_compat_r; [apply bpow_ge_0|]. rewrite INR_IZR_INZ, <- plus_IZR. apply IZR_le. lia.
Qed.

(** * Examples *)
Lemma fma_inputs : FReference (given32 1 (narrow (b64_lit 5 1))) /\ FReference (given32 2 (b32_ofZ 0)) /\ FData (given32 3 (b32_ofZ 7)).
Proof.
  destruct demo_ok as (_ & _ & _ & HR & HD). inversion HR as [|? ? H1 HR']; subst. inversion HR' as [|? ? H2 _]; subst.
  split; [|split]; (split; [reflexivity|assumption]).
Qed.
Lemma fma_good_matrix : FEntries (crows good_rows32) /\ det 3 (freal_matrix (crows good_rows32)) = 19 /\
  perm 3 (absm (freal_matrix (crows good_rows32))) = 23.
Proof.
  assert (S : forall i j, (Z.abs (nth j (nth i good_rows32 []) 0) < 2 ^ 24)%Z) by (apply small_rows_spec; reflexivity).
  pose proof (of_rows32_real _ S) as R.
  change (freal_matrix (crows good_rows32)) with (real_matrix32 (of_rows32 good_rows32)).
  split; [|split].
  - intros i j _ _. split; [reflexivity|]. destruct (R i j) as [F E']. split; [exact F|].
    change (freal (crows good_rows32 i j)) with (real_matrix32 (of_rows32 good_rows32) i j).
    rewrite E', <- abs_IZR. apply Rle_trans with (IZR (2 ^ 24)); [apply IZR_le; specialize (S (Z.to_nat i) (Z.to_nat j)); lia|].
    change (IZR (2 ^ 24)) with (pow2 24). apply bpow_le. lia.
  - rewrite (det_of_rows32 _ R); apply f_equal; reflexivity.
  - transitivity (IZR (2 * (9 + 1) + 1 * (3 + 0) + 0 * 1)); [|apply f_equal; reflexivity].
    rewrite <- aperm_perm. unfold aperm, acof, R2.
    repeat match goal with |- context [B2R (of_rows32 good_rows32 ?i ?j)] =>
      change (B2R (of_rows32 good_rows32 i j)) with (real_matrix32 (of_rows32 good_rows32) i j); rewrite (proj2 (R i j)) end.
    rewrite <- !abs_IZR. rewrite <- !mult_IZR, <- !plus_IZR, <- !mult_IZR, <- !plus_IZR. apply f_equal. vm_compute. reflexivity.
Qed.
Lemma fma_contracts : (* a contraction32 is seen by the model *)
  let x := given32 1 (b32_ofZ 4097) in
  B2SF (cfval (cfsub never (cfmul x x) (cfmul x x))) = SpecFloat.S754_zero false /\
  B2SF (cfval (cfsub always (cfmul x x) (cfmul x x))) = B2SF (b32_ofZ 1).
Proof. split; vm_compute; reflexivity. Qed.
Definition ccube : list cfloat := map plain32 cube32.
