(** Results that contraction cannot change, and one that it does. *)
From Coq Require Import ZArith Reals Bool List Lia Lra Psatz.
From Flocq Require Import Core IEEE754.BinarySingleNaN.
From Verif Require Import Base ProofBase Num ModelB64 ModelFma SpecB64 SpecIndex SpecMath SpecNumeric SpecBasis SpecAccuracy SpecElement64 SpecFma
  ModelAssert ModelCArray ModelSequence ModelSpacing ModelLagrange ModelBasisProduct ModelMath ModelTransforms
  ProofBox ProofTensor ProofLagrange ProofTransform ProofMath ProofB64 ProofErr64 ProofErrFma ProofLagrange64 ProofNodes64 ProofGeneric ProofSum64 ProofSumFma ProofGrad64 ProofGradFma
  ProofInverse64 ProofFix64 ProofInverseFma ProofElement64 ProofElementFma ProofCell64.
Local Open Scope R_scope.

(** * Basis functions *)
Lemma coordC c s ORDER x : (0 <= ORDER < INT_MAX)%Z -> Points64 (coord_ct B64Num s (ORDER + 1)) (ORDER + 1) x ->
  let coordinate := fun i => n <- nSupport ORDER ;; coord_ct B64Num s n i in
  let coordinateC := fun i => n <- nSupport ORDER ;; x <- coord_ct B64Num s n i ;; Ok (plain x) in
  FmaBasis c ORDER s = lagrange_of (FmaNum c) ORDER coordinateC /\
  (forall k, (0 <= k < ORDER + 1)%Z -> coordinate k = Ok (x k)) /\
  (forall k, (0 <= k < ORDER + 1)%Z -> coordinateC k = Ok (plain (x k))).
Proof.
  intros HO HP coordinate coordinateC. split; [reflexivity|].
  assert (H : forall k, (0 <= k < ORDER + 1)%Z -> coordinate k = Ok (x k)).
  { intros k Hk. unfold coordinate. rewrite LagrangeBasis_coordinate by exact HO. now apply HP. }
  split; [exact H|]. intros k Hk. pose proof (H k Hk) as E. unfold coordinateC, coordinate in *.
  destruct (nSupport ORDER) as [n| | | |]; try discriminate. cbn [bind] in *. rewrite E. reflexivity.
Qed.

Lemma value_fma_lemma c s ORDER i y : supported64 s ORDER -> (0 <= i < ORDER + 1)%Z -> Plain y ->
  exists v, bvalue (FmaBasis c ORDER s) i y = Ok v /\ bvalue (LagrangeBasis B64Num ORDER s) i (cval y) = Ok (cval v).
Proof.
  intros Hs Hi Hy. destruct (bundled_nodes64 s ORDER Hs) as (q & x & HO & Hq & Hb & _ & HP & [Hf Hsep]).
  destruct (coordC c s ORDER x HO HP) as (EB & HC & HCC). exists (valC c ORDER x i y). split.
  - rewrite EB. apply (valueC c ORDER q _ x HO ltac:(lia) HCC Hf Hsep). exact Hi.
  - rewrite cval_valC by exact Hy. apply (lagrange_value64 ORDER q _ x HO ltac:(lia) HC Hf Hsep). exact Hi.
Qed.

Lemma locals_fma c specs : Forall Supported64 specs -> forall xi, Forall Plain xi -> (length specs <= length xi)%nat ->
  exists ls ls64, LocalsAt (FmaNum c) (map (basisC c) specs) xi ls /\ LocalsAt B64Num (map basis64 specs) (map cval xi) ls64 /\
    lcounts ls = sizes64 specs /\ lcounts ls64 = sizes64 specs /\
    forall idx, InRange (sizes64 specs) idx -> forall G off, (G < off)%Z -> map cval (factors G off ls idx) = factors G off ls64 idx.
Proof.
  induction 1 as [|so specs Hso _ IH]; intros xi Hxi Hlen.
  - exists [], []. split; [constructor|]. split; [constructor|]. auto.
  - destruct xi as [|y xi]; [simpl in Hlen; lia|]. inversion Hxi as [|? ? Hy Hxi']; subst.
    destruct (IH xi Hxi' ltac:(simpl in Hlen; lia)) as (ls & ls64 & HL & HL64 & HC & HC64 & HF).
    destruct (supported64_of so Hso) as [Hs H15]. destruct so as [s ORDER]. cbn [fst snd] in *.
    destruct (bundled_nodes64 s ORDER Hs) as (q & x & HO & Hq & Hb & _ & HP & [Hf Hsep]).
    destruct (coordC c s ORDER x HO HP) as (EB & HCo & HCC).
    set (l := {| ln := (ORDER + 1)%Z; lv := fun i => valC c ORDER x i y; lg := fun i => gradC c ORDER x i y |}).
    set (l64 := {| ln := (ORDER + 1)%Z; lv := fun i => prod64 (fun k => t64 x i k (cval y)) (zseq (Z.to_nat (ORDER + 1))); lg := fun i => grad64 ORDER x i (cval y) |}).
    exists (l :: ls), (l64 :: ls64). split; [|split; [|split; [|split]]].
    + cbn [map]. constructor; [|exact HL]. split; [apply nSupport_ok; exact HO|]. split; [cbn; lia|]. intros i Hi.
      split; [apply (valueC c ORDER q _ x HO ltac:(lia) HCC Hf Hsep); exact Hi|].
      apply (gradientC c ORDER q _ x HO ltac:(lia) HCC Hf Hsep). exact Hi.
    + cbn [map]. constructor; [|exact HL64]. split; [apply nSupport_ok; exact HO|]. split; [cbn; lia|]. intros i Hi.
      split; [apply (lagrange_value64 ORDER q _ x HO ltac:(lia) HCo Hf Hsep); exact Hi|].
      apply (lagrange_gradient64 ORDER q _ x); assumption || lia.
    + change (lcounts (l :: ls)) with ((ORDER + 1)%Z :: lcounts ls). rewrite HC. reflexivity.
    + change (lcounts (l64 :: ls64)) with ((ORDER + 1)%Z :: lcounts ls64). rewrite HC64. reflexivity.
    + intros idx Hin G off HG. change (sizes64 ((s, ORDER) :: specs)) with ((ORDER + 1)%Z :: sizes64 specs) in Hin.
      apply InRange_cons in Hin. destruct Hin as (i & t & -> & Hi & Ht). cbn [factors].
      destruct (Z.eqb_spec G off); [lia|]. cbn [map]. rewrite HF by (assumption || lia). f_equal.
      cbn [l l64 lv]. now apply cval_valC.
Qed.

Lemma product_fma_lemma c specs idx xi : specs <> [] -> Forall Supported64 specs -> Forall Plain xi -> (length specs <= length xi)%nat ->
  InRange (sizes64 specs) idx ->
  exists v, product_value (FmaNum c) (map (basisC c) specs) idx xi = Ok v /\
    product_value B64Num (map basis64 specs) idx (map cval xi) = Ok (cval v).
Proof.
  intros Hne HS Hxi Hlen Hin. destruct (locals_fma c specs HS xi Hxi Hlen) as (ls & ls64 & HL & HL64 & HC & HC64 & HF).
  assert (Ne : ls <> []) by (intros ->; destruct specs; [congruence|discriminate]).
  assert (Ne64 : ls64 <> []) by (intros ->; destruct specs; [congruence|discriminate]).
  exists (tval (N := FmaNum c) ls idx). split.
  - apply product_valueL; [exact HL|exact Ne|]. rewrite HC. exact Hin.
  - rewrite (product_valueL B64Num _ ls64); [|exact HL64|exact Ne64|rewrite HC64; exact Hin].
    f_equal. unfold tval. rewrite cval_mulR, HF by (assumption || lia). reflexivity.
Qed.

(** * Scaled cells: no addition at all *)
Lemma scaling_fma_lemma c ctx h0 h1 h2 :
  (exists J, scaling_jacobian_wrapper (FmaNum c) ctx [h0; h1; h2] = Ok J /\
     scaling_jacobian_wrapper B64Num ctx [cval h0; cval h1; cval h2] = Ok (map cval J)) /\
  exists d J, scaling_inverseJacobian_wrapper (FmaNum c) ctx [h0; h1; h2] = Ok (d, J) /\
     scaling_inverseJacobian_wrapper B64Num ctx [cval h0; cval h1; cval h2] = Ok (cval d, map cval J).
Proof.
  split.
  - eexists. split; [apply scaling_jacobian_eq|]. rewrite scaling_jacobian_eq. reflexivity.
  - do 2 eexists. split; [etransitivity; [apply scaling_inverse_eq|]; reflexivity|].
    etransitivity; [apply scaling_inverse_eq|]. reflexivity.
Qed.

(** * Exact determinants *)
Definition Cx (x : cdouble) (e b : Z) (r : R) : Prop :=
  Fx (cval x) e b r /\ forall p q, cprod x = Some (p, q) -> is_finite p = true /\ is_finite q = true /\ B2R p * B2R q = r.
Lemma cx_mult x y e f b d r s : Fx (cval x) e b r -> Fx (cval y) f d s -> (0 <= b)%Z -> (b * d < 2 ^ 53)%Z -> (-1074 <= e + f <= 970)%Z ->
  Cx (cmul x y) (e + f) (b * d) (r * s).
Proof.
  intros Hx Hy Hb Hd He. split; [exact (fx_mult (cval x) (cval y) e f b d r s Hx Hy Hb Hd He)|].
  intros p q E. cbn [cmul cprod] in E. injection E as <- <-. destruct Hx as (Fx & Ex & _). destruct Hy as (Fy & Ey & _).
  rewrite Ex, Ey. auto.
Qed.
Lemma fx_fma p q z e b m r s : is_finite p = true -> is_finite q = true -> B2R p * B2R q = r -> (exists n, (Z.abs n <= b)%Z /\ r = IZR n * pow2 e) ->
  Fx z e m s -> (b + m < 2 ^ 53)%Z -> (-1074 <= e <= 970)%Z -> Fx (Bfma mode_NE p q z) e (b + m) (r + s).
Proof.
  intros Fp Fq Er (n & Hn & En) (Fz & Ez & k & Hk & Ek) Hb He.
  assert (E : r + s = IZR (n + k) * pow2 e) by (rewrite En, Ek, plus_IZR; ring).
  destruct (B_fma p q z (53 + e) Fp Fq Fz ltac:(lia)) as (F & E').
  { rewrite Er, Ez, E. apply fx_size. lia. }
  split; [exact F|]. split; [|exists (n + k)%Z; split; [lia|exact E]]. rewrite E', Er, Ez, E. apply rnd_id. apply fmt_int; lia.
Qed.
Lemma fx_opp x e b r : Fx x e b r -> Fx (Bopp x) e b (- r).
Proof.
  intros (F & E & m & Hm & Er). split; [now rewrite is_finite_Bopp|]. split; [now rewrite B2R_Bopp, E|].
  exists (- m)%Z. split; [lia|]. rewrite Er, opp_IZR. ring.
Qed.
Section Exact.
Context (c : contraction).
Lemma cx_plus x y e b d r s : Cx x e b r -> Cx y e d s -> (b + d < 2 ^ 53)%Z -> (-1074 <= e <= 970)%Z ->
  Cx (cadd c x y) e (b + d) (r + s).
Proof.
  intros [Hx Px] [Hy Py] Hb He. split; [|intros p q E; discriminate E].
  assert (Sep : Fx (Bplus mode_NE (cval x) (cval y)) e (b + d) (r + s)) by now apply fx_plus.
  unfold cadd, computed; cbn [cval]. destruct (c OAdd x y); [exact Sep| |].
  - destruct (cprod x) as [[p q]|]; [|exact Sep]. destruct (Px p q eq_refl) as (Fp & Fq & E).
    apply (fx_fma p q (cval y)); try assumption. apply Hx.
  - destruct (cprod y) as [[p q]|]; [|exact Sep]. destruct (Py p q eq_refl) as (Fp & Fq & E).
    rewrite Rplus_comm, Z.add_comm. apply (fx_fma p q (cval x)); try assumption; [apply Hy|lia].
Qed.
Lemma cx_minus x y e b d r s : Cx x e b r -> Cx y e d s -> (b + d < 2 ^ 53)%Z -> (-1074 <= e <= 970)%Z ->
  Cx (csub c x y) e (b + d) (r - s).
Proof.
  intros [Hx Px] [Hy Py] Hb He. split; [|intros p q E; discriminate E].
  assert (Sep : Fx (Bminus mode_NE (cval x) (cval y)) e (b + d) (r - s)) by now apply fx_minus.
  unfold csub, computed; cbn [cval]. destruct (c OSub x y); [exact Sep| |].
  - destruct (cprod x) as [[p q]|]; [|exact Sep]. destruct (Px p q eq_refl) as (Fp & Fq & E).
    apply (fx_fma p q (Bopp (cval y))); try assumption; [apply Hx|now apply fx_opp].
  - destruct (cprod y) as [[p q]|]; [|exact Sep]. destruct (Py p q eq_refl) as (Fp & Fq & E).
    replace (r - s) with (- s + r) by ring. rewrite Z.add_comm. apply (fx_fma (Bopp p) q (cval x)); try assumption; [now rewrite is_finite_Bopp| | |lia].
    + rewrite B2R_Bopp, <- E. ring.
    + destruct (fx_opp _ _ _ _ Hy) as (_ & _ & M). exact M.
Qed.

Context (f : Z -> Z -> cdouble) (e b : Z) (He : (-300 <= e <= 300)%Z) (Hb : (0 <= b <= 2 ^ 16)%Z)
  (Hf : forall i j, (0 <= i <= 2)%Z -> (0 <= j <= 2)%Z -> Fx (cval (f i j)) e b (creal (f i j))).
Let a : matrix := creal_matrix f.
Lemma cx_cof2 p q r s P Q R S : Fx (cval p) e b P -> Fx (cval q) e b Q -> Fx (cval r) e b R -> Fx (cval s) e b S ->
  Cx (csub c (cmul p q) (cmul r s)) (e + e) (b * b + b * b) (P * Q - R * S).
Proof.
  intros Hp Hq Hr Hs. apply cx_minus; [apply cx_mult|apply cx_mult| |]; try assumption; try nia.
Qed.
Lemma cx_cof i j : (0 <= i <= 2)%Z -> (0 <= j <= 2)%Z -> Cx (cof (FmaNum c) f i j) (e + e) (b * b + b * b) (cof RNum a i j).
Proof.
  intros Hi Hj. assert (Ci : i = 0%Z \/ i = 1%Z \/ i = 2%Z) by lia. assert (Cj : j = 0%Z \/ j = 1%Z \/ j = 2%Z) by lia.
  destruct Ci as [->|[->| ->]]; destruct Cj as [->|[->| ->]]; cbn [cof minor0]; (apply cx_cof2; apply Hf; lia).
Qed.
Lemma cx_det : Cx (det3 (FmaNum c) f) (e + (e + e)) (b * (b * b + b * b) + b * (b * b + b * b) + b * (b * b + b * b)) (det3 RNum a).
Proof.
  assert (T : forall i, (0 <= i <= 2)%Z -> Cx (cmul (f i 0%Z) (cof (FmaNum c) f 0 i)) (e + (e + e)) (b * (b * b + b * b))
    (a i 0%Z * cof RNum a 0 i)).
  { intros i Hi. apply cx_mult; [apply Hf; lia|apply cx_cof; lia|lia|nia|lia]. }
  pose proof (T 0%Z ltac:(lia)). pose proof (T 1%Z ltac:(lia)). pose proof (T 2%Z ltac:(lia)).
  apply (cx_plus (cadd c (cmul (f 0%Z 0%Z) (cof (FmaNum c) f 0 0)) (cmul (f 1%Z 0%Z) (cof (FmaNum c) f 0 1)))
    (cmul (f 2%Z 0%Z) (cof (FmaNum c) f 0 2))); [apply cx_plus| | |]; try assumption; try nia.
Qed.
End Exact.

Lemma exact_det_fma_lemma c A e : (-300 <= e <= 300)%Z ->
  (forall i j, (0 <= i < 3)%Z -> (0 <= j < 3)%Z -> CFinite (A i j) /\
     exists m, (Z.abs m <= 2 ^ 16)%Z /\ creal (A i j) = IZR m * pow2 e) ->
  exists X d, inverse_c (FmaNum c) (rows_of A) = Ok (rows_of X, d) /\ CFinite d /\ creal d = det 3 (creal_matrix A).
Proof.
  intros He HA.
  assert (Hf : forall i j, (0 <= i <= 2)%Z -> (0 <= j <= 2)%Z -> Fx (cval (A i j)) e (2 ^ 16) (creal (A i j))).
  { intros i j Hi Hj. destruct (HA i j ltac:(lia) ltac:(lia)) as (F & m & Hm & E). split; [exact F|]. split; [reflexivity|]. eauto. }
  destruct (cx_det c A e (2 ^ 16) He ltac:(lia) Hf) as [(F & E & _) _].
  exists (inv3 (FmaNum c) A (cdiv (plain (b64_ofZ 1)) (det3 (FmaNum c) A))), (det3 (FmaNum c) A).
  split; [exact (inverse_c_any (FmaNum c) A _ eq_refl)|]. split; [exact F|]. unfold creal. rewrite E. apply det3_det.
Qed.

(** * A determinant that depends on the compiler *)
Definition equal_rows := [[1; 0; 0]; [0; 134217729; 134217729]; [0; 134217729; 134217729]]%Z.
Definition crows (l : list (list Z)) : Z -> Z -> cdouble := fun i j => given (3 * i + j) (of_rows l i j).
Definition never : contraction := fun _ _ _ => Separate.
Definition always : contraction := fun _ _ _ => FuseLeft.
Lemma compiler_dependent_lemma : exists A c c' X d X' d', CEntries A /\ det 3 (creal_matrix A) = 0 /\
  inverse_c (FmaNum c) (rows_of A) = Ok (rows_of X, d) /\ creal d = 0 /\
  inverse_c (FmaNum c') (rows_of A) = Ok (rows_of X', d') /\ creal d' = 1.
Proof.
  assert (S : forall i j, (Z.abs (nth j (nth i equal_rows []) 0) < 2 ^ 53)%Z) by (apply small_rows_spec; reflexivity).
  pose proof (of_rows_real _ S) as R.
  exists (crows equal_rows), never, always. do 4 eexists. split; [|split; [|split; [|split; [|split]]]].
  - intros i j _ _. split; [reflexivity|]. destruct (R i j) as [F E]. split; [exact F|].
    change (B2R (cval (crows equal_rows i j))) with (real_matrix (of_rows equal_rows) i j).
    rewrite E, <- abs_IZR. apply Rle_trans with (IZR (2 ^ 53)); [apply IZR_le; specialize (S (Z.to_nat i) (Z.to_nat j)); lia|].
    change (IZR (2 ^ 53)) with (pow2 53). apply bpow_le. lia.
  - change (creal_matrix (crows equal_rows)) with (real_matrix (of_rows equal_rows)).
    rewrite (det_of_rows _ R). apply f_equal. vm_compute. reflexivity.
  - exact (inverse_c_any (FmaNum never) _ _ eq_refl).
  - assert (D : B2SF (cval (det3 (FmaNum never) (crows equal_rows))) = SpecFloat.S754_zero false) by (vm_compute; reflexivity).
    unfold creal. rewrite <- SF2R_B2SF, D. reflexivity.
  - exact (inverse_c_any (FmaNum always) _ _ eq_refl).
  - assert (D : B2SF (cval (det3 (FmaNum always) (crows equal_rows))) = SpecFloat.S754_finite false 4503599627370496 (-52)) by (vm_compute; reflexivity).
    unfold creal. rewrite <- SF2R_B2SF, D. unfold SF2R, F2R. cbn. lra.
Qed.

(** * Gradients of one-dimensional bases *)
Lemma gradient_fma_lemma c so : Supported64 so ->
  exists d, Grid64 so d /\
  forall y i, CReference y -> (0 <= i < snd so + 1)%Z ->
  exists g, bgradient (basisC c so) i y = Ok g /\ CFinite g /\
    Rabs (creal g - fder d i (creal y)) <=
      IZR (6 * snd so + 2) * pow2 (-53) * gradient_size (npts d) (pt d) i (creal y) + pow2 (-929).
Proof.
  intros H. destruct (grid_existsC c so H) as (d & HG & HL). exists d. split; [exact HG|].
  intros y i Hy Hi. destruct (HL y Hy) as (l & (_ & _ & Hl) & Hn & HA). destruct HG as (En & _).
  rewrite Hn, En in *. destruct (Hl i Hi) as (_ & Eg). destruct (HA i Hi) as (_ & _ & (F & E & B & _) & _).
  exists (lg l i). split; [exact Eg|]. split; [exact F|]. eapply Rle_trans; [exact E|].
  apply Rplus_le_compat_r, Rmult_le_compat_r; [eapply Rle_trans; [apply Rabs_pos|exact B]|].
  apply supported_range in H. eapply Rle_trans; [apply Rel_upper; lia|].
  apply Rmult_le_compat_r; [apply bpow_ge_0|]. rewrite INR_IZR_INZ, <- plus_IZR. apply IZR_le. lia.
Qed.

(** * Examples *)
Lemma fma_inputs : CReference (given 1 (b64_lit 5 1)) /\ CReference (given 2 (b64_ofZ 0)) /\ CData (given 3 (b64_ofZ 7)).
Proof.
  destruct demo_ok as (_ & _ & _ & HR & HD). inversion HR as [|? ? H1 HR']; subst. inversion HR' as [|? ? H2 _]; subst.
  split; [|split]; (split; [reflexivity|assumption]).
Qed.
Lemma fma_good_matrix : CEntries (crows good_rows) /\ det 3 (creal_matrix (crows good_rows)) = 19 /\
  perm 3 (absm (creal_matrix (crows good_rows))) = 23.
Proof.
  assert (S : forall i j, (Z.abs (nth j (nth i good_rows []) 0) < 2 ^ 53)%Z) by (apply small_rows_spec; reflexivity).
  pose proof (of_rows_real _ S) as R.
  change (creal_matrix (crows good_rows)) with (real_matrix (of_rows good_rows)).
  split; [|split].
  - intros i j _ _. split; [reflexivity|]. destruct (R i j) as [F E']. split; [exact F|].
    change (B2R (cval (crows good_rows i j))) with (real_matrix (of_rows good_rows) i j).
    rewrite E', <- abs_IZR. apply Rle_trans with (IZR (2 ^ 53)); [apply IZR_le; specialize (S (Z.to_nat i) (Z.to_nat j)); lia|].
    change (IZR (2 ^ 53)) with (pow2 53). apply bpow_le. lia.
  - rewrite (det_of_rows _ R); apply f_equal; reflexivity.
  - transitivity (IZR (2 * (9 + 1) + 1 * (3 + 0) + 0 * 1)); [|apply f_equal; reflexivity].
    rewrite <- aperm_perm. unfold aperm, acof, R2.
    repeat match goal with |- context [B2R (of_rows good_rows ?i ?j)] =>
      change (B2R (of_rows good_rows i j)) with (real_matrix (of_rows good_rows) i j); rewrite (proj2 (R i j)) end.
    rewrite <- !abs_IZR. rewrite <- !mult_IZR, <- !plus_IZR, <- !mult_IZR, <- !plus_IZR. apply f_equal. vm_compute. reflexivity.
Qed.
Lemma fma_contracts : (* a contraction is seen by the model *)
  let x := given 1 (b64_ofZ 134217729) in
  B2SF (cval (csub never (cmul x x) (cmul x x))) = SpecFloat.S754_zero false /\
  B2SF (cval (csub always (cmul x x) (cmul x x))) = B2SF (b64_ofZ 1).
Proof. split; vm_compute; reflexivity. Qed.
Definition ccube : list cdouble := map plain cube64.
