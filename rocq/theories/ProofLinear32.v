(** Bases of order one and two in binary32: identities that hold exactly. *)
From Coq Require Import ZArith Reals Bool List Lia Lra Psatz.
From Flocq Require Import Core IEEE754.BinarySingleNaN.
Require Import Flocq.Prop.Mult_error.
From Verif Require Import Base ProofBase Num ModelF32 ModelSequence ModelSpacing ModelLagrange SpecF32
  ProofF32 ProofGeneric ProofLagrange32 ProofSum32 ProofGrad32 ProofNodes32.
Local Open Scope R_scope.

(** * Values of computed numbers *)
Definition Val (a : b32) (r : R) (e : Z) : Prop := is_finite a = true /\ B2R a = r /\ Rabs r <= pow2 e.

Lemma Val_mult a b r s e f : Val a r e -> Val b s f -> (-149 <= e + f < 128)%Z ->
  Val (Bmult mode_NE a b) (rnd (r * s)) (e + f).
Proof.
  intros (Fa & Ea & Ba) (Fb & Eb & Bb) H.
  destruct (B_mult a b (e + f) Fa Fb H) as (F & E & B).
  { rewrite Ea, Eb, Rabs_mult, bpow_plus. apply Rmult_le_compat; try apply Rabs_pos; assumption. }
  rewrite Ea, Eb in E. rewrite E in B. now repeat split.
Qed.
Lemma Val_plus a b r s e : Val a r e -> Val b s e -> (-149 <= e + 1 < 128)%Z ->
  Val (Bplus mode_NE a b) (rnd (r + s)) (e + 1).
Proof.
  intros (Fa & Ea & Ba) (Fb & Eb & Bb) H.
  destruct (B_plus a b (e + 1) Fa Fb H) as (F & E & B).
  { rewrite Ea, Eb, bpow_plus. change (pow2 1) with 2. eapply Rle_trans; [apply Rabs_triang|]. lra. }
  rewrite Ea, Eb in E. rewrite E in B. now repeat split.
Qed.
Lemma Val_le a r e f : Val a r e -> (e <= f)%Z -> Val a r f.
Proof. intros (F & E & B) H. repeat split; try assumption. eapply Rle_trans; [exact B|]. now apply bpow_le. Qed.
Lemma Val_int z e : (Z.abs z <= 1)%Z -> (0 <= e)%Z -> Val (b32_ofZ z) (IZR z) e.
Proof.
  intros H He. destruct (b32_ofZ_exact z ltac:(lia)) as (F & E). split; [exact F|]. split; [exact E|].
  rewrite <- abs_IZR. apply Rle_trans with 1; [now apply IZR_le|]. change 1 with (pow2 0). now apply bpow_le.
Qed.
Lemma Val_fmt a r e : Val a r e -> fmt r.
Proof. intros (_ & <- & _). apply fmt_B. Qed.
Lemma rnd_1 : rnd 1 = 1.
Proof. apply rnd_id. change 1 with (pow2 0). apply fmt_pow2. lia. Qed.
Lemma rnd_rnd x : rnd (rnd x) = rnd x.
Proof. apply rnd_id, rnd_fmt. Qed.

Lemma order_small ORDER : (1 <= ORDER <= 2)%Z -> (0 <= ORDER < INT_MAX)%Z.
Proof. unfold INT_MAX. lia. Qed.
Lemma gap_small q : (0 <= q <= 20)%Z -> (0 <= q <= 120)%Z.
Proof. lia. Qed.

Lemma t_one x i w : B2R (t32 x i i w) = 1.
Proof. unfold t32. rewrite Z.eqb_refl. now destruct (b32_ofZ_exact 1 ltac:(lia)). Qed.
Lemma g_zero x i : B2R (g32 x i i) = 0.
Proof. unfold g32. rewrite Z.eqb_refl. now destruct (b32_ofZ_exact 0 ltac:(lia)). Qed.

(** * Reflection *)
Section Reflect.
Context (ORDER q : Z) (coordinate : Z -> outcome b32) (x : Z -> b32).
Context (HO : (1 <= ORDER <= 2)%Z) (Hq : (0 <= q <= 20)%Z).
Context (Hp : forall k, (0 <= k < ORDER + 1)%Z -> coordinate k = Ok (x k)).
Context (Hf : forall k, (0 <= k < ORDER + 1)%Z -> is_finite (x k) = true /\ Rabs (B2R (x k)) <= 1).
Context (Hsep : forall i k, (0 <= i < ORDER + 1)%Z -> (0 <= k < ORDER + 1)%Z -> i <> k ->
  pow2 (- q) <= Rabs (B2R (x i) - B2R (x k))).

Lemma t_val i k w : (0 <= i < ORDER + 1)%Z -> (0 <= k < ORDER + 1)%Z -> InReference32 w ->
  Val (t32 x i k w) (if (i =? k)%Z then 1 else rnd (rnd (B2R w - B2R (x k)) * B2R (d32 x i k))) (q + 1).
Proof using All.
  intros Hi Hk (Fw & Bw). unfold t32. destruct (Z.eqb_spec i k) as [E|E]; [apply Val_int; lia|].
  destruct (Hf k Hk) as [Fk Bk]. destruct (d32_ok ORDER q coordinate x (gap_small _ Hq) Hp Hf Hsep i k Hi Hk E) as (Fd & _ & Bd).
  destruct (B_minus w (x k) 1 Fw Fk) as (Fs & Es & Bs); [lia|now apply diff_le2|].
  rewrite Es in Bs. rewrite Z.add_comm. apply Val_mult; [now repeat split|now repeat split|lia].
Qed.
Lemma t_B i k w : (0 <= i < ORDER + 1)%Z -> (0 <= k < ORDER + 1)%Z -> InReference32 w ->
  Val (t32 x i k w) (B2R (t32 x i k w)) (q + 1).
Proof using All. intros Hi Hk Hw. destruct (t_val i k w Hi Hk Hw) as (F & E & B). rewrite <- E in B. now repeat split. Qed.
Lemma g_B i k : (0 <= i < ORDER + 1)%Z -> (0 <= k < ORDER + 1)%Z -> Val (g32 x i k) (B2R (g32 x i k)) q.
Proof using All.
  intros Hi Hk. unfold g32. destruct (Z.eqb_spec i k) as [E|E].
  - destruct (Val_int 0 q) as (F & E0 & B); [lia|lia|]. rewrite <- E0 in B. now repeat split.
  - destruct (d32_ok ORDER q coordinate x (gap_small _ Hq) Hp Hf Hsep i k Hi Hk E) as (Fd & _ & Bd). now repeat split.
Qed.
Lemma f_B i a k w : (0 <= i < ORDER + 1)%Z -> (0 <= k < ORDER + 1)%Z -> InReference32 w ->
  Val (f32 x i a k w) (if (k =? a)%Z then 1 else B2R (t32 x i k w)) (q + 1).
Proof using All. intros Hi Hk Hw. unfold f32. destruct (Z.eqb_spec k a); [apply Val_int; lia|now apply t_B]. Qed.

Context (Hsym : forall k, (0 <= k < ORDER + 1)%Z -> B2R (x (ORDER - k)) = - B2R (x k)).
Context (y y' : b32) (Hy : InReference32 y) (Hy' : InReference32 y') (Eyy : B2R y' = - B2R y).

Lemma d_refl i k : (0 <= i < ORDER + 1)%Z -> (0 <= k < ORDER + 1)%Z -> i <> k ->
  B2R (d32 x (ORDER - i) (ORDER - k)) = - B2R (d32 x i k).
Proof using All.
  intros Hi Hk Hne.
  destruct (s32_ok ORDER q coordinate x (gap_small _ Hq) Hp Hf Hsep i k Hi Hk Hne) as (_ & Es & L & _).
  destruct (s32_ok ORDER q coordinate x (gap_small _ Hq) Hp Hf Hsep (ORDER - i) (ORDER - k)) as (_ & Es' & _); [lia|lia|lia|].
  destruct (d32_ok ORDER q coordinate x (gap_small _ Hq) Hp Hf Hsep i k Hi Hk Hne) as (_ & Ed & _).
  destruct (d32_ok ORDER q coordinate x (gap_small _ Hq) Hp Hf Hsep (ORDER - i) (ORDER - k)) as (_ & Ed' & _); [lia|lia|lia|].
  rewrite Ed, Ed', Es'. rewrite !Hsym by assumption.
  replace (- B2R (x i) - - B2R (x k)) with (- (B2R (x i) - B2R (x k))) by ring.
  rewrite rnd_opp, <- Es, <- rnd_opp. f_equal. field.
  intros E. rewrite E, Rabs_R0 in L. pose proof (bpow_gt_0 radix2 (- q)). lra.
Qed.
Lemma t_refl i k : (0 <= i < ORDER + 1)%Z -> (0 <= k < ORDER + 1)%Z ->
  B2R (t32 x (ORDER - i) (ORDER - k) y') = B2R (t32 x i k y).
Proof using All.
  intros Hi Hk. destruct (t_val i k y Hi Hk Hy) as (_ & -> & _).
  destruct (t_val (ORDER - i) (ORDER - k) y') as (_ & -> & _); [lia|lia|exact Hy'|].
  destruct (Z.eqb_spec (ORDER - i) (ORDER - k)), (Z.eqb_spec i k); try lia; [reflexivity|].
  rewrite d_refl, Hsym, Eyy by assumption.
  replace (- B2R y - - B2R (x k)) with (- (B2R y - B2R (x k))) by ring. rewrite rnd_opp. f_equal. ring.
Qed.
Lemma g_refl i k : (0 <= i < ORDER + 1)%Z -> (0 <= k < ORDER + 1)%Z ->
  B2R (g32 x (ORDER - i) (ORDER - k)) = - B2R (g32 x i k).
Proof using All.
  intros Hi Hk. unfold g32. destruct (Z.eqb_spec (ORDER - i) (ORDER - k)), (Z.eqb_spec i k); try lia.
  - destruct (b32_ofZ_exact 0 ltac:(lia)) as (_ & ->). ring.
  - now apply d_refl.
Qed.
End Reflect.

(** ** Order 1 *)
Ltac simp := repeat (progress (rewrite ?Rmult_1_l, ?Rmult_1_r, ?Rmult_0_l, ?Rmult_0_r, ?Rplus_0_l, ?Rplus_0_r, ?rnd_0, ?rnd_1, ?rnd_rnd,
   ?(fun a : b32 => rnd_id (B2R a) (fmt_B a)))).

Section Orders.
Context (ORDER q : Z) (coordinate : Z -> outcome b32) (x : Z -> b32).
Context (HO : (1 <= ORDER <= 2)%Z) (Hq : (0 <= q <= 20)%Z).
Context (Hp : forall k, (0 <= k < ORDER + 1)%Z -> coordinate k = Ok (x k)).
Context (Hf : forall k, (0 <= k < ORDER + 1)%Z -> is_finite (x k) = true /\ Rabs (B2R (x k)) <= 1).
Context (Hsep : forall i k, (0 <= i < ORDER + 1)%Z -> (0 <= k < ORDER + 1)%Z -> i <> k ->
  pow2 (- q) <= Rabs (B2R (x i) - B2R (x k))).

(** The value of the product and of the sum, all roundings spelled out. *)
Definition tr (i k : Z) (w : b32) : R := B2R (t32 x i k w).
Definition gr (i k : Z) : R := B2R (g32 x i k).
Definition fr (i a k : Z) (w : b32) : R := if (k =? a)%Z then 1 else tr i k w.
Definition vr (i : Z) (w : b32) : R :=
  if (ORDER =? 1)%Z then rnd (tr i 0 w * tr i 1 w) else rnd (tr i 0 w * rnd (tr i 1 w * tr i 2 w)).
Definition pr (i a : Z) (w : b32) : R :=
  if (ORDER =? 1)%Z then rnd (fr i a 0 w * fr i a 1 w) else rnd (fr i a 0 w * rnd (fr i a 1 w * fr i a 2 w)).
Definition dr (i : Z) (w : b32) : R :=
  if (ORDER =? 1)%Z then rnd (rnd (gr i 0 * pr i 0 w) + rnd (gr i 1 * pr i 1 w))
  else rnd (rnd (gr i 0 * pr i 0 w) + rnd (rnd (gr i 1 * pr i 1 w) + rnd (gr i 2 * pr i 2 w))).

Lemma value_spelled i w : (0 <= i < ORDER + 1)%Z -> InReference32 w ->
  exists v, bvalue (lagrange_of F32Num ORDER coordinate) i w = Ok v /\ is_finite v = true /\ B2R v = vr i w.
Proof using All.
  intros Hi Hw. eexists. split; [apply (lagrange_value32 ORDER q coordinate x); try assumption; [unfold INT_MAX; lia|lia]|].
  pose proof (fun k Hk => t_B ORDER q coordinate x HO Hq Hp Hf Hsep i k w Hi Hk Hw) as HB.
  unfold vr. destruct (Z.eqb_spec ORDER 1) as [E|E].
  - rewrite E. change (zseq (Z.to_nat (1 + 1))) with [0; 1]%Z. rewrite prod32_cons. cbn [prod32].
    destruct (Val_mult _ _ _ _ _ _ (HB 0%Z ltac:(lia)) (HB 1%Z ltac:(lia)) ltac:(lia)) as (F & Ev & _). now split.
  - assert (E2 : ORDER = 2%Z) by lia. rewrite E2. change (zseq (Z.to_nat (2 + 1))) with [0; 1; 2]%Z. rewrite !prod32_cons. cbn [prod32].
    pose proof (Val_mult _ _ _ _ _ _ (HB 1%Z ltac:(lia)) (HB 2%Z ltac:(lia)) ltac:(lia)) as H12.
    destruct (Val_mult _ _ _ _ _ _ (HB 0%Z ltac:(lia)) H12 ltac:(lia)) as (F & Ev & _). now split.
Qed.

Lemma gradient_spelled i w : (0 <= i < ORDER + 1)%Z -> InReference32 w ->
  exists v, bgradient (lagrange_of F32Num ORDER coordinate) i w = Ok v /\ is_finite v = true /\ B2R v = dr i w.
Proof using All.
  intros Hi Hw. eexists. split; [apply (lagrange_gradient32 ORDER q coordinate x); try assumption; [unfold INT_MAX; lia|lia]|].
  pose proof (fun a k Hk => f_B ORDER q coordinate x HO Hq Hp Hf Hsep i a k w Hi Hk Hw) as HB.
  pose proof (fun k Hk => g_B ORDER q coordinate x HO Hq Hp Hf Hsep i k Hi Hk) as HG.
  unfold grad32, dr, pr. destruct (Z.eqb_spec ORDER 1) as [E|E].
  - rewrite E. change (zseq (Z.to_nat (1 + 1))) with [0; 1]%Z. cbn [map mulR sum32 nmul F32Num].
    assert (HS : forall a, (0 <= a < ORDER + 1)%Z -> Val (Bmult mode_NE (g32 x i a) (Bmult mode_NE (f32 x i a 0 w) (f32 x i a 1 w)))
              (rnd (gr i a * rnd (fr i a 0 w * fr i a 1 w))) (q + ((q + 1) + (q + 1)))).
    { intros a Ha. apply Val_mult; [now apply HG| |lia]. apply Val_mult; [apply HB; lia|apply HB; lia|lia]. }
    destruct (Val_plus _ _ _ _ _ (HS 0%Z ltac:(lia)) (HS 1%Z ltac:(lia)) ltac:(lia)) as (F & Ev & _). now split.
  - assert (E2 : ORDER = 2%Z) by lia. rewrite E2. change (zseq (Z.to_nat (2 + 1))) with [0; 1; 2]%Z. cbn [map mulR sum32 nmul F32Num].
    assert (HS : forall a, (0 <= a < ORDER + 1)%Z ->
              Val (Bmult mode_NE (g32 x i a) (Bmult mode_NE (f32 x i a 0 w) (Bmult mode_NE (f32 x i a 1 w) (f32 x i a 2 w))))
              (rnd (gr i a * rnd (fr i a 0 w * rnd (fr i a 1 w * fr i a 2 w)))) (q + ((q + 1) + ((q + 1) + (q + 1))))).
    { intros a Ha. apply Val_mult; [now apply HG| |lia]. apply Val_mult; [apply HB; lia| |lia].
      apply Val_mult; [apply HB; lia|apply HB; lia|lia]. }
    pose proof (Val_plus _ _ _ _ _ (HS 1%Z ltac:(lia)) (HS 2%Z ltac:(lia)) ltac:(lia)) as H12.
    pose proof (Val_le _ _ _ (q + (q + 1 + (q + 1 + (q + 1))) + 1) (HS 0%Z ltac:(lia)) ltac:(lia)) as H0.
    destruct (Val_plus _ _ _ _ _ H0 H12 ltac:(lia)) as (F & Ev & _). now split.
Qed.

Context (Hsym : forall k, (0 <= k < ORDER + 1)%Z -> B2R (x (ORDER - k)) = - B2R (x k)).
Context (y y' : b32) (Hy : InReference32 y) (Hy' : InReference32 y') (Eyy : B2R y' = - B2R y).

Lemma tr_refl i k : (0 <= i < ORDER + 1)%Z -> (0 <= k < ORDER + 1)%Z -> tr (ORDER - i) (ORDER - k) y' = tr i k y.
Proof using All. intros Hi Hk. now apply (t_refl ORDER q coordinate x). Qed.
Lemma gr_refl i k : (0 <= i < ORDER + 1)%Z -> (0 <= k < ORDER + 1)%Z -> gr (ORDER - i) (ORDER - k) = - gr i k.
Proof using All. intros Hi Hk. now apply (g_refl ORDER q coordinate x HO Hq Hp Hf Hsep Hsym y y'). Qed.
Lemma tr_own i w : tr i i w = 1.
Proof using. apply t_one. Qed.
Lemma gr_own i : gr i i = 0.
Proof using. apply g_zero. Qed.
Lemma tr_id i k w : rnd (tr i k w) = tr i k w.
Proof using. apply rnd_id, fmt_B. Qed.
Lemma gr_id i k : rnd (gr i k) = gr i k.
Proof using. apply rnd_id, fmt_B. Qed.

Lemma value_refl i : (0 <= i < ORDER + 1)%Z -> vr (ORDER - i) y' = vr i y.
Proof using All.
  intros Hi. pose proof (fun k Hk => tr_refl i k Hi Hk) as T. unfold vr. destruct (Z.eqb_spec ORDER 1) as [E|E].
  - rewrite E in *. pose proof (T 0%Z ltac:(lia)) as T0. pose proof (T 1%Z ltac:(lia)) as T1.
    change (1 - 0)%Z with 1%Z in T0. change (1 - 1)%Z with 0%Z in T1. rewrite T0, T1. f_equal. ring.
  - assert (E2 : ORDER = 2%Z) by lia. rewrite E2 in *.
    pose proof (T 0%Z ltac:(lia)) as T0. pose proof (T 1%Z ltac:(lia)) as T1. pose proof (T 2%Z ltac:(lia)) as T2.
    change (2 - 0)%Z with 2%Z in T0. change (2 - 1)%Z with 1%Z in T1. change (2 - 2)%Z with 0%Z in T2. rewrite T0, T1, T2.
    assert (Hc : (i = 0 \/ i = 1 \/ i = 2)%Z) by lia. destruct Hc as [->|[->| ->]]; rewrite !tr_own; simp; rewrite ?tr_id; f_equal; ring.
Qed.
Lemma gradient_refl i : (0 <= i < ORDER + 1)%Z -> dr (ORDER - i) y' = - dr i y.
Proof using All.
  intros Hi. pose proof (fun k Hk => tr_refl i k Hi Hk) as T. pose proof (fun k Hk => gr_refl i k Hi Hk) as G.
  unfold dr, pr, fr. destruct (Z.eqb_spec ORDER 1) as [E|E].
  - rewrite E in *. pose proof (T 0%Z ltac:(lia)) as T0. pose proof (T 1%Z ltac:(lia)) as T1.
    pose proof (G 0%Z ltac:(lia)) as G0. pose proof (G 1%Z ltac:(lia)) as G1.
    change (1 - 0)%Z with 1%Z in *. change (1 - 1)%Z with 0%Z in *. rewrite T0, T1, G0, G1.
    cbn [Z.eqb Pos.eqb].
    assert (Hc : (i = 0 \/ i = 1)%Z) by lia. destruct Hc as [->| ->]; rewrite ?tr_own, ?gr_own, ?Ropp_0; simp; rewrite ?tr_id, ?gr_id; simp; rewrite ?Ropp_0; simp;
      rewrite ?gr_id, ?Ropp_mult_distr_l_reverse, ?rnd_opp, ?gr_id, ?rnd_rnd; reflexivity.
  - assert (E2 : ORDER = 2%Z) by lia. rewrite E2 in *.
    pose proof (T 0%Z ltac:(lia)) as T0. pose proof (T 1%Z ltac:(lia)) as T1. pose proof (T 2%Z ltac:(lia)) as T2.
    pose proof (G 0%Z ltac:(lia)) as G0. pose proof (G 1%Z ltac:(lia)) as G1. pose proof (G 2%Z ltac:(lia)) as G2.
    change (2 - 0)%Z with 2%Z in *. change (2 - 1)%Z with 1%Z in *. change (2 - 2)%Z with 0%Z in *. rewrite T0, T1, T2, G0, G1, G2.
    cbn [Z.eqb Pos.eqb].
    assert (Hc : (i = 0 \/ i = 1 \/ i = 2)%Z) by lia. destruct Hc as [->|[->| ->]]; rewrite ?tr_own, ?gr_own, ?Ropp_0;
      repeat (progress (simp; rewrite ?tr_id, ?Ropp_mult_distr_l_reverse, ?rnd_opp)).
    all: match goal with |- _ = - rnd ?z => rewrite <- (rnd_opp z) end; f_equal; ring.
Qed.
End Orders.

(** ** The bundled bases of order one and two *)
Definition mirrored (s : spacing) (ORDER : Z) : bool :=
  forallb (fun k => match coord_ct32 s (ORDER + 1) k, coord_ct32 s (ORDER + 1) (ORDER - k) with
                    | Ok a, Ok b => Beqb b (Bopp a)
                    | _, _ => false
                    end) (zseq (Z.to_nat (ORDER + 1))).
Lemma mirrored_ok s ORDER : (1 <= ORDER <= 2)%Z -> mirrored s ORDER = true.
Proof.
  intros H. assert (E : (ORDER = 1 \/ ORDER = 2)%Z) by lia. destruct s, E as [->| ->]; vm_compute; reflexivity.
Qed.

Lemma bundled_mirrored s ORDER : (1 <= ORDER <= 2)%Z ->
  exists q x, (0 <= q <= 20)%Z /\ Points32 (coord_ct32 s (ORDER + 1)) (ORDER + 1) x /\ Separated32 q (ORDER + 1) x /\
    forall k, (0 <= k < ORDER + 1)%Z -> B2R (x (ORDER - k)%Z) = - B2R (x k).
Proof.
  intros HO. destruct (bundled_nodes32 s ORDER) as (x & _ & P & S); [destruct s; cbn; lia|].
  exists 4%Z, x. split; [lia|]. split; [exact P|]. split; [exact S|]. intros k Hk.
  pose proof (mirrored_ok s ORDER HO) as M. unfold mirrored in M. rewrite forallb_forall in M.
  assert (Hin : In k (zseq (Z.to_nat (ORDER + 1)))) by (apply in_zseq; lia).
  specialize (M k Hin). rewrite (P k Hk), (P (ORDER - k)%Z) in M by lia.
  destruct S as [F _]. destruct (F k Hk) as [Fk _]. destruct (F (ORDER - k)%Z) as [Fk' _]; [lia|].
  rewrite Beqb_correct in M; [|exact Fk'|rewrite is_finite_Bopp; exact Fk].
  rewrite B2R_Bopp in M. destruct (Req_bool_spec (B2R (x (ORDER - k)%Z)) (- B2R (x k))); [assumption|discriminate].
Qed.

Lemma reflection_lemma s ORDER i y : (1 <= ORDER <= 2)%Z -> (0 <= i <= ORDER)%Z -> InReference32 y ->
  (exists v v', bvalue (LagrangeBasis32 ORDER s) i y = Ok v /\
     bvalue (LagrangeBasis32 ORDER s) (ORDER - i) (Bopp y) = Ok v' /\
     is_finite v = true /\ is_finite v' = true /\ B2R v' = B2R v) /\
  (exists g g', bgradient (LagrangeBasis32 ORDER s) i y = Ok g /\
     bgradient (LagrangeBasis32 ORDER s) (ORDER - i) (Bopp y) = Ok g' /\
     is_finite g = true /\ is_finite g' = true /\ B2R g' = - B2R g).
Proof.
  intros HO Hi Hy. destruct (bundled_mirrored s ORDER HO) as (q & x & Hq & P & [Hf Hsep] & Hsym).
  assert (Hp : forall k, (0 <= k < ORDER + 1)%Z -> (n <- nSupport ORDER ;; coord_ct32 s n k) = Ok (x k)).
  { intros k Hk. rewrite LagrangeBasis_coordinate by (unfold INT_MAX; lia). now apply P. }
  assert (Hy' : InReference32 (Bopp y)).
  { destruct Hy as [F B]. split; [now rewrite is_finite_Bopp|]. now rewrite B2R_Bopp, Rabs_Ropp. }
  assert (Ey : B2R (Bopp y) = - B2R y) by apply B2R_Bopp. split.
  - destruct (value_spelled ORDER q _ x HO Hq Hp Hf Hsep i y ltac:(lia) Hy) as (v & Ev & Fv & Vv).
    destruct (value_spelled ORDER q _ x HO Hq Hp Hf Hsep (ORDER - i) (Bopp y) ltac:(lia) Hy') as (v' & Ev' & Fv' & Vv').
    exists v, v'. split; [exact Ev|]. split; [exact Ev'|]. split; [exact Fv|]. split; [exact Fv'|].
    rewrite Vv, Vv'. apply (value_refl ORDER q _ x HO Hq Hp Hf Hsep Hsym y (Bopp y) Hy Hy' Ey). lia.
  - destruct (gradient_spelled ORDER q _ x HO Hq Hp Hf Hsep i y ltac:(lia) Hy) as (v & Ev & Fv & Vv).
    destruct (gradient_spelled ORDER q _ x HO Hq Hp Hf Hsep (ORDER - i) (Bopp y) ltac:(lia) Hy') as (v' & Ev' & Fv' & Vv').
    exists v, v'. split; [exact Ev|]. split; [exact Ev'|]. split; [exact Fv|]. split; [exact Fv'|].
    rewrite Vv, Vv'. apply (gradient_refl ORDER q _ x HO Hq Hp Hf Hsep Hsym y (Bopp y) Hy Hy' Ey). lia.
Qed.

(** * Sums that are exactly one *)
Lemma fmt_grain b e : fmt b -> (-126 <= e)%Z -> pow2 e <= Rabs b -> exists m, b = IZR m * pow2 (e - 23).
Proof.
  intros Fb He Hb. pose proof (bpow_gt_0 radix2 e) as He0.
  assert (b <> 0) by (intros ->; rewrite Rabs_R0 in Hb; lra).
  red in Fb. set (c := cexp radix2 fexp32 b) in *.
  assert (Hc : (e - 23 <= c)%Z).
  { unfold c, cexp, FLT_exp. pose proof (mag_ge_bpow radix2 b (e + 1) ltac:(replace (e + 1 - 1)%Z with e by lia; exact Hb)).
    unfold SpecFloat.fexp, SpecFloat.emin, prec32, emax32. lia. }
  set (n := Ztrunc (scaled_mantissa radix2 fexp32 b)) in *. clearbody c n.
  exists (n * 2 ^ (c - (e - 23)))%Z. rewrite Fb. unfold F2R. cbn [Fnum Fexp].
  rewrite mult_IZR. change (IZR (2 ^ (c - (e - 23)))) with (IZR (Zpower radix2 (c - (e - 23)))).
  rewrite IZR_Zpower by lia. rewrite Rmult_assoc, <- bpow_plus. f_equal. f_equal. lia.
Qed.
Lemma rnd_err x e : (-100 <= e)%Z -> Rabs x <= pow2 e -> Rabs (rnd x - x) <= pow2 (e - 25).
Proof.
  intros He Hx. destruct (Req_dec (Rabs x) (pow2 e)) as [E|E].
  { replace (rnd x) with x; [rewrite Rminus_diag_eq, Rabs_R0 by reflexivity; apply bpow_ge_0|]. symmetry. apply rnd_id.
    destruct (Rcase_abs x).
    - rewrite Rabs_left in E by assumption. replace x with (- pow2 e) by lra. apply generic_format_opp, fmt_pow2. lia.
    - rewrite Rabs_right in E by assumption. rewrite E. apply fmt_pow2. lia. }
  destruct (Req_dec x 0) as [->|N]; [rewrite rnd_0, Rminus_0_r, Rabs_R0; apply bpow_ge_0|].
  eapply Rle_trans; [apply error_le_half_ulp; typeclasses eauto|].
  rewrite ulp_neq_0 by exact N. change (/ 2) with (pow2 (-1)). rewrite <- bpow_plus. apply bpow_le. unfold cexp.
  pose proof (mag_le_bpow radix2 x e N ltac:(lra)). unfold SpecFloat.fexp, SpecFloat.emin, prec32, emax32. lia.
Qed.




Lemma rnd_below : rnd (1 - pow2 (-25)) = 1.
Proof.
  assert (P54 : pow2 (-25) = / 33554432) by reflexivity.
  generalize (binary_normalize_correct prec32 emax32 _ _ mode_NE (2 ^ 25 - 1) (-25) false).
  cbv zeta. change (round_mode mode_NE) with ZnearestE.
  assert (E : F2R (Float radix2 (2 ^ 25 - 1) (-25)) = 1 - pow2 (-25)).
  { unfold F2R. cbn [Fnum Fexp]. rewrite minus_IZR, P54. cbn -[Rmult Rinv]. lra. }
  rewrite E. rewrite Rlt_bool_true.
  - intros [H _]. rewrite <- H. rewrite <- SF2R_B2SF.
    vm_compute (B2SF _). cbn -[Rmult Rinv]. unfold F2R. cbn -[Rmult Rinv]. lra.
  - apply Rle_lt_trans with (pow2 1); [|apply bpow_lt; reflexivity].
    apply rnd_abs_pow2; [lia|]. rewrite P54, Rabs_pos_eq by lra. cbn. lra.
Qed.
Lemma rnd_near_one z : 1 - pow2 (-25) <= z <= 1 + pow2 (-24) -> rnd z = 1.
Proof.
  intros [L U]. apply rnd_le in L. apply rnd_le in U. rewrite rnd_below in L.
  change (pow2 (-24)) with u in U. rewrite rnd_tie in U. lra.
Qed.

Lemma fmt_2 : rnd 2 = 2.
Proof. apply rnd_id. change 2 with (pow2 1). apply fmt_pow2. lia. Qed.
Lemma half_sum_pos y : fmt y -> 0 <= y <= 1 -> rnd (rnd (1 + y) / 2 + rnd (1 - y) / 2) = 1.
Proof.
  intros Fy Hy. set (A := rnd (1 + y)). set (B := rnd (1 - y)).
  assert (P1 : pow2 1 = 2) by reflexivity. assert (P0 : pow2 0 = 1) by reflexivity.
  assert (Pm1 : pow2 (-1) = / 2) by reflexivity.
  assert (P52 : pow2 (-23) = 4 * pow2 (-25)) by (change 4 with (pow2 2); rewrite <- bpow_plus; reflexivity).
  assert (P53 : pow2 (-24) = 2 * pow2 (-25)) by (change 2 with (pow2 1); rewrite <- bpow_plus; reflexivity).
  pose proof (bpow_gt_0 radix2 (-25)) as H54.
  assert (EA : Rabs (A - (1 + y)) <= pow2 (-24)) by (apply (rnd_err (1 + y) 1); [lia|rewrite P1, Rabs_pos_eq; lra]).
  assert (EB : Rabs (B - (1 - y)) <= pow2 (-25)) by (apply (rnd_err (1 - y) 0); [lia|rewrite P0, Rabs_pos_eq; lra]).
  apply Rabs_le_inv in EA. apply Rabs_le_inv in EB.
  apply rnd_near_one. rewrite P53.
  destruct (Rle_or_lt y (/ 2)) as [H|H].
  - destruct (fmt_grain A 0) as [a Ea]; [apply rnd_fmt|lia| |].
    { rewrite P0. assert (1 <= A) by (rewrite <- rnd_1; apply rnd_le; lra). rewrite Rabs_pos_eq; lra. }
    destruct (fmt_grain B (-1)) as [b Eb]; [apply rnd_fmt|lia| |].
    { rewrite Pm1. assert (/ 2 <= B).
      { replace (/ 2) with (rnd (/ 2)) by (rewrite <- Pm1; apply rnd_id, fmt_pow2; lia). apply rnd_le. lra. }
      rewrite Rabs_pos_eq; lra. }
    change (0 - 23)%Z with (-23)%Z in Ea. change (-1 - 23)%Z with (-24)%Z in Eb. rewrite P52 in Ea. rewrite P53 in Eb, EA.
    assert (T : 2 = IZR (2 ^ 25) * 2 * pow2 (-25)).
    { change (IZR (2 ^ 25)) with (pow2 25). rewrite Rmult_comm, <- Rmult_assoc, <- bpow_plus. cbn. lra. }
    assert (S : A + B - 2 = IZR (4 * a + 2 * b - 2 ^ 25 * 2) * pow2 (-25)).
    { rewrite !minus_IZR, !plus_IZR, !mult_IZR. rewrite Ea, Eb. rewrite !Rmult_minus_distr_r, <- T. ring. }
    assert (D : - 3 <= IZR (4 * a + 2 * b - 2 ^ 25 * 2) <= 3).
    { split; apply Rmult_le_reg_r with (pow2 (-25)); try exact H54; rewrite <- S; lra. }
    destruct D as [D1 D2]. apply le_IZR in D1. apply le_IZR in D2.
    assert (D : (-2 <= 4 * a + 2 * b - 2 ^ 25 * 2 <= 2)%Z) by lia. destruct D as [D3 D4].
    apply IZR_le in D3. apply IZR_le in D4.
    apply Rmult_le_compat_r with (r := pow2 (-25)) in D3; [|lra]. apply Rmult_le_compat_r with (r := pow2 (-25)) in D4; [|lra]. lra.
  - destruct (fmt_grain y (-1)) as [m Em]; [exact Fy|lia|rewrite Pm1, Rabs_pos_eq; lra|].
    change (-1 - 23)%Z with (-24)%Z in Em.
    assert (T : 1 = IZR (2 ^ 24) * pow2 (-24)).
    { change (IZR (2 ^ 24)) with (pow2 24). rewrite <- bpow_plus. reflexivity. }
    assert (EB1 : B = 1 - y).
    { apply rnd_id. replace (1 - y) with (IZR (2 ^ 24 - m) * pow2 (-24)) by (rewrite minus_IZR, Rmult_minus_distr_r, <- T, <- Em; reflexivity).
      pose proof (bpow_gt_0 radix2 (-24)). apply fmt_int; [|lia].
      assert (0 <= m)%Z by (apply le_IZR; apply Rmult_le_reg_r with (pow2 (-24)); lra).
      assert (0 < m)%Z by (apply lt_IZR; apply Rmult_lt_reg_r with (pow2 (-24)); lra).
      assert (m <= 2 ^ 24)%Z by (apply le_IZR; apply Rmult_le_reg_r with (pow2 (-24)); lra). lia. }
    lra.
Qed.
Lemma half_sum y : fmt y -> Rabs y <= 1 -> rnd (rnd (1 + y) / 2 + rnd (1 - y) / 2) = 1.
Proof.
  intros Fy Hy. apply Rabs_le_inv in Hy. destruct (Rle_or_lt 0 y).
  - apply half_sum_pos; [exact Fy|lra].
  - rewrite Rplus_comm. replace (1 - y) with (1 + - y) by ring. replace (1 + y) with (1 - - y) by ring.
    apply half_sum_pos; [now apply generic_format_opp|lra].
Qed.

(** Halving such a number is exact. *)
Lemma half_fmt z : fmt z -> (z = 0 \/ pow2 (-100) <= Rabs z) -> rnd (z / 2) = z / 2.
Proof.
  intros Fz [->|H]; [unfold Rdiv; rewrite Rmult_0_l; apply rnd_0|]. apply rnd_id. unfold Rdiv. change (/ 2) with (pow2 (-1)).
  pose proof (bpow_gt_0 radix2 (-100)).
  apply (mult_bpow_exact_FLT radix2 (-149) 24); [exact Fz|].
  pose proof (mag_ge_bpow radix2 z (-99) H). lia.
Qed.

Lemma one_gap w : fmt w -> Rabs w <= 1 -> 1 - w = 0 \/ pow2 (-24) <= 1 - w.
Proof.
  intros Fw Hw. apply Rabs_le_inv in Hw. destruct (Rle_or_lt w (/ 2)) as [H|H].
  - right. apply Rle_trans with (pow2 (-1)); [apply bpow_le; lia|]. change (pow2 (-1)) with (/ 2). lra.
  - destruct (fmt_grain w (-1)) as [m Em]; [exact Fw|lia|change (pow2 (-1)) with (/ 2); rewrite Rabs_pos_eq; lra|].
    change (-1 - 23)%Z with (-24)%Z in Em.
    assert (T : 1 = IZR (2 ^ 24) * pow2 (-24)).
    { change (IZR (2 ^ 24)) with (pow2 24). rewrite <- bpow_plus. reflexivity. }
    pose proof (bpow_gt_0 radix2 (-24)) as P.
    assert (m <= 2 ^ 24)%Z by (apply le_IZR; apply Rmult_le_reg_r with (pow2 (-24)); lra).
    assert (E : 1 - w = IZR (2 ^ 24 - m) * pow2 (-24)) by (rewrite minus_IZR, Rmult_minus_distr_r, <- T, <- Em; reflexivity).
    rewrite E. destruct (Z.eq_dec m (2 ^ 24)) as [->|N]; [left; rewrite Z.sub_diag; ring|right].
    rewrite <- (Rmult_1_l (pow2 (-24))) at 1. apply Rmult_le_compat_r; [lra|]. apply IZR_le. lia.
Qed.
Lemma half_one w : fmt w -> Rabs w <= 1 -> rnd (rnd (1 - w) / 2) = rnd (1 - w) / 2.
Proof.
  intros Fw Hw. apply half_fmt; [apply rnd_fmt|]. destruct (one_gap w Fw Hw) as [E|E]; [left; rewrite E; apply rnd_0|right].
  apply Rle_trans with (pow2 (-24)); [apply bpow_le; lia|].
  assert (pow2 (-24) <= rnd (1 - w)) by (rewrite <- (rnd_id (pow2 (-24)) ltac:(apply fmt_pow2; lia)); now apply rnd_le).
  pose proof (bpow_gt_0 radix2 (-24)). rewrite Rabs_pos_eq; lra.
Qed.

(** The two-point rules at the end points. *)
Definition at_ends (s : spacing) : Prop := s = EqualSpacing \/ s = GaussLobattoSpacing.
Definition ends_ok (s : spacing) : bool :=
  match coord_ct32 s 2 0, coord_ct32 s 2 1 with
  | Ok a, Ok b => Beqb a (b32_ofZ (-1)) && Beqb b (b32_ofZ 1)
  | _, _ => false
  end.
Lemma ends_check s : at_ends s -> ends_ok s = true.
Proof. intros [->| ->]; vm_compute; reflexivity. Qed.
Lemma ends_value s x : at_ends s -> Points32 (coord_ct32 s 2) 2 x ->
  is_finite (x 0%Z) = true -> is_finite (x 1%Z) = true -> B2R (x 0%Z) = -1 /\ B2R (x 1%Z) = 1.
Proof.
  intros Hs P F0 F1. pose proof (ends_check s Hs) as E. unfold ends_ok in E.
  rewrite (P 0%Z ltac:(lia)), (P 1%Z ltac:(lia)) in E. apply andb_true_iff in E as [E0 E1].
  destruct (b32_ofZ_exact (-1) ltac:(lia)) as (Fa & Ea). destruct (b32_ofZ_exact 1 ltac:(lia)) as (Fb & Eb).
  rewrite Beqb_correct in E0, E1 by assumption. rewrite Ea in E0. rewrite Eb in E1.
  destruct (Req_bool_spec (B2R (x 0%Z)) (-1)), (Req_bool_spec (B2R (x 1%Z)) 1); try discriminate. now split.
Qed.

Lemma linear_values s : at_ends s -> forall y, InReference32 y ->
  exists v0 v1 g0 g1,
    bvalue (LagrangeBasis32 1 s) 0 y = Ok v0 /\ bvalue (LagrangeBasis32 1 s) 1 y = Ok v1 /\
    bgradient (LagrangeBasis32 1 s) 0 y = Ok g0 /\ bgradient (LagrangeBasis32 1 s) 1 y = Ok g1 /\
    IsFloat v0 (rnd (1 - B2R y) / 2) /\ IsFloat v1 (rnd (1 + B2R y) / 2) /\ IsFloat g0 (- / 2) /\ IsFloat g1 (/ 2).
Proof.
  intros Hs y Hy.
  destruct (bundled_mirrored s 1 ltac:(lia)) as (q & x & Hq & P & [Hf Hsep] & _).
  assert (Hp : forall k, (0 <= k < 1 + 1)%Z -> (n <- nSupport 1 ;; coord_ct32 s n k) = Ok (x k)).
  { intros k Hk. rewrite LagrangeBasis_coordinate by (unfold INT_MAX; lia). now apply P. }
  destruct (ends_value s x Hs P (proj1 (Hf 0%Z ltac:(lia))) (proj1 (Hf 1%Z ltac:(lia)))) as [X0 X1].
  assert (R2 : rnd (/ 2) = / 2) by (apply rnd_id; change (/ 2) with (pow2 (-1)); apply fmt_pow2; lia).
  assert (D01 : B2R (d32 x 0 1) = - / 2).
  { destruct (s32_ok 1 q _ x ltac:(lia) Hp Hf Hsep 0 1 ltac:(lia) ltac:(lia) ltac:(lia)) as (_ & Es & _).
    destruct (d32_ok 1 q _ x ltac:(lia) Hp Hf Hsep 0 1 ltac:(lia) ltac:(lia) ltac:(lia)) as (_ & Ed & _).
    rewrite X0, X1 in Es. replace (-1 - 1) with (- (2)) in Es by ring. rewrite rnd_opp, fmt_2 in Es. rewrite Es in Ed.
    rewrite Ed. replace (1 / - (2)) with (- / 2) by field. now rewrite rnd_opp, R2. }
  assert (D10 : B2R (d32 x 1 0) = / 2).
  { destruct (s32_ok 1 q _ x ltac:(lia) Hp Hf Hsep 1 0 ltac:(lia) ltac:(lia) ltac:(lia)) as (_ & Es & _).
    destruct (d32_ok 1 q _ x ltac:(lia) Hp Hf Hsep 1 0 ltac:(lia) ltac:(lia) ltac:(lia)) as (_ & Ed & _).
    rewrite X0, X1 in Es. replace (1 - -1) with 2 in Es by ring. rewrite fmt_2 in Es. rewrite Es in Ed.
    rewrite Ed. unfold Rdiv. rewrite Rmult_1_l. exact R2. }
  pose proof Hy as (Fy & By).
  assert (T01 : tr x 0 1 y = rnd (1 - B2R y) / 2).
  { destruct (t_val 1 q _ x ltac:(lia) Hq Hp Hf Hsep 0 1 y ltac:(lia) ltac:(lia) Hy) as (_ & E & _).
    unfold tr. rewrite E. cbn [Z.eqb]. rewrite D01, X1. replace (B2R y - 1) with (- (1 - B2R y)) by ring. rewrite rnd_opp.
    replace (- rnd (1 - B2R y) * - / 2) with (rnd (1 - B2R y) / 2) by field. apply half_one; [apply fmt_B|exact By]. }
  assert (T10 : tr x 1 0 y = rnd (1 + B2R y) / 2).
  { destruct (t_val 1 q _ x ltac:(lia) Hq Hp Hf Hsep 1 0 y ltac:(lia) ltac:(lia) Hy) as (_ & E & _).
    unfold tr. rewrite E. cbn [Z.eqb]. rewrite D10, X0. replace (B2R y - -1) with (1 - - B2R y) by ring.
    replace (1 + B2R y) with (1 - - B2R y) by ring.
    apply half_one; [apply generic_format_opp, fmt_B|now rewrite Rabs_Ropp]. }
  destruct (value_spelled 1 q _ x ltac:(lia) Hq Hp Hf Hsep 0 y ltac:(lia) Hy) as (v0 & E0 & F0 & V0).
  destruct (value_spelled 1 q _ x ltac:(lia) Hq Hp Hf Hsep 1 y ltac:(lia) Hy) as (v1 & E1 & F1 & V1).
  destruct (gradient_spelled 1 q _ x ltac:(lia) Hq Hp Hf Hsep 0 y ltac:(lia) Hy) as (g0 & G0 & FG0 & VG0).
  destruct (gradient_spelled 1 q _ x ltac:(lia) Hq Hp Hf Hsep 1 y ltac:(lia) Hy) as (g1 & G1 & FG1 & VG1).
  exists v0, v1, g0, g1. split; [exact E0|]. split; [exact E1|]. split; [exact G0|]. split; [exact G1|].
  assert (K01 : gr x 0 1 = - / 2) by exact D01. assert (K10 : gr x 1 0 = / 2) by exact D10.
  assert (R2' : rnd (- / 2) = - / 2) by (now rewrite rnd_opp, R2).
  repeat split; try assumption.
  - rewrite V0. unfold vr. cbn [Z.eqb Pos.eqb]. rewrite tr_own, Rmult_1_l, tr_id. exact T01.
  - rewrite V1. unfold vr. cbn [Z.eqb Pos.eqb]. rewrite tr_own, Rmult_1_r, tr_id. exact T10.
  - rewrite VG0. unfold dr, pr, fr. cbn [Z.eqb Pos.eqb]. rewrite !tr_own, !gr_own. simp. rewrite K01. simp. now rewrite !R2'.
  - rewrite VG1. unfold dr, pr, fr. cbn [Z.eqb Pos.eqb]. rewrite !tr_own, !gr_own. simp. rewrite K10. simp. now rewrite !R2.
Qed.

Lemma half_unit z : 0 <= z <= 2 -> 0 <= rnd z / 2 <= 1.
Proof. intros [L U]. apply rnd_le in L. apply rnd_le in U. rewrite rnd_0 in L. rewrite fmt_2 in U. lra. Qed.

Lemma linear_lemma s y : at_ends s -> InReference32 y ->
  exists v0 v1 g0 g1,
    bvalue (LagrangeBasis32 1 s) 0 y = Ok v0 /\ bvalue (LagrangeBasis32 1 s) 1 y = Ok v1 /\
    bgradient (LagrangeBasis32 1 s) 0 y = Ok g0 /\ bgradient (LagrangeBasis32 1 s) 1 y = Ok g1 /\
    is_finite v0 = true /\ 0 <= B2R v0 <= 1 /\ is_finite v1 = true /\ 0 <= B2R v1 <= 1 /\
    IsFloat (Bplus mode_NE v0 v1) 1 /\ IsFloat g0 (- / 2) /\ IsFloat g1 (/ 2).
Proof.
  intros Hs Hy. destruct (linear_values s Hs y Hy) as (v0 & v1 & g0 & g1 & E0 & E1 & E2 & E3 & (F0 & V0) & (F1 & V1) & N0 & N1).
  exists v0, v1, g0, g1. destruct Hy as [Fy By]. pose proof By as By'. apply Rabs_le_inv in By.
  pose proof (half_unit (1 - B2R y) ltac:(lra)) as I0. pose proof (half_unit (1 + B2R y) ltac:(lra)) as I1.
  rewrite <- V0 in I0. rewrite <- V1 in I1.
  repeat (split; [assumption|]). split; [|now split].
  destruct (B_plus v0 v1 1 F0 F1 ltac:(lia)) as (F & E & _).
  { change (pow2 1) with 2. rewrite Rabs_pos_eq; lra. }
  split; [exact F|]. rewrite E, V0, V1, Rplus_comm. apply half_sum; [apply fmt_B|exact By'].
Qed.

Lemma monotone_lemma s y z : at_ends s -> InReference32 y -> InReference32 z -> B2R y <= B2R z ->
  exists v0 v1 w0 w1,
    bvalue (LagrangeBasis32 1 s) 0 y = Ok v0 /\ bvalue (LagrangeBasis32 1 s) 1 y = Ok v1 /\
    bvalue (LagrangeBasis32 1 s) 0 z = Ok w0 /\ bvalue (LagrangeBasis32 1 s) 1 z = Ok w1 /\
    B2R w0 <= B2R v0 /\ B2R v1 <= B2R w1.
Proof.
  intros Hs Hy Hz H.
  destruct (linear_values s Hs y Hy) as (v0 & v1 & _ & _ & E0 & E1 & _ & _ & (F0 & V0) & (F1 & V1) & _).
  destruct (linear_values s Hs z Hz) as (w0 & w1 & _ & _ & D0 & D1 & _ & _ & (G0 & W0) & (G1 & W1) & _).
  exists v0, v1, w0, w1. repeat (split; [assumption|]). rewrite V0, V1, W0, W1.
  split; apply Rmult_le_compat_r; try lra; apply rnd_le; lra.
Qed.
