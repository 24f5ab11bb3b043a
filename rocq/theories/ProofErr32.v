(** Error propagation through sums and products of doubles. *)
From Coq Require Import ZArith Reals Bool Lia Lra Psatz.
From Flocq Require Import Core IEEE754.BinarySingleNaN.
Require Import Flocq.Prop.Relative Flocq.Prop.Plus_error.
From Verif Require Import Base Num ModelF32 ProofF32.
Local Open Scope R_scope.

Lemma rel_plus a b : fmt a -> fmt b -> exists e, Rabs e <= u /\ rnd (a + b) = (a + b) * (1 + e).
Proof.
  intros Fa Fb. destruct (FLT_plus_error_N_ex radix2 (-149) 24 (fun t => negb (Z.even t)) a b Fa Fb) as (e & He & E).
  exists e. split; [|exact E]. eapply Rle_trans; [exact He|].
  assert (X : u_ro radix2 24 = u) by (unfold u_ro; cbn -[Rmult Rinv]; lra). rewrite X. pose proof u_pos.
  apply (Rmult_le_reg_r (1 + u)); [lra|]. unfold Rdiv. rewrite Rmult_assoc, Rinv_l by lra. nra.
Qed.
Lemma rel_sub a b : fmt a -> fmt b -> exists e, Rabs e <= u /\ rnd (a - b) = (a - b) * (1 + e).
Proof. intros Fa Fb. apply (rel_plus a (- b) Fa). now apply generic_format_opp. Qed.

Notation eta := (pow2 (-150)).
Lemma eta_pos : 0 < eta. Proof. apply bpow_gt_0. Qed.
Lemma u_small : u <= / 1000000. Proof. rewrite u_val. lra. Qed.

(** [x] approximates [r]; [A] bounds [r] and scales the relative part of the error. *)
Definition App (x : b32) (r A g e : R) : Prop :=
  is_finite x = true /\ Rabs (B2R x - r) <= g * A + e /\ Rabs r <= A /\ 0 <= g /\ 0 <= e.

Lemma app_exact x : is_finite x = true -> App x (B2R x) (Rabs (B2R x)) 0 0.
Proof.
  intros F. split; [exact F|]. rewrite Rminus_diag_eq, Rabs_R0 by reflexivity. lra.
Qed.
Lemma app_weaken x r A g e A' g' e' : App x r A g e -> A <= A' -> g <= g' -> e <= e' -> App x r A' g' e'.
Proof.
  intros (F & H & HA & Hg & He) LA Lg Le. split; [exact F|]. split; [|split; [lra|lra]].
  pose proof (Rabs_pos r). assert (g * A <= g' * A') by (apply Rmult_le_compat; lra). lra.
Qed.
Lemma app_abs x r A g e : App x r A g e -> Rabs (B2R x) <= (1 + g) * A + e.
Proof.
  intros (F & H & HA & Hg & He). replace (B2R x) with ((B2R x - r) + r) by ring.
  eapply Rle_trans; [apply Rabs_triang|]. lra.
Qed.

(** One rounding with error factor 1 + u. *)
Lemma rounded_err z w r d B g e : Rabs d <= u -> Rabs e <= eta -> z = w * (1 + d) + e -> Rabs (w - r) <= g -> Rabs r <= B ->
  Rabs (z - r) <= (1 + u) * g + u * B + eta.
Proof.
  intros Hd He -> Hw Hr. replace (w * (1 + d) + e - r) with ((w - r) * (1 + d) + r * d + e) by ring.
  eapply Rle_trans; [apply Rabs_triang|]. apply Rplus_le_compat; [|exact He].
  eapply Rle_trans; [apply Rabs_triang|]. rewrite !Rabs_mult. pose proof (Rabs_pos d). pose proof (Rabs_pos r). pose proof (Rabs_pos (w - r)).
  assert (Rabs (1 + d) <= 1 + u) by (eapply Rle_trans; [apply Rabs_triang|]; rewrite Rabs_R1; lra).
  pose proof (Rabs_pos (1 + d)).
  apply Rplus_le_compat.
  - rewrite Rmult_comm. apply Rmult_le_compat; lra.
  - rewrite Rmult_comm. apply Rmult_le_compat; lra.
Qed.

Section Rules.
Context (x y : b32) (r s A B g h e f : R) (k : Z).
Context (Hx : App x r A g e) (Hy : App y s B h f) (Hk : (-149 <= k < 128)%Z).

Lemma app_mult : ((1 + g) * A + e) * ((1 + h) * B + f) <= pow2 k ->
  App (Bmult mode_NE x y) (r * s) (A * B) ((1 + g) * (1 + h) * (1 + u) - 1)
    ((1 + u) * ((1 + g) * A * f + (1 + h) * B * e + e * f) + eta).
Proof.
  intros Hb. pose proof (app_abs _ _ _ _ _ Hx) as Xa. pose proof (app_abs _ _ _ _ _ Hy) as Ya.
  destruct Hx as (Fx & Ex & HA & Hg & He). destruct Hy as (Fy & Ey & HB & Hh & Hf).
  pose proof (Rabs_pos r). pose proof (Rabs_pos s). pose proof (Rabs_pos (B2R x)). pose proof (Rabs_pos (B2R y)).
  pose proof (Rabs_pos (B2R x - r)). pose proof (Rabs_pos (B2R y - s)). pose proof u_pos. pose proof eta_pos.
  destruct (B_mult x y k Fx Fy Hk) as (Fz & Ez & _).
  { rewrite Rabs_mult. eapply Rle_trans; [|exact Hb]. apply Rmult_le_compat; lra. }
  split; [exact Fz|]. destruct (rnd_mixed (B2R x * B2R y)) as (d & t & Hd & Ht & _ & Er).
  split; [|split; [rewrite Rabs_mult; apply Rmult_le_compat; lra|split]].
  - rewrite Ez, Er.
    assert (P : Rabs (B2R x * B2R y - r * s) <= ((1 + g) * (1 + h) - 1) * (A * B) + ((1 + g) * A * f + (1 + h) * B * e + e * f)).
    { replace (B2R x * B2R y - r * s) with ((B2R x - r) * (B2R y - s) + r * (B2R y - s) + s * (B2R x - r)) by ring.
      eapply Rle_trans; [apply Rabs_triang|]. eapply Rle_trans; [apply Rplus_le_compat_r, Rabs_triang|]. rewrite !Rabs_mult.
      assert (Rabs (B2R x - r) * Rabs (B2R y - s) <= (g * A + e) * (h * B + f)) by (apply Rmult_le_compat; lra).
      assert (Rabs r * Rabs (B2R y - s) <= A * (h * B + f)) by (apply Rmult_le_compat; lra).
      assert (Rabs s * Rabs (B2R x - r) <= B * (g * A + e)) by (apply Rmult_le_compat; lra).
      lra. }
    assert (RS : Rabs (r * s) <= A * B) by (rewrite Rabs_mult; apply Rmult_le_compat; lra).
    eapply Rle_trans; [exact (rounded_err _ _ (r * s) d (A * B) _ t Hd Ht eq_refl P RS)|]. lra.
  - assert (1 <= (1 + g) * (1 + h)) by nra. nra.
  - assert (0 <= A) by lra. assert (0 <= B) by lra.
    assert (0 <= (1 + g) * A * f) by (repeat apply Rmult_le_pos; lra).
    assert (0 <= (1 + h) * B * e) by (repeat apply Rmult_le_pos; lra).
    assert (0 <= e * f) by (apply Rmult_le_pos; lra). nra.
Qed.

Context (Hgh : h = g).
Lemma app_plus_aux z : (is_finite z = true /\ exists d, Rabs d <= u /\ B2R z = (B2R x + B2R y) * (1 + d)) ->
  App z (r + s) (A + B) ((1 + g) * (1 + u) - 1) ((1 + u) * (e + f)).
Proof.
  intros (Fz & d & Hd & Ez).
  destruct Hx as (Fx & Ex & HA & Hg & He). destruct Hy as (Fy & Ey & HB & Hh & Hf). rewrite Hgh in Ey.
  pose proof u_pos. pose proof eta_pos. split; [exact Fz|]. split; [|split; [eapply Rle_trans; [apply Rabs_triang|]; lra|split; nra]].
  rewrite Ez.
  replace ((B2R x + B2R y) * (1 + d) - (r + s)) with ((B2R x - r + (B2R y - s)) * (1 + d) + (r + s) * d) by ring.
  eapply Rle_trans; [apply Rabs_triang|]. rewrite !Rabs_mult.
  assert (D : Rabs (1 + d) <= 1 + u) by (eapply Rle_trans; [apply Rabs_triang|]; rewrite Rabs_R1; lra).
  assert (P : Rabs (B2R x - r + (B2R y - s)) <= g * A + e + (g * B + f)) by (eapply Rle_trans; [apply Rabs_triang|]; lra).
  assert (Q : Rabs (r + s) <= A + B) by (eapply Rle_trans; [apply Rabs_triang|]; lra).
  pose proof (Rabs_pos (1 + d)). pose proof (Rabs_pos d). pose proof (Rabs_pos (r + s)). pose proof (Rabs_pos (B2R x - r + (B2R y - s))).
  assert (Rabs (B2R x - r + (B2R y - s)) * Rabs (1 + d) <= (g * A + e + (g * B + f)) * (1 + u)) by (apply Rmult_le_compat; lra).
  assert (Rabs (r + s) * Rabs d <= (A + B) * u) by (apply Rmult_le_compat; lra).
  lra.
Qed.
Lemma app_plus : (1 + g) * (A + B) + e + f <= pow2 k ->
  App (Bplus mode_NE x y) (r + s) (A + B) ((1 + g) * (1 + u) - 1) ((1 + u) * (e + f)).
Proof.
  intros Hb. apply app_plus_aux. pose proof (app_abs _ _ _ _ _ Hx) as Xa. pose proof (app_abs _ _ _ _ _ Hy) as Ya. rewrite Hgh in Ya.
  destruct Hx as (Fx & _). destruct Hy as (Fy & _).
  destruct (B_plus x y k Fx Fy Hk) as (Fz & Ez & _).
  { eapply Rle_trans; [apply Rabs_triang|]. lra. }
  split; [exact Fz|]. destruct (rel_plus (B2R x) (B2R y) (fmt_B x) (fmt_B y)) as (d & Hd & Ed).
  exists d. split; [exact Hd|]. rewrite Ez. exact Ed.
Qed.
End Rules.
Lemma app_opp_r x r A g e : App x r A g e -> Rabs (- B2R x - - r) <= g * A + e.
Proof. intros (_ & H & _). replace (- B2R x - - r) with (- (B2R x - r)) by ring. now rewrite Rabs_Ropp. Qed.
Lemma app_opp x r A g e : App x r A g e -> App (Bopp x) (- r) A g e.
Proof.
  intros H. pose proof (app_opp_r _ _ _ _ _ H) as K. destruct H as (F & H & HA & Hg & He).
  split; [now rewrite is_finite_Bopp|]. rewrite B2R_Bopp. split; [exact K|]. now rewrite Rabs_Ropp.
Qed.
Lemma app_minus x y r s A B g e f k : App x r A g e -> App y s B g f -> (-149 <= k < 128)%Z ->
  (1 + g) * (A + B) + e + f <= pow2 k ->
  App (Bminus mode_NE x y) (r - s) (A + B) ((1 + g) * (1 + u) - 1) ((1 + u) * (e + f)).
Proof.
  intros Hx Hy Hk Hb.
  pose proof (app_abs _ _ _ _ _ Hx) as Xa. pose proof (app_abs _ _ _ _ _ Hy) as Ya.
  assert (Fx := proj1 Hx). assert (Fy := proj1 Hy).
  destruct (B_minus x y k Fx Fy Hk) as (Fz & Ez & _).
  { eapply Rle_trans; [apply Rabs_triang|]. rewrite Rabs_Ropp. lra. }
  destruct (rel_sub (B2R x) (B2R y) (fmt_B x) (fmt_B y)) as (d & Hd & Ed).
  apply (app_plus_aux x (Bopp y) r (- s) A B g g e f Hx (app_opp _ _ _ _ _ Hy) eq_refl (Bminus mode_NE x y)).
  split; [exact Fz|]. exists d. split; [exact Hd|]. rewrite Ez, B2R_Bopp. exact Ed.
Qed.
