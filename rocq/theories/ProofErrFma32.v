(** Error propagation through sums and products of floats with contraction. *)
From Coq Require Import ZArith Reals Bool Lia Lra Psatz.
From Flocq Require Import Core IEEE754.BinarySingleNaN.
From Verif Require Import Base Num ModelB64 ModelF32 ModelFma ModelFma32 ProofF32 ProofErr32.
Local Open Scope R_scope.

Lemma B_fma (x y z : b32) e : is_finite x = true -> is_finite y = true -> is_finite z = true ->
  (-149 <= e < 128)%Z -> Rabs (B2R x * B2R y + B2R z) <= pow2 e ->
  is_finite (Bfma mode_NE x y z) = true /\
  B2R (Bfma mode_NE x y z) = rnd (B2R x * B2R y + B2R z).
Proof.
  intros Fx Fy Fz [He1 He2] H.
  assert (Hr : Rabs (rnd (B2R x * B2R y + B2R z)) <= pow2 e) by now apply rnd_abs_pow2.
  generalize (Bfma_correct prec32 emax32 _ _ mode_NE x y z Fx Fy Fz). cbv zeta.
  rewrite Rlt_bool_true.
  - intros (E & Fin & _). split; [exact Fin|exact E].
  - eapply Rle_lt_trans; [exact Hr|]. now apply pow2_lt_max.
Qed.

(** The real value. *)
Notation CR x := (B2R (cfval x)).
(** [x] approximates [r], rounded or as an exact product. *)
Definition Fap (x : cfloat) (r A g e : R) : Prop :=
  App (cfval x) r A g e /\
  forall a b, cfprod x = Some (a, b) -> is_finite a = true /\ is_finite b = true /\ Rabs (B2R a * B2R b - r) <= g * A + e.

Lemma fap_app x r A g e : Fap x r A g e -> App (cfval x) r A g e.
Proof. now intros []. Qed.
Lemma fap_plain x r A g e : Plain32 x -> App (cfval x) r A g e -> Fap x r A g e.
Proof. intros P H. split; [exact H|]. unfold Plain32 in P. rewrite P. discriminate. Qed.
Lemma fap_exact x : Plain32 x -> is_finite (cfval x) = true -> Fap x (CR x) (Rabs (CR x)) 0 0.
Proof. intros P F. apply fap_plain; [exact P|now apply app_exact]. Qed.
Lemma fap_weaken x r A g e A' g' e' : Fap x r A g e -> A <= A' -> g <= g' -> e <= e' -> Fap x r A' g' e'.
Proof.
  intros [H K] LA Lg Le. split; [eapply app_weaken; eassumption|]. intros a b E. destruct (K a b E) as (Fa & Fb & B).
  split; [exact Fa|]. split; [exact Fb|]. destruct H as (_ & _ & HA & Hg & _). pose proof (Rabs_pos r).
  assert (g * A <= g' * A') by (apply Rmult_le_compat; lra). lra.
Qed.
Lemma fap_abs x r A g e : Fap x r A g e -> Rabs (CR x) <= (1 + g) * A + e.
Proof. intros H. now apply (app_abs (cfval x) r A g e), fap_app. Qed.

(** A factor need not be exact in any sense: its rounded value is used. *)
Lemma fap_mult x y r s A B g h e f k : App (cfval x) r A g e -> App (cfval y) s B h f -> (-149 <= k < 128)%Z ->
  ((1 + g) * A + e) * ((1 + h) * B + f) <= pow2 k ->
  Fap (cfmul x y) (r * s) (A * B) ((1 + g) * (1 + h) * (1 + u) - 1)
    ((1 + u) * ((1 + g) * A * f + (1 + h) * B * e + e * f) + eta).
Proof.
  intros Ax Ay Hk Hb.
  split; [exact (app_mult (cfval x) (cfval y) r s A B g h e f k Ax Ay Hk Hb)|].
  intros a b E. cbn [cfmul cfprod] in E. injection E as <- <-.
  destruct Ax as (Fx & Ex & HA & Hg & He). destruct Ay as (Fy & Ey & HB & Hh & Hf).
  split; [exact Fx|]. split; [exact Fy|].
  pose proof (Rabs_pos r). pose proof (Rabs_pos s). pose proof (Rabs_pos (CR x)). pose proof (Rabs_pos (CR y)).
  pose proof (Rabs_pos (CR x - r)). pose proof (Rabs_pos (CR y - s)). pose proof u_pos as Up. pose proof eta_pos as Et.
  assert (P : Rabs (CR x * CR y - r * s) <= ((1 + g) * (1 + h) - 1) * (A * B) + ((1 + g) * A * f + (1 + h) * B * e + e * f)).
  { replace (CR x * CR y - r * s) with ((CR x - r) * (CR y - s) + r * (CR y - s) + s * (CR x - r)) by ring.
    eapply Rle_trans; [apply Rabs_triang|]. eapply Rle_trans; [apply Rplus_le_compat_r, Rabs_triang|]. rewrite !Rabs_mult.
    assert (Rabs (CR x - r) * Rabs (CR y - s) <= (g * A + e) * (h * B + f)) by (apply Rmult_le_compat; lra).
    assert (Rabs r * Rabs (CR y - s) <= A * (h * B + f)) by (apply Rmult_le_compat; lra).
    assert (Rabs s * Rabs (CR x - r) <= B * (g * A + e)) by (apply Rmult_le_compat; lra).
    lra. }
  assert (A0 : 0 <= A) by lra. assert (B0 : 0 <= B) by lra.
  assert (W0 : 0 <= (1 + g) * A * f + (1 + h) * B * e + e * f).
  { assert (0 <= (1 + g) * A * f) by (repeat apply Rmult_le_pos; lra).
    assert (0 <= (1 + h) * B * e) by (repeat apply Rmult_le_pos; lra).
    assert (0 <= e * f) by (apply Rmult_le_pos; lra). lra. }
  set (w := (1 + g) * A * f + (1 + h) * B * e + e * f) in *.
  assert (AB : 0 <= A * B) by (apply Rmult_le_pos; lra). assert (GH : 1 <= (1 + g) * (1 + h)) by nra.
  set (q := (1 + g) * (1 + h)) in *. eapply Rle_trans; [exact P|].
  assert ((q - 1) * (A * B) <= (q * (1 + u) - 1) * (A * B)) by (apply Rmult_le_compat_r; nra).
  assert (0 <= u * w) by (apply Rmult_le_pos; lra). lra.
Qed.

Section Rules.
Context (c : contraction32) (x y : cfloat) (r s A B g h e f : R) (k : Z).
Context (Hx : Fap x r A g e) (Hy : Fap y s B h f) (Hk : (-149 <= k < 128)%Z).

(** The real number that is rounded by an addition, whatever the contraction. *)
Lemma cadd_rounds : (1 + g) * A + e + ((1 + h) * B + f) <= pow2 k ->
  exists w, is_finite (cfval (cfadd c x y)) = true /\ CR (cfadd c x y) = rnd w /\
    Rabs (w - (r + s)) <= g * A + e + (h * B + f).
Proof.
  intros Hb. destruct Hx as [(Fx & Ex & HA & Hg & He) Px]. destruct Hy as [(Fy & Ey & HB & Hh & Hf) Py].
  assert (G : forall w, Rabs (w - (r + s)) <= g * A + e + (h * B + f) -> Rabs w <= pow2 k).
  { intros w Hw. replace w with ((w - (r + s)) + (r + s)) by ring. eapply Rle_trans; [apply Rabs_triang|].
    pose proof (Rabs_triang r s). lra. }
  assert (S2 : forall p q, Rabs (p - r) <= g * A + e -> Rabs (q - s) <= h * B + f ->
    Rabs (p + q - (r + s)) <= g * A + e + (h * B + f)).
  { intros p q Hp Hq. replace (p + q - (r + s)) with ((p - r) + (q - s)) by ring.
    eapply Rle_trans; [apply Rabs_triang|]. lra. }
  assert (Sep : exists w, is_finite (Bplus mode_NE (cfval x) (cfval y)) = true /\ B2R (Bplus mode_NE (cfval x) (cfval y)) = rnd w /\
    Rabs (w - (r + s)) <= g * A + e + (h * B + f)).
  { exists (CR x + CR y). pose proof (S2 _ _ Ex Ey) as Hw.
    destruct (B_plus (cfval x) (cfval y) k Fx Fy Hk (G _ Hw)) as (Fz & Ez & _). auto. }
  unfold cfadd, computed32; cbn [cfval].
  destruct (c OAdd x y).
  - exact Sep.
  - destruct (cfprod x) as [[a b]|] eqn:E; [|exact Sep]. destruct (Px a b eq_refl) as (Fa & Fb & Hab).
    exists (B2R a * B2R b + CR y). pose proof (S2 _ _ Hab Ey) as Hw.
    destruct (B_fma a b (cfval y) k Fa Fb Fy Hk (G _ Hw)) as (Fz & Ez). auto.
  - destruct (cfprod y) as [[a b]|] eqn:E; [|exact Sep]. destruct (Py a b eq_refl) as (Fa & Fb & Hab).
    exists (B2R a * B2R b + CR x). rewrite Rplus_comm. pose proof (S2 _ _ Ex Hab) as Hw.
    destruct (B_fma a b (cfval x) k Fa Fb Fx Hk) as (Fz & Ez); [rewrite Rplus_comm; exact (G _ Hw)|].
    rewrite (Rplus_comm (B2R a * B2R b)) in Ez. auto.
Qed.
Context (Hgh : h = g).
Lemma rounds_fap z : Plain32 z -> (exists w, is_finite (cfval z) = true /\ CR z = rnd w /\
    Rabs (w - (r + s)) <= g * A + e + (h * B + f)) ->
  Fap z (r + s) (A + B) ((1 + g) * (1 + u) - 1) ((1 + u) * (e + f + eta)).
Proof.
  intros Pz (w & Fz & Ez & Hw). apply fap_plain; [exact Pz|]. rewrite Hgh in Hw.
  destruct Hx as [(Fx & Ex & HA & Hg & He) _]. destruct Hy as [(Fy & Ey & HB & Hh & Hf) _].
  pose proof u_pos. pose proof eta_pos.
  split; [exact Fz|]. split; [|split; [eapply Rle_trans; [apply Rabs_triang|]; lra|split; nra]].
  destruct (rnd_mixed w) as (d & t & Hd & Ht & _ & Er). rewrite Ez.
  assert (RS : Rabs (r + s) <= A + B) by (eapply Rle_trans; [apply Rabs_triang|]; lra).
  eapply Rle_trans; [exact (rounded_err _ _ (r + s) d (A + B) _ t Hd Ht Er Hw RS)|]. nra.
Qed.
Lemma fap_plus : (1 + g) * (A + B) + e + f <= pow2 k ->
  Fap (cfadd c x y) (r + s) (A + B) ((1 + g) * (1 + u) - 1) ((1 + u) * (e + f + eta)).
Proof.
  intros Hb. apply rounds_fap; [reflexivity|]. apply cadd_rounds. rewrite Hgh. lra.
Qed.
End Rules.

Lemma fap_opp x r A g e : Fap x r A g e -> Fap (cfopp x) (- r) A g e.
Proof.
  intros [H K]. split; [now apply app_opp|]. intros a b E. cbn [cfopp cfprod] in E.
  destruct (cfprod x) as [[p q]|]; [|discriminate]. injection E as <- <-. destruct (K p q eq_refl) as (Fp & Fq & B).
  rewrite is_finite_Bopp, B2R_Bopp. split; [exact Fp|]. split; [exact Fq|].
  replace (- B2R p * B2R q - - r) with (- (B2R p * B2R q - r)) by ring. now rewrite Rabs_Ropp.
Qed.
Lemma csub_rounds c x y r s A B g e f k : Fap x r A g e -> Fap y s B g f -> (-149 <= k < 128)%Z ->
  (1 + g) * (A + B) + e + f <= pow2 k ->
  exists w, is_finite (cfval (cfsub c x y)) = true /\ CR (cfsub c x y) = rnd w /\
    Rabs (w - (r + - s)) <= g * A + e + (g * B + f).
Proof.
  intros Hx Hy Hk Hb. destruct Hx as [(Fx & Ex & HA & Hg & He) Px].
  destruct (fap_opp _ _ _ _ _ Hy) as [(_ & Ey & HB & _ & Hf) Py]. assert (Fy := proj1 (proj1 Hy)).
  cbn [cfopp cfval cfprod] in Ey, Py. rewrite B2R_Bopp in Ey.
  assert (G : forall w, Rabs (w - (r + - s)) <= g * A + e + (g * B + f) -> Rabs w <= pow2 k).
  { intros w Hw. replace w with ((w - (r + - s)) + (r + - s)) by ring. eapply Rle_trans; [apply Rabs_triang|].
    pose proof (Rabs_triang r (- s)). lra. }
  assert (S2 : forall p q, Rabs (p - r) <= g * A + e -> Rabs (q - - s) <= g * B + f ->
    Rabs (p + q - (r + - s)) <= g * A + e + (g * B + f)).
  { intros p q Hp Hq. replace (p + q - (r + - s)) with ((p - r) + (q - - s)) by ring.
    eapply Rle_trans; [apply Rabs_triang|]. lra. }
  assert (Sep : exists w, is_finite (Bminus mode_NE (cfval x) (cfval y)) = true /\ B2R (Bminus mode_NE (cfval x) (cfval y)) = rnd w /\
    Rabs (w - (r + - s)) <= g * A + e + (g * B + f)).
  { exists (CR x - CR y). pose proof (S2 _ _ Ex Ey) as Hw.
    destruct (B_minus (cfval x) (cfval y) k Fx Fy Hk (G _ Hw)) as (Fz & Ez & _). auto. }
  unfold cfsub, computed32; cbn [cfval].
  destruct (c OSub x y).
  - exact Sep.
  - destruct (cfprod x) as [[a b]|] eqn:E; [|exact Sep]. destruct (Px a b eq_refl) as (Fa & Fb & Hab).
    exists (B2R a * B2R b + - CR y). pose proof (S2 _ _ Hab Ey) as Hw.
    destruct (B_fma a b (Bopp (cfval y)) k Fa Fb) as (Fz & Ez);
      [now rewrite is_finite_Bopp|exact Hk|rewrite B2R_Bopp; exact (G _ Hw)|].
    rewrite B2R_Bopp in Ez. auto.
  - destruct (cfprod y) as [[a b]|] eqn:E; [|exact Sep]. destruct (Py (Bopp a) b eq_refl) as (Fa & Fb & Hab).
    exists (B2R (Bopp a) * B2R b + CR x). rewrite Rplus_comm. pose proof (S2 _ _ Ex Hab) as Hw.
    destruct (B_fma (Bopp a) b (cfval x) k Fa Fb Fx Hk) as (Fz & Ez); [rewrite Rplus_comm; exact (G _ Hw)|].
    rewrite (Rplus_comm (B2R (Bopp a) * B2R b)) in Ez. auto.
Qed.
Lemma fap_minus c x y r s A B g e f k : Fap x r A g e -> Fap y s B g f -> (-149 <= k < 128)%Z ->
  (1 + g) * (A + B) + e + f <= pow2 k ->
  Fap (cfsub c x y) (r - s) (A + B) ((1 + g) * (1 + u) - 1) ((1 + u) * (e + f + eta)).
Proof.
  intros Hx Hy Hk Hb.
  apply (rounds_fap x (cfopp y) r (- s) A B g g e f Hx (fap_opp _ _ _ _ _ Hy) eq_refl (cfsub c x y)); [reflexivity|].
  exact (csub_rounds c x y r s A B g e f k Hx Hy Hk Hb).
Qed.
