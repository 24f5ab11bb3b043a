(** What a sum in IEEE arithmetic keeps: adding a zero changes nothing once the sum is not the negative zero, and it
    never becomes that. *)
From Coq Require Import Reals ZArith Lra Lia.
From Flocq Require Import Core IEEE754.BinarySingleNaN Plus_error.
Open Scope R_scope.

Section IEEE.
Context (prec emax : Z) {Hp : Prec_gt_0 prec} {He : Prec_lt_emax prec emax}.
Notation F := (binary_float prec emax).
Definition izero (x : F) : Prop := exists s, x = B754_zero s.
Definition ifin (x : F) : Prop := is_finite x = true.
Definition iclean (x : F) : Prop := x <> B754_zero true.

Lemma imul_zero_l (x y : F) : izero x -> ifin (Bmult mode_NE x y) -> izero (Bmult mode_NE x y).
Proof. intros (s & ->) H. destruct y; cbn in *; try discriminate; eexists; reflexivity. Qed.
Lemma imul_zero_r (x y : F) : izero y -> ifin (Bmult mode_NE x y) -> izero (Bmult mode_NE x y).
Proof. intros (s & ->) H. destruct x; cbn in *; try discriminate; eexists; reflexivity. Qed.
Lemma imul_fin_l (x y : F) : ifin (Bmult mode_NE x y) -> ifin x.
Proof. unfold ifin. destruct x, y; cbn; intros H; congruence. Qed.
Lemma imul_fin_r (x y : F) : ifin (Bmult mode_NE x y) -> ifin y.
Proof. unfold ifin. destruct x, y; cbn; intros H; congruence. Qed.
Lemma iadd_zero (s z : F) : iclean s -> izero z -> Bplus mode_NE s z = s.
Proof. intros C (b & ->). destruct s as [[]| | |], b; cbn; try reflexivity. now elim C. Qed.
Lemma iadd_clean (s x : F) : iclean s -> iclean (Bplus mode_NE s x).
Proof.
  intros C. unfold iclean in *. destruct (is_finite s) eqn:Fs.
  2: { destruct s, x; try discriminate; cbn; try discriminate. destruct (Bool.eqb s s0); discriminate. }
  destruct (is_finite x) eqn:Fx.
  2: { destruct s, x; try discriminate; cbn; discriminate. }
  pose proof (Bplus_correct prec emax Hp He mode_NE s x Fs Fx) as H. intros E.
  destruct (Rlt_bool _ _).
  - destruct H as (H1 & _ & H3). rewrite E in H1, H3. cbn in H1, H3.
    destruct (Req_dec (B2R s + B2R x) 0) as [Z|Z].
    + rewrite Z, Rcompare_Eq in H3 by reflexivity. symmetry in H3. apply andb_prop in H3. destruct H3 as [S1 S2].
      destruct s as [[]| | |[] ms es Bs]; try discriminate; [now elim C|].
      assert (N1 : B2R (B754_finite true ms es Bs : F) < 0) by (apply F2R_lt_0; reflexivity).
      assert (N2 : B2R x <= 0).
      { destruct x as [b| | |b mx ex Bx]; try discriminate. cbn in S2. subst b. apply Rlt_le, F2R_lt_0. reflexivity. }
      lra.
    + apply (round_plus_neq_0 radix2 (SpecFloat.fexp prec emax) ZnearestE (B2R s) (B2R x)); [apply generic_format_B2R|apply generic_format_B2R|exact Z|].
      symmetry. exact H1.
  - destruct H as (H & _). rewrite E in H. cbn in H. destruct (Bsign s); discriminate.
Qed.
End IEEE.
