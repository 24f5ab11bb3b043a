(** Rational arithmetic embeds into real arithmetic: what the model computes on rationals
    is what it computes on reals. *)
From Verif Require Import Base ProofBase Num ModelSpacing ModelQuadrature.
From Coq Require Import Reals QArith Qreals Qreduction Lra.
Open Scope Z_scope.

Definition omap {A B} (f : A -> B) (m : outcome A) : outcome B := x <- m ;; Ok (f x).

Lemma omap_Ok {A B} (f : A -> B) m a : m = Ok a -> omap f m = Ok (f a).
Proof. intros ->. reflexivity. Qed.

Record NumHom (F G : Num) (h : T F -> T G) : Prop := {
  h_add : forall x y, h (nadd F x y) = nadd G (h x) (h y);
  h_sub : forall x y, h (nsub F x y) = nsub G (h x) (h y);
  h_mul : forall x y, h (nmul F x y) = nmul G (h x) (h y);
  h_opp : forall x, h (nopp F x) = nopp G (h x);
  h_ofZ : forall z, h (nofZ F z) = nofZ G z;
  h_lit : forall m k, h (nlit F m k) = nlit G m k;
  h_is0 : forall x, nis0 G (h x) = nis0 F x;
  h_div : forall x y, ndiv G (h x) (h y) = omap h (ndiv F x y);
  h_max : h (nmax F) = nmax G
}.

Lemma Q2R_red q : Q2R (Qred q) = Q2R q.
Proof. apply Qeq_eqR. apply Qred_correct. Qed.
Lemma Q2R_inject z : Q2R (inject_Z z) = IZR z.
Proof. unfold Q2R, inject_Z. simpl. rewrite Rinv_1, Rmult_1_r. reflexivity. Qed.
Lemma Req0_Q2R x : Req0 (Q2R x) = Qeq_bool x 0.
Proof.
  unfold Req0. destruct (Req_EM_T (Q2R x) 0) as [E|E].
  - symmetry. apply Qeq_bool_iff. apply eqR_Qeq. rewrite E. unfold Q2R; simpl. lra.
  - symmetry. apply Bool.not_true_iff_false. intros H. apply E.
    apply Qeq_bool_iff in H. apply Qeq_eqR in H. rewrite H. unfold Q2R; simpl. lra.
Qed.

Lemma QR_hom : NumHom QNum RNum Q2R.
Proof.
  constructor; intros; cbn [QNum RNum T nadd nsub nmul nopp nofZ nlit nis0 ndiv nmax].
  - rewrite Q2R_red. apply Q2R_plus.
  - rewrite Q2R_red. apply Q2R_minus.
  - rewrite Q2R_red. apply Q2R_mult.
  - rewrite Q2R_red. apply Q2R_opp.
  - apply Q2R_inject.
  - rewrite Q2R_red. unfold Q2R. simpl. unfold Rdiv. do 3 f_equal.
    rewrite Z2Pos.id; [reflexivity|]. apply Z.pow_pos_nonneg; lia.
  - apply Req0_Q2R.
  - rewrite Req0_Q2R. destruct (Qeq_bool y 0) eqn:E; [reflexivity|]. unfold omap; cbn [bind].
    rewrite Q2R_red, Q2R_div; [reflexivity|]. intros H. apply Qeq_bool_iff in H. congruence.
  - apply Q2R_inject.
Qed.

(** The same arithmetic without reducing fractions, which is cheaper to evaluate. *)
Definition QrawNum : Num := {|
  T := Q;
  nadd := Qplus; nsub := Qminus; nmul := Qmult; nopp := Qopp;
  nofZ := inject_Z;
  nlit := fun m k => m # Z.to_pos (10 ^ Z.of_nat k);
  nis0 := fun x => Qeq_bool x 0;
  ndiv := fun x y => if Qeq_bool y 0 then UB DivByZero else Ok (x / y)%Q;
  nlt := fun x y => negb (Qle_bool y x);
  nmax := inject_Z dbl_max
|}.
Lemma QrawR_hom : NumHom QrawNum RNum Q2R.
Proof.
  constructor; intros; cbn [QrawNum RNum T nadd nsub nmul nopp nofZ nlit nis0 ndiv nmax].
  - apply Q2R_plus.
  - apply Q2R_minus.
  - apply Q2R_mult.
  - apply Q2R_opp.
  - apply Q2R_inject.
  - unfold Q2R. simpl. unfold Rdiv. do 3 f_equal.
    rewrite Z2Pos.id; [reflexivity|]. apply Z.pow_pos_nonneg; lia.
  - apply Req0_Q2R.
  - rewrite Req0_Q2R. destruct (Qeq_bool y 0) eqn:E; [reflexivity|]. unfold omap; cbn [bind].
    rewrite Q2R_div; [reflexivity|]. intros H. apply Qeq_bool_iff in H. congruence.
  - apply Q2R_inject.
Qed.

Section Hom.
Context (F G : Num) (h : T F -> T G) (H : NumHom F G h).

Lemma omap_bind {A B C} (f : B -> C) (m : outcome A) k : omap f (bind m k) = bind m (fun a => omap f (k a)).
Proof. destruct m; reflexivity. Qed.
Lemma bind_omap {A B C} (f : A -> B) (m : outcome A) (k : B -> outcome C) :
  bind (omap f m) k = bind m (fun a => k (f a)).
Proof. destruct m; reflexivity. Qed.
Lemma rd_map {A B} (f : A -> B) l i : rd (map f l) i = omap f (rd l i).
Proof. unfold rd. destruct (i <? 0); [reflexivity|]. rewrite nth_error_map. destruct (nth_error l (Z.to_nat i)); reflexivity. Qed.
Lemma table_map {A B} (f : A -> B) l d i : table (map f l) (f d) i = f (table l d i).
Proof. revert i. induction l as [|a l IH]; intros i; simpl; [reflexivity|]. destruct (i =? 0); auto. Qed.
Lemma omap_if {A B} (f : A -> B) (b : bool) x y : omap f (if b then x else y) = if b then omap f x else omap f y.
Proof. destruct b; reflexivity. Qed.

Ltac hom := repeat first
  [ rewrite (h_add _ _ _ H) | rewrite (h_sub _ _ _ H) | rewrite (h_mul _ _ _ H) | rewrite (h_opp _ _ _ H)
  | rewrite (h_ofZ _ _ _ H) | rewrite (h_lit _ _ _ H) | rewrite (h_max _ _ _ H) ].

Lemma map_c4 : map h (c4 F) = c4 G.
Proof. unfold c4; simpl. hom. reflexivity. Qed.

Ltac tab := unfold omap; cbn [bind]; f_equal; rewrite <- (table_map h); cbn [map]; hom; reflexivity.

Lemma coord_hom_ct s N i : coord_ct G s N i = omap h (coord_ct F s N i).
Proof.
  destruct s; simpl.
  - unfold equal_ct, equal_interval. rewrite omap_bind, !bind_assoc. apply bind_ext. intros n1.
    rewrite <- !(h_ofZ _ _ _ H), (h_div _ _ _ H), bind_omap. apply bind_ext. intros q. unfold omap; simpl. hom. reflexivity.
  - unfold legendre_ct. rewrite !omap_if.
    destruct (N =? 2); [unfold omap, invSqrt3; simpl; hom; reflexivity|].
    destruct (N =? 3); [unfold omap, sqrt3div5; simpl; hom; reflexivity|].
    destruct (N =? 4); [|unfold omap; simpl; hom; reflexivity].
    unfold c4; simpl. unfold omap; simpl. f_equal.
    repeat match goal with |- context [if ?b then _ else _] => destruct b end; hom; reflexivity.
  - unfold lobatto_ct. rewrite !omap_if.
    destruct (N =? 2); [unfold omap; simpl; hom; reflexivity|].
    destruct (N =? 3); [unfold omap; simpl; hom; reflexivity|].
    unfold invSqrt5, sqrt3div7, lobatto6, lobatto7, lobatto8, lobatto9.
    repeat (match goal with |- context [N =? ?k] => destruct (N =? k) end; [tab|]).
    unfold omap; simpl; hom; reflexivity.
Qed.

Lemma coord_hom_rt s N i : coord_rt G s N i = omap h (coord_rt F s N i).
Proof.
  destruct s; simpl.
  - unfold equal_rt, equal_interval. rewrite omap_bind, !bind_assoc. apply bind_ext. intros n1.
    rewrite <- !(h_ofZ _ _ _ H), (h_div _ _ _ H), bind_omap. apply bind_ext. intros q. unfold omap; simpl. hom. reflexivity.
  - unfold legendre_rt. rewrite !omap_if.
    destruct (N =? 2); [rewrite omap_bind; apply bind_ext; intros; unfold omap, invSqrt3; simpl; hom; reflexivity|].
    destruct (N =? 3); [unfold omap, sqrt3div5; simpl; hom; reflexivity|].
    destruct (N =? 4); [|unfold omap; simpl; hom; reflexivity].
    rewrite omap_bind; apply bind_ext; intros i1. rewrite <- map_c4, rd_map, omap_bind, bind_omap.
    apply bind_ext; intros c. rewrite omap_bind. apply bind_ext; intros s. unfold omap; simpl; hom; reflexivity.
  - unfold lobatto_rt. rewrite !omap_if.
    destruct (N =? 2); [unfold omap; simpl; hom; reflexivity|].
    destruct (N =? 3); [unfold omap; simpl; hom; reflexivity|].
    destruct (N =? 4).
    { rewrite omap_bind; apply bind_ext; intros s. rewrite omap_bind; apply bind_ext; intros i1.
      unfold omap, invSqrt5; simpl; hom; reflexivity. }
    destruct (N =? 5); [|unfold omap; simpl; hom; reflexivity].
    rewrite <- rd_map. cbn [map]. unfold sqrt3div7. hom. reflexivity.
Qed.

Lemma weight_hom_ct q N i : weight_ct G q N i = omap h (weight_ct F q N i).
Proof.
  destruct q; simpl.
  - unfold legendre_weight_ct. rewrite !omap_if. destruct ((2 <=? N) && (N <=? 4)); [|reflexivity].
    destruct (N =? 2); [unfold omap; simpl; hom; reflexivity|].
    unfold half, w4.
    repeat (match goal with |- context [N =? ?k] => destruct (N =? k) end; [tab|]).
    unfold omap; simpl; hom; reflexivity.
  - unfold lobatto_weight_ct. rewrite !omap_if. destruct ((2 <=? N) && (N <=? 9)); [|reflexivity].
    destruct (N =? 2); [unfold omap; simpl; hom; reflexivity|].
    destruct (N =? 3); [unfold omap; simpl; hom; reflexivity|].
    unfold lobatto_w6, lobatto_w7, lobatto_w8, lobatto_w9.
    repeat (match goal with |- context [N =? ?k] => destruct (N =? k) end; [tab|]).
    unfold omap; simpl; hom; reflexivity.
Qed.

Lemma weight_hom_rt q N i : weight_rt G q N i = omap h (weight_rt F q N i).
Proof.
  destruct q; simpl.
  - unfold legendre_weight_rt. rewrite !omap_if. destruct ((2 <=? N) && (N <=? 4)); [|reflexivity].
    destruct (N =? 2); [unfold omap; simpl; hom; reflexivity|].
    destruct (N =? 3); [unfold omap; simpl; hom; reflexivity|].
    destruct (N =? 4); [|unfold omap; simpl; hom; reflexivity].
    rewrite omap_bind; apply bind_ext; intros i1. rewrite omap_bind; apply bind_ext; intros s.
    unfold omap, half, w4; simpl; hom; reflexivity.
  - unfold lobatto_weight_rt. rewrite !omap_if. destruct ((2 <=? N) && (N <=? 5)); [|reflexivity].
    destruct (N =? 2); [unfold omap; simpl; hom; reflexivity|].
    destruct (N =? 3); [unfold omap; simpl; hom; reflexivity|].
    destruct (N =? 4); [rewrite omap_bind; apply bind_ext; intros; unfold omap; simpl; hom; reflexivity|].
    destruct (N =? 5); [rewrite omap_bind; apply bind_ext; intros; unfold omap; simpl; hom; reflexivity|].
    unfold omap; simpl; hom; reflexivity.
Qed.
End Hom.
