(** Univariate polynomials given by coefficient lists. *)
From Verif Require Import Base ProofBase SpecNumeric.
From Coq Require Import Reals Lra FinFun.
Open Scope R_scope.

Fixpoint padd (p q : list R) : list R :=
  match p, q with
  | [], _ => q
  | _, [] => p
  | a :: p', b :: q' => (a + b) :: padd p' q'
  end.
Definition pscal (c : R) (p : list R) : list R := map (Rmult c) p.

Lemma peval_padd p : forall q x, peval (padd p q) x = peval p x + peval q x.
Proof.
  induction p as [|a p IH]; intros q x; simpl; [ring|].
  destruct q as [|b q]; simpl; [ring|]. rewrite IH. ring.
Qed.
Lemma peval_pscal c p x : peval (pscal c p) x = c * peval p x.
Proof. unfold pscal. induction p as [|a p IH]; simpl; [ring|]. rewrite IH. ring. Qed.
Lemma padd_length p : forall q, length (padd p q) = Nat.max (length p) (length q).
Proof.
  induction p as [|a p IH]; intros [|b q]; simpl; try reflexivity. now rewrite IH.
Qed.
Lemma pscal_length c p : length (pscal c p) = length p.
Proof. apply map_length. Qed.

(** (a + b x) p(x). *)
Definition plin (a b : R) (p : list R) : list R := padd (pscal a p) (0 :: pscal b p).
Lemma peval_plin a b p x : peval (plin a b p) x = (a + b * x) * peval p x.
Proof. unfold plin. rewrite peval_padd. simpl. rewrite !peval_pscal. ring. Qed.
Lemma plin_length a b p : length (plin a b p) = S (length p).
Proof. unfold plin. rewrite padd_length. simpl. rewrite !pscal_length. lia. Qed.

(** The quotient of p(x) - p(r) by x - r. *)
Fixpoint pquot (r : R) (p : list R) : list R :=
  match p with
  | [] => []
  | _ :: p' => padd p' (pscal r (pquot r p'))
  end.
Lemma pquot_spec r p x : peval p x - peval p r = (x - r) * peval (pquot r p) x.
Proof.
  induction p as [|a p IH]; simpl; [ring|]. rewrite peval_padd, peval_pscal.
  replace (a + x * peval p x - (a + r * peval p r)) with
    ((x - r) * peval p x + r * (peval p x - peval p r)) by ring.
  rewrite IH. ring.
Qed.
Lemma pquot_length r p : length (pquot r p) = Nat.pred (length p).
Proof.
  induction p as [|a p IH]; simpl; [reflexivity|]. rewrite padd_length, pscal_length, IH. lia.
Qed.

(** More roots than the degree: the zero function. *)
Lemma roots_zero l : forall p, NoDup l -> (length p <= length l)%nat ->
  (forall r, In r l -> peval p r = 0) -> forall x, peval p x = 0.
Proof.
  induction l as [|r l IH]; intros p Hn Hl Hr x.
  - destruct p; [reflexivity|simpl in Hl; lia].
  - inversion Hn as [|? ? Hin Hn']; subst.
    assert (E : forall y, peval p y = (y - r) * peval (pquot r p) y).
    { intros y. rewrite <- pquot_spec, (Hr r) by (left; reflexivity). ring. }
    rewrite E. rewrite (IH (pquot r p)); [ring|exact Hn'|rewrite pquot_length; simpl in Hl; lia|].
    intros s Hs. pose proof (Hr s (or_intror Hs)) as Z. rewrite E in Z.
    apply Rmult_integral in Z. destruct Z as [Z|Z]; [|exact Z].
    exfalso. apply Hin. replace r with s by lra. exact Hs.
Qed.
Lemma agree_everywhere l p q : NoDup l -> (length p <= length l)%nat -> (length q <= length l)%nat ->
  (forall r, In r l -> peval p r = peval q r) -> forall x, peval p x = peval q x.
Proof.
  intros Hn Hp Hq H x.
  assert (Z : peval (padd p (pscal (-1) q)) x = 0).
  { apply (roots_zero l); [exact Hn|rewrite padd_length, pscal_length; lia|].
    intros r Hr. rewrite peval_padd, peval_pscal, (H r Hr). ring. }
  rewrite peval_padd, peval_pscal in Z. lra.
Qed.

(** Derivatives. *)
Fixpoint pderiv (p : list R) : list R :=
  match p with
  | [] => []
  | _ :: p' => padd p' (0 :: pderiv p')
  end.
Lemma peval_deriv p x : derivable_pt_lim (peval p) x (peval (pderiv p) x).
Proof.
  induction p as [|a p IH]; simpl.
  - apply (derivable_pt_lim_const 0).
  - rewrite peval_padd. simpl.
    replace (peval p x + (0 + x * peval (pderiv p) x)) with (0 + (1 * peval p x + id x * peval (pderiv p) x))
      by (unfold id; ring).
    apply (derivable_pt_lim_plus (fct_cte a) (id * peval p)%F).
    + apply derivable_pt_lim_const.
    + apply derivable_pt_lim_mult; [apply derivable_pt_lim_id|exact IH].
Qed.

(** * Sums and products over lists *)
Definition sumR {A} (f : A -> R) (l : list A) : R := fold_right (fun a s => f a + s) 0 l.
Definition prodR {A} (f : A -> R) (l : list A) : R := fold_right (fun a s => f a * s) 1 l.

Lemma sumR_cons {A} (f : A -> R) a l : sumR f (a :: l) = f a + sumR f l.
Proof. reflexivity. Qed.
Lemma prodR_cons {A} (f : A -> R) a l : prodR f (a :: l) = f a * prodR f l.
Proof. reflexivity. Qed.
Lemma sumR_ext {A} (f g : A -> R) l : (forall a, In a l -> f a = g a) -> sumR f l = sumR g l.
Proof. induction l as [|a l IH]; intros H; simpl; [reflexivity|]. rewrite H, IH; auto with datatypes. Qed.
Lemma prodR_ext {A} (f g : A -> R) l : (forall a, In a l -> f a = g a) -> prodR f l = prodR g l.
Proof. induction l as [|a l IH]; intros H; simpl; [reflexivity|]. rewrite H, IH; auto with datatypes. Qed.
Lemma sumR_plus {A} (f g : A -> R) l : sumR (fun a => f a + g a) l = sumR f l + sumR g l.
Proof. induction l as [|a l IH]; simpl; [ring|]. rewrite IH. ring. Qed.
Lemma sumR_scal {A} c (f : A -> R) l : sumR (fun a => c * f a) l = c * sumR f l.
Proof. induction l as [|a l IH]; simpl; [ring|]. rewrite IH. ring. Qed.
Lemma sumR_scal_r {A} c (f : A -> R) l : sumR (fun a => f a * c) l = sumR f l * c.
Proof. induction l as [|a l IH]; simpl; [ring|]. rewrite IH. ring. Qed.
Lemma sumR_zero {A} (f : A -> R) l : (forall a, In a l -> f a = 0) -> sumR f l = 0.
Proof. induction l as [|a l IH]; intros H; simpl; [reflexivity|]. rewrite H, IH; auto with datatypes. ring. Qed.
Lemma sumR_app {A} (f : A -> R) l m : sumR f (l ++ m) = sumR f l + sumR f m.
Proof. induction l as [|a l IH]; simpl; [ring|]. rewrite IH. ring. Qed.
Lemma sumR_map {A B} (f : B -> R) (g : A -> B) l : sumR f (map g l) = sumR (fun a => f (g a)) l.
Proof. induction l as [|a l IH]; simpl; [reflexivity|]. rewrite IH. reflexivity. Qed.
Lemma prodR_map {A B} (f : B -> R) (g : A -> B) l : prodR f (map g l) = prodR (fun a => f (g a)) l.
Proof. induction l as [|a l IH]; simpl; [reflexivity|]. rewrite IH. reflexivity. Qed.
Lemma sumR_flat_map {A B} (f : B -> R) (g : A -> list B) l :
  sumR f (flat_map g l) = sumR (fun a => sumR f (g a)) l.
Proof. induction l as [|a l IH]; simpl; [reflexivity|]. rewrite sumR_app, IH. reflexivity. Qed.
Lemma sumR_swap {A B} (f : A -> B -> R) l m :
  sumR (fun a => sumR (f a) m) l = sumR (fun b => sumR (fun a => f a b) l) m.
Proof.
  induction l as [|a l IH]; simpl.
  - symmetry. apply sumR_zero. reflexivity.
  - rewrite IH, <- sumR_plus. reflexivity.
Qed.
Lemma sumR_one {A} (f : A -> R) l a : NoDup l -> In a l -> (forall b, In b l -> b <> a -> f b = 0) -> sumR f l = f a.
Proof.
  induction l as [|b l IH]; intros Hn Hin H; [destruct Hin|]. inversion Hn as [|? ? Hb Hn']; subst. simpl.
  destruct Hin as [->|Hin].
  - rewrite (sumR_zero f l); [ring|]. intros c Hc. apply H; [right; exact Hc|]. intros ->. contradiction.
  - rewrite IH; [|exact Hn'|exact Hin|intros c Hc; apply H; right; exact Hc].
    rewrite (H b); [ring|left; reflexivity|]. intros ->. contradiction.
Qed.
Lemma prodR_one {A} (f : A -> R) l : (forall a, In a l -> f a = 1) -> prodR f l = 1.
Proof. induction l as [|a l IH]; intros H; simpl; [reflexivity|]. rewrite H, IH; auto with datatypes. ring. Qed.
Lemma prodR_zero {A} (f : A -> R) l a : In a l -> f a = 0 -> prodR f l = 0.
Proof.
  induction l as [|b l IH]; intros Hin H; [destruct Hin|]. simpl. destruct Hin as [->|Hin]; [rewrite H; ring|].
  rewrite IH by assumption. ring.
Qed.

Lemma Zsum_sumR N f : Zsum N f = sumR f (zseq (Z.to_nat N)).
Proof. unfold Zsum, sumR. induction (zseq (Z.to_nat N)); simpl; [reflexivity|]. now rewrite IHl. Qed.
Lemma NoDup_zseq n : NoDup (zseq n).
Proof. unfold zseq. apply FinFun.Injective_map_NoDup; [intros a b; lia|apply seq_NoDup]. Qed.

Lemma deriv_sumR {A} (f : A -> R -> R) (d : A -> R) x l :
  (forall a, In a l -> derivable_pt_lim (f a) x (d a)) ->
  derivable_pt_lim (fun y => sumR (fun a => f a y) l) x (sumR d l).
Proof.
  induction l as [|a l IH]; intros H; simpl.
  - apply (derivable_pt_lim_const 0).
  - apply (derivable_pt_lim_plus (f a) (fun y => sumR (fun b => f b y) l)); auto with datatypes.
Qed.
(** Leibniz' rule. *)
Lemma deriv_prodR {A} (dec : forall a b : A, {a = b} + {a <> b}) (f : A -> R -> R) (d : A -> R) x l :
  NoDup l -> (forall a, In a l -> derivable_pt_lim (f a) x (d a)) ->
  derivable_pt_lim (fun y => prodR (fun a => f a y) l) x
    (sumR (fun a => d a * prodR (fun b => if dec a b then 1 else f b x) l) l).
Proof.
  induction l as [|a l IH]; intros Hn H; simpl.
  - apply (derivable_pt_lim_const 1).
  - inversion Hn as [|? ? Ha Hn']; subst.
    assert (E : d a * ((if dec a a then 1 else f a x) * prodR (fun b => if dec a b then 1 else f b x) l) +
                sumR (fun a0 => d a0 * ((if dec a0 a then 1 else f a x) * prodR (fun b => if dec a0 b then 1 else f b x) l)) l
              = d a * prodR (fun b => f b x) l + f a x * sumR (fun a0 => d a0 * prodR (fun b => if dec a0 b then 1 else f b x) l) l).
    { f_equal.
      - destruct (dec a a); [|congruence]. rewrite Rmult_1_l. f_equal. apply prodR_ext. intros b Hb.
        destruct (dec a b); [subst; contradiction|reflexivity].
      - rewrite <- sumR_scal. apply sumR_ext. intros b Hb. destruct (dec b a); [subst; contradiction|]. ring. }
    rewrite E. apply (derivable_pt_lim_mult (f a) (fun y => prodR (fun b => f b y) l)); auto with datatypes.
Qed.

Lemma deriv_unique f x a b : derivable_pt_lim f x a -> derivable_pt_lim f x b -> a = b.
Proof. apply uniqueness_limite. Qed.
