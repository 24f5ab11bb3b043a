(** Facts about the Python primitives. *)
From Coq Require Import Bool Ascii String NArith Arith List Lia.
From Verif Require Import ModelPython.
Import ListNotations.

Lemma eqs_eq a b : eqs a b = true <-> a = b.
Proof.
  revert b. induction a as [|x a IH]; intros [|y b]; cbn [eqs].
  - split; reflexivity.
  - split; discriminate.
  - split; discriminate.
  - rewrite andb_true_iff, Ascii.eqb_eq, IH. split.
    + intros [-> ->]. reflexivity.
    + intros H. injection H. auto.
Qed.
Lemma eqs_refl a : eqs a a = true.
Proof. apply eqs_eq. reflexivity. Qed.
Lemma eqs_neq a b : eqs a b = false <-> a <> b.
Proof.
  rewrite <- (eqs_eq a b). destruct (eqs a b); split; congruence.
Qed.
Lemma eqs_sym a b : eqs a b = eqs b a.
Proof.
  destruct (eqs b a) eqn:E.
  - apply eqs_eq. symmetry. apply eqs_eq. exact E.
  - apply eqs_neq. intros ->. rewrite eqs_refl in E. discriminate.
Qed.
Lemma str_dec (a b : str) : {a = b} + {a <> b}.
Proof. destruct (eqs a b) eqn:E; [left; apply eqs_eq | right; apply eqs_neq]; exact E. Qed.
Lemma mem_In x l : mem x l = true <-> In x l.
Proof.
  induction l as [|y l IH]; cbn [mem In]; [split; [discriminate|tauto]|].
  rewrite orb_true_iff, eqs_eq, IH. split; intros [->|H]; auto.
Qed.
Lemma mem_false x l : mem x l = false <-> ~ In x l.
Proof. rewrite <- mem_In. destruct (mem x l); split; congruence. Qed.

(** Dictionaries *)
Lemma get_In {A} k (d : dict A) v : get k d = Some v -> In (k, v) d.
Proof.
  induction d as [|[k' v'] d IH]; cbn [get]; [discriminate|].
  destruct (eqs k k') eqn:E.
  - apply eqs_eq in E. subst. intros H. injection H as ->. left. reflexivity.
  - right. auto.
Qed.
Lemma get_None {A} k (d : dict A) : get k d = None <-> ~ In k (map fst d).
Proof.
  induction d as [|[k' v'] d IH]; cbn [get map fst In]; [split; auto; discriminate|].
  destruct (eqs k k') eqn:E.
  - apply eqs_eq in E. subst. split; [discriminate|tauto].
  - apply eqs_neq in E. rewrite IH. split.
    + intros H [->|H']; auto.
    + tauto.
Qed.
Lemma has_In {A} k (d : dict A) : has k d = true <-> In k (map fst d).
Proof.
  unfold has. destruct (get k d) eqn:E.
  - split; [|reflexivity]. intros _. apply get_In in E. apply (in_map fst) in E. exact E.
  - apply get_None in E. split; [discriminate|tauto].
Qed.
Lemma has_false {A} k (d : dict A) : has k d = false <-> ~ In k (map fst d).
Proof. rewrite <- has_In. destruct (has k d); split; congruence. Qed.
Lemma get_put {A} k v (d : dict A) : get k (put k v d) = Some v.
Proof.
  induction d as [|[k' v'] d IH]; cbn [put get]; [rewrite eqs_refl; reflexivity|].
  destruct (eqs k k') eqn:E; cbn [get]; rewrite E; auto.
Qed.
Lemma get_put_other {A} k k' v (d : dict A) : k' <> k -> get k' (put k v d) = get k' d.
Proof.
  intros N. induction d as [|[k2 v2] d IH]; cbn [put get].
  - apply eqs_neq in N. rewrite N. reflexivity.
  - destruct (eqs k k2) eqn:E; cbn [get].
    + apply eqs_eq in E. subst k2. apply eqs_neq in N. rewrite N. reflexivity.
    + rewrite IH. reflexivity.
Qed.
Lemma put_put {A} k v v' (d : dict A) : put k v (put k v' d) = put k v d.
Proof.
  induction d as [|[k2 v2] d IH]; cbn [put]; [rewrite eqs_refl; reflexivity|].
  destruct (eqs k k2) eqn:E; cbn [put]; rewrite E; [reflexivity|]. rewrite IH. reflexivity.
Qed.
Lemma In_put {A} k v (d : dict A) : In (k, v) (put k v d).
Proof. apply get_In, get_put. Qed.
Lemma keys_put {A} k v (d : dict A) x : In x (map fst (put k v d)) <-> x = k \/ In x (map fst d).
Proof.
  induction d as [|[k2 v2] d IH]; cbn [put map fst In]; [intuition|].
  destruct (eqs k k2) eqn:E; cbn [map fst In].
  - apply eqs_eq in E. subst. intuition.
  - rewrite IH. intuition.
Qed.
Lemma NoDup_put {A} k v (d : dict A) : NoDup (map fst d) -> NoDup (map fst (put k v d)).
Proof.
  induction d as [|[k2 v2] d IH]; cbn [put map fst]; intros H.
  - constructor; [tauto|constructor].
  - destruct (eqs k k2) eqn:E; cbn [map fst]; [exact H|].
    inversion_clear H. constructor; [|auto]. rewrite keys_put. apply eqs_neq in E.
    intros [->|H]; auto.
Qed.
Lemma In_get {A} k v (d : dict A) : NoDup (map fst d) -> In (k, v) d -> get k d = Some v.
Proof.
  induction d as [|[k2 v2] d IH]; cbn [map fst get In]; [tauto|]. intros N [H|H].
  - injection H as -> ->. rewrite eqs_refl. reflexivity.
  - inversion_clear N. destruct (eqs k k2) eqn:E; [|auto].
    apply eqs_eq in E. subst. exfalso. apply H0. apply (in_map fst) in H. exact H.
Qed.

(** Lines *)
Lemma concat_lines s : concat (lines s) = s.
Proof.
  induction s as [|c s IH]; cbn [lines concat]; [reflexivity|].
  destruct (Ascii.eqb c nl).
  - cbn [concat app]. rewrite IH. reflexivity.
  - destruct (lines s) as [|l ls]; cbn [concat app] in *; rewrite <- IH; reflexivity.
Qed.
Lemma lines_nil s : lines s = [] -> s = [].
Proof. intros H. rewrite <- (concat_lines s), H. reflexivity. Qed.
(** A terminated line *)
Definition Terminated (l : str) := exists b, l = b ++ [nl] /\ ~ In nl b.
Lemma lines_terminated_app l s : Terminated l -> lines (l ++ s) = l :: lines s.
Proof.
  intros (b & -> & H). rewrite <- app_assoc. cbn [app].
  induction b as [|c b IH]; cbn [app lines].
  - rewrite Ascii.eqb_refl. reflexivity.
  - rewrite IH by (intros X; apply H; right; exact X).
    destruct (Ascii.eqb c nl) eqn:E; [|reflexivity].
    apply Ascii.eqb_eq in E. subst. exfalso. apply H. left. reflexivity.
Qed.
Lemma lines_concat_app ls s : Forall Terminated ls -> lines (concat ls ++ s) = ls ++ lines s.
Proof.
  induction 1 as [|l ls H _ IH]; cbn [concat app]; [reflexivity|].
  rewrite <- app_assoc, lines_terminated_app by exact H. rewrite IH. reflexivity.
Qed.
Lemma lines_concat ls : Forall Terminated ls -> lines (concat ls) = ls.
Proof. intros H. rewrite <- (app_nil_r (concat ls)), lines_concat_app by exact H. apply app_nil_r. Qed.
(** Every line of a text is terminated, but for the last one of a text that does not end in a
    newline. *)
Lemma lines_shape s : exists ls t, s = concat ls ++ t /\ Forall Terminated ls /\ ~ In nl t /\
  lines s = ls ++ match t with [] => [] | _ => [t] end.
Proof.
  induction s as [|c s (ls & t & E & F & N & L)].
  - exists [], []. cbn. auto.
  - destruct (Ascii.eqb c nl) eqn:Ec.
    + apply Ascii.eqb_eq in Ec. subst c. exists ([nl] :: ls), t. cbn [concat app lines].
      rewrite Ascii.eqb_refl, L, <- E. split; [reflexivity|]. split; [|split; [exact N|reflexivity]].
      constructor; [|exact F]. exists []. split; [reflexivity|intros []].
    + apply Ascii.eqb_neq in Ec. destruct ls as [|l ls].
      * exists [], (c :: t). cbn [concat app lines] in *. subst s.
        split; [reflexivity|]. split; [constructor|]. split; [intros [X|X]; auto|].
        apply Ascii.eqb_neq in Ec. rewrite Ec, L. destruct t; reflexivity.
      * exists ((c :: l) :: ls), t. inversion_clear F as [|? ? (b & Eb & Nb) F'].
        cbn [lines concat app] in *. rewrite L, <- E. apply Ascii.eqb_neq in Ec as Ec'. rewrite Ec'.
        split; [reflexivity|]. split; [|split; [exact N|reflexivity]].
        constructor; [|exact F']. exists (c :: b). subst l. split; [reflexivity|].
        intros [X|X]; auto.
Qed.
Lemma lines_terminated s : (s = [] \/ exists s', s = s' ++ [nl]) -> Forall Terminated (lines s).
Proof.
  intros H. destruct (lines_shape s) as (ls & t & E & F & N & L).
  assert (t = []) as ->.
  { destruct H as [->|(s' & H)].
    - destruct (concat ls), t; try discriminate. reflexivity.
    - destruct t as [|c t] using rev_ind; [reflexivity|]. exfalso.
      rewrite H, app_assoc in E. apply app_inj_tail in E as [_ <-].
      apply N. apply in_or_app. right. left. reflexivity. }
  rewrite L, app_nil_r. exact F.
Qed.

(** eat, span *)
Lemma eat_app p s : eat p (p ++ s) = Some s.
Proof. induction p as [|x p IH]; cbn [eat app]; [reflexivity|]. rewrite Ascii.eqb_refl. exact IH. Qed.
Lemma eat_spec p s r : eat p s = Some r <-> s = p ++ r.
Proof.
  split; [|intros ->; apply eat_app].
  revert s. induction p as [|x p IH]; intros s; cbn [eat app]; [congruence|].
  destruct s as [|y s]; [discriminate|]. destruct (Ascii.eqb x y) eqn:E; [|discriminate].
  apply Ascii.eqb_eq in E. subst. intros H. rewrite (IH s H). reflexivity.
Qed.
Lemma startswith_spec s p : startswith s p = true <-> exists r, s = p ++ r.
Proof.
  unfold startswith. destruct (eat p s) as [l|] eqn:E.
  - split; [|reflexivity]. intros _. exists l. apply eat_spec. exact E.
  - split; [discriminate|]. intros (r & ->). rewrite eat_app in E. discriminate.
Qed.
Lemma span_spec f s : s = fst (span f s) ++ snd (span f s) /\
  (forall c, In c (fst (span f s)) -> f c = true) /\
  match snd (span f s) with [] => True | c :: _ => f c = false end.
Proof.
  induction s as [|c s (E & A & B)]; cbn [span]; [cbn; tauto|].
  destruct (f c) eqn:F.
  - destruct (span f s) as [a b]. cbn [fst snd app] in *. subst s. split; [reflexivity|].
    split; [|exact B]. intros x [<-|H]; auto.
  - cbn [fst snd app]. split; [reflexivity|]. split; [intros x []|exact F].
Qed.
Lemma span_app f a b : (forall c, In c a -> f c = true) ->
  match b with [] => True | c :: _ => f c = false end -> span f (a ++ b) = (a, b).
Proof.
  intros A B. induction a as [|c a IH]; cbn [app].
  - destruct b as [|c b]; cbn [span]; [reflexivity|]. rewrite B. reflexivity.
  - cbn [span]. rewrite (A c (or_introl eq_refl)), IH; [reflexivity|].
    intros x H. apply A. right. exact H.
Qed.

(** strip leaves no newline at the end and keeps inner characters *)
Lemma lstrip_suffix s : exists w, s = w ++ lstrip s /\ forall c, In c w -> isspace c = true.
Proof.
  induction s as [|c s (w & E & H)]; cbn [lstrip]; [exists []; split; [reflexivity|intros ? []]|].
  destruct (isspace c) eqn:Ec.
  - exists (c :: w). split; [cbn [app]; congruence|]. intros x [<-|X]; auto.
  - exists []. split; [reflexivity|intros ? []].
Qed.
Lemma lstrip_incl s c : In c (lstrip s) -> In c s.
Proof. destruct (lstrip_suffix s) as (w & E & _). intros H. rewrite E. apply in_or_app. right. exact H. Qed.
Lemma strip_incl s c : In c (strip s) -> In c s.
Proof.
  unfold strip, rstrip. rewrite <- in_rev. intros H. apply lstrip_incl in H.
  rewrite <- in_rev in H. apply lstrip_incl in H. exact H.
Qed.
Lemma strip_spec s : exists a b, s = a ++ strip s ++ b /\
  (forall c, In c a \/ In c b -> isspace c = true) /\
  (forall c r, strip s = c :: r -> isspace c = false) /\
  (forall c r, strip s = r ++ [c] -> isspace c = false).
Proof.
  assert (H0 : forall t c r, lstrip t = c :: r -> isspace c = false).
  { induction t as [|x t IH]; cbn [lstrip]; [discriminate|]. intros c r.
    destruct (isspace x) eqn:E; [apply IH|]. intros H. injection H as -> _. exact E. }
  destruct (lstrip_suffix s) as (a & Ea & Ha).
  destruct (lstrip_suffix (rev (lstrip s))) as (b & Eb & Hb).
  exists a, (rev b). unfold strip, rstrip.
  assert (E1 : lstrip s = rev (lstrip (rev (lstrip s))) ++ rev b).
  { rewrite <- rev_app_distr, <- Eb, rev_involutive. reflexivity. }
  split; [rewrite <- E1; exact Ea|]. split; [|split].
  - intros c [H|H]; [auto|]. apply Hb, in_rev. exact H.
  - intros c r H. rewrite H in E1. cbn [app] in E1. exact (H0 _ _ _ E1).
  - intros c r H. apply (f_equal (@rev ascii)) in H.
    rewrite rev_involutive, rev_app_distr in H. cbn [rev app] in H. exact (H0 _ _ _ H).
Qed.
Lemma strip_no_nl s : Terminated s -> ~ In nl (strip s).
Proof.
  intros (b & -> & N) H. destruct (strip_spec (b ++ [nl])) as (a & e & E & S & _ & T).
  destruct (strip (b ++ [nl])) as [|x r _] using rev_ind; [destruct H|].
  destruct e as [|y e _] using rev_ind.
  - rewrite app_nil_r, app_assoc in E. apply app_inj_tail in E as [E E'].
    specialize (T x r eq_refl). subst x. discriminate T.
  - rewrite !app_assoc in E. apply app_inj_tail in E as [E _]. apply N. rewrite E.
    apply in_or_app. left. apply in_or_app. apply in_app_or in H. 
    destruct H as [H|[H|[]]]; [left; apply in_or_app; auto|].
    exfalso. specialize (T x r eq_refl). rewrite H in T. discriminate T.
Qed.
