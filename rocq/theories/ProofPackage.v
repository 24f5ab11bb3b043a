(** Lemmas about the CMake package. *)
From Coq Require Import Bool Ascii String NArith Arith Lia List.
From Verif Require Import ModelPackage SpecPackage.
Import ListNotations.
Open Scope string_scope.
Open Scope list_scope.

Lemma number_from_eq s : forall acc, number_from acc s = (acc * 10 ^ N.of_nat (String.length s) + decimal s)%N.
Proof.
  induction s as [|c s IH]; intros acc; cbn [number_from decimal String.length].
  - rewrite N.mul_1_r, N.add_0_r. reflexivity.
  - rewrite IH, Nat2N.inj_succ, N.pow_succ_r'. change (N_of_ascii "0"%char) with 48%N. lia.
Qed.
Lemma part_eq v k : part v k = nth_part v k.
Proof.
  unfold part, nth_part, number. rewrite number_from_eq. destruct (nth_error v k) as [x|] eqn:E.
  - rewrite (nth_error_nth v k "0" E). reflexivity.
  - apply nth_error_None in E. rewrite nth_overflow by exact E. reflexivity.
Qed.
Lemma less_from_spec a b n : forall i, less_from a b i n = true <->
  exists k, i <= k < i + n /\ (forall j, i <= j < k -> nth_part a j = nth_part b j) /\ (nth_part a k < nth_part b k)%N.
Proof.
  induction n as [|n IH]; intros i; cbn [less_from].
  - split; [discriminate|]. intros (k & H & _). lia.
  - rewrite !part_eq, orb_true_iff, andb_true_iff, N.ltb_lt, N.eqb_eq, IH. split.
    + intros [H|[E (k & K & J & L)]].
      * exists i. split; [lia|]. split; [intros j Hj; lia|exact H].
      * exists k. split; [lia|]. split; [|exact L]. intros j Hj. destruct (Nat.eq_dec j i) as [->|N]; [exact E|apply J; lia].
    + intros (k & K & J & L). destruct (Nat.eq_dec k i) as [->|N]; [left; exact L|]. right. split; [apply J; lia|].
      exists k. split; [lia|]. split; [|exact L]. intros j Hj. apply J. lia.
Qed.
Lemma less_spec a b : version_less a b = true <-> Before a b.
Proof.
  unfold version_less, Before. rewrite less_from_spec. split; intros (k & K & J & L); exists k; (split; [lia|]); (split; [|exact L]); intros j Hj; apply J; lia.
Qed.
Lemma trichotomy a b : Before a b \/ Same a b \/ Before b a.
Proof.
  assert (H : forall n, n <= 4 -> (exists k, k < n /\ (forall j, j < k -> nth_part a j = nth_part b j) /\ (nth_part a k < nth_part b k)%N) \/
    (forall k, k < n -> nth_part a k = nth_part b k) \/ (exists k, k < n /\ (forall j, j < k -> nth_part b j = nth_part a j) /\ (nth_part b k < nth_part a k)%N)).
  { induction n as [|n IH]; intros L; [right; left; intros k K; lia|]. destruct (IH ltac:(lia)) as [(k & K & H)|[H|(k & K & H)]].
    - left. exists k. split; [lia|exact H].
    - destruct (N.lt_trichotomy (nth_part a n) (nth_part b n)) as [X|[X|X]].
      + left. exists n. split; [lia|]. split; [exact H|exact X].
      + right. left. intros k K. destruct (Nat.eq_dec k n) as [->|N]; [exact X|apply H; lia].
      + right. right. exists n. split; [lia|]. split; [|exact X]. intros j J. symmetry. apply H, J.
    - right. right. exists k. split; [lia|exact H]. }
  exact (H 4 (Nat.le_refl _)).
Qed.
Lemma before_not_upto a b : Before a b -> ~ Upto b a.
Proof.
  intros (k & K & J & L) [(k' & K' & J' & L')|S].
  - destruct (Nat.lt_trichotomy k k') as [X|[X|X]].
    + specialize (J' k X). lia.
    + subst k'. lia.
    + specialize (J k' X). lia.
  - specialize (S k K). lia.
Qed.
Lemma less_equal_spec a b : version_less_equal a b = true <-> Upto a b.
Proof.
  unfold version_less_equal. rewrite negb_true_iff. split.
  - intros H. destruct (trichotomy a b) as [X|[X|X]]; [left; exact X|right; exact X|]. apply less_spec in X. congruence.
  - intros H. destruct (version_less b a) eqn:E; [|reflexivity]. apply less_spec in E. destruct (before_not_upto _ _ E H).
Qed.
Lemma not_less_spec a b : version_less b a = false <-> Upto a b.
Proof. rewrite <- less_equal_spec. unfold version_less_equal. destruct (version_less b a); cbn; intuition congruence. Qed.
Lemma same_text_spec a : forall b, same_text a b = true <-> a = b.
Proof.
  induction a as [|x a IH]; intros [|y b]; cbn; try (split; congruence).
  rewrite andb_true_iff, String.eqb_eq, IH. split; [intros [-> ->]; reflexivity|intros [= -> ->]; split; reflexivity].
Qed.
Lemma size_spec a b : unsuitable a b = false <-> SameSize a b.
Proof.
  unfold unsuitable, SameSize. destruct a as [a|], b as [b|]; try (split; [intros _ ? ?; congruence|reflexivity]).
  rewrite negb_false_iff, N.eqb_eq. split; [intros -> x y; congruence|intros H; apply H; reflexivity].
Qed.
Lemma suitable_lemma a b r : suitable a b r = true <-> SameSize a b /\ Asks r.
Proof.
  unfold suitable. rewrite andb_true_iff, negb_true_iff, size_spec. apply and_iff_compat_l.
  change package_version with this. destruct r as [|v [|]|lo hi [|]]; cbn [Asks is_exact compatible negb andb orb]; rewrite <- ?part_eq.
  - tauto.
  - rewrite orb_false_r. change package_version with this. destruct (version_less this v) eqn:E.
    + split; [discriminate|]. intros ->. discriminate E.
    + apply same_text_spec.
  - change package_version with this. change (part this 0) with 0%N. destruct (version_less this v) eqn:E.
    + split; [discriminate|]. intros [_ U]. apply not_less_spec in U. congruence.
    + rewrite orb_true_iff, N.eqb_eq, same_text_spec. apply not_less_spec in E. split.
      * intros [->|H]; [split; [reflexivity|exact E]|]. split; [exact H|exact E].
      * intros [H _]. right. exact H.
  - change package_version with this. change (part this 0) with 0%N. destruct (version_less this lo) eqn:E.
    + split; [discriminate|]. intros (_ & _ & U & _). apply not_less_spec in U. congruence.
    + apply not_less_spec in E. destruct (N.eqb (part lo 0) 0) eqn:L; cbn [negb].
      * rewrite andb_true_iff, N.eqb_eq, less_equal_spec. apply N.eqb_eq in L. tauto.
      * apply N.eqb_neq in L. split; [discriminate|tauto].
  - change package_version with this. change (part this 0) with 0%N. destruct (version_less this lo) eqn:E.
    + split; [discriminate|]. intros (_ & _ & U & _). apply not_less_spec in U. congruence.
    + apply not_less_spec in E. destruct (N.eqb (part lo 0) 0) eqn:L; cbn [negb].
      * rewrite andb_true_iff, less_equal_spec, less_spec. apply N.eqb_eq in L. unfold one. tauto.
      * apply N.eqb_neq in L. split; [discriminate|tauto].
Qed.
Lemma exact_lemma : exists v, Same v this /\ forall a b, suitable a b (Version v true) = false.
Proof.
  exists ["0"; "1"]. split.
  - intros k K. do 4 (destruct k as [|k]; [reflexivity|]). lia.
  - intros a b. destruct (suitable a b (Version ["0"; "1"] true)) eqn:E; [|reflexivity]. apply suitable_lemma in E as [_ E]. discriminate E.
Qed.

(** Targets *)
Lemma in_names n l : existsb (String.eqb n) l = true <-> In n l.
Proof.
  rewrite existsb_exists. split; [intros (x & I & E); apply String.eqb_eq in E; subst; exact I|intros I; exists n; split; [exact I|apply String.eqb_refl]].
Qed.
Lemma subdirectory_lemma o n : link o Subdirectory n = Some Requirements <-> generates o = true /\ (n = "Shiva" \/ n = "Shiva::shiva").
Proof.
  unfold link, targets. destruct (generates o); cbn [negb]; [|split; [discriminate|intros [? _]; discriminate]].
  set (ts := ["Shiva"; "Shiva::shiva"] ++ (if links_camp o then ["camp"] else [])).
  destruct (existsb (String.eqb n) (shiva_targets Subdirectory)) eqn:E.
  - pose proof E as E'. apply in_names in E'. cbn in E'.
    replace (existsb (String.eqb n) ts) with true.
    + split; [intros _; split; [reflexivity|intuition congruence]|reflexivity].
    + symmetry. apply in_names. unfold ts. apply in_or_app. left. cbn. tauto.
  - split.
    + intros H. destruct (existsb (String.eqb n) ts), (has_colons n); discriminate H.
    + intros [_ H]. exfalso. assert (X : existsb (String.eqb n) (shiva_targets Subdirectory) = true) by (apply in_names; cbn; intuition congruence). congruence.
Qed.
Lemma found_lemma o before n : link o (Found before) n = Some Requirements <->
  n = "Shiva::Shiva" /\ (enable_blt o = true -> enable_camp o = true -> exists c, camp_export o = Some c /\ In c before).
Proof.
  unfold link, targets, generates, links_camp. 
  assert (K : forall ts : list string, In "Shiva::Shiva" ts -> (Some (if existsb (String.eqb n) ts
      then if existsb (String.eqb n) (shiva_targets (Found before)) then Requirements else OtherTarget
      else if has_colons n then NoSuchTarget else LinkerOption) = Some Requirements <-> n = "Shiva::Shiva")).
  { intros ts I. destruct (existsb (String.eqb n) (shiva_targets (Found before))) eqn:E.
    - pose proof E as E'. apply in_names in E'. destruct E' as [<-|[]]. apply in_names in I. rewrite I. tauto.
    - split.
      + intros H. destruct (existsb (String.eqb n) ts), (has_colons n); discriminate H.
      + intros ->. discriminate E. }
  destruct (enable_blt o), (enable_camp o); cbn [andb negb orb].
  2-4: (rewrite K by (left; reflexivity); split; [intros ->; split; [reflexivity|discriminate]|tauto]).
  destruct (camp_export o) as [c|]; cbn [negb].
  - destruct (existsb (String.eqb c) before) eqn:E.
    + apply in_names in E. rewrite K by (left; reflexivity). split; [intros ->; split; [reflexivity|intros _ _; exists c; split; [reflexivity|exact E]]|tauto].
    + split; [discriminate|]. intros [_ H]. destruct (H eq_refl eq_refl) as (c' & [= <-] & I). apply in_names in I. congruence.
  - split; [discriminate|]. intros [_ H]. destruct (H eq_refl eq_refl) as (c' & X & _). discriminate X.
Qed.
Lemma no_common_lemma o o' before n : ~ (link o Subdirectory n = Some Requirements /\ link o' (Found before) n = Some Requirements).
Proof. rewrite subdirectory_lemma, found_lemma. intros [[_ [->| ->]] [X _]]; discriminate X. Qed.
Lemma camp_lemma : exists o, generates o = true /\ (forall n, link o (Found []) n = None) /\
  exists n, link o Subdirectory n = Some Requirements.
Proof.
  exists {| enable_blt := true; enable_camp := true; camp_export := Some "camp" |}. split; [reflexivity|].
  split; [reflexivity|]. exists "Shiva". reflexivity.
Qed.

(** Directories *)
Lemma up_app n : forall a b, List.length a = n -> up n (a ++ b) = b.
Proof. induction n as [|n IH]; intros [|x a] b H; try discriminate H; [destruct b; reflexivity|]. cbn. apply IH. injection H as H. exact H. Qed.
Lemma relative_below p : forall q, relative (p ++ q) p = (List.length q, []).
Proof.
  induction p as [|x p IH]; intros q; [destruct q; reflexivity|]. cbn [app relative]. rewrite String.eqb_refl. apply IH.
Qed.
Lemma up_below (p q : list string) n : List.length q = n -> rev (up n (rev (p ++ q))) = p.
Proof. intros H. rewrite rev_app_distr, up_app by (rewrite rev_length; exact H). apply rev_involutive. Qed.
Lemma relocatable_lemma i p' : absolute_ (includedir i) = false -> absolute_ (libdir i) = false ->
  let here := p' ++ components (libdir i) ++ ["cmake"; "Shiva"] in
  include_dirs i here = p' ++ components (includedir i) /\ target_include_dir i here = p' ++ components (includedir i).
Proof.
  intros A B here. unfold include_dirs, package_prefix_dir, target_include_dir, import_prefix, package_dir, destination, follow. rewrite A, B.
  rewrite <- (app_assoc (prefix i)), relative_below. cbn [fst snd]. rewrite app_nil_r. unfold here.
  rewrite !up_below by (rewrite app_length; cbn; lia). split; reflexivity.
Qed.
Lemma absolute_lemma i : absolute_ (includedir i) = true -> absolute_ (libdir i) = false -> prefix i <> [] ->
  target_include_dir i (package_dir i) = destination i (includedir i) /\
  include_dirs i (package_dir i) <> destination i (includedir i).
Proof.
  intros A B N. unfold include_dirs, package_prefix_dir, target_include_dir, package_dir, destination, follow. rewrite A, B. split; [reflexivity|].
  rewrite <- (app_assoc (prefix i)), relative_below. cbn [fst snd]. rewrite app_nil_r, up_below by reflexivity.
  intros H. apply (f_equal (@List.length string)) in H. rewrite app_length in H. destruct (prefix i); [congruence|cbn in H; lia].
Qed.
