(** Proofs about /repo/scripts/compare_uncrustify.py. *)
From Coq Require Import Bool Ascii String NArith List Lia.
From Verif Require Import ModelPython ModelUncrustify SpecUncrustify ProofPython ProofPath.
Import ListNotations.

Lemma Trimmed_strip s : Trimmed s (strip s).
Proof.
  destruct (strip_spec s) as (a & b & E & W & T1 & T2). exists a, b. split; [exact E|]. split; [exact W|].
  intros c r [H|H]; eauto.
Qed.
Lemma prefix_unique (f : ascii -> bool) a t a' t' : a ++ t = a' ++ t' ->
  (forall c, In c a -> f c = true) -> (forall c, In c a' -> f c = true) ->
  (forall c r, t = c :: r -> f c = false) -> (forall c r, t' = c :: r -> f c = false) ->
  t <> [] -> t' <> [] -> t = t'.
Proof.
  revert a'. induction a as [|x a IH]; intros [|y a'] E A A' T T' N N'; cbn [app] in E.
  - exact E.
  - exfalso. specialize (T _ _ E). rewrite (A' y (or_introl eq_refl)) in T. discriminate.
  - exfalso. symmetry in E. specialize (T' _ _ E). rewrite (A x (or_introl eq_refl)) in T'. discriminate.
  - injection E as _ E. apply (IH a' E); auto; intros; [apply A|apply A']; right; assumption.
Qed.
Lemma Trimmed_unique s t t' : Trimmed s t -> Trimmed s t' -> t = t'.
Proof.
  intros (a & b & E & W & T) (a' & b' & E' & W' & T').
  assert (Z : forall u u' v v' w w', s = u ++ v ++ w -> s = u' ++ v' ++ w' -> (forall c, In c u \/ In c w -> isspace c = true) ->
      (forall c r, v' = c :: r \/ v' = r ++ [c] -> isspace c = false) -> v = [] -> v' = []).
  { intros u u' v v' w w' Eu Eu' Wu Tv ->. destruct v' as [|c v']; [reflexivity|]. exfalso.
    assert (I : In c s) by (rewrite Eu'; apply in_or_app; right; left; reflexivity).
    rewrite Eu in I. cbn [app] in I. apply in_app_or in I.
    assert (X : isspace c = true) by (apply Wu; exact I). rewrite (Tv c v' (or_introl eq_refl)) in X. discriminate. }
  destruct t as [|c t]; [symmetry; apply (Z a a' [] t' b b' E E' W T' eq_refl)|].
  destruct t' as [|c' t']; [apply (Z a' a [] (c :: t) b' b E' E W' T eq_refl)|].
  assert (E1 : (c :: t) ++ b = (c' :: t') ++ b').
  { apply (prefix_unique isspace a ((c :: t) ++ b) a' ((c' :: t') ++ b')); auto.
    - congruence.
    - intros x r X. cbn [app] in X. injection X as <- _. apply (T c t (or_introl eq_refl)).
    - intros x r X. cbn [app] in X. injection X as <- _. apply (T' c' t' (or_introl eq_refl)).
    - discriminate.
    - discriminate. }
  apply (f_equal (@rev ascii)) in E1. rewrite !rev_app_distr in E1.
  assert (NE : forall (x : ascii) l, rev (x :: l) <> []) by (intros x l; cbn [rev]; destruct (rev l); discriminate).
  assert (F : forall (u : str), (forall c r, u = c :: r \/ u = r ++ [c] -> isspace c = false) ->
            forall c r, rev u = c :: r -> isspace c = false).
  { intros u Hu x r X. apply (Hu x (rev r)). right. rewrite <- (rev_involutive u), X. reflexivity. }
  pose proof (prefix_unique isspace (rev b) (rev (c :: t)) (rev b') (rev (c' :: t')) E1) as P.
  rewrite <- (rev_involutive (c :: t)), <- (rev_involutive (c' :: t')). f_equal. apply P.
  - intros x X. apply W. right. apply in_rev. exact X.
  - intros x X. apply W'. right. apply in_rev. exact X.
  - apply F, T.
  - apply F, T'.
  - apply NE.
  - apply NE.
Qed.
Lemma split1_spec c s : match split1 c s with
  | (a, Some b) => s = a ++ c :: b /\ ~ In c a
  | (a, None) => s = a /\ ~ In c s
  end.
Proof.
  unfold split1. destruct (span_spec (fun x => negb (Ascii.eqb x c)) s) as (E & A & B).
  destruct (span _ s) as [a [|d b]]; cbn [fst snd] in *.
  - rewrite app_nil_r in E. split; [exact E|]. rewrite E. intros X. apply A in X. rewrite Ascii.eqb_refl in X. discriminate.
  - apply negb_false_iff, Ascii.eqb_eq in B. subst d. split; [exact E|].
    intros X. apply A in X. rewrite Ascii.eqb_refl in X. discriminate.
Qed.
Lemma splitc_hd c s : s = hd [] (splitc c s) /\ ~ In c s \/
  exists r, s = hd [] (splitc c s) ++ c :: r /\ ~ In c (hd [] (splitc c s)).
Proof.
  induction s as [|x s IH]; cbn [splitc hd]; [left; split; [reflexivity|intros []]|].
  destruct (Ascii.eqb x c) eqn:X.
  - apply Ascii.eqb_eq in X. subst. right. exists s. split; [reflexivity|intros []].
  - apply Ascii.eqb_neq in X. destruct (splitc c s) as [|l ls] eqn:L; [destruct (splitc_not_nil c s L)|]. cbn [hd] in *.
    destruct IH as [[E N]|(r & E & N)].
    + left. split; [congruence|]. intros [Y|Y]; auto.
    + right. exists r. cbn [app]. split; [congruence|]. intros [Y|Y]; auto.
Qed.
Lemma first_unique (c : ascii) a b a' b' : a ++ c :: b = a' ++ c :: b' -> ~ In c a -> ~ In c a' -> a = a' /\ b = b'.
Proof.
  revert a'. induction a as [|x a IH]; intros [|y a'] E N N'; cbn [app] in E.
  - injection E as E. auto.
  - injection E as E1 _. exfalso. apply N'. left. auto.
  - injection E as E1 _. exfalso. apply N. left. auto.
  - injection E as E1 E2. subst y. destruct (IH a' E2) as [-> ->]; auto; intros X; [apply N|apply N']; right; exact X.
Qed.
Lemma parse_line_spec line k v : parse_line line = Some (k, v) <-> Assigns line k v.
Proof.
  unfold parse_line, Assigns. split.
  - intros H. pose proof (Trimmed_strip line) as T. destruct (strip line) as [|c core] eqn:S; [discriminate|].
    destruct (startswith (c :: core) (lit "#")) eqn:C; [discriminate|].
    exists (c :: core). split; [exact T|]. split; [discriminate|]. split.
    { intros r E. rewrite E in C. discriminate C. }
    pose proof (split1_spec "=" (c :: core)) as P. destruct (split1 "=" (c :: core)) as [key [rest|]]; destruct P as [P1 P2].
    + injection H as <- <-. left. exists key, rest, (hd [] (splitc "#" rest)). repeat split; auto using Trimmed_strip.
      destruct (splitc_hd "#" rest) as [[E N]|(r & E & N)].
      * left. split; [exact E|]. rewrite <- E. exact N.
      * right. exists r. auto.
    + injection H as <- <-. right. split; [exact P2|]. split; [|reflexivity].
      rewrite <- P1. apply (Trimmed_unique (c :: core)); [apply Trimmed_strip|].
      destruct T as (a & b & _ & _ & T). exists [], []. rewrite app_nil_r. split; [reflexivity|].
      split; [intros x [[]|[]]|exact T].
  - intros (core & T & N & NC & H). rewrite (Trimmed_unique _ _ _ (Trimmed_strip line) T).
    destruct core as [|c core]; [congruence|].
    assert (C : startswith (c :: core) (lit "#") = false).
    { apply not_true_is_false. intros X. apply startswith_spec in X as (r & X). apply (NC r). exact X. }
    rewrite C. pose proof (split1_spec "=" (c :: core)) as P.
    destruct (split1 "=" (c :: core)) as [key [rest|]]; destruct P as [P1 P2].
    + destruct H as [(key' & rest' & value & E & Nk & Tk & Hv & Tv)|(Ne & _)].
      * rewrite P1 in E. destruct (first_unique _ _ _ _ _ E P2 Nk) as [<- <-].
        rewrite (Trimmed_unique _ _ _ (Trimmed_strip key) Tk). f_equal. f_equal.
        assert (V : hd [] (splitc "#" rest) = value).
        { destruct (splitc_hd "#" rest) as [[Er Nr]|(r & Er & Nr)], Hv as [[Ev Nv]|(cm & Ev & Nv)].
          - congruence.
          - exfalso. apply Nr. rewrite Ev. apply in_or_app. right. left. reflexivity.
          - exfalso. subst value. apply Nv. rewrite Er. apply in_or_app. right. left. reflexivity.
          - rewrite Er in Ev at 1. apply first_unique in Ev; tauto. }
        rewrite V. apply (Trimmed_unique value); [apply Trimmed_strip|exact Tv].
      * exfalso. apply Ne. rewrite P1. apply in_or_app. right. left. reflexivity.
    + destruct H as [(key' & rest' & value & E & _)|(_ & -> & ->)].
      * exfalso. apply P2. rewrite E. apply in_or_app. right. left. reflexivity.
      * rewrite <- P1. f_equal. f_equal. apply (Trimmed_unique (c :: core)); [apply Trimmed_strip|].
        destruct T as (a & b & _ & _ & T). exists [], []. rewrite app_nil_r. split; [reflexivity|].
        split; [intros x [[]|[]]|exact T].
Qed.

Lemma read_spec text k v : get k (read_uncrustify_config text) = Some v <-> Setting text k v.
Proof.
  unfold read_uncrustify_config, Setting. set (f := fun config line => _).
  assert (X : forall ls d, get k (fold_left f ls d) = Some v <->
    (exists before line after, ls = before ++ line :: after /\ Assigns line k v /\ forall l v', In l after -> ~ Assigns l k v')
    \/ (forall l v', In l ls -> ~ Assigns l k v') /\ get k d = Some v).
  { induction ls as [|line ls IH] using rev_ind; intros d.
    - cbn [fold_left]. split; [intros H; right; split; [intros ? ? []|exact H]|].
      intros [(b & l & a & H & _)|[_ H]]; [destruct b; discriminate|exact H].
    - rewrite fold_left_app. cbn [fold_left]. unfold f at 1.
      assert (OTHER : (forall v', ~ Assigns line k v') -> (get k (fold_left f ls d) = Some v <->
        (exists before line0 after, ls ++ [line] = before ++ line0 :: after /\ Assigns line0 k v /\ forall l v', In l after -> ~ Assigns l k v')
        \/ (forall l v', In l (ls ++ [line]) -> ~ Assigns l k v') /\ get k d = Some v)).
      { intros NA. rewrite IH. split.
        - intros [(b & l & a & -> & Al & Na)|[Na G]].
          + left. exists b, l, (a ++ [line]). rewrite <- app_assoc. split; [reflexivity|]. split; [exact Al|].
            intros l' v' Hl. apply in_app_or in Hl as [Hl|[<-|[]]]; auto.
          + right. split; [|exact G]. intros l' v' Hl. apply in_app_or in Hl as [Hl|[<-|[]]]; auto.
        - intros [(b & l & a & E & Al & Na)|[Na G]].
          + left. destruct a as [|x a _] using rev_ind.
            * apply app_inj_tail in E as [_ <-]. destruct (NA v Al).
            * change (b ++ l :: a ++ [x]) with (b ++ (l :: a) ++ [x]) in E. rewrite app_assoc in E.
              apply app_inj_tail in E as [-> <-]. exists b, l, a. split; [reflexivity|]. split; [exact Al|].
              intros l' v' Hl. apply Na. apply in_or_app. left. exact Hl.
          + right. split; [|exact G]. intros l' v' Hl. apply Na. apply in_or_app. left. exact Hl. }
      destruct (parse_line line) as [[k' v']|] eqn:P.
      + destruct (str_dec k k') as [<-|Nk].
        * rewrite get_put. apply parse_line_spec in P. split.
          -- intros H. injection H as <-. left. exists ls, line, []. split; [reflexivity|]. split; [exact P|intros ? ? []].
          -- intros [(b & l & a & E & Al & Na)|[Na _]].
             ++ destruct a as [|x a _] using rev_ind.
                ** apply app_inj_tail in E as [_ <-]. apply parse_line_spec in Al, P. congruence.
                ** exfalso. change (b ++ l :: a ++ [x]) with (b ++ (l :: a) ++ [x]) in E. rewrite app_assoc in E.
                   apply app_inj_tail in E as [_ <-]. apply (Na line v'); [|exact P].
                   apply in_or_app. right. left. reflexivity.
             ++ exfalso. apply (Na line v'); [apply in_or_app; right; left; reflexivity|exact P].
        * rewrite get_put_other by exact Nk. apply OTHER. intros v2 A2. apply parse_line_spec in A2. congruence.
      + apply OTHER. intros v2 A2. apply parse_line_spec in A2. congruence. }
  rewrite X. split.
  - intros [H|[_ H]]; [exact H|discriminate].
  - intros H. left. exact H.
Qed.
Lemma read_value text k : Value text k (get k (read_uncrustify_config text)).
Proof.
  unfold Value. destruct (get k (read_uncrustify_config text)) eqn:G.
  - apply read_spec. exact G.
  - intros v S. apply read_spec in S. congruence.
Qed.
Lemma Value_unique text k o o' : Value text k o -> Value text k o' -> o = o'.
Proof.
  assert (X : forall o, Value text k o -> o = get k (read_uncrustify_config text)).
  { intros [v|] V; cbn [Value] in V.
    - symmetry. apply read_spec. exact V.
    - destruct (get k (read_uncrustify_config text)) as [v|] eqn:G; [|reflexivity].
      apply read_spec in G. destruct (V v G). }
  intros A B. rewrite (X o A), (X o' B). reflexivity.
Qed.
Lemma read_NoDup text : NoDup (map fst (read_uncrustify_config text)).
Proof.
  unfold read_uncrustify_config.
  assert (X : forall ls (d : dict str), NoDup (map fst d) -> NoDup (map fst (fold_left (fun config line => match parse_line line with Some (k, v) => put k v config | None => config end) ls d))).
  { induction ls as [|l ls IH]; intros d H; cbn [fold_left]; [exact H|]. apply IH.
    destruct (parse_line l) as [[k v]|]; [apply NoDup_put|]; exact H. }
  apply X. constructor.
Qed.

Lemma first_loop c2 l : forall acc, NoDup (map fst l) ->
  let r := fold_left (compare_first c2) l acc in
  (forall k, ~ In k (map fst l) -> get k (fst r) = get k (fst acc) /\ get k (snd r) = get k (snd acc)) /\
  (forall k v, In (k, v) l -> get k (fst acc) = None -> get k (snd acc) = None ->
     get k (fst r) = (match get k c2 with Some v2 => if eqs v2 v then Some v else None | None => None end) /\
     get k (snd r) = (match get k c2 with Some v2 => if eqs v2 v then None else Some (Some v, Some v2) | None => Some (Some v, None) end)).
Proof.
  induction l as [|[k v] l IH]; intros acc N; cbn [fold_left].
  - cbv zeta. split; [auto|intros ? ? []].
  - cbn [map fst] in N. inversion_clear N as [|? ? Nk N']. cbv zeta in *.
    set (acc1 := compare_first c2 acc (k, v)).
    destruct (IH acc1 N') as [I1 I2].
    assert (O : forall k', k' <> k -> get k' (fst acc1) = get k' (fst acc) /\ get k' (snd acc1) = get k' (snd acc)).
    { intros k' Hk. unfold acc1, compare_first. destruct acc as [cm df]. destruct (get k c2); [destruct (eqs _ v)|];
        cbn [fst snd]; rewrite ?get_put_other by exact Hk; auto. }
    split.
    + intros k' Hk. cbn [map fst In] in Hk. destruct (I1 k') as [A B]; [tauto|]. rewrite A, B. apply O. intros ->. apply Hk. left. reflexivity.
    + intros k' v' [H|H] G1 G2.
      * injection H as <- <-. destruct (I1 k Nk) as [-> ->]. unfold acc1, compare_first. destruct acc as [cm df].
        cbn [fst snd] in *. destruct (get k c2) as [v2|]; [destruct (eqs v2 v)|]; cbn [fst snd]; rewrite ?get_put; auto.
      * assert (k' <> k).
        { intros ->. apply Nk. apply (in_map fst) in H. exact H. }
        destruct (O k' H0) as [O1 O2]. apply I2; [exact H|rewrite O1; exact G1|rewrite O2; exact G2].
Qed.
Lemma second_loop c1 l : forall df, NoDup (map fst l) ->
  let r := fold_left (compare_second c1) l df in
  (forall k, ~ In k (map fst l) -> get k r = get k df) /\
  (forall k v, In (k, v) l -> get k r = if has k c1 then get k df else Some (None, Some v)).
Proof.
  induction l as [|[k v] l IH]; intros df N; cbn [fold_left].
  - cbv zeta. split; [auto|intros ? ? []].
  - cbn [map fst] in N. inversion_clear N as [|? ? Nk N']. cbv zeta in *.
    set (df1 := compare_second c1 df (k, v)). destruct (IH df1 N') as [I1 I2].
    assert (O : forall k', k' <> k -> get k' df1 = get k' df).
    { intros k' Hk. unfold df1, compare_second. destruct (has k c1); [reflexivity|]. apply get_put_other. exact Hk. }
    split.
    + intros k' Hk. cbn [map fst In] in Hk. rewrite I1 by tauto. apply O. intros ->. apply Hk. left. reflexivity.
    + intros k' v' [H|H].
      * injection H as <- <-. rewrite (I1 k Nk). unfold df1, compare_second.
        destruct (has k c1); [reflexivity|]. apply get_put.
      * rewrite (I2 k' v' H). destruct (has k' c1); [|reflexivity]. apply O.
        intros ->. apply Nk. apply (in_map fst) in H. exact H.
Qed.
Lemma compare_get t1 t2 k :
  get k (fst (compare_config_files t1 t2)) =
    (match get k (read_uncrustify_config t1), get k (read_uncrustify_config t2) with
     | Some v1, Some v2 => if eqs v2 v1 then Some v1 else None | _, _ => None end) /\
  get k (snd (compare_config_files t1 t2)) =
    (match get k (read_uncrustify_config t1), get k (read_uncrustify_config t2) with
     | Some v1, Some v2 => if eqs v2 v1 then None else Some (Some v1, Some v2)
     | None, None => None
     | o1, o2 => Some (o1, o2) end).
Proof.
  unfold compare_config_files. set (c1 := read_uncrustify_config t1). set (c2 := read_uncrustify_config t2).
  pose proof (first_loop c2 c1 ([], []) (read_NoDup t1)) as L1. cbv zeta in L1.
  destruct (fold_left (compare_first c2) c1 ([], [])) as [cm df]. cbn [fst snd] in *.
  pose proof (second_loop c1 c2 df (read_NoDup t2)) as L2. cbv zeta in L2. destruct L1 as [A1 A2], L2 as [B1 B2].
  destruct (get k c1) as [v1|] eqn:G1.
  - destruct (A2 k v1 (get_In _ _ _ G1) eq_refl eq_refl) as [E1 E2].
    assert (H1 : has k c1 = true) by (unfold has; rewrite G1; reflexivity).
    assert (S : get k (fold_left (compare_second c1) c2 df) = get k df).
    { destruct (get k c2) as [v2|] eqn:G2.
      - rewrite (B2 k v2 (get_In _ _ _ G2)), H1. reflexivity.
      - apply B1. apply get_None. exact G2. }
    rewrite E1, S, E2. destruct (get k c2) as [v2|]; auto.
  - destruct (A1 k (proj1 (get_None _ _) G1)) as [E1 E2].
    assert (H1 : has k c1 = false) by (unfold has; rewrite G1; reflexivity).
    split; [exact E1|]. destruct (get k c2) as [v2|] eqn:G2.
    + rewrite (B2 k v2 (get_In _ _ _ G2)), H1. reflexivity.
    + rewrite (B1 k (proj1 (get_None _ _) G2)), E2. reflexivity.
Qed.
Lemma C62_common t1 t2 k v : get k (fst (compare_config_files t1 t2)) = Some v <-> Setting t1 k v /\ Setting t2 k v.
Proof.
  destruct (compare_get t1 t2 k) as [-> _]. rewrite <- !read_spec.
  destruct (get k (read_uncrustify_config t1)) as [v1|], (get k (read_uncrustify_config t2)) as [v2|];
    try (split; [discriminate|intros [? ?]; discriminate]).
  destruct (eqs v2 v1) eqn:E.
  - apply eqs_eq in E. subst. tauto.
  - apply eqs_neq in E. split; [discriminate|]. intros [H1 H2]. congruence.
Qed.
Lemma C62_different t1 t2 k o1 o2 : get k (snd (compare_config_files t1 t2)) = Some (o1, o2) <->
  Value t1 k o1 /\ Value t2 k o2 /\ o1 <> o2.
Proof.
  destruct (compare_get t1 t2 k) as [_ ->].
  pose proof (read_value t1 k) as V1. pose proof (read_value t2 k) as V2. split.
  - destruct (get k (read_uncrustify_config t1)) as [v1|], (get k (read_uncrustify_config t2)) as [v2|]; try discriminate.
    + destruct (eqs v2 v1) eqn:E; [discriminate|]. intros H. injection H as <- <-. apply eqs_neq in E.
      repeat split; auto. congruence.
    + intros H. injection H as <- <-. repeat split; auto. discriminate.
    + intros H. injection H as <- <-. repeat split; auto. discriminate.
  - intros (W1 & W2 & N). rewrite (Value_unique _ _ _ _ V1 W1), (Value_unique _ _ _ _ V2 W2).
    destruct o1 as [v1|], o2 as [v2|]; try reflexivity; [|congruence].
    destruct (eqs v2 v1) eqn:E; [apply eqs_eq in E; congruence|reflexivity].
Qed.
Lemma compare_NoDup t1 t2 : NoDup (map fst (fst (compare_config_files t1 t2))) /\ NoDup (map fst (snd (compare_config_files t1 t2))).
Proof.
  unfold compare_config_files. set (c1 := read_uncrustify_config t1). set (c2 := read_uncrustify_config t2).
  assert (X : forall l acc, NoDup (map fst (fst acc)) -> NoDup (map fst (snd acc)) ->
    let r := fold_left (compare_first c2) l acc in NoDup (map fst (fst r)) /\ NoDup (map fst (snd r))).
  { induction l as [|[k v] l IH]; intros [cm df] N1 N2; cbn [fold_left]; [cbv zeta; auto|].
    apply IH; unfold compare_first; (destruct (get k c2); [destruct (eqs _ v)|]); cbn [fst snd] in *; auto using NoDup_put. }
  specialize (X c1 ([], []) (NoDup_nil _) (NoDup_nil _)). cbv zeta in X.
  destruct (fold_left (compare_first c2) c1 ([], [])) as [cm df]. cbn [fst snd] in *. destruct X as [X1 X2].
  split; [exact X1|]. revert df X2. induction c2 as [|[k v] l IH]; intros df X2; cbn [fold_left]; [exact X2|].
  apply IH. unfold compare_second. destruct (has k c1); [exact X2|apply NoDup_put, X2].
Qed.
Lemma C62_lemma t1 t2 :
  let (common, different) := compare_config_files t1 t2 in
  NoDup (map fst common) /\ NoDup (map fst different) /\
  (forall k v, In (k, v) common <-> Setting t1 k v /\ Setting t2 k v) /\
  (forall k o1 o2, In (k, (o1, o2)) different <-> Value t1 k o1 /\ Value t2 k o2 /\ o1 <> o2).
Proof.
  pose proof (compare_NoDup t1 t2) as [N1 N2].
  assert (A := C62_common t1 t2). assert (B := C62_different t1 t2).
  destruct (compare_config_files t1 t2) as [cm df]. cbn [fst snd] in *. split; [exact N1|]. split; [exact N2|]. split.
  - intros k v. rewrite <- A. split; [apply In_get, N1|apply get_In].
  - intros k o1 o2. rewrite <- B. split; [apply In_get, N2|apply get_In].
Qed.
Lemma C62_partition t1 t2 k : (exists v, Setting t1 k v \/ Setting t2 k v) ->
  let (common, different) := compare_config_files t1 t2 in
  (In k (map fst common) /\ ~ In k (map fst different)) \/ (~ In k (map fst common) /\ In k (map fst different)).
Proof.
  intros (v & H). pose proof (compare_get t1 t2 k) as [G1 G2].
  destruct (compare_config_files t1 t2) as [cm df]. cbn [fst snd] in *.
  rewrite <- !has_In. unfold has. rewrite G1, G2.
  rewrite <- !read_spec in H. destruct (get k (read_uncrustify_config t1)) as [v1|], (get k (read_uncrustify_config t2)) as [v2|].
  - destruct (eqs v2 v1); [left|right]; split; congruence.
  - right; split; congruence.
  - right; split; congruence.
  - destruct H; discriminate.
Qed.
Lemma C70_lemma : exists t1 t2 k v, Setting t1 k v /\ Unset t2 k /\ report t1 t2 = report t2 t2.
Proof.
  exists (lit "indent = 2"), [], (lit "indent"), (lit "2"). split; [apply read_spec; reflexivity|]. split; [|reflexivity].
  intros v H. apply read_spec in H. discriminate H.
Qed.
