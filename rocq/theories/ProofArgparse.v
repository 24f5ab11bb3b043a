(** Lemmas about the command line of the configuration script. *)
From Coq Require Import Bool Ascii String ZArith Lia List.
From Verif Require Import ModelPython ModelConfigBuild ModelArgparse SpecAggregate SpecConfigBuild SpecArgparse ProofPath ProofPython ProofConfigBuild.
Import ListNotations.

Lemma prefix_spec p s : startswith s p = true <-> Prefix p s.
Proof. exact (startswith_spec s p). Qed.
Lemma prefix_false p s : startswith s p = false <-> ~ Prefix p s.
Proof. rewrite <- prefix_spec. destruct (startswith s p); intuition discriminate. Qed.
Lemma name_spec n : Name n <-> In n (map fst options).
Proof.
  split.
  - intros [a [->| ->]]; destruct a; cbv; tauto.
  - cbn [map fst options In]. intros H.
    repeat (destruct H as [H|H]; [subst n|]); [..|destruct H];
      first [exists Help; vm_compute; tauto | exists BuildPath; vm_compute; tauto | exists InstallPath; vm_compute; tauto
            | exists BuildType; vm_compute; tauto | exists Eclipse; vm_compute; tauto | exists Xcode; vm_compute; tauto
            | exists ExportCommands; vm_compute; tauto | exists HostConfig; vm_compute; tauto | exists Ninja; vm_compute; tauto
            | exists Graphviz; vm_compute; tauto].
Qed.
Lemma name_no_equals n : In n (map fst options) -> ~ In equals n.
Proof.
  intros H. assert (E : forallb (fun n => negb (existsb (Ascii.eqb equals) n)) (map fst options) = true) by (vm_compute; reflexivity).
  rewrite forallb_forall in E. specialize (E n H). intros I. apply negb_true_iff in E.
  assert (X : existsb (Ascii.eqb equals) n = true) by (apply existsb_exists; exists equals; split; [exact I|reflexivity]).
  congruence.
Qed.

Lemma split1_some s p v : split1 equals s = (p, Some v) <-> s = p ++ equals :: v /\ ~ In equals p.
Proof.
  unfold split1. split.
  - destruct (span_spec (fun x => negb (Ascii.eqb x equals)) s) as [E [F G]].
    destruct (span _ s) as [a [|c b]]; cbn [fst snd] in *; [discriminate|].
    intros H. injection H as <- <-. assert (c = equals) as ->.
    { apply negb_false_iff in G. apply Ascii.eqb_eq in G. exact G. }
    split; [exact E|]. intros I. specialize (F _ I). cbn in F. discriminate F.
  - intros [-> N]. rewrite span_app; [reflexivity| |reflexivity].
    intros c I. apply negb_true_iff, Ascii.eqb_neq. intros ->. contradiction.
Qed.
Lemma split1_none s p : split1 equals s = (p, None) <-> p = s /\ ~ In equals s.
Proof.
  unfold split1. split.
  - destruct (span_spec (fun x => negb (Ascii.eqb x equals)) s) as [E [F G]].
    destruct (span _ s) as [a [|c b]]; cbn [fst snd] in *; [|discriminate].
    intros H. injection H as <-. rewrite app_nil_r in E. split; [auto|]. subst s. intros I. specialize (F _ I). cbn in F. discriminate F.
  - intros [-> N]. rewrite <- (app_nil_r s) at 1. rewrite span_app; [reflexivity| |exact I].
    intros c I. apply negb_true_iff, Ascii.eqb_neq. intros ->. contradiction.
Qed.
Lemma upto_spec w p : UpToEquals w p <-> p = fst (split1 equals w).
Proof.
  unfold UpToEquals. destruct (split1 equals w) as [q [v|]] eqn:E; cbn [fst].
  - apply split1_some in E as [-> N]. split.
    + intros [Np [H|[u H]]].
      * exfalso. apply Np. rewrite <- H. apply in_or_app. right. left. reflexivity.
      * assert (X : split1 equals (q ++ equals :: v) = (p, Some u)) by (apply split1_some; auto).
        assert (Y : split1 equals (q ++ equals :: v) = (q, Some v)) by (apply split1_some; auto). congruence.
    + intros ->. split; [exact N|]. right. exists v. reflexivity.
  - apply split1_none in E as [-> N]. split.
    + intros [Np [H|[u H]]]; [auto|]. exfalso. apply N. rewrite H. apply in_or_app. right. left. reflexivity.
    + intros ->. auto.
Qed.

Lemma flat_map_nil {A B} (f : A -> list B) l : flat_map f l = [] <-> forall x, In x l -> f x = [].
Proof.
  induction l as [|a l IH]; cbn [flat_map]; [split; [intros _ x []|auto]|].
  split.
  - intros H x [<-|I]; apply app_eq_nil in H as [H1 H2]; [exact H1|]. apply IH; assumption.
  - intros H. rewrite (H a (or_introl eq_refl)). apply IH. intros x I. apply H. right. exact I.
Qed.

Lemma tuples_nil w : (2 <= length w)%nat ->
  option_tuples w = [] <->
  if startswith w [dash; dash] then forall n, Name n -> ~ Prefix (fst (split1 equals w)) n
  else forall n, Name n -> ~ Prefix w n /\ (length n = 2%nat -> ~ Prefix n w).
Proof.
  intros L. unfold option_tuples. destruct (startswith w [dash; dash]).
  - destruct (split1 equals w) as [p v]. cbn [fst]. rewrite flat_map_nil. split.
    + intros H n N. apply name_spec, in_map_iff in N as [o [<- I]]. specialize (H o I).
      apply prefix_false. destruct (startswith (fst o) p); [discriminate|reflexivity].
    + intros H o I. specialize (H (fst o)). rewrite name_spec in H. specialize (H (in_map fst _ _ I)).
      apply prefix_false in H. rewrite H. reflexivity.
  - rewrite flat_map_nil. split.
    + intros H n N. apply name_spec, in_map_iff in N as [o [<- I]]. specialize (H o I).
      destruct (eqs (fst o) (firstn 2 w)) eqn:E; [discriminate|]. destruct (startswith (fst o) w) eqn:S; [discriminate|].
      split; [apply prefix_false; exact S|]. intros L2 [r ->]. apply eqs_neq in E. apply E.
      destruct (fst o) as [|x [|y [|z t]]]; try discriminate L2. reflexivity.
    + intros H o I. specialize (H (fst o)). rewrite name_spec in H. specialize (H (in_map fst _ _ I)). destruct H as [H1 H2].
      apply prefix_false in H1. rewrite H1. destruct (eqs (fst o) (firstn 2 w)) eqn:E; [|reflexivity]. exfalso.
      apply eqs_eq in E. apply H2.
      * rewrite E. rewrite firstn_length. lia.
      * exists (skipn 2 w). rewrite E. symmetry. apply firstn_skipn.
Qed.

Lemma tuples_known k w : In k (option_tuples w) -> exists a n x, k = Known a n x.
Proof.
  unfold option_tuples. destruct (startswith w [dash; dash]).
  - destruct (split1 equals w) as [p v]. intros I. apply in_flat_map in I as [o [_ I]]. destruct (startswith _ _); [|destruct I].
    destruct I as [<-|[]]. eauto.
  - intros I. apply in_flat_map in I as [o [_ I]]. destruct (eqs _ _); [destruct I as [<-|[]]; eauto|].
    destruct (startswith _ _); [|destruct I]. destruct I as [<-|[]]. eauto.
Qed.
Lemma foreign_spec w : Foreign w <-> parse_optional w = Some Argument \/ parse_optional w = Some Unrecognised.
Proof.
  destruct w as [|c r].
  { split; [intros _; left; reflexivity|]. intros _. left. intros [x X]. discriminate. }
  cbn [parse_optional]. destruct (Ascii.eqb c dash) eqn:D; cbn [negb].
  2: { split; [intros _; left; reflexivity|]. intros _. left. intros [x X]. injection X as -> _. discriminate D. }
  apply Ascii.eqb_eq in D. subst c.
  destruct r as [|d r].
  { split; [intros _; left; reflexivity|]. intros _. right. left. reflexivity. }
  set (w := dash :: d :: r).
  assert (L : (2 <= length w)%nat) by (cbn; lia).
  assert (PD : Prefix [dash] w) by (exists (d :: r); reflexivity).
  assert (ND : w <> [dash]) by discriminate.
  pose proof (tuples_nil w L) as TN.
  assert (FS : Foreign w <-> (if startswith w [dash; dash] then forall n, Name n -> ~ Prefix (fst (split1 equals w)) n
    else forall n, Name n -> ~ Prefix w n /\ ~ Prefix (n ++ [equals]) w /\ (length n = 2%nat -> ~ Prefix n w))).
  { unfold Foreign. destruct (startswith w [dash; dash]) eqn:S.
    - apply prefix_spec in S. split.
      + intros [H|[H|[[_ H]|[_ [H _]]]]]; [contradiction..| |contradiction].
        intros n N. apply (H _ n); [apply upto_spec; reflexivity|exact N].
      + intros H. right. right. left. split; [exact S|]. intros p n U N. apply upto_spec in U. subst p. apply H. exact N.
    - apply prefix_false in S. split.
      + intros [H|[H|[[H _]|[_ [_ H]]]]]; [contradiction..|]. exact H.
      + intros H. right. right. right. auto. }
  rewrite FS. clear FS.
  destruct (get w options) as [a|] eqn:G.
  { apply get_In in G. assert (Nw : Name w) by (apply name_spec; exact (in_map fst _ _ G)).
    split; [|intros [H|H]; discriminate H]. intros H. exfalso.
    destruct (startswith w [dash; dash]).
    - specialize (H w Nw). apply H. pose proof (name_no_equals w (proj1 (name_spec w) Nw)) as NE.
      assert (E : split1 equals w = (w, None)) by (apply split1_none; auto). rewrite E. cbn [fst]. exists []. symmetry. apply app_nil_r.
    - destruct (H w Nw) as [H1 _]. apply H1. exists []. symmetry. apply app_nil_r. }
  destruct (split1 equals w) as [p [v|]] eqn:E; cbn [fst] in *.
  - pose proof E as E'. apply split1_some in E' as [Ew Np].
    destruct (get p options) as [a|] eqn:Gp.
    + apply get_In in Gp. assert (Nn : Name p) by (apply name_spec; exact (in_map fst _ _ Gp)).
      split; [|intros [H|H]; discriminate H]. intros H. exfalso. destruct (startswith w [dash; dash]).
      * apply (H p Nn). exists []. symmetry. apply app_nil_r.
      * destruct (H p Nn) as [_ [H1 _]]. apply H1. exists v. rewrite Ew, <- app_assoc. reflexivity.
    + destruct (option_tuples w) as [|k [|k' ks]] eqn:T.
      * split; [intros _; destruct (negative_number w); [auto|]; destruct (existsb _ w); auto|]. intros _.
        pose proof (proj1 TN eq_refl) as X. destruct (startswith w [dash; dash]); [exact X|]. intros n N. destruct (X n N) as [X1 X2].
        split; [exact X1|]. split; [|exact X2]. intros [u U]. rewrite <- app_assoc in U. cbn in U.
        assert (split1 equals w = (n, Some u)) as E2 by (apply split1_some; split; [exact U|apply name_no_equals, name_spec; exact N]).
        rewrite E in E2. injection E2 as <- <-. apply get_None in Gp. apply Gp. apply name_spec. exact N.
      * split.
        -- intros H. exfalso. assert (X : [k] = []) by (apply TN; destruct (startswith w [dash; dash]); [exact H|]; intros n N; destruct (H n N) as [? [? ?]]; auto).
           discriminate X.
        -- intros H. exfalso. assert (exists a n x, k = Known a n x) as (a & n & x & ->) by (apply (tuples_known k w); rewrite T; left; reflexivity).
           destruct H as [H|H]; discriminate H.
      * split; [|intros [H|H]; discriminate H]. intros H. exfalso.
        assert (X : k :: k' :: ks = []) by (apply TN; destruct (startswith w [dash; dash]); [exact H|]; intros n N; destruct (H n N) as [? [? ?]]; auto).
        discriminate X.
  - pose proof E as E'. apply split1_none in E' as [-> Np].
    destruct (option_tuples w) as [|k [|k' ks]] eqn:T.
    + split; [intros _; destruct (negative_number w); [auto|]; destruct (existsb _ w); auto|]. intros _.
      pose proof (proj1 TN eq_refl) as X. destruct (startswith w [dash; dash]); [exact X|]. intros n N. destruct (X n N) as [X1 X2].
      split; [exact X1|]. split; [|exact X2]. intros [u U]. apply Np. rewrite U, <- app_assoc. apply in_or_app. right. left. reflexivity.
    + split.
      * intros H. exfalso. assert (X : [k] = []) by (apply TN; destruct (startswith w [dash; dash]); [exact H|]; intros n N; destruct (H n N) as [? [? ?]]; auto).
        discriminate X.
      * intros H. exfalso. assert (exists a n x, k = Known a n x) as (a & n & x & ->) by (apply (tuples_known k w); rewrite T; left; reflexivity).
        destruct H as [H|H]; discriminate H.
    + split; [|intros [H|H]; discriminate H]. intros H. exfalso.
      assert (X : k :: k' :: ks = []) by (apply TN; destruct (startswith w [dash; dash]); [exact H|]; intros n N; destruct (H n N) as [? [? ?]]; auto).
      discriminate X.
Qed.

(** ** One item *)
Lemma name_classified l a : eqs (name_of l a) [dash; dash] = false /\ parse_optional (name_of l a) = Some (Known a (name_of l a) None).
Proof. destruct l, a; split; reflexivity. Qed.
Lemma equal_classified l a v : eqs (name_of l a ++ equals :: v) [dash; dash] = false /\
  parse_optional (name_of l a ++ equals :: v) = Some (Known a (name_of l a) (Some (true, v))).
Proof. destruct l, a; split; reflexivity. Qed.
Lemma word_classified v : ~ Prefix [dash] v -> eqs v [dash; dash] = false /\ parse_optional v = Some Argument.
Proof.
  intros N. destruct v as [|c r]; [split; reflexivity|].
  assert (E : Ascii.eqb c dash = false) by (apply Ascii.eqb_neq; intros ->; apply N; exists r; reflexivity).
  cbn [eqs parse_optional]. rewrite E. split; reflexivity.
Qed.
Lemma dashes_not_foreign : ~ Foreign [dash; dash].
Proof. intros F. apply foreign_spec in F. vm_compute in F. destruct F as [F|F]; discriminate F. Qed.
Lemma foreign_classified w : Foreign w -> eqs w [dash; dash] = false /\
  exists k, parse_optional w = Some k /\ (k = Argument \/ k = Unrecognised).
Proof.
  intros F. split.
  - apply eqs_neq. intros ->. exact (dashes_not_foreign F).
  - apply foreign_spec in F as [F|F]; eexists; split; eauto.
Qed.

Definition effect (i : item) (s : space) : space + Z :=
  match i with
  | Next _ a v | Equal _ a v => set a v s
  | Switch _ a => set a [] s
  | Other w => inl (pass_on w s)
  end.
Definition kinds (i : item) : list (str * kind) :=
  match i with
  | Next l a v => [(name_of l a, Known a (name_of l a) None); (v, Argument)]
  | Equal l a v => [(name_of l a ++ equals :: v, Known a (name_of l a) (Some (true, v)))]
  | Switch l a => [(name_of l a, Known a (name_of l a) None)]
  | Other w => [(w, match parse_optional w with Some k => k | None => Argument end)]
  end.
Lemma classify_item i t r : WellFormed i -> classify t = Some r -> classify (words i ++ t) = Some (kinds i ++ r).
Proof.
  intros W C. destruct i as [l a v|l a v|l a|w]; cbn [words kinds app WellFormed] in *.
  - destruct (name_classified l a) as [N1 N2]. destruct (word_classified v (proj2 W)) as [V1 V2].
    cbn [classify]. rewrite N1, N2, V1, V2, C. reflexivity.
  - destruct (equal_classified l a v) as [N1 N2]. cbn [classify]. rewrite N1, N2, C. reflexivity.
  - destruct (name_classified l a) as [N1 N2]. cbn [classify]. rewrite N1, N2, C. reflexivity.
  - destruct (foreign_classified w W) as [N1 [k [N2 _]]]. cbn [classify]. rewrite N1, N2, C. reflexivity.
Qed.
Lemma consume_item i l s : WellFormed i ->
  consume (kinds i ++ l) s = match effect i s with inl s' => consume l s' | inr c => inr c end.
Proof.
  intros W. destruct i as [b a v|b a v|b a|w]; cbn [kinds app WellFormed effect] in *.
  - destruct W as [W _]. destruct a; cbn [ValueOption] in W; try contradiction;
      cbn [consume explicit_of takes_value flags map app take]; destruct (set _ v s); reflexivity.
  - destruct a; cbn [ValueOption] in W; try contradiction; cbn [consume explicit_of];
      (assert (X : forall a, takes_value a = true -> cluster a (single_dash (name_of b a)) true v = Last [] a (Some v))
        by (intros a' T; destruct v; cbn [cluster]; rewrite T; reflexivity));
      rewrite X by reflexivity; cbn [flags map app take]; destruct (set _ v s); reflexivity.
  - destruct a; cbn [SwitchOption] in W; try contradiction; cbn [consume explicit_of takes_value flags map app take];
      destruct (set _ [] s); reflexivity.
  - destruct (foreign_classified w W) as [_ [k [N [-> | ->]]]]; rewrite N; reflexivity.
Qed.

(** ** A whole line *)
Definition has_config (l : list item) : bool :=
  existsb (fun i => match i with Next _ HostConfig _ | Equal _ HostConfig _ => true | _ => false end) l.
Definition target (l : list item) : space := (asked l [], has_config l).
Lemma value_snoc a d l i : value a d (l ++ [i]) = match gives a i with [] => value a d l | v :: _ => last (gives a i) v end.
Proof.
  unfold value. rewrite flat_map_app. cbn [flat_map]. rewrite app_nil_r.
  destruct i as [b x v|b x v|b x|w]; cbn [gives]; try (rewrite app_nil_r; reflexivity);
    destruct (same a x); try (rewrite app_nil_r; reflexivity); rewrite last_last; reflexivity.
Qed.
Lemma on_snoc a l i : on a (l ++ [i]) = on a l || match i with Switch _ b => same a b | _ => false end.
Proof. unfold on. rewrite existsb_app. cbn [existsb]. rewrite orb_false_r. reflexivity. Qed.
Lemma others_snoc l i : others (l ++ [i]) = others l ++ match i with Other w => [w] | _ => [] end.
Proof. unfold others. rewrite flat_map_app. cbn [flat_map]. rewrite app_nil_r. reflexivity. Qed.
Lemma target_snoc l i : WellFormed i -> effect i (target l) = inl (target (l ++ [i])).
Proof.
  intros W. unfold target, asked. rewrite !value_snoc, !on_snoc, !others_snoc, !app_nil_r.
  unfold has_config. rewrite existsb_app. cbn [existsb]. rewrite orb_false_r.
  destruct i as [b a v|b a v|b a|w]; cbn [WellFormed effect] in *.
  - destruct W as [W _]. destruct a; cbn [ValueOption] in W; try contradiction;
      cbn [set gives same last]; rewrite ?orb_false_r, ?orb_true_r, ?app_nil_r; try reflexivity.
    assert (M : mem v build_types = true) by (apply mem_In; exact W). rewrite M. reflexivity.
  - destruct a; cbn [ValueOption] in W; try contradiction;
      cbn [set gives same last]; rewrite ?orb_false_r, ?orb_true_r, ?app_nil_r; try reflexivity.
    assert (M : mem v build_types = true) by (apply mem_In; exact W). rewrite M. reflexivity.
  - destruct a; cbn [SwitchOption] in W; try contradiction;
      cbn [set gives same last]; rewrite ?orb_false_r, ?orb_true_r, ?app_nil_r; reflexivity.
  - cbn [gives pass_on]. rewrite ?orb_false_r. reflexivity.
Qed.
Lemma consume_items l : forall done r, Forall WellFormed l ->
  consume (flat_map kinds l ++ r) (target done) = consume r (target (done ++ l)).
Proof.
  induction l as [|i l IH]; intros done r W; cbn [flat_map app].
  - rewrite app_nil_r. reflexivity.
  - inversion W as [|? ? Wi Wl]; subst. rewrite <- app_assoc, consume_item by exact Wi. rewrite target_snoc by exact Wi.
    rewrite IH by exact Wl. rewrite <- app_assoc. reflexivity.
Qed.
Lemma classify_items l t r : Forall WellFormed l -> classify t = Some r -> classify (flat_map words l ++ t) = Some (flat_map kinds l ++ r).
Proof.
  induction l as [|i l IH]; intros W C; cbn [flat_map app]; [exact C|].
  inversion W as [|? ? Wi Wl]; subst. rewrite <- !app_assoc. apply classify_item; [exact Wi|]. apply IH; assumption.
Qed.
Lemma consume_arguments l : forall n seen, consume (map (fun t => (t, Argument)) l) (n, seen) =
  if seen then inl {| buildpath := buildpath n; installpath := installpath n; buildtype := buildtype n; eclipse := eclipse n; xcode := xcode n;
      export_commands := export_commands n; hostconfig := hostconfig n; ninja := ninja n; graphviz := graphviz n;
      unknown := unknown n ++ l |} else inr 2%Z.
Proof.
  induction l as [|w l IH]; intros n seen; cbn [map consume].
  - rewrite app_nil_r. destruct n. reflexivity.
  - cbn [pass_on]. rewrite IH. cbn. rewrite <- app_assoc. reflexivity.
Qed.
Lemma parse_line l rest : Forall WellFormed l -> Rest rest ->
  parse_known_args (flat_map words l ++ rest) = if has_config l then inl (asked l rest) else inr 2%Z.
Proof.
  intros W R. unfold parse_known_args.
  assert (E : exists k, classify rest = Some k /\ forall s, consume k s = consume (map (fun t => (t, Argument)) rest) s).
  { destruct R as [->|[r ->]]; eexists; (split; [reflexivity|]); reflexivity. }
  destruct E as [k [E1 E2]]. rewrite (classify_items l rest k W E1).
  change (no_args, false) with (target []). rewrite consume_items by exact W. cbn [app]. rewrite E2. unfold target.
  rewrite consume_arguments. unfold asked. cbn [buildpath installpath buildtype eclipse xcode export_commands hostconfig ninja graphviz unknown].
  rewrite app_nil_r. reflexivity.
Qed.

Lemma command_line_lemma l rest : Forall WellFormed l ->
  (exists b v, In (Next b HostConfig v) l \/ In (Equal b HostConfig v) l) -> Rest rest ->
  parse_known_args (flat_map words l ++ rest) = inl (asked l rest).
Proof.
  intros W [b [v H]] R. rewrite (parse_line l rest W R).
  assert (E : has_config l = true) by (apply existsb_exists; destruct H as [H|H]; eexists; split; [exact H|reflexivity|exact H|reflexivity]).
  rewrite E. reflexivity.
Qed.
Lemma required_lemma l rest : Forall WellFormed l ->
  (forall b v, ~ In (Next b HostConfig v) l /\ ~ In (Equal b HostConfig v) l) -> Rest rest ->
  parse_known_args (flat_map words l ++ rest) = inr 2%Z.
Proof.
  intros W H R. rewrite (parse_line l rest W R). destruct (has_config l) eqn:E; [|reflexivity]. exfalso.
  apply existsb_exists in E as [i [I E]]. destruct i as [b a v|b a v| |]; try discriminate E;
    destruct a; try discriminate E; destruct (H b v) as [H1 H2]; contradiction.
Qed.

(** ** Exactly the foreign words are passed on *)
Definition flagged (s : space) : bool :=
  let n := fst s in eclipse n || xcode n || export_commands n || ninja n || graphviz n.
Lemma set_flagged a v s s' : set a v s = inl s' -> flagged s = true -> flagged s' = true.
Proof.
  destruct s as [n seen]. destruct a; cbn [set]; try discriminate;
    try (intros H; injection H as <-; unfold flagged; cbn [fst eclipse xcode export_commands ninja graphviz]; rewrite ?orb_true_r; auto; fail).
  destruct (mem v build_types); [|discriminate]. intros H. injection H as <-. auto.
Qed.
Lemma take_flagged l : forall s s', take l s = inl s' -> flagged s = true -> flagged s' = true.
Proof.
  induction l as [|[a v] l IH]; intros s s'; cbn [take]; [intros H; injection H as <-; auto|].
  destruct (set a v s) as [t|] eqn:E; [|discriminate]. intros H F. apply (IH t); [exact H|]. exact (set_flagged a v s t E F).
Qed.
Lemma set_switch a v s s' : takes_value a = false -> set a v s = inl s' -> flagged s' = true.
Proof.
  destruct s as [n seen]. destruct a; cbn [set takes_value]; try discriminate; intros _ H; injection H as <-;
    unfold flagged; cbn [fst eclipse xcode export_commands ninja graphviz]; rewrite ?orb_true_r; reflexivity.
Qed.
Lemma set_unknown a v s s' : set a v s = inl s' -> unknown (fst s') = unknown (fst s).
Proof.
  destruct s as [n seen]. destruct a; cbn [set]; try discriminate; try (intros H; injection H as <-; reflexivity).
  destruct (mem v build_types); [|discriminate]. intros H. injection H as <-. reflexivity.
Qed.
Lemma take_unknown l : forall s s', take l s = inl s' -> unknown (fst s') = unknown (fst s).
Proof.
  induction l as [|[a v] l IH]; intros s s'; cbn [take]; [intros H; injection H as <-; auto|].
  destruct (set a v s) as [t|] eqn:E; [|discriminate]. intros H. rewrite (IH t s' H). exact (set_unknown a v s t E).
Qed.
Lemma cluster_stop a single sep e acts x : cluster a single sep e = Stop acts x -> exists l, acts = a :: l /\ takes_value a = false.
Proof.
  destruct e as [|c r]; cbn [cluster]; destruct (takes_value a); try discriminate.
  destruct (negb single); [discriminate|]. destruct (sep || Ascii.eqb c dash); [discriminate|].
  destruct (get [dash; c] options) as [a'|]; [|intros H; injection H as <- _; eauto].
  intros H. match type of H with before a ?t = _ => destruct t as [|l y|l b y] end; try discriminate.
  injection H as <- _. eauto.
Qed.
Lemma not_dashes w : parse_optional w <> Some Dashes.
Proof.
  destruct w as [|c r]; cbn [parse_optional]; [discriminate|]. destruct (negb _); [discriminate|].
  set (w := c :: r). destruct (get w options); [discriminate|]. destruct r as [|d r]; [discriminate|].
  destruct (split1 equals w) as [p [v|]].
  - destruct (get p options); [discriminate|]. destruct (option_tuples w) as [|k [|k' ks]] eqn:T; [| |discriminate].
    + destruct (negative_number w); [discriminate|]. destruct (existsb _ w); discriminate.
    + destruct (tuples_known k w) as (a & n & x & ->); [rewrite T; left; reflexivity|]. discriminate.
  - destruct (option_tuples w) as [|k [|k' ks]] eqn:T; [| |discriminate].
    + destruct (negative_number w); [discriminate|]. destruct (existsb _ w); discriminate.
    + destruct (tuples_known k w) as (a & n & x & ->); [rewrite T; left; reflexivity|]. discriminate.
Qed.
Lemma known_not_passed w a name explicit s : snd s = true -> flagged s = false -> unknown (fst s) = [] ->
  forall n, consume [(w, Known a name explicit)] s = inl n -> flagged (n, true) = true \/ unknown n = [].
Proof.
  intros S F U n. cbn [consume]. destruct (explicit_of name a explicit) as [|acts x|acts b [v|]] eqn:E; [discriminate|..].
  - destruct explicit as [[sep e]|]; [|discriminate E]. cbn [explicit_of] in E. apply cluster_stop in E as [l [-> T]].
    cbn [flags map take]. destruct (set a [] s) as [t|] eqn:St; [|discriminate].
    destruct (take _ t) as [t'|] eqn:Tk; [|discriminate].
    destruct t' as [m b]. cbn [pass_on snd fst]. destruct b; [|discriminate]. intros H. injection H as <-. left.
    exact (take_flagged _ _ _ Tk (set_switch a [] s t T St)).
  - destruct (take _ s) as [t|] eqn:Tk; [|discriminate]. destruct (snd t); [|discriminate]. intros H. injection H as <-.
    right. rewrite (take_unknown _ _ _ Tk). exact U.
  - destruct (takes_value b); [discriminate|]. destruct (take _ s) as [t|] eqn:Tk; [|discriminate].
    destruct (snd t); [|discriminate]. intros H. injection H as <-. right. rewrite (take_unknown _ _ _ Tk). exact U.
Qed.
Lemma exactly_lemma f w : ~ Prefix [dash] f ->
  parse_known_args [lit "-hc"; f; w] = inl (asked [Next false HostConfig f] [w]) <-> Foreign w \/ w = lit "--".
Proof.
  intros Nf. split.
  - intros H. destruct (eqs w [dash; dash]) eqn:E; [right; apply eqs_eq; exact E|]. left. apply foreign_spec.
    unfold parse_known_args in H. change (lit "-hc") with (name_of false HostConfig) in H.
    destruct (name_classified false HostConfig) as [N1 N2]. destruct (word_classified f Nf) as [V1 V2].
    cbn [classify] in H. rewrite N1, N2, V1, V2, E in H.
    pose proof (not_dashes w) as ND. destruct (parse_optional w) as [k|]; [|discriminate H].
    destruct k as [| |a name explicit|]; [auto| | |auto]; exfalso; [apply ND; reflexivity|].
    change (consume [(w, Known a name explicit)] (target [Next false HostConfig f]) = inl (asked [Next false HostConfig f] [w])) in H.
    apply known_not_passed in H; [|reflexivity..]. destruct H as [H|H]; discriminate H.
  - assert (W : WellFormed (Next false HostConfig f)) by (split; [exact Logic.I|exact Nf]).
    intros [Fw| ->].
    + pose proof (command_line_lemma [Next false HostConfig f; Other w] []) as X. cbn [flat_map words app] in X.
      change (name_of false HostConfig) with (lit "-hc") in X. rewrite X; [reflexivity| | |left; reflexivity].
      * constructor; [exact W|]. constructor; [exact Fw|constructor].
      * exists false, f. left. left. reflexivity.
    + pose proof (command_line_lemma [Next false HostConfig f] [lit "--"]) as X. cbn [flat_map words app] in X.
      change (name_of false HostConfig) with (lit "-hc") in X. rewrite X; [reflexivity| | |right; exists []; reflexivity].
      * constructor; [exact W|constructor].
      * exists false, f. left. left. reflexivity.
Qed.

(** ** Every command line *)
Definition fair (r : space + Z) : Prop :=
  match r with inl s => choices (fst s) = true | inr c => c = 0%Z \/ c = 2%Z end.
Lemma set_fair a v s : choices (fst s) = true -> fair (set a v s).
Proof.
  destruct s as [n seen]. intros C. destruct a; cbn [set]; try exact C; try (left; reflexivity).
  destruct (mem v build_types) eqn:M; [exact M|right; reflexivity].
Qed.
Lemma take_fair l : forall s, choices (fst s) = true -> fair (take l s).
Proof.
  induction l as [|[a v] l IH]; intros s C; cbn [take]; [exact C|].
  pose proof (set_fair a v s C) as F. destruct (set a v s) as [t|c]; [exact (IH t F)|exact F].
Qed.
Lemma consume_fair k : forall l s, (length l <= k)%nat -> choices (fst s) = true ->
  match consume l s with inl n => choices n = true | inr c => c = 0%Z \/ c = 2%Z end.
Proof.
  assert (P : forall w s, choices (fst s) = true -> choices (fst (pass_on w s)) = true) by (intros w [n b] C; exact C).
  induction k as [|k IH]; intros l s L C.
  { destruct l; [|cbn in L; lia]. cbn [consume]. destruct (snd s); [exact C|auto]. }
  destruct l as [|[w x] l]; cbn [consume]; [destruct (snd s); [exact C|auto]|]. cbn [length] in L.
  destruct x as [| |a name explicit|]; try (apply IH; [lia|apply P; exact C]).
  destruct (explicit_of name a explicit) as [|acts y|acts b [v|]]; [auto|..].
  - pose proof (take_fair (flags acts) s C) as F. destruct (take (flags acts) s) as [t|c]; [|exact F].
    apply IH; [lia|]. apply P. exact F.
  - pose proof (take_fair (flags acts ++ [(b, v)]) s C) as F. destruct (take _ s) as [t|c]; [|exact F]. apply IH; [lia|exact F].
  - destruct (takes_value b).
    + destruct l as [|[v x] l]; [auto|]. destruct x; auto. pose proof (take_fair (flags acts ++ [(b, v)]) s C) as F.
      destruct (take _ s) as [t|c]; [|exact F]. apply IH; [cbn [length] in L; lia|exact F].
    + pose proof (take_fair (flags (acts ++ [b])) s C) as F. destruct (take _ s) as [t|c]; [|exact F]. apply IH; [lia|exact F].
Qed.
Lemma outcomes_lemma status fs cwd argv0 argv :
  (exists a, parse_known_args argv = inl a /\ In (buildtype a) [lit "Release"; lit "Debug"; lit "RelWithDebInfo"; lit "MinSizeRel"] /\
     script_run status fs cwd argv0 argv = config_build status fs cwd argv0 a) \/
  (exists c, parse_known_args argv = inr c /\ (c = 0%Z \/ c = 2%Z) /\
     script_run status fs cwd argv0 argv = {| after := fs; started := []; code := c |}).
Proof.
  unfold script_run. destruct (parse_known_args argv) as [a|c] eqn:E; [left|right]; (eexists; split; [reflexivity|]); split; try reflexivity.
  - unfold parse_known_args in E. destruct (classify argv) as [l|]; [|discriminate E].
    pose proof (consume_fair (length l) l (no_args, false) (le_n _) eq_refl) as F. rewrite E in F. apply mem_In. exact F.
  - unfold parse_known_args in E. destruct (classify argv) as [l|]; [|injection E as <-; auto].
    pose proof (consume_fair (length l) l (no_args, false) (le_n _) eq_refl) as F. rewrite E in F. exact F.
Qed.

(** ** The words cmake gets *)
Lemma to_cmake_lemma status fs cwd argv0 l B I cmd rest : Forall WellFormed l ->
  (exists b v, In (Next b HostConfig v) l \/ In (Equal b HostConfig v) l) ->
  let a := asked l [] in
  absolute cwd -> BuildDir cwd a B -> InstallDir cwd a I ->
  Plain (abspath cwd (hostconfig a)) -> Plain I -> Plain (dirname (abspath cwd argv0)) -> Forall Plain (others l) ->
  started (script_run status fs cwd argv0 (flat_map words l)) = (B, cmd) :: rest ->
  sh_words cmd = Some (intended a (abspath cwd (hostconfig a)) I (dirname (abspath cwd argv0) ++ lit "/..")).
Proof.
  intros W HC a A HB HI PH PI [_ PD] PU H. unfold script_run in H.
  pose proof (command_line_lemma l [] W HC (or_introl eq_refl)) as E. rewrite app_nil_r in E.
  pose proof (outcomes_lemma status fs cwd argv0 (flat_map words l)) as O. rewrite E in H, O. fold a in H, O.
  assert (PT : Plain (buildtype a)).
  { destruct O as [(a' & Ea & Hb & _)|(c & Ec & _)]; [|discriminate Ec]. injection Ea as <-.
    destruct Hb as [<-|[<-|[<-|[<-|[]]]]]; (split; [discriminate|]); apply plain_lit; reflexivity. }
  apply build_dir in HB. apply install_dir in HI. subst B I.
  rewrite (command_line status fs cwd argv0 a _ _ _ A H). apply words_of_line; try assumption.
  unfold a, asked. cbn [unknown]. rewrite app_nil_r. exact PU.
Qed.
