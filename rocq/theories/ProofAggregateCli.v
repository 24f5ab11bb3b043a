(** Lemmas about the command line of the script that aggregates and splits headers. *)
From Coq Require Import Bool Ascii String ZArith Lia List.
From Verif Require Import ModelPython ModelAggregate ModelAggregateCli SpecArgparse SpecAggregateCli ProofPath ProofPython ProofArgparse ProofScripts.
Import ListNotations.
Open Scope list_scope.

Lemma of_run_exit r : of_run r = exit_of r.
Proof. destruct r; reflexivity. Qed.

Notation A_ w := (@pair str kind w Argument).
Notation args := (@map str word (fun w => A_ w)).

Lemma ordinary_kind o w : Ordinary w -> eqs w [dash; dash] = false /\ parse_optional o w = Some Argument.
Proof.
  intros H. destruct w as [|c r]; [split; reflexivity|]. assert (N : c <> dash) by (intros ->; apply H; exists r; reflexivity).
  split.
  - apply eqs_neq. intros X. injection X as X _. exact (N X).
  - cbn [parse_optional]. apply Ascii.eqb_neq in N. rewrite N. reflexivity.
Qed.
Lemma classify_ordinary o ws t r : Forall Ordinary ws -> classify o t = Some r ->
  classify o (ws ++ t) = Some (args ws ++ r).
Proof.
  intros H E. induction H as [|w ws Hw _ IH]; [exact E|]. cbn [app classify map].
  destruct (ordinary_kind o w Hw) as [-> ->]. rewrite IH. reflexivity.
Qed.
Lemma classify_words o l : forall r, classify o l = Some r -> map fst r = l.
Proof.
  induction l as [|s l IH]; intros r; cbn [classify]; [intros [= <-]; reflexivity|].
  destruct (eqs s [dash; dash]) eqn:E.
  - intros [= <-]. cbn. rewrite map_map. cbn. rewrite map_id. reflexivity.
  - destruct (parse_optional o s) as [k|]; [|discriminate]. destruct (classify o l) as [r'|]; [|discriminate].
    intros [= <-]. cbn. f_equal. apply IH. reflexivity.
Qed.
Lemma help_total s : parse_optional help_options s <> None.
Proof.
  destruct s as [|c r]; [discriminate|]. cbn [parse_optional].
  destruct (Ascii.eqb c dash) eqn:Ec; [|discriminate]. cbn [negb].
  destruct (get (c :: r) help_options); [discriminate|]. destruct r as [|c2 r]; [discriminate|].
  destruct (match split1 equals (c :: c2 :: r) with
            | (name, Some v) => match get name help_options with Some a => Some (Known a name (Some (true, v))) | None => None end
            | (_, None) => None
            end); [discriminate|].
  assert (X : (length (option_tuples help_options (c :: c2 :: r)) <= 1)%nat).
  { unfold option_tuples. apply Ascii.eqb_eq in Ec. subst c.
    destruct (startswith (dash :: c2 :: r) [dash; dash]) eqn:P.
    - apply prefix_spec in P as [q Q]. injection Q as -> ->.
      destruct (split1 equals (dash :: dash :: q)) as [p v] eqn:S.
      assert (S' : exists p', p = dash :: dash :: p').
      { unfold split1 in S. cbn [span] in S. change (Ascii.eqb dash equals) with false in S. cbn [negb] in S.
        destruct (span (fun x => negb (Ascii.eqb x equals)) q) as [p' [|v0 v']]; injection S as <- _; exists p'; reflexivity. }
      destruct S' as [p' ->]. destruct p'; cbn; repeat match goal with |- context [if ?b then _ else _] => destruct b end; cbn; lia.
    - assert (E2 : c2 <> dash) by (intros ->; apply prefix_false in P; apply P; exists r; reflexivity).
      cbn [help_options flat_map fst snd firstn skipn].
      assert (Y1 : eqs (lit "--help") [dash; c2] = false).
      { apply eqs_neq. intros X. apply (f_equal (@length ascii)) in X. discriminate X. }
      assert (Y2 : startswith (lit "--help") (dash :: c2 :: r) = false).
      { apply prefix_false. intros [q Q]. cbn in Q. injection Q as Q _. apply E2. symmetry. exact Q. }
      rewrite Y1, Y2. repeat match goal with |- context [if ?b then _ else _] => destruct b end; cbn; lia. }
  destruct (option_tuples help_options (c :: c2 :: r)) as [|k1 [|k2 ks]].
  - destruct (ModelArgparse.negative_number _); [discriminate|]. destruct (existsb _ _); discriminate.
  - discriminate.
  - cbn in X. lia.
Qed.
Lemma classify_help l : exists r, classify help_options l = Some r.
Proof.
  induction l as [|s l [r IH]]; cbn [classify]; [eexists; reflexivity|].
  destruct (eqs s [dash; dash]); [eexists; reflexivity|].
  destruct (parse_optional help_options s) as [k|] eqn:E; [|destruct (help_total _ E)].
  rewrite IH. eexists. reflexivity.
Qed.
Lemma parse_aggregate cwd l : parse_args cwd (lit "aggregate" :: l) = run_aggregate cwd false l.
Proof.
  unfold parse_args. destruct (classify_help l) as [r E].
  assert (X : classify help_options (lit "aggregate" :: l) = Some ((A_ (lit "aggregate")) :: r)) by (cbn [classify]; rewrite E; reflexivity).
  rewrite X. cbn [main_loop]. rewrite (classify_words _ _ _ E). reflexivity.
Qed.
Lemma parse_split cwd l : parse_args cwd (lit "split" :: l) = run_split false l.
Proof.
  unfold parse_args. destruct (classify_help l) as [r E].
  assert (X : classify help_options (lit "split" :: l) = Some ((A_ (lit "split")) :: r)) by (cbn [classify]; rewrite E; reflexivity).
  rewrite X. cbn [main_loop]. rewrite (classify_words _ _ _ E). reflexivity.
Qed.

(** The option and its abbreviations. *)
Definition abbreviations : list str := map (fun k => firstn k (lit "--include-paths")) [3;4;5;6;7;8;9;10;11;12;13;14;15]%nat.
Lemma abbreviation_in n : Abbreviation n -> In n abbreviations.
Proof.
  intros [[r R] [q Q]]. subst n. set (L := lit "--include-paths") in *.
  assert (E : lit "--i" ++ r = firstn (3 + length r) L).
  { rewrite Q, firstn_app. replace (3 + length r - length (lit "--i" ++ r))%nat with 0%nat by (rewrite app_length; cbn; lia).
    cbn [firstn]. rewrite app_nil_r. symmetry. apply firstn_all2. rewrite app_length. cbn. lia. }
  assert (B : (length r <= 12)%nat).
  { apply (f_equal (@length ascii)) in Q. rewrite !app_length in Q. cbn in Q. lia. }
  rewrite E. unfold abbreviations. apply (in_map (fun k => firstn k L)). revert B. generalize (length r). intros k B.
  do 13 (destruct k as [|k]; [cbn; tauto|]). lia.
Qed.
Lemma spaced_kind n : Abbreviation n ->
  eqs n [dash; dash] = false /\ parse_optional aggregate_options n = Some (Known IncludePaths (lit "--include-paths") None).
Proof.
  intros H. apply abbreviation_in in H. cbn [abbreviations map In] in H.
  repeat (destruct H as [H|H]; [subst n; split; reflexivity|]). destruct H.
Qed.
Lemma attached_kind n v : Abbreviation n ->
  eqs (n ++ lit "=" ++ v) [dash; dash] = false /\
  parse_optional aggregate_options (n ++ lit "=" ++ v) = Some (Known IncludePaths (lit "--include-paths") (Some (true, v))).
Proof.
  intros H. apply abbreviation_in in H. cbn [abbreviations map In] in H.
  repeat (destruct H as [H|H]; [subst n; split; reflexivity|]). destruct H.
Qed.

Definition marked (o : occurrence) : word * list word :=
  match o with
  | Spaced n vs => ((n, Known IncludePaths (lit "--include-paths") None), args vs)
  | Attached n v => ((n ++ lit "=" ++ v, Known IncludePaths (lit "--include-paths") (Some (true, v))), [])
  end.
Definition flatten (p : word * list word) : list word := fst p :: snd p.
Lemma classify_occurrences os t r : Forall Proper os -> classify aggregate_options t = Some r ->
  classify aggregate_options (flat_map spelt os ++ t) = Some (flat_map (fun o => flatten (marked o)) os ++ r).
Proof.
  intros H E. induction H as [|o os Ho _ IH]; [exact E|]. destruct o as [n vs|n v].
  - destruct Ho as [Ho Hv]. cbn [flat_map spelt app classify marked flatten fst snd]. destruct (spaced_kind n Ho) as [-> ->].
    rewrite <- app_assoc, (classify_ordinary _ vs _ _ Hv IH), <- app_assoc. reflexivity.
  - cbn [flat_map spelt app classify marked flatten fst snd]. destruct (attached_kind n v Ho) as [-> ->]. rewrite IH. reflexivity.
Qed.
Lemma segments_arguments ws t : segments (args ws ++ t) =
  let (r, ss) := segments t in (args ws ++ r, ss).
Proof.
  induction ws as [|w ws IH]; [cbn [map app]; destruct (segments t); reflexivity|]. cbn [map app segments]. rewrite IH.
  destruct (segments t). reflexivity.
Qed.
Lemma segments_occurrences os : segments (flat_map (fun o => flatten (marked o)) os) = ([], map marked os).
Proof.
  induction os as [|o os IH]; [reflexivity|]. destruct o as [n vs|n v]; cbn [flat_map marked flatten fst snd app segments].
  - rewrite segments_arguments, IH. rewrite app_nil_r. reflexivity.
  - rewrite IH. reflexivity.
Qed.
Lemma span_arguments ws t : (match t with [] => True | w :: _ => is_argument w = false end) ->
  spanw is_argument (args ws ++ t) = (args ws, t).
Proof.
  intros H. induction ws as [|w ws IH]; cbn [map app spanw].
  - destruct t as [|w t]; [reflexivity|]. cbn. rewrite H. reflexivity.
  - cbn [is_argument snd]. rewrite IH. reflexivity.
Qed.
Lemma map_fst_arguments ws : map fst (args ws) = ws.
Proof. rewrite map_map. cbn. apply map_id. Qed.

Definition set_paths (o : option (list str)) (s : state) := {| left_ := left_ s; got := got s; paths := o; extras := extras s |}.
Definition chosen (os : list occurrence) (before : option (list str)) : option (list str) :=
  fold_left (fun _ o => Some (given o)) os before.
Lemma place_nil s : (left_ s = [] \/ left_ s = [Plus; One]) -> place [] s = s.
Proof.
  intros [E|E]; unfold place; rewrite E; cbn; rewrite app_nil_r, orb_false_r; destruct s; cbn in *; subst; reflexivity.
Qed.
Lemma loop_occurrences os : forall s, left_ s = [] \/ left_ s = [Plus; One] ->
  options_loop (map marked os) s = inl (set_paths (chosen os (paths s)) s).
Proof.
  induction os as [|o os IH]; intros s L; [destruct s; reflexivity|].
  destruct o as [n vs|n v]; cbn [map marked options_loop snd].
  - rewrite <- (app_nil_r (args vs)), (span_arguments vs [] I), map_fst_arguments, place_nil by exact L.
    rewrite IH by exact L. reflexivity.
  - rewrite place_nil by exact L. rewrite IH by exact L. reflexivity.
Qed.
Lemma chosen_last os d before : chosen os before = match os with [] => before | _ => Some (last (map given os) d) end.
Proof.
  revert before. induction os as [|o os IH]; intros before; [reflexivity|]. cbn [chosen fold_left]. fold (chosen os (Some (given o))).
  rewrite IH. destruct os; reflexivity.
Qed.
Lemma chosen_default os cwd : match chosen os None with Some ps => ps | None => [cwd] end = last (map given os) [cwd].
Proof. rewrite (chosen_last os [cwd]). destruct os; reflexivity. Qed.

Lemma plus_one_last (r : list word) (a : str) : existsb is_argument r = true -> take_plus_one (r ++ args [a]) = Some (r, args [a]).
Proof.
  intros E. unfold take_plus_one. rewrite rev_app_distr. cbn [map rev app spanw is_dashes snd].
  replace (existsb is_argument (rev r)) with true; [rewrite rev_involutive; reflexivity|].
  symmetry. apply existsb_exists in E as (x & I & E). apply existsb_exists. exists x. split; [apply -> in_rev; exact I|exact E].
Qed.
Lemma plus_one_arguments hs out : hs <> [] -> take_plus_one (args hs ++ args [out]) = Some (args hs, args [out]).
Proof. intros N. apply plus_one_last. destruct hs; [congruence|reflexivity]. Qed.
Lemma ordinary_not_dashes w : Ordinary w -> eqs w [dash; dash] = false.
Proof. intros H. apply (ordinary_kind help_options w H). Qed.
Lemma values_ordinary ws : Forall Ordinary ws -> values (args ws) = ws.
Proof.
  unfold values. rewrite map_fst_arguments. induction 1 as [|w ws Hw _ IH]; [reflexivity|]. cbn [remove_dashes].
  rewrite (ordinary_not_dashes w Hw), IH. reflexivity.
Qed.

Lemma plus_one_dashes hs out : hs <> [] ->
  take_plus_one ((([dash; dash], Dashes) :: args hs) ++ args [out]) = Some (([dash; dash], Dashes) :: args hs, args [out]).
Proof. intros N. apply plus_one_last. destruct hs; [congruence|reflexivity]. Qed.
Lemma loop_app a : forall b s, options_loop (a ++ b) s = match options_loop a s with inl s' => options_loop b s' | inr c => inr c end.
Proof.
  induction a as [|[w run] a IH]; intros b s; [reflexivity|]. cbn [app options_loop].
  destruct (snd w) as [| |[|] n [[e v]|]|]; try apply IH; try reflexivity. destruct (spanw is_argument run). apply IH.
Qed.
(** A run that may follow the values of an occurrence. *)
Definition Follows (o : occurrence) (run : list word) : Prop :=
  match o, run with Spaced _ _, w :: _ => is_argument w = false | _, _ => True end.
Lemma loop_snoc os o run s : left_ s = [Plus; One] -> Follows o run ->
  options_loop (map marked os ++ [(fst (marked o), snd (marked o) ++ run)]) s = inl (place run (set_paths (Some (given o)) s)).
Proof.
  intros L R. rewrite loop_app, loop_occurrences by (right; exact L).
  destruct o as [n vs|n v]; cbn [marked options_loop fst snd]; [|reflexivity].
  rewrite (span_arguments vs run); [rewrite map_fst_arguments; reflexivity|]. destruct run; [exact I|exact R].
Qed.
Notation last_ os := (last os (Attached [] [])).
Lemma segments_rest os t r ss : segments t = (r, ss) ->
  segments (flat_map (fun o => flatten (marked o)) os ++ t) =
  match os with
  | [] => (r, ss)
  | _ => ([], map marked (removelast os) ++ (fst (marked (last_ os)), snd (marked (last_ os)) ++ r) :: ss)
  end.
Proof.
  intros B. induction os as [|o os IH]; [exact B|]. cbn [flat_map]. rewrite <- app_assoc. unfold flatten at 1.
  assert (S : forall r ss, segments (flat_map (fun o => flatten (marked o)) os ++ t) = (r, ss) ->
    segments ((fst (marked o) :: snd (marked o)) ++ flat_map (fun o => flatten (marked o)) os ++ t) = ([], (fst (marked o), snd (marked o) ++ r) :: ss)).
  { intros r' ss' E. destruct o as [n vs|n v]; cbn [marked fst snd app segments].
    - rewrite segments_arguments, E. reflexivity.
    - rewrite E. reflexivity. }
  destruct os as [|o' os]; [rewrite (S _ _ IH); reflexivity|].
  rewrite (S _ _ IH), app_nil_r. destruct os; cbn [removelast last map app]; destruct (marked o); reflexivity.
Qed.
Lemma place_then_loop os run ss hs out : (os = [] \/ Follows (last_ os) run) ->
  (forall ps, place run {| left_ := [Plus; One]; got := []; paths := ps; extras := false |} =
              {| left_ := []; got := [hs; [out]]; paths := ps; extras := false |}) ->
  let start := {| left_ := [Plus; One]; got := []; paths := None; extras := false |} in
  match os with
  | [] => options_loop ss (place run start)
  | _ => options_loop (map marked (removelast os) ++ (fst (marked (last_ os)), snd (marked (last_ os)) ++ run) :: ss) (place [] start)
  end = options_loop ss {| left_ := []; got := [hs; [out]]; paths := chosen os None; extras := false |}.
Proof.
  intros F P start. unfold start. destruct os as [|o os]; [rewrite P; reflexivity|]. destruct F as [F|F]; [discriminate F|].
  rewrite place_nil by (right; reflexivity).
  change ((fst (marked (last_ (o :: os))), snd (marked (last_ (o :: os))) ++ run) :: ss) with
    ([(fst (marked (last_ (o :: os))), snd (marked (last_ (o :: os))) ++ run)] ++ ss).
  rewrite app_assoc, loop_app, loop_snoc by (exact F || reflexivity). unfold set_paths. cbn [left_ got paths extras].
  rewrite P. f_equal. f_equal. rewrite (chosen_last _ []). f_equal.
  rewrite (app_removelast_last (Attached [] []) (l := o :: os)) at 2 by discriminate.
  rewrite map_app. cbn [map]. rewrite last_last. reflexivity.
Qed.

Lemma ends_follow os run : (os = [] \/ exists os' n v, os = os' ++ [Attached n v]) -> os = [] \/ Follows (last_ os) run.
Proof. intros [->|(os' & n & v & ->)]; [left; reflexivity|right]. rewrite last_last. exact I. Qed.
Lemma chosen_app a b : chosen (a ++ b) None = chosen b (chosen a None).
Proof. unfold chosen. apply fold_left_app. Qed.
Lemma aggregate_line_lemma cwd os hs out os' : (os = [] \/ exists os0 n v, os = os0 ++ [Attached n v]) ->
  Forall Proper os -> hs <> [] -> Forall Ordinary hs -> Ordinary out -> Forall Proper os' ->
  parse_args cwd (lit "aggregate" :: flat_map spelt os ++ hs ++ out :: flat_map spelt os') =
  inl (Aggregate hs out (last (map given (os ++ os')) [cwd])).
Proof.
  intros En Hp N Hh Ho Hp'. rewrite parse_aggregate. unfold run_aggregate, sub_parse.
  change (out :: flat_map spelt os') with ([out] ++ flat_map spelt os'). rewrite (app_assoc hs).
  assert (F : Forall Ordinary (hs ++ [out])) by (apply Forall_app; auto).
  pose proof (classify_occurrences os' [] [] Hp' eq_refl) as E. rewrite !app_nil_r in E.
  rewrite (classify_occurrences os _ _ Hp (classify_ordinary _ _ _ _ F E)).
  assert (S : segments (args (hs ++ [out]) ++ flat_map (fun o => flatten (marked o)) os') = (args (hs ++ [out]), map marked os')).
  { rewrite segments_arguments, segments_occurrences, app_nil_r. reflexivity. }
  rewrite (segments_rest _ _ _ _ S).
  pose proof (place_then_loop os (args (hs ++ [out])) (map marked os') hs out (ends_follow os _ En)) as L.
  assert (P : forall ps, place (args (hs ++ [out])) {| left_ := [Plus; One]; got := []; paths := ps; extras := false |} =
    {| left_ := []; got := [hs; [out]]; paths := ps; extras := false |}).
  { intros ps. unfold place. cbn [left_ got paths extras positionals]. rewrite map_app, (plus_one_arguments hs out N).
    assert (V : map values [args hs; args [out]] = [hs; [out]]).
    { change (map values [args hs; args [out]]) with [values (args hs); values (args [out])].
      rewrite !values_ordinary by auto. reflexivity. }
    rewrite V. reflexivity. }
  specialize (L P). cbn zeta in L. rewrite (loop_occurrences os' {| left_ := []; got := [hs; [out]]; paths := chosen os None; extras := false |}) in L by (left; reflexivity).
  unfold set_paths in L. cbn [left_ got paths extras] in L.
  rewrite <- chosen_app in L.
  replace (let (r, ss) := match os with
      | [] => (args (hs ++ [out]), map marked os')
      | _ :: _ => ([], map marked (removelast os) ++ (fst (marked (last_ os)), snd (marked (last_ os)) ++ args (hs ++ [out])) :: map marked os')
      end in
    match options_loop ss (place r {| left_ := [Plus; One]; got := []; paths := None; extras := false |}) with
    | inl s => match left_ s with [] => inl s | _ :: _ => inr 2%Z end
    | inr c => inr c
    end) with (@inl state Z {| left_ := []; got := [hs; [out]]; paths := chosen (os ++ os') None; extras := false |}).
  2:{ destruct os; rewrite L; reflexivity. }
  cbn [left_ got paths extras orb]. rewrite chosen_default. reflexivity.
Qed.
Lemma segments_none t : (forall w, In w t -> is_option w = false) -> segments t = (t, []).
Proof.
  intros H. induction t as [|w t IH]; [reflexivity|]. cbn [segments]. rewrite IH by (intros; apply H; right; assumption).
  rewrite H by (left; reflexivity). reflexivity.
Qed.
Lemma dashes_line_lemma cwd os hs out : Forall Proper os -> hs <> [] -> out <> lit "--" ->
  parse_args cwd (lit "aggregate" :: flat_map spelt os ++ lit "--" :: hs ++ [out]) = inl (Aggregate hs out (last (map given os) [cwd])).
Proof.
  intros Hp N Ho. rewrite parse_aggregate.
  set (t := (([dash; dash], Dashes) :: args hs) ++ args [out]).
  assert (E : classify aggregate_options (lit "--" :: hs ++ [out]) = Some t).
  { cbn [classify]. change (eqs (lit "--") [dash; dash]) with true. cbn iota. rewrite map_app. reflexivity. }
  assert (S : segments t = (t, [])).
  { apply segments_none. intros w W. unfold t in W. apply in_app_or in W as [[<-|W]|[<-|[]]]; [reflexivity| |reflexivity].
    apply in_map_iff in W as (x & <- & _). reflexivity. }
  assert (P : forall ps, place t {| left_ := [Plus; One]; got := []; paths := ps; extras := false |} =
    {| left_ := []; got := [hs; [out]]; paths := ps; extras := false |}).
  { intros ps. unfold place. cbn [left_ got paths extras positionals]. unfold t. rewrite (plus_one_dashes hs out N).
    cbn [map app orb]. f_equal. f_equal; [|f_equal].
    - unfold values. cbn [map fst]. rewrite map_fst_arguments. reflexivity.
    - unfold values. cbn [map fst remove_dashes]. apply eqs_neq in Ho. change (lit "--") with [dash; dash] in Ho. rewrite Ho. reflexivity. }
  pose proof (place_then_loop os t [] hs out) as L.
  assert (F : os = [] \/ Follows (last_ os) t).
  { right. unfold t. destruct (last_ os); reflexivity || exact I. }
  specialize (L F P). cbn zeta in L. cbn [options_loop] in L.
  assert (X : sub_parse aggregate_options [Plus; One] (flat_map spelt os ++ lit "--" :: hs ++ [out]) =
    inl {| left_ := []; got := [hs; [out]]; paths := chosen os None; extras := false |}).
  { unfold sub_parse. rewrite (classify_occurrences os _ _ Hp E), (segments_rest _ _ _ _ S).
    destruct os; exact (f_equal (fun x : state + Z => match x with
        | inl s => match left_ s with [] => inl s | _ :: _ => inr 2%Z end | inr c => inr c end) L). }
  unfold run_aggregate. rewrite X. cbn [left_ got paths extras orb]. rewrite chosen_default. reflexivity.
Qed.

Lemma split_line_lemma cwd f d : Ordinary f -> Ordinary d -> parse_args cwd [lit "split"; f; d] = inl (Split f d).
Proof.
  intros F D. rewrite parse_split. unfold run_split, sub_parse.
  pose proof (classify_ordinary help_options [f; d] [] [] (Forall_cons _ F (Forall_cons _ D (Forall_nil _))) eq_refl) as E.
  cbn [app] in E. rewrite E. cbn. unfold values. cbn. rewrite (ordinary_not_dashes f F), (ordinary_not_dashes d D). reflexivity.
Qed.
Lemma split_dashes_lemma cwd f d : d <> lit "--" -> parse_args cwd [lit "split"; lit "--"; f; d] = inl (Split f d).
Proof.
  intros D. rewrite parse_split. unfold run_split, sub_parse. apply eqs_neq in D. change (lit "--") with [dash; dash] in D.
  cbn. unfold values. cbn. rewrite D. reflexivity.
Qed.

Lemma count_aggregate_lemma cwd ws : Forall Ordinary ws -> (length ws < 2)%nat -> parse_args cwd (lit "aggregate" :: ws) = inr 2%Z.
Proof.
  intros H L. rewrite parse_aggregate. unfold run_aggregate, sub_parse.
  pose proof (classify_ordinary aggregate_options ws [] [] H eq_refl) as E. rewrite !app_nil_r in E. rewrite E.
  destruct ws as [|a [|b ws]]; [reflexivity|reflexivity|cbn in L; lia].
Qed.
Lemma count_split_lemma cwd ws : Forall Ordinary ws -> length ws <> 2%nat -> parse_args cwd (lit "split" :: ws) = inr 2%Z.
Proof.
  intros H L. rewrite parse_split. unfold run_split, sub_parse.
  pose proof (classify_ordinary help_options ws [] [] H eq_refl) as E. rewrite !app_nil_r in E. rewrite E.
  destruct ws as [|a [|b [|c ws]]]; [reflexivity|reflexivity|cbn in L; lia|].
  pose proof (segments_arguments (a :: b :: c :: ws) []) as S. rewrite !app_nil_r in S. rewrite S. cbn [segments app]. rewrite app_nil_r.
  reflexivity.
Qed.
Lemma swallow_lemma cwd os : Forall Proper os -> parse_args cwd (lit "aggregate" :: flat_map spelt os) = inr 2%Z.
Proof.
  intros H. rewrite parse_aggregate. unfold run_aggregate, sub_parse.
  pose proof (classify_occurrences os [] [] H eq_refl) as E. rewrite !app_nil_r in E. rewrite E, segments_occurrences.
  rewrite place_nil by (right; reflexivity). rewrite loop_occurrences by (right; reflexivity). reflexivity.
Qed.

(** Every command line. *)
Lemma among_refl {A} (l : list A) : Among l l.
Proof. induction l; constructor; assumption. Qed.
Lemma among_skip {A} (a l m : list A) : Among l m -> Among l (a ++ m).
Proof. intros H. induction a; [exact H|]. cbn. constructor. assumption. Qed.
Lemma among_app {A} (a b c d : list A) : Among a b -> Among c d -> Among (a ++ c) (b ++ d).
Proof. intros H K. induction H; cbn [app]; [apply among_skip, K|constructor; assumption|constructor; assumption]. Qed.
Lemma among_trans {A} (a b c : list A) : Among a b -> Among b c -> Among a c.
Proof.
  intros H K. revert a H. induction K as [l|x l m _ IH|x l m _ IH]; intros a H.
  - inversion H. constructor.
  - inversion H; subst; [constructor|constructor; apply IH; assumption|constructor; apply IH; assumption].
  - constructor. apply IH, H.
Qed.
Lemma among_remove l : Among (remove_dashes l) l.
Proof.
  induction l as [|s l IH]; [constructor|]. cbn [remove_dashes]. destruct (eqs s [dash; dash]); constructor; [apply among_refl|exact IH].
Qed.
Lemma among_values g : Among (values g) (map fst g).
Proof. apply among_remove. Qed.
Lemma spanw_app f l : fst (spanw f l) ++ snd (spanw f l) = l.
Proof. induction l as [|w l IH]; [reflexivity|]. cbn [spanw]. destruct (f w); [|reflexivity]. destruct (spanw f l). cbn in *. f_equal. exact IH. Qed.
Lemma take_one_app run g r : take_one run = Some (g, r) -> g ++ r = run.
Proof.
  unfold take_one. pose proof (spanw_app is_dashes run) as E. destruct (spanw is_dashes run) as [d q]. cbn in E. subst run.
  destruct q as [|a q]; [discriminate|]. pose proof (spanw_app is_dashes q) as E. destruct (spanw is_dashes q) as [d' q']. cbn in E. subst q.
  intros [= <- <-]. rewrite <- app_assoc. reflexivity.
Qed.
Lemma take_plus_one_app run g1 g2 : take_plus_one run = Some (g1, g2) -> g1 ++ g2 = run /\ existsb is_argument g1 = true.
Proof.
  unfold take_plus_one. pose proof (spanw_app is_dashes (rev run)) as E. destruct (spanw is_dashes (rev run)) as [d q]. cbn in E.
  destruct q as [|a q]; [discriminate|]. destruct (existsb is_argument q) eqn:X; [|discriminate]. intros [= <- <-].
  split.
  - rewrite <- (rev_involutive run), <- E, rev_app_distr. cbn [rev]. rewrite <- app_assoc. reflexivity.
  - apply existsb_exists in X as (x & I & X). apply existsb_exists. exists x. split; [apply -> in_rev; exact I|exact X].
Qed.
Lemma positionals_app p run gs l ex : positionals p run = (gs, l, ex) -> concat gs ++ ex = run.
Proof.
  assert (Z : forall q : list spec, (([] : list (list word)), q, run) = (gs, l, ex) -> concat gs ++ ex = run) by (intros q [= <- _ <-]; reflexivity).
  unfold positionals. destruct p as [|[|] [|[|] [|? ?]]]; try apply Z.
  - destruct (take_plus_one run) as [[g1 g2]|] eqn:E.
    + intros [= <- _ <-]. cbn. rewrite !app_nil_r. apply (take_plus_one_app run), E.
    + unfold take_plus. destruct (existsb is_argument run); [|apply Z]. intros [= <- _ <-]. cbn. rewrite !app_nil_r. reflexivity.
  - destruct (take_one run) as [[g r]|] eqn:E; [|apply Z]. intros [= <- _ <-]. cbn. rewrite app_nil_r. apply (take_one_app run), E.
  - destruct (take_one run) as [[g r]|] eqn:E; [|apply Z]. destruct (take_one r) as [[g2 r']|] eqn:E2; intros [= <- _ <-]; cbn; rewrite app_nil_r.
    + rewrite <- app_assoc, (take_one_app _ _ _ E2). apply (take_one_app run), E.
    + apply (take_one_app run), E.
Qed.
Lemma concat_values gs : Among (concat (map values gs)) (map fst (concat gs)).
Proof. induction gs as [|g gs IH]; [constructor|]. cbn. rewrite map_app. apply among_app; [apply among_values|exact IH]. Qed.
Lemma place_among run s : exists more, got (place run s) = got s ++ more /\ paths (place run s) = paths s /\ Among (concat more) (map fst run).
Proof.
  unfold place. destruct (positionals (left_ s) run) as [[gs l] ex] eqn:E. exists (map values gs). cbn. repeat split.
  rewrite <- (positionals_app _ _ _ _ _ E), map_app, <- (app_nil_r (concat _)). apply among_app; [apply concat_values|constructor].
Qed.
Definition line_of (ss : list (word * list word)) : list str := flat_map (fun p => fst (fst p) :: map fst (snd p)) ss.
Lemma segments_line l : forall r ss, segments l = (r, ss) -> map fst l = map fst r ++ line_of ss.
Proof.
  induction l as [|w l IH]; intros r ss; cbn [segments]; [intros [= <- <-]; reflexivity|].
  destruct (segments l) as [r' ss'] eqn:E. destruct (is_option w); intros [= <- <-]; cbn; rewrite (IH _ _ eq_refl); reflexivity.
Qed.
Lemma loop_among ss : forall s s', options_loop ss s = inl s' -> exists more, got s' = got s ++ more /\ Among (concat more) (line_of ss).
Proof.
  assert (Step : forall w run used r ss s1 s2 s', used ++ r = run -> got s2 = got s1 ->
    (forall s s', options_loop ss s = inl s' -> exists more, got s' = got s ++ more /\ Among (concat more) (line_of ss)) ->
    options_loop ss (place r s2) = inl s' -> exists more, got s' = got s1 ++ more /\ Among (concat more) (line_of ((w, run) :: ss))).
  { intros w run used r ss' s1 s2 s' <- G IH E. destruct (IH _ _ E) as (m2 & G2 & A2). destruct (place_among r s2) as (m1 & G1 & _ & A1).
    exists (m1 ++ m2). split; [rewrite G2, G1, G, app_assoc; reflexivity|]. rewrite concat_app. cbn [line_of flat_map fst snd].
    change (fst w :: map fst (used ++ r)) with ([fst w] ++ map fst (used ++ r)). rewrite map_app, <- !app_assoc. apply among_skip, among_skip.
    apply among_app; assumption. }
  induction ss as [|[w run] ss IH]; intros s s' E.
  - injection E as <-. exists []. rewrite app_nil_r. split; [reflexivity|constructor].
  - cbn [options_loop] in E. destruct (snd w) as [| |[|] n [[e v]|]|]; try discriminate E;
      try (eapply (Step w run [] run ss s); [reflexivity| |exact IH|exact E]; reflexivity).
    pose proof (spanw_app is_argument run) as S. destruct (spanw is_argument run) as [vs r]. eapply (Step w run vs r ss s); [exact S| |exact IH|exact E]; reflexivity.
Qed.

(** Where the values of the option come from. *)
Lemma tuples_from s n b v : In (Known IncludePaths n (Some (b, v))) (option_tuples aggregate_options s) -> exists p, s = p ++ lit "=" ++ v.
Proof.
  unfold option_tuples. destruct (startswith s [dash; dash]).
  - destruct (split1 equals s) as [p [v'|]] eqn:S.
    + apply split1_some in S as [-> _]. intros H. apply in_flat_map in H as (o & _ & H). destruct (startswith (fst o) p); [|destruct H].
      destruct H as [H|[]]. injection H as _ _ _ <-. exists p. reflexivity.
    + intros H. apply in_flat_map in H as (o & _ & H). destruct (startswith (fst o) p); [|destruct H]. destruct H as [H|[]]. discriminate H.
  - intros H. apply in_flat_map in H as (o & I & H). destruct (eqs (fst o) (firstn 2 s)) eqn:E.
    + destruct H as [H|[]]. injection H as H _ _ _. apply eqs_eq in E.
      assert (L : (length (fst o) <= 2)%nat) by (rewrite E; rewrite firstn_length; lia).
      cbn [aggregate_options help_options app In] in I. repeat (destruct I as [<-|I]; [cbn in L, H; try discriminate H; lia|]). destruct I.
    + destruct (startswith (fst o) s); [|destruct H]. destruct H as [H|[]]. discriminate H.
Qed.
Lemma explicit_from s n b v : parse_optional aggregate_options s = Some (Known IncludePaths n (Some (b, v))) -> exists p, s = p ++ lit "=" ++ v.
Proof.
  destruct s as [|c r]; [discriminate|]. cbn [parse_optional]. destruct (negb (Ascii.eqb c dash)); [discriminate|].
  destruct (get (c :: r) aggregate_options); [discriminate|]. destruct r as [|c2 r]; [discriminate|].
  set (s := c :: c2 :: r).
  destruct (match split1 equals s with
            | (name, Some v0) => match get name aggregate_options with Some a => Some (Known a name (Some (true, v0))) | None => None end
            | (_, None) => None
            end) as [k|] eqn:Q.
  - intros [= ->]. destruct (split1 equals s) as [nm [v'|]] eqn:S; [|discriminate].
    destruct (get nm aggregate_options); [|discriminate]. injection Q as _ _ _ ->. apply split1_some in S as [S _]. exists nm. exact S.
  - pose proof (tuples_from s n b v) as T. destruct (option_tuples aggregate_options s) as [|k [|k2 ks]].
    + destruct (ModelArgparse.negative_number s); [discriminate|]. destruct (existsb _ _); discriminate.
    + intros [= ->]. apply T. left. reflexivity.
    + discriminate.
Qed.
Lemma classify_kinds o l : forall r, classify o l = Some r ->
  forall w k, In (w, k) r -> k = Argument \/ k = Dashes \/ parse_optional o w = Some k.
Proof.
  induction l as [|s l IH]; intros r; cbn [classify]; [intros [= <-] ? ? []|]. destruct (eqs s [dash; dash]).
  - intros [= <-] w k [H|H]; [injection H as _ <-; tauto|]. apply in_map_iff in H as (x & H & _). injection H as _ <-. tauto.
  - destruct (parse_optional o s) as [k0|] eqn:P; [|discriminate]. destruct (classify o l) as [r'|]; [|discriminate].
    intros [= <-] w k [H|H]; [injection H as <- <-; tauto|]. exact (IH r' eq_refl w k H).
Qed.
Lemma segments_in l : forall r ss, segments l = (r, ss) -> forall w, In w (map fst ss) -> In w l.
Proof.
  induction l as [|w l IH]; intros r ss; cbn [segments]; [intros [= <- <-] ? []|].
  destruct (segments l) as [r' ss'] eqn:E. destruct (is_option w); intros [= <- <-] x H.
  - destruct H as [<-|H]; [left; reflexivity|right; exact (IH _ _ eq_refl x H)].
  - right. exact (IH _ _ eq_refl x H).
Qed.
Lemma loop_paths argv ss : (forall p, In p ss -> In (fst (fst p)) argv /\ Forall (fun w => In (fst w) argv) (snd p) /\
    (snd (fst p) = Argument \/ snd (fst p) = Dashes \/ parse_optional aggregate_options (fst (fst p)) = Some (snd (fst p)))) ->
  forall s s', options_loop ss s = inl s' ->
  (forall ps, paths s = Some ps -> Forall (OnLine argv) ps) -> forall ps, paths s' = Some ps -> Forall (OnLine argv) ps.
Proof.
  induction ss as [|[w run] ss IH]; intros H s s' E I; [injection E as <-; exact I|]. cbn [options_loop] in E.
  destruct (H (w, run) (or_introl eq_refl)) as (Hw & Hr & Hk). cbn [fst snd] in Hw, Hr, Hk.
  assert (H' : forall p, In p ss -> In (fst (fst p)) argv /\ Forall (fun w => In (fst w) argv) (snd p) /\
    (snd (fst p) = Argument \/ snd (fst p) = Dashes \/ parse_optional aggregate_options (fst (fst p)) = Some (snd (fst p)))) by (intros; apply H; right; assumption).
  destruct (snd w) as [| |[|] n [[e v]|]|]; try discriminate E.
  - refine (IH H' _ _ E _). destruct (place_among run (with_extra s)) as (_ & _ & -> & _). exact I.
  - refine (IH H' _ _ E _). destruct (place_among run (with_extra s)) as (_ & _ & -> & _). exact I.
  - refine (IH H' _ _ E _). destruct (place_among run (with_paths s [v])) as (_ & _ & -> & _). intros ps [= <-].
    constructor; [|constructor]. right. destruct Hk as [Hk|[Hk|Hk]]; try discriminate Hk. apply explicit_from in Hk as [p Hk].
    exists p. rewrite <- Hk. exact Hw.
  - pose proof (spanw_app is_argument run) as S. destruct (spanw is_argument run) as [vs r]. cbn in S. subst run.
    refine (IH H' _ _ E _). destruct (place_among r (with_paths s (map fst vs))) as (_ & _ & -> & _). intros ps [= <-].
    apply Forall_app in Hr as [Hr _]. apply Forall_map. refine (Forall_impl _ _ Hr). intros a Ha. left. exact Ha.
  - refine (IH H' _ _ E _). destruct (place_among run (with_extra s)) as (_ & _ & -> & _). exact I.
Qed.

(** The headers are never the empty list: of the words "--" only the first is removed, and it is the one marked. *)
Fixpoint Good (l : list word) : Prop :=
  match l with
  | [] => True
  | w :: r => match snd w with Dashes => fst w = [dash; dash] /\ Forall (fun x => is_argument x = true) r
              | _ => fst w <> [dash; dash] /\ Good r end
  end.
Lemma good_classify o l : forall r, classify o l = Some r -> Good r.
Proof.
  induction l as [|s l IH]; intros r; cbn [classify]; [intros [= <-]; exact I|]. destruct (eqs s [dash; dash]) eqn:E.
  - intros [= <-]. cbn. apply eqs_eq in E. split; [exact E|]. apply Forall_map. apply Forall_forall. reflexivity.
  - destruct (parse_optional o s) as [k0|] eqn:P; [|discriminate]. destruct (classify o l) as [r'|]; [|discriminate].
    intros [= <-]. apply eqs_neq in E. cbn [Good fst snd]. specialize (IH _ eq_refl).
    destruct k0; try (split; assumption). exfalso. revert P. clear.
    destruct s as [|c r]; [discriminate|]. cbn [parse_optional]. destruct (negb (Ascii.eqb c dash)); [discriminate|].
    destruct (get (c :: r) o); [discriminate|]. destruct r as [|c2 r]; [discriminate|]. set (s := c :: c2 :: r).
    destruct (split1 equals s) as [nm [v'|]] eqn:S; [destruct (get nm o); [discriminate|]|].
    all: assert (T : ~ In Dashes (option_tuples o s)) by
      (unfold option_tuples; destruct (startswith s [dash; dash]); [rewrite S|]; intros T; apply in_flat_map in T as (x & _ & T);
       repeat match type of T with context [if ?b then _ else _] => destruct b end; cbn in T; intuition discriminate).
    all: destruct (option_tuples o s) as [|k [|k2 ks]]; [|intros [= ->]; apply T; left; reflexivity|discriminate].
    all: destruct (ModelArgparse.negative_number s); [discriminate|]; destruct (existsb _ _); discriminate.
Qed.
Lemma arguments_segments l : Forall (fun x => is_argument x = true) l -> segments l = (l, []).
Proof.
  intros H. apply segments_none. intros w I. apply (proj1 (Forall_forall _ _) H) in I. destruct w as [x [| | |]]; cbn in *; congruence.
Qed.
Lemma good_segments l : Good l -> forall r ss, segments l = (r, ss) -> Good r /\ Forall (fun p => Good (snd p)) ss.
Proof.
  induction l as [|[x k] l IH]; intros G r ss; cbn [segments]; [intros [= <- <-]; split; constructor|].
  cbn [Good fst snd] in G. destruct k; cbn [is_option snd].
  - destruct (segments l) as [r' ss']. intros [= <- <-]. destruct (IH (proj2 G) _ _ eq_refl) as [A B]. split; [split; [apply G|exact A]|exact B].
  - rewrite (arguments_segments l (proj2 G)). intros [= <- <-]. split; [exact G|constructor].
  - destruct (segments l) as [r' ss']. intros [= <- <-]. destruct (IH (proj2 G) _ _ eq_refl) as [A B]. split; [exact I|constructor; assumption].
  - destruct (segments l) as [r' ss']. intros [= <- <-]. destruct (IH (proj2 G) _ _ eq_refl) as [A B]. split; [exact I|constructor; assumption].
Qed.
Lemma good_prefix a : forall b, Good (a ++ b) -> Good a.
Proof.
  induction a as [|[x k] a IH]; intros b; [intros; exact I|]. cbn [app Good fst snd]. destruct k; intros [A B]; (split; [exact A|]);
    try (apply (IH b B)). apply Forall_app in B. tauto.
Qed.
Lemma good_strip l : Good l -> Good (snd (spanw is_argument l)).
Proof.
  induction l as [|[x k] l IH]; intros G; [exact I|]. cbn [spanw is_argument snd]. destruct k; try exact G.
  destruct (spanw is_argument l). apply IH, G.
Qed.
Lemma good_values g : Good g -> existsb is_argument g = true -> values g <> [].
Proof.
  induction g as [|[x k] g IH]; intros G E; [discriminate|]. unfold values. cbn [map fst remove_dashes]. cbn [Good fst snd] in G.
  destruct (eqs x [dash; dash]) eqn:X.
  - apply eqs_eq in X. destruct k; try (destruct G as [G _]; exfalso; apply G, X). cbn in E. destruct g; [discriminate E|discriminate].
  - discriminate.
Qed.
Definition Sound (s : state) : Prop :=
  left_ s = [Plus; One] /\ got s = [] \/ (left_ s = [One] \/ left_ s = []) /\ exists h g, got s = h :: g /\ h <> [].
Lemma place_sound run s : Good run -> Sound s -> Sound (place run s).
Proof.
  intros G [[L E]|[[L|L] (h & g & E & N)]]; unfold place; rewrite L; cbn [positionals].
  - destruct (take_plus_one run) as [[g1 g2]|] eqn:T.
    + apply take_plus_one_app in T as [T X]. right. split; [right; reflexivity|]. cbn. rewrite E. exists (values g1), [values g2]. split; [reflexivity|].
      apply good_values; [|exact X]. rewrite <- T in G. exact (good_prefix _ _ G).
    + unfold take_plus. destruct (existsb is_argument run) eqn:X.
      * right. split; [left; reflexivity|]. cbn. rewrite E. exists (values run), []. split; [reflexivity|]. apply good_values; assumption.
      * left. cbn. rewrite E. split; reflexivity.
  - right. destruct (take_one run) as [[g1 r]|]; cbn; rewrite E; (split; [tauto|]); eexists _, _; (split; [reflexivity|exact N]).
  - right. cbn. rewrite E. split; [tauto|]. eexists _, _. split; [reflexivity|exact N].
Qed.
Lemma loop_sound ss : Forall (fun p => Good (snd p)) ss -> forall s s', options_loop ss s = inl s' -> Sound s -> Sound s'.
Proof.
  induction 1 as [|[w run] ss G _ IH]; intros s s' E S; [injection E as <-; exact S|]. cbn [options_loop] in E. cbn [snd] in G.
  destruct (snd w) as [| |[|] n [[e v]|]|]; try discriminate E; try (refine (IH _ _ E _); apply place_sound; [exact G|exact S]).
  pose proof (good_strip run G) as G'. destruct (spanw is_argument run) as [vs r]. refine (IH _ _ E _). apply place_sound; [exact G'|exact S].
Qed.

(** The statuses. *)
Lemma cluster_status e : forall sep, help_cluster sep e = 0%Z \/ help_cluster sep e = 2%Z.
Proof.
  assert (H : forall n e, (length e <= n)%nat -> forall sep, help_cluster sep e = 0%Z \/ help_cluster sep e = 2%Z).
  { clear. induction n as [|n IH]; intros e L sep; (destruct e as [|c r]; [right; reflexivity|]); [cbn in L; lia|].
    cbn [help_cluster]. destruct (sep || Ascii.eqb c dash); [right; reflexivity|]. destruct (Ascii.eqb c "h"); [|left; reflexivity].
    destruct r as [|c' r]; [left; reflexivity|]. destruct (Ascii.eqb c' equals).
    - apply IH. cbn in L. lia.
    - apply (IH (c' :: r)). cbn in *. lia. }
  exact (H (length e) e (Nat.le_refl _)).
Qed.
Lemma help_status_values n e : help_status n e = 0%Z \/ help_status n e = 2%Z.
Proof.
  destruct e as [[sep e]|]; [|left; reflexivity]. cbn. destruct (startswith n [dash; dash]); [right; reflexivity|]. apply cluster_status.
Qed.
Lemma prefix_help p : Prefix p (lit "--help") -> (2 < length p)%nat -> Prefix (lit "--h") p.
Proof.
  intros [r R] L. destruct p as [|a [|b [|c p]]]; cbn in L; try lia. cbn in R. injection R as -> -> -> _. exists p. reflexivity.
Qed.
Lemma asked_help o w n e : o = help_options \/ o = aggregate_options -> eqs w [dash; dash] = false ->
  parse_optional o w = Some (Known Help n e) -> help_status n e = 0%Z -> AsksHelp w.
Proof.
  intros O ND. assert (Names : forall m, In (m, Help) o -> m = lit "-h" \/ m = lit "--help").
  { intros m. destruct O as [->| ->]; cbn; intuition congruence. }
  assert (Gets : forall m, get m o = Some Help -> m = lit "-h" \/ m = lit "--help").
  { intros m M. apply Names. clear -M. induction o as [|[k v] o IH]; [discriminate|]. cbn in M. destruct (eqs m k) eqn:E.
    - injection M as ->. apply eqs_eq in E. subst. left. reflexivity.
    - right. apply IH, M. }
  destruct w as [|c r]; [discriminate|]. cbn [parse_optional]. destruct (negb (Ascii.eqb c dash)) eqn:Ec; [discriminate|].
  destruct (get (c :: r) o) as [a|] eqn:G.
  { intros [= -> <- <-] _. destruct (Gets _ G) as [->| ->]; [left; exists []|right; exists (lit "elp")]; reflexivity. }
  destruct r as [|c2 r]; [discriminate|]. set (s := c :: c2 :: r) in *.
  assert (T : forall n e, In (Known Help n e) (option_tuples o s) -> help_status n e = 0%Z -> AsksHelp s).
  { clear n e. intros n e. unfold option_tuples. destruct (startswith s [dash; dash]) eqn:P.
    - destruct (split1 equals s) as [p v] eqn:S. intros H. apply in_flat_map in H as ([m a] & I & H). cbn [fst snd] in H.
      destruct (startswith m p) eqn:M; [|destruct H]. destruct H as [H|[]]. injection H as -> -> <-.
      assert (F : n = lit "--help").
      { destruct (Names n I) as [->| ->]; [|reflexivity]. exfalso.
        apply prefix_spec in P as [q Q]. rewrite Q in S. unfold split1 in S. cbn [app span] in S. change (Ascii.eqb dash equals) with false in S. cbn [negb] in S.
        destruct (span (fun x => negb (Ascii.eqb x equals)) q) as [p' [|v0 v']]; injection S as <- _; discriminate M. }
      subst n. destruct v as [v|]; [intros X; discriminate X|]. intros _. apply split1_none in S as [-> _]. apply prefix_spec in M.
      right. apply prefix_help; [exact M|]. apply eqs_neq in ND. apply prefix_spec in P as [q Q].
      destruct q as [|q1 q]; [exfalso; apply ND; rewrite Q; reflexivity|]. rewrite Q. cbn. lia.
    - intros H X. apply in_flat_map in H as ([m a] & I & H). cbn [fst snd] in H.
      destruct (eqs m (firstn 2 s)) eqn:F.
      + destruct H as [H|[]]. injection H as -> -> <-. apply eqs_eq in F. destruct (Names n I) as [->| ->]; [|discriminate F].
        left. exists r. unfold s. change (firstn 2 s) with [c; c2] in F. injection F as -> ->. reflexivity.
      + destruct (startswith m s) eqn:M; [|destruct H]. destruct H as [H|[]]. injection H as -> -> <-. apply prefix_spec in M as [q Q].
        destruct (Names n I) as [->| ->].
        * unfold s in Q. injection Q as Q1 Q2 _. left. exists r. unfold s. rewrite <- Q1, <- Q2. reflexivity.
        * exfalso. unfold s in Q. injection Q as Q1 Q2 _. apply prefix_false in P. apply P. exists r. unfold s. rewrite <- Q1, <- Q2. reflexivity. }
  destruct (match split1 equals s with
            | (name, Some v0) => match get name o with Some a => Some (Known a name (Some (true, v0))) | None => None end
            | (_, None) => None
            end) as [k|] eqn:Q.
  - intros [= ->] X. destruct (split1 equals s) as [nm [v'|]] eqn:S; [|discriminate]. destruct (get nm o) as [a|] eqn:G'; [|discriminate].
    injection Q as -> -> <-. apply split1_some in S as [S _]. destruct (Gets _ G') as [->| ->].
    + left. exists (equals :: v'). exact S.
    + discriminate X.
  - destruct (option_tuples o s) as [|k [|k2 ks]].
    + destruct (ModelArgparse.negative_number s); [discriminate|]. destruct (existsb _ _); discriminate.
    + intros [= ->] X. apply (T n e); [left; reflexivity|exact X].
    + discriminate.
Qed.

Lemma loop_status ss : forall s c, options_loop ss s = inr c -> exists p n e, In p ss /\ snd (fst p) = Known Help n e /\ c = help_status n e.
Proof.
  induction ss as [|[w run] ss IH]; intros s c E; [discriminate|]. cbn [options_loop] in E.
  destruct (snd w) as [| |[|] n e|] eqn:K.
  3: { injection E as <-. exists (w, run), n, e. split; [left; reflexivity|]. split; [exact K|reflexivity]. }
  1,2,4: (apply IH in E as (p & n' & e' & I & X); exists p, n', e'; split; [right; exact I|exact X]).
  destruct e as [[e v]|]; [|destruct (spanw is_argument run)];
    (apply IH in E as (p & n' & e' & I & X); exists p, n', e'; split; [right; exact I|exact X]).
Qed.
Lemma known_ends o l r w n e : o = help_options \/ o = aggregate_options -> classify o l = Some r -> In (w, Known Help n e) r -> Ends l (help_status n e).
Proof.
  intros O C I. destruct (help_status_values n e) as [H|H]; [|rewrite H; right; left; reflexivity].
  right. right. split; [exact H|]. exists w. split.
  - rewrite <- (classify_words _ _ _ C). apply (in_map fst) in I. exact I.
  - destruct (classify_kinds _ _ _ C _ _ I) as [X|[X|X]]; try discriminate X. refine (asked_help o w n e O _ X H).
    pose proof (good_classify _ _ _ C) as G. clear -G I. induction r as [|[x k] r IH]; [destruct I|]. cbn [Good fst snd] in G. destruct I as [I|I].
    + injection I as -> ->. apply eqs_neq. apply G.
    + destruct k; try (apply IH; [exact I|apply G]). destruct G as [_ G]. apply (proj1 (Forall_forall _ _) G) in I. discriminate I.
Qed.
Lemma sub_outcome o p argv : o = help_options \/ o = aggregate_options ->
  match sub_parse o p argv with
  | inr c => Ends argv c
  | inl s => left_ s = [] /\ Among (concat (got s)) argv /\ (p = [Plus; One] -> Sound s) /\
             (o = aggregate_options -> forall ps, paths s = Some ps -> Forall (OnLine argv) ps)
  end.
Proof.
  intros O. unfold sub_parse. destruct (classify o argv) as [l|] eqn:C; [|right; left; reflexivity].
  destruct (segments l) as [r ss] eqn:S. set (s0 := {| left_ := p; got := []; paths := None; extras := false |}).
  destruct (options_loop ss (place r s0)) as [s|c] eqn:E.
  - destruct (left_ s) eqn:L; [|right; left; reflexivity]. rewrite <- (classify_words _ _ _ C). 
    split; [exact L|]. split; [|split].
    + destruct (loop_among _ _ _ E) as (m2 & G2 & A2). destruct (place_among r s0) as (m1 & G1 & _ & A1). rewrite G2, G1. cbn [got s0 app].
      rewrite concat_app, (segments_line _ _ _ S). apply among_app; assumption.
    + intros ->. destruct (good_segments l (good_classify _ _ _ C) _ _ S) as [Gr Gs]. apply (loop_sound ss Gs _ _ E).
      apply place_sound; [exact Gr|]. left. split; reflexivity.
    + intros ->. rewrite (classify_words _ _ _ C).
      refine (loop_paths argv ss _ _ _ E _).
      * intros q Q. pose proof (segments_line _ _ _ S) as W. rewrite (classify_words _ _ _ C) in W.
        split; [|split].
        -- rewrite W. apply in_or_app. right. unfold line_of. apply in_flat_map. exists q. split; [exact Q|left; reflexivity].
        -- apply Forall_forall. intros x X. rewrite W. apply in_or_app. right. unfold line_of. apply in_flat_map. exists q.
           split; [exact Q|]. right. apply in_map, X.
        -- assert (I : In (fst q) l) by (apply (segments_in _ _ _ S), in_map, Q).
           destruct (fst q) as [w k]. exact (classify_kinds _ _ _ C w k I).
      * destruct (place_among r s0) as (_ & _ & -> & _). intros ps X. discriminate X.
  - apply loop_status in E as (q & n & e & Q & K & ->). assert (I : In (fst q) l) by (apply (segments_in _ _ _ S), in_map, Q).
    destruct (fst q) as [w k]. cbn in K. subst k. exact (known_ends o argv l w n e O C I).
Qed.
Definition Fine (cwd : str) (argv : list str) (r : command + Z) : Prop :=
  match r with
  | inr c => Ends argv c
  | inl (Aggregate hs out ps) => hs <> [] /\ Among (lit "aggregate" :: hs ++ [out]) argv /\ (ps = [cwd] \/ Forall (OnLine argv) ps)
  | inl (Split f d) => Among [lit "split"; f; d] argv
  end.
Lemma ends_more a argv c : Ends argv c -> Ends (a ++ argv) c.
Proof.
  intros [H|[H|[H (w & I & X)]]]; [left|right; left|right; right]; try assumption. split; [exact H|]. exists w. split; [apply in_or_app; right; exact I|exact X].
Qed.
Lemma aggregate_fine cwd more l a : Fine cwd (a ++ lit "aggregate" :: l) (run_aggregate cwd more l).
Proof.
  unfold run_aggregate. pose proof (sub_outcome aggregate_options [Plus; One] l (or_intror eq_refl)) as H.
  destruct (sub_parse aggregate_options [Plus; One] l) as [s|c].
  - destruct H as (L & A & S & P). destruct (more || extras s); [right; left; reflexivity|].
    destruct (got s) as [|hs [|[|out [|]] [|]]] eqn:G; try (left; reflexivity). cbn [Fine]. split; [|split].
    + specialize (S eq_refl). destruct S as [[_ S]|[_ (h & g & S & N)]]; rewrite G in S; [discriminate S|]. injection S as -> _. exact N.
    + apply among_skip. constructor. cbn in A. exact A.
    + destruct (paths s) as [ps|] eqn:Q; [|left; reflexivity]. right. specialize (P eq_refl ps eq_refl).
      refine (Forall_impl _ _ P). intros v [V|[n V]]; [left|right; exists n]; apply in_or_app; right; right; exact V.
  - change (a ++ lit "aggregate" :: l) with (a ++ [lit "aggregate"] ++ l). rewrite app_assoc. apply ends_more, H.
Qed.
Lemma split_fine cwd more l a : Fine cwd (a ++ lit "split" :: l) (run_split more l).
Proof.
  unfold run_split. pose proof (sub_outcome help_options [One; One] l (or_introl eq_refl)) as H.
  destruct (sub_parse help_options [One; One] l) as [s|c].
  - destruct H as (L & A & _ & _). destruct (more || extras s); [right; left; reflexivity|].
    destruct (got s) as [|[|f [|]] [|[|d [|]] [|]]] eqn:G; try (left; reflexivity). cbn [Fine].
    apply among_skip. constructor. exact A.
  - change (a ++ lit "split" :: l) with (a ++ [lit "split"] ++ l). rewrite app_assoc. apply ends_more, H.
Qed.
Lemma get_listed {B} m (o : list (str * B)) a : get m o = Some a -> In (m, a) o.
Proof.
  induction o as [|[k v] o IH]; [discriminate|]. cbn. destruct (eqs m k) eqn:E.
  - intros [= ->]. apply eqs_eq in E. subst. left. reflexivity.
  - intros H. right. apply IH, H.
Qed.
Lemma known_listed o w a n e : parse_optional o w = Some (Known a n e) -> exists m, In (m, a) o.
Proof.
  destruct w as [|c r]; [discriminate|]. cbn [parse_optional]. destruct (negb (Ascii.eqb c dash)); [discriminate|].
  destruct (get (c :: r) o) as [b|] eqn:G; [intros [= -> _ _]; exists (c :: r); apply get_listed, G|].
  destruct r as [|c2 r]; [discriminate|]. set (s := c :: c2 :: r).
  assert (T : forall k, In k (option_tuples o s) -> k = Known a n e -> exists m, In (m, a) o).
  { intros k H ->. unfold option_tuples in H. destruct (startswith s [dash; dash]); [destruct (split1 equals s) as [p v]|];
      apply in_flat_map in H as ([m b] & I & H); exists m; cbn [fst snd] in H;
      repeat match type of H with context [if ?b then _ else _] => destruct b end; first [destruct H as [H|[]]|destruct H];
      injection H as -> _ _; exact I. }
  destruct (split1 equals s) as [nm [v'|]]; [destruct (get nm o) as [b|] eqn:G'; [intros [= -> _ _]; exists nm; apply get_listed, G'|]|].
  all: destruct (option_tuples o s) as [|k [|k2 ks]]; [|intros [= K]; apply (T k); [left; reflexivity|exact K]|discriminate].
  all: destruct (ModelArgparse.negative_number s); [discriminate|]; destruct (existsb _ _); discriminate.
Qed.
Lemma main_fine cwd argv l r : classify help_options argv = Some r -> forall a more, r = a ++ l -> Fine cwd argv (main_loop cwd l more).
Proof.
  intros C. induction l as [|[w k] l IH]; intros a more E; [right; left; reflexivity|]. cbn [main_loop].
  assert (W : argv = map fst a ++ w :: map fst l) by (rewrite <- (classify_words _ _ _ C), E, map_app; reflexivity).
  destruct k as [| |x n e|].
  - destruct (eqs w (lit "aggregate")) eqn:Q; [apply eqs_eq in Q; subst w; rewrite W; apply aggregate_fine|].
    destruct (eqs w (lit "split")) eqn:Q2; [apply eqs_eq in Q2; subst w; rewrite W; apply split_fine|]. right. left. reflexivity.
  - right. left. reflexivity.
  - assert (I : In (w, Known x n e) r) by (rewrite E; apply in_or_app; right; left; reflexivity). destruct x.
    + exact (known_ends help_options argv r w n e (or_introl eq_refl) C I).
    + cbn [Fine]. destruct (help_status_values n e) as [H|H]; [|rewrite H; right; left; reflexivity]. exfalso.
      destruct (classify_kinds _ _ _ C _ _ I) as [X|[X|X]]; try discriminate X. revert X. clear. intros X.
      assert (N : forall m, In (m, IncludePaths) help_options -> False) by (cbn; intuition congruence).
      destruct (known_listed _ _ _ _ _ X) as [m M]. exact (N m M).
  - apply (IH (a ++ [(w, Unrecognised)]) true). rewrite E, <- app_assoc. reflexivity.
Qed.

Lemma outcomes_lemma fuel fs cwd argv :
  (exists c, Ends argv c /\ script fuel fs cwd argv = Exit c fs) \/
  (exists hs out ps, hs <> [] /\ Among (lit "aggregate" :: hs ++ [out]) argv /\ (ps = [cwd] \/ Forall (OnLine argv) ps) /\
     script fuel fs cwd argv = exit_of (aggregate_headers fuel fs cwd hs out ps)) \/
  (exists f d, Among [lit "split"; f; d] argv /\ script fuel fs cwd argv = exit_of (split_aggregated_file fs cwd f d)).
Proof.
  destruct (classify_help argv) as [r C]. pose proof (main_fine cwd argv r r C [] false eq_refl) as F.
  unfold script, parse_args. rewrite C. destruct (main_loop cwd r false) as [[hs out ps|f d]|c].
  - right. left. exists hs, out, ps. cbn in F. rewrite of_run_exit. intuition.
  - right. right. exists f, d. split; [exact F|apply of_run_exit].
  - left. exists c. split; [exact F|reflexivity].
Qed.

Lemma script_aggregate fuel fs cwd argv hs out ps : parse_args cwd argv = inl (Aggregate hs out ps) ->
  script fuel fs cwd argv = exit_of (aggregate_headers fuel fs cwd hs out ps).
Proof. intros E. unfold script. rewrite E. apply of_run_exit. Qed.
Lemma script_split fuel fs cwd argv f d : parse_args cwd argv = inl (Split f d) ->
  script fuel fs cwd argv = exit_of (split_aggregated_file fs cwd f d).
Proof. intros E. unfold script. rewrite E. apply of_run_exit. Qed.
Lemma script_ends fuel fs cwd argv c : parse_args cwd argv = inr c -> script fuel fs cwd argv = Exit c fs.
Proof. intros E. unfold script. rewrite E. reflexivity. Qed.

Lemma ordinary_check w : startswith w (lit "-") = false -> Ordinary w.
Proof. intros H. apply prefix_false, H. Qed.
Lemma forgotten_lemma : exists fs cwd hs fuel fs' h t, Forall Ordinary hs /\
  (forall x, In x hs -> fread fs (abspath cwd x) <> None) /\
  script fuel fs cwd (lit "aggregate" :: hs) = Exit 0 fs' /\ In h hs /\
  fread fs (abspath cwd h) = Some t /\ fread fs' (abspath cwd h) <> Some t.
Proof.
  exists plain, ex_cwd, [lit "/s/b.hpp"; lit "/s/a.hpp"], 5%nat.
  match eval vm_compute in (script 5 plain ex_cwd [lit "aggregate"; lit "/s/b.hpp"; lit "/s/a.hpp"]) with Exit _ ?f => exists f end.
  exists (lit "/s/a.hpp"), (ex_file ["#pragma once"; inc "b.hpp"; "int a;"]%string).
  split; [repeat apply Forall_cons; try apply ordinary_check; try reflexivity; constructor|].
  split; [intros x [<-|[<-|[]]]; vm_compute; discriminate|].
  split; [vm_compute; reflexivity|]. split; [right; left; reflexivity|]. split; [vm_compute; reflexivity|vm_compute; discriminate].
Qed.

Lemma run_aggregate_line : forall fuel fs cwd os hs out os',
  os = [] \/ (exists os0 n v, os = os0 ++ [Attached n v]) ->
  Forall Proper os -> hs <> [] -> Forall Ordinary hs -> Ordinary out -> Forall Proper os' ->
  script fuel fs cwd (lit "aggregate" :: flat_map spelt os ++ hs ++ out :: flat_map spelt os') =
  exit_of (aggregate_headers fuel fs cwd hs out (last (map given (os ++ os')) [cwd])).
Proof. intros. apply script_aggregate, aggregate_line_lemma; assumption. Qed.
Lemma run_after_dashes : forall fuel fs cwd os hs out, Forall Proper os -> hs <> [] -> out <> lit "--" ->
  script fuel fs cwd (lit "aggregate" :: flat_map spelt os ++ lit "--" :: hs ++ [out]) =
  exit_of (aggregate_headers fuel fs cwd hs out (last (map given os) [cwd])).
Proof. intros. apply script_aggregate, dashes_line_lemma; assumption. Qed.
Lemma run_split_line : forall fuel fs cwd f d,
  (Ordinary f -> Ordinary d -> script fuel fs cwd [lit "split"; f; d] = exit_of (split_aggregated_file fs cwd f d)) /\
  (d <> lit "--" -> script fuel fs cwd [lit "split"; lit "--"; f; d] = exit_of (split_aggregated_file fs cwd f d)).
Proof. intros. split; intros; apply script_split; [apply split_line_lemma|apply split_dashes_lemma]; assumption. Qed.
Lemma run_wrong_number : forall fuel fs cwd ws, Forall Ordinary ws ->
  ((length ws < 2)%nat -> script fuel fs cwd (lit "aggregate" :: ws) = Exit 2 fs) /\
  (length ws <> 2%nat -> script fuel fs cwd (lit "split" :: ws) = Exit 2 fs).
Proof. intros. split; intros; apply script_ends; [apply count_aggregate_lemma|apply count_split_lemma]; assumption. Qed.
Lemma run_option_first : forall fuel fs cwd n ws, Abbreviation n -> Forall Ordinary ws ->
  script fuel fs cwd (lit "aggregate" :: n :: ws) = Exit 2 fs.
Proof.
  intros fuel fs cwd n ws A W. apply script_ends. pose proof (swallow_lemma cwd [Spaced n ws]) as S. cbn [flat_map spelt] in S.
  rewrite app_nil_r in S. apply S. constructor; [split; assumption|constructor].
Qed.

(** Unknown options. *)
Lemma digit_listed c : ModelArgparse.digit c = true -> In c (lit "h0123456789.").
Proof. destruct c as [[|] [|] [|] [|] [|] [|] [|] [|]]; intros H; try discriminate H; cbn; tauto. Qed.
Lemma unknown_kind o w : o = help_options \/ o = aggregate_options -> Unknown w -> eqs w [dash; dash] = false /\ parse_optional o w = Some Unrecognised.
Proof.
  intros O ((c & r & E & N & B) & D & U). split; [apply eqs_neq, D|]. subst w. cbn [lit list_ascii_of_string app] in *.
  change (lit "-" ++ c :: r) with (dash :: c :: r) in *. set (w := dash :: c :: r) in *.
  assert (Names : forall m a, In (m, a) o -> m = lit "-h" \/ m = lit "--help" \/ m = lit "--include-paths").
  { intros m a. destruct O as [->| ->]; cbn; intuition congruence. }
  assert (Split : forall p, UpToEquals w p -> forall m a, In (m, a) o -> ~ (Prefix p m /\ (Prefix (lit "--") w \/ m = p))).
  { intros p P m a I [X Y]. destruct (startswith w (lit "--")) eqn:S.
    - apply prefix_spec in S. destruct (U S p P) as [U1 U2]. destruct (Names m a I) as [->|[->| ->]]; [|exact (U1 X)|exact (U2 X)].
      destruct P as [_ [P|[v P]]]; destruct S as [q S].
      + subst p. rewrite S in X. destruct X as [z Z]. discriminate Z.
      + destruct p as [|p1 [|p2 p]].
        * discriminate P.
        * cbn in P. rewrite S in P. discriminate P.
        * rewrite S in P. injection P as <- <- _. destruct X as [z Z]. discriminate Z.
    - apply prefix_false in S. destruct Y as [Y|Y]; [exact (S Y)|]. subst p. destruct (Names m a I) as [->|[->| ->]].
      + destruct P as [_ [P|[v P]]]; injection P as -> _; apply N; left; reflexivity.
      + apply S. destruct P as [_ [P|[v P]]]; rewrite P; eexists; reflexivity.
      + apply S. destruct P as [_ [P|[v P]]]; rewrite P; eexists; reflexivity. }
  assert (Upto : UpToEquals w (fst (split1 equals w))) by (apply upto_spec; reflexivity).
  change (parse_optional o (dash :: c :: r) = Some Unrecognised). cbn [parse_optional]. change (negb (Ascii.eqb dash dash)) with false. cbn iota.
  change (dash :: c :: r) with w.
  destruct (get w o) as [a|] eqn:G.
  { exfalso. apply get_listed in G. destruct (split1 equals w) as [p v] eqn:S. cbn [fst] in Upto.
    assert (W : UpToEquals w w).
    { split; [|left; reflexivity]. destruct (Names w a G) as [->|[->| ->]]; cbn; intuition discriminate. }
    apply (Split w W w a G). split; [exists []; rewrite app_nil_r; reflexivity|right; reflexivity]. }
  destruct (match split1 equals w with
            | (name, Some v0) => match get name o with Some a => Some (Known a name (Some (true, v0))) | None => None end
            | (_, None) => None
            end) as [k|] eqn:Q.
  { exfalso. destruct (split1 equals w) as [nm [v'|]]; [|discriminate]. destruct (get nm o) as [a|] eqn:G'; [|discriminate].
    apply get_listed in G'. apply (Split nm Upto nm a G'). split; [exists []; rewrite app_nil_r; reflexivity|right; reflexivity]. }
  assert (T : option_tuples o w = []).
  { destruct (option_tuples o w) as [|k ks] eqn:T; [reflexivity|]. exfalso. assert (I : In k (option_tuples o w)) by (rewrite T; left; reflexivity).
    unfold option_tuples in I. destruct (startswith w [dash; dash]) eqn:S.
    - destruct (split1 equals w) as [p v]. apply in_flat_map in I as ([m a] & I & H). cbn [fst snd] in H. destruct (startswith m p) eqn:M; [|destruct H].
      apply prefix_spec in M. apply prefix_spec in S. apply (Split p Upto m a I). split; [exact M|left; exact S].
    - apply in_flat_map in I as ([m a] & I & H). cbn [fst snd] in H. destruct (eqs m (firstn 2 w)) eqn:F.
      + apply eqs_eq in F. cbn in F. destruct (Names m a I) as [->|[->| ->]]; try discriminate F. injection F as F. apply N. left. exact F.
      + destruct (startswith m w) eqn:M; [|destruct H]. apply prefix_spec in M as [q M]. apply prefix_false in S.
        destruct (Names m a I) as [->|[->| ->]]; injection M as M _; [apply N; left; exact M| |]; apply S; exists r; unfold w; rewrite <- M; reflexivity. }
  rewrite T. assert (NN : ModelArgparse.negative_number w = false).
  { unfold w, ModelArgparse.negative_number. cbn [span].
    assert (Dc : ModelArgparse.digit c = false) by (destruct (ModelArgparse.digit c) eqn:Z; [destruct (N (digit_listed c Z))|reflexivity]).
    assert (Pc : Ascii.eqb c "." = false) by (apply Ascii.eqb_neq; intros ->; apply N; cbn; tauto).
    rewrite Dc. cbn iota. rewrite Pc. apply andb_false_r. }
  rewrite NN. replace (existsb (Ascii.eqb " ") w) with false; [reflexivity|].
  symmetry. destruct (existsb (Ascii.eqb " ") w) eqn:X; [|reflexivity]. apply existsb_exists in X as (x & I & X). apply Ascii.eqb_eq in X. subst x. destruct (B I).
Qed.
Lemma classify_unknown o pre w post r : o = help_options \/ o = aggregate_options -> Unknown w -> ~ In (lit "--") pre ->
  classify o (pre ++ w :: post) = Some r -> In (w, Unrecognised) r.
Proof.
  intros O U. revert r. induction pre as [|x pre IH]; intros r N; cbn [app classify].
  - destruct (unknown_kind o w O U) as [-> ->]. destruct (classify o post); [|discriminate]. intros [= <-]. left. reflexivity.
  - replace (eqs x [dash; dash]) with false by (symmetry; apply eqs_neq; intros X; apply N; left; exact X).
    destruct (parse_optional o x); [|discriminate]. destruct (classify o (pre ++ w :: post)) as [r'|]; [|discriminate].
    intros [= <-]. right. apply IH; [|reflexivity]. intros I. apply N. right. exact I.
Qed.
Lemma segments_options l : forall r ss, segments l = (r, ss) -> forall w, In w l -> is_option w = true -> In w (map fst ss).
Proof.
  induction l as [|x l IH]; intros r ss; cbn [segments]; [intros _ ? []|]. destruct (segments l) as [r' ss'].
  destruct (is_option x) eqn:X; intros [= <- <-] w [<-|I] H.
  - left. reflexivity.
  - right. apply (IH _ _ eq_refl); assumption.
  - congruence.
  - apply (IH _ _ eq_refl); assumption.
Qed.
Lemma place_extras run s : extras s = true -> extras (place run s) = true.
Proof. intros H. unfold place. destruct (positionals (left_ s) run) as [[gs l] ex]. cbn. rewrite H. reflexivity. Qed.
Lemma loop_extras ss : forall s s', options_loop ss s = inl s' -> extras s = true \/ (exists w, In (w, Unrecognised) (map fst ss)) -> extras s' = true.
Proof.
  induction ss as [|[w run] ss IH]; intros s s' E H; [injection E as <-; destruct H as [H|[? []]]; exact H|]. cbn [options_loop] in E.
  assert (K : forall t, options_loop ss (place run t) = inl s' -> (extras t = true \/ exists w, In (w, Unrecognised) (map fst ss)) -> extras s' = true).
  { intros t E' H'. apply (IH _ _ E'). destruct H' as [H'|H']; [left; apply place_extras, H'|right; exact H']. }
  assert (H' : snd w <> Unrecognised -> extras s = true \/ exists w, In (w, Unrecognised) (map fst ss)).
  { intros N. destruct H as [H|[x [H|H]]]; [left; exact H| |right; exists x; exact H]. cbn in H. rewrite H in N. destruct (N eq_refl). }
  destruct (snd w) as [| |[|] n [[e v]|]|]; try discriminate E; try (apply (K _ E); apply H'; discriminate).
  - apply (K _ E). left. reflexivity.
  - apply (K _ E). left. reflexivity.
  - destruct (spanw is_argument run) as [vs r]. apply (IH _ _ E). destruct (H' ltac:(discriminate)) as [X|X]; [left; apply place_extras; exact X|right; exact X].
  - apply (K _ E). left. reflexivity.
Qed.
Lemma sub_unknown o p pre w post : o = help_options \/ o = aggregate_options -> Unknown w -> ~ In (lit "--") pre ->
  match sub_parse o p (pre ++ w :: post) with inl s => extras s = true | inr c => c <> 1%Z end.
Proof.
  intros O U N. unfold sub_parse. destruct (classify o (pre ++ w :: post)) as [l|] eqn:C; [|discriminate].
  pose proof (classify_unknown _ _ _ _ _ O U N C) as I. destruct (segments l) as [r ss] eqn:S.
  destruct (options_loop ss _) as [s|c] eqn:E.
  - destruct (left_ s); [|discriminate]. apply (loop_extras _ _ _ E). right. exists w. exact (segments_options _ _ _ S _ I eq_refl).
  - apply loop_status in E as (q & n & e & _ & _ & ->). destruct (help_status_values n e) as [-> | ->]; discriminate.
Qed.
Lemma run_unknown : forall fuel fs cwd command pre w post, command = lit "aggregate" \/ command = lit "split" -> Unknown w -> ~ In (lit "--") pre ->
  let argv := command :: pre ++ w :: post in
  exists c, (c = 2%Z \/ c = 0%Z /\ exists x, In x argv /\ AsksHelp x) /\ script fuel fs cwd argv = Exit c fs.
Proof.
  intros fuel fs cwd command pre w post Hc U N argv.
  assert (K : exists c, c <> 1%Z /\ parse_args cwd argv = inr c).
  { unfold argv. destruct Hc as [->| ->].
    - rewrite parse_aggregate. unfold run_aggregate. pose proof (sub_unknown aggregate_options [Plus; One] pre w post (or_intror eq_refl) U N) as H.
      destruct (sub_parse aggregate_options [Plus; One] (pre ++ w :: post)) as [s|c].
      + rewrite H. exists 2%Z. split; [discriminate|reflexivity].
      + exists c. split; [exact H|reflexivity].
    - rewrite parse_split. unfold run_split. pose proof (sub_unknown help_options [One; One] pre w post (or_introl eq_refl) U N) as H.
      destruct (sub_parse help_options [One; One] (pre ++ w :: post)) as [s|c].
      + rewrite H. exists 2%Z. split; [discriminate|reflexivity].
      + exists c. split; [exact H|reflexivity]. }
  destruct K as (c & Hn & E). exists c. split; [|apply script_ends, E].
  destruct (classify_help argv) as [r C]. pose proof (main_fine cwd argv r r C [] false eq_refl) as F.
  unfold parse_args in E. rewrite C in E. rewrite E in F. destruct F as [F|[F|F]]; [congruence|left; exact F|right; exact F].
Qed.

(** Asking for help. *)
Lemma help_kind o h : o = help_options \/ o = aggregate_options ->
  h = lit "-h" \/ Prefix (lit "--h") h /\ Prefix h (lit "--help") ->
  eqs h [dash; dash] = false /\ exists n, parse_optional o h = Some (Known Help n None).
Proof.
  intros O H. assert (I : In h (map lit ["-h"; "--h"; "--he"; "--hel"; "--help"]%string)).
  { destruct H as [->|[[r R] [q Q]]]; [left; reflexivity|]. subst h. right. cbn in Q. injection Q as Q.
    destruct r as [|a [|b [|c [|d r]]]]; cbn in Q |- *.
    - left. reflexivity.
    - injection Q as <- _. right. left. reflexivity.
    - injection Q as <- <- _. right. right. left. reflexivity.
    - injection Q as <- <- <- _. right. right. right. left. reflexivity.
    - injection Q as _ _ _ Q. discriminate Q. }
  cbn [map In] in I. destruct O as [->| ->]; repeat (destruct I as [<-|I]; [split; [reflexivity|eexists; reflexivity]|]); destruct I.
Qed.
Lemma sub_help o p ws h rest : o = help_options \/ o = aggregate_options ->
  h = lit "-h" \/ Prefix (lit "--h") h /\ Prefix h (lit "--help") -> Forall Ordinary (ws ++ rest) -> sub_parse o p (ws ++ h :: rest) = inr 0%Z.
Proof.
  intros O H F. apply Forall_app in F as [Fw Fr]. destruct (help_kind o h O H) as [E [n K]].
  pose proof (classify_ordinary o rest [] [] Fr eq_refl) as C. rewrite !app_nil_r in C.
  assert (C' : classify o (h :: rest) = Some ((h, Known Help n None) :: args rest)) by (cbn [classify]; rewrite E, K, C; reflexivity).
  unfold sub_parse. rewrite (classify_ordinary o ws _ _ Fw C'), segments_arguments. cbn [segments is_option snd].
  pose proof (segments_arguments rest []) as S. rewrite !app_nil_r in S. rewrite S. cbn [segments]. reflexivity.
Qed.
Lemma run_help : forall fuel fs cwd h rest, h = lit "-h" \/ Prefix (lit "--h") h /\ Prefix h (lit "--help") ->
  script fuel fs cwd (h :: rest) = Exit 0 fs /\
  (forall command ws, command = lit "aggregate" \/ command = lit "split" -> Forall Ordinary (ws ++ rest) ->
     script fuel fs cwd (command :: ws ++ h :: rest) = Exit 0 fs).
Proof.
  intros fuel fs cwd h rest H. split.
  - apply script_ends. unfold parse_args. destruct (classify_help rest) as [r C]. destruct (help_kind help_options h (or_introl eq_refl) H) as [E [n K]].
    cbn [classify]. rewrite E, K, C. reflexivity.
  - intros command ws [->| ->] F; apply script_ends.
    + rewrite parse_aggregate. unfold run_aggregate. rewrite sub_help; [reflexivity|right; reflexivity|exact H|exact F].
    + rewrite parse_split. unfold run_split. rewrite sub_help; [reflexivity|left; reflexivity|exact H|exact F].
Qed.
