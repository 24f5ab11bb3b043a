(** C117: the command line of the script that aggregates and splits headers. *)
From Coq Require Import Bool Ascii String ZArith List.
From Verif Require Import ModelPython ModelAggregate ModelAggregateCli SpecAggregate SpecArgparse SpecAggregateCli ProofScripts ProofArgparse ProofAggregateCli.
Import ListNotations.
Open Scope list_scope.

(** aggregate with the include paths after the other words (or before them, if the last value is attached with "="):
    the last word is the output, the ones before it are the headers, the last occurrence of the option counts, and
    without it the include path is the working directory. *)
Theorem C117_aggregate_line : forall fuel fs cwd os hs out os',
  os = [] \/ (exists os0 n v, os = os0 ++ [Attached n v]) ->
  Forall Proper os -> hs <> [] -> Forall Ordinary hs -> Ordinary out -> Forall Proper os' ->
  script fuel fs cwd (lit "aggregate" :: flat_map spelt os ++ hs ++ out :: flat_map spelt os') =
  exit_of (aggregate_headers fuel fs cwd hs out (last (map given (os ++ os')) [cwd])).
Proof. exact run_aggregate_line. Qed.
Print Assumptions C117_aggregate_line.

(** After "--" any words are taken as they are, whatever they start with. *)
Theorem C117_after_dashes : forall fuel fs cwd os hs out, Forall Proper os -> hs <> [] -> out <> lit "--" ->
  script fuel fs cwd (lit "aggregate" :: flat_map spelt os ++ lit "--" :: hs ++ [out]) =
  exit_of (aggregate_headers fuel fs cwd hs out (last (map given os) [cwd])).
Proof. exact run_after_dashes. Qed.
Print Assumptions C117_after_dashes.

Theorem C117_split_line : forall fuel fs cwd f d,
  (Ordinary f -> Ordinary d -> script fuel fs cwd [lit "split"; f; d] = exit_of (split_aggregated_file fs cwd f d)) /\
  (d <> lit "--" -> script fuel fs cwd [lit "split"; lit "--"; f; d] = exit_of (split_aggregated_file fs cwd f d)).
Proof. exact run_split_line. Qed.
Print Assumptions C117_split_line.

(** Any command line: the script either ends with status 1 or 2, or 0 after a request for help, and no file has changed;
    or it aggregates or splits with names that stand on the command line in this order. *)
Theorem C117_outcomes : forall fuel fs cwd argv,
  (exists c, Ends argv c /\ script fuel fs cwd argv = Exit c fs) \/
  (exists hs out ps, hs <> [] /\ Among (lit "aggregate" :: hs ++ [out]) argv /\ (ps = [cwd] \/ Forall (OnLine argv) ps) /\
     script fuel fs cwd argv = exit_of (aggregate_headers fuel fs cwd hs out ps)) \/
  (exists f d, Among [lit "split"; f; d] argv /\ script fuel fs cwd argv = exit_of (split_aggregated_file fs cwd f d)).
Proof. exact outcomes_lemma. Qed.
Print Assumptions C117_outcomes.

(** A word before "--" that looks like an option and is none keeps the script from doing anything. *)
Theorem C117_unknown_option : forall fuel fs cwd command pre w post, command = lit "aggregate" \/ command = lit "split" ->
  Unknown w -> ~ In (lit "--") pre ->
  let argv := command :: pre ++ w :: post in
  exists c, (c = 2%Z \/ c = 0%Z /\ exists x, In x argv /\ AsksHelp x) /\ script fuel fs cwd argv = Exit c fs.
Proof. exact run_unknown. Qed.
Print Assumptions C117_unknown_option.

(** -h and --help, also abbreviated, before or after the command: status 0, and no file has changed. *)
Theorem C117_help : forall fuel fs cwd h rest, h = lit "-h" \/ Prefix (lit "--h") h /\ Prefix h (lit "--help") ->
  script fuel fs cwd (h :: rest) = Exit 0 fs /\
  (forall command ws, command = lit "aggregate" \/ command = lit "split" -> Forall Ordinary (ws ++ rest) ->
     script fuel fs cwd (command :: ws ++ h :: rest) = Exit 0 fs).
Proof. exact run_help. Qed.
Print Assumptions C117_help.

(** Too few words, and for split also too many, are rejected. *)
Theorem C117_wrong_number : forall fuel fs cwd ws, Forall Ordinary ws ->
  ((length ws < 2)%nat -> script fuel fs cwd (lit "aggregate" :: ws) = Exit 2 fs) /\
  (length ws <> 2%nat -> script fuel fs cwd (lit "split" :: ws) = Exit 2 fs).
Proof. exact run_wrong_number. Qed.
Print Assumptions C117_wrong_number.

(** The usage message puts the option before the headers, but then its values swallow them: however many words follow,
    the command line is rejected. *)
Theorem C117_option_before_headers_refuted : forall fuel fs cwd n ws, Abbreviation n -> Forall Ordinary ws ->
  script fuel fs cwd (lit "aggregate" :: n :: ws) = Exit 2 fs.
Proof. exact run_option_first. Qed.
Print Assumptions C117_option_before_headers_refuted.

(** Forgetting the output is not noticed: the last header is overwritten. *)
Theorem C117_headers_kept_refuted : exists fs cwd hs fuel fs' h t, Forall Ordinary hs /\
  (forall x, In x hs -> fread fs (abspath cwd x) <> None) /\
  script fuel fs cwd (lit "aggregate" :: hs) = Exit 0 fs' /\ In h hs /\
  fread fs (abspath cwd h) = Some t /\ fread fs' (abspath cwd h) <> Some t.
Proof. exact forgotten_lemma. Qed.
Print Assumptions C117_headers_kept_refuted.

(** A command line that meets the hypotheses, and one that asks for help. *)
Definition a_command : list str := map lit ["aggregate"; "--inc=/x"; "/s/a.hpp"; "/s/b.hpp"; "/o/x"; "--include-paths"; "/s"; "/w"]%string.
Example C117_hypotheses :
  Forall Proper [Attached (lit "--inc") (lit "/x")] /\ Forall Ordinary (map lit ["/s/a.hpp"; "/s/b.hpp"; "/o/x"]%string) /\
  Forall Proper [Spaced (lit "--include-paths") (map lit ["/s"; "/w"]%string)] /\
  a_command = lit "aggregate" :: flat_map spelt [Attached (lit "--inc") (lit "/x")] ++ map lit ["/s/a.hpp"; "/s/b.hpp"]%string ++
    lit "/o/x" :: flat_map spelt [Spaced (lit "--include-paths") (map lit ["/s"; "/w"]%string)] /\
  parse_args ex_cwd a_command = inl (Aggregate (map lit ["/s/a.hpp"; "/s/b.hpp"]%string) (lit "/o/x") (map lit ["/s"; "/w"]%string)) /\
  (exists fs', script 5 plain ex_cwd a_command = Exit 0 fs' /\ fread fs' (lit "/o/x") <> None) /\
  script 5 plain ex_cwd [lit "split"; lit "--hel"] = Exit 0 plain /\ AsksHelp (lit "--hel").
Proof.
  assert (O : forall ws, forallb (fun w => negb (startswith w (lit "-"))) ws = true -> Forall Ordinary ws).
  { intros ws H. apply Forall_forall. intros w W. apply ordinary_check. rewrite forallb_forall in H. specialize (H w W).
    destruct (startswith w (lit "-")); [discriminate H|reflexivity]. }
  split; [constructor; [|constructor]; split; [exists (lit "nc"); reflexivity|exists (lit "lude-paths"); reflexivity]|].
  split; [apply O; reflexivity|].
  split; [constructor; [|constructor]; split; [split; [exists (lit "nclude-paths"); reflexivity|exists []; reflexivity]|apply O; reflexivity]|].
  split; [reflexivity|]. split; [vm_compute; reflexivity|].
  split; [|split; [vm_compute; reflexivity|right; exists (lit "el"); reflexivity]].
  match eval vm_compute in (script 5 plain ex_cwd a_command) with Exit _ ?f => exists f end.
  split; [vm_compute; reflexivity|vm_compute; discriminate].
Qed.
Example C117_unknown_option_hypotheses : Unknown (lit "--includes=x") /\ Unknown (lit "-x").
Proof.
  split.
  - split; [|split; [discriminate|]].
    + exists "-"%char, (lit "includes=x"). split; [reflexivity|]. split; cbn; intuition discriminate.
    + intros _ p P. apply upto_spec in P. vm_compute in P. subst p. split; apply prefix_false; reflexivity.
  - split; [|split; [discriminate|]].
    + exists "x"%char, []. split; [reflexivity|]. split; cbn; intuition discriminate.
    + intros [r R]. discriminate R.
Qed.
