(** C109: the command line of the configuration script. *)
From Coq Require Import Bool Ascii String ZArith List.
From Verif Require Import ModelPython ModelConfigBuild ModelArgparse SpecAggregate SpecConfigBuild SpecArgparse PropConfigBuild ProofArgparse.
Import ListNotations.

(** Options in any of their spellings and other words, in any order, possibly followed by "--" and
    more words: the last value counts, the other words are kept unchanged and in order. *)
Theorem C109_command_line : forall l rest, Forall WellFormed l ->
  (exists b v, In (Next b HostConfig v) l \/ In (Equal b HostConfig v) l) -> Rest rest ->
  parse_known_args (flat_map words l ++ rest) = inl (asked l rest).
Proof. exact command_line_lemma. Qed.
Print Assumptions C109_command_line.

(** Without a host config the script ends with status 2. *)
Theorem C109_host_config_required : forall l rest, Forall WellFormed l ->
  (forall b v, ~ In (Next b HostConfig v) l /\ ~ In (Equal b HostConfig v) l) -> Rest rest ->
  parse_known_args (flat_map words l ++ rest) = inr 2%Z.
Proof. exact required_lemma. Qed.
Print Assumptions C109_host_config_required.

(** The words passed on unchanged are exactly the foreign ones, and "--". *)
Theorem C109_passed_on_exactly : forall f w, ~ Prefix [dash] f ->
  parse_known_args [lit "-hc"; f; w] = inl (asked [Next false HostConfig f] [w]) <-> Foreign w \/ w = lit "--".
Proof. exact exactly_lemma. Qed.
Print Assumptions C109_passed_on_exactly.

(** Any command line: either the arguments are accepted, with one of the four build types, or the
    script ends with status 0 (help) or 2 before touching a file or starting a command. *)
Theorem C109_outcomes : forall status fs cwd argv0 argv,
  (exists a, parse_known_args argv = inl a /\ In (buildtype a) [lit "Release"; lit "Debug"; lit "RelWithDebInfo"; lit "MinSizeRel"] /\
     script_run status fs cwd argv0 argv = config_build status fs cwd argv0 a) \/
  (exists c, parse_known_args argv = inr c /\ (c = 0%Z \/ c = 2%Z) /\
     script_run status fs cwd argv0 argv = {| after := fs; started := []; code := c |}).
Proof. exact outcomes_lemma. Qed.
Print Assumptions C109_outcomes.

(** From the command line to the words cmake gets. *)
Theorem C109_words_for_cmake : forall status fs cwd argv0 l B I cmd rest, Forall WellFormed l ->
  (exists b v, In (Next b HostConfig v) l \/ In (Equal b HostConfig v) l) ->
  let a := asked l [] in
  absolute cwd -> BuildDir cwd a B -> InstallDir cwd a I ->
  Plain (abspath cwd (hostconfig a)) -> Plain I -> Plain (dirname (abspath cwd argv0)) -> Forall Plain (others l) ->
  started (script_run status fs cwd argv0 (flat_map words l)) = (B, cmd) :: rest ->
  sh_words cmd = Some (intended a (abspath cwd (hostconfig a)) I (dirname (abspath cwd argv0) ++ lit "/..")).
Proof. exact to_cmake_lemma. Qed.
Print Assumptions C109_words_for_cmake.

Definition a_line : list item :=
  [Other (lit "-DA=1"); Next false HostConfig (lit "hc/mac.cmake"); Switch true Ninja; Other (lit "-Wno-dev"); Equal true BuildType (lit "Release");
   Other (lit "--trace"); Other (lit "x"); Equal false BuildType (lit "Debug")].
Example C109_hypotheses : Forall WellFormed a_line /\
  flat_map words a_line = map lit ["-DA=1"; "-hc"; "hc/mac.cmake"; "--ninja"; "-Wno-dev"; "--buildtype=Release"; "--trace"; "x"; "-bt=Debug"]%string /\
  asked a_line [] = {| buildpath := []; installpath := []; buildtype := lit "Debug"; eclipse := false; xcode := false; export_commands := false;
    hostconfig := lit "hc/mac.cmake"; ninja := true; graphviz := false; unknown := map lit ["-DA=1"; "-Wno-dev"; "--trace"; "x"]%string |} /\
  started (script_run fine a_tree (lit "/p") script (flat_map words a_line)) <> [].
Proof.
  split; [|split; [reflexivity|split; [reflexivity|vm_compute; discriminate]]].
  assert (F : forall w, parse_optional w = Some Unrecognised -> WellFormed (Other w)) by (intros w H; apply foreign_spec; right; exact H).
  unfold a_line. apply Forall_cons; [apply F; reflexivity|].
  apply Forall_cons; [split; [exact Logic.I|]; intros [r X]; discriminate X|]. apply Forall_cons; [exact Logic.I|].
  apply Forall_cons; [apply F; reflexivity|]. apply Forall_cons; [left; reflexivity|]. apply Forall_cons; [apply F; reflexivity|].
  apply Forall_cons; [apply foreign_spec; left; reflexivity|]. apply Forall_cons; [right; left; reflexivity|apply Forall_nil].
Qed.

(** Refuted: "unrecognised arguments are passed on".  Words that are no option names are
    - taken as an abbreviation: with --install the directory named next is removed; *)
Theorem C109_abbreviation_refuted : exists fs cwd argv f,
  ~ Name (lit "--install") /\ In (lit "--install") argv /\ get f (files fs) <> None /\
  (exists a, parse_known_args argv = inl a /\ unknown a = []) /\
  get f (files (after (script_run fine fs cwd script argv))) = None.
Proof.
  exists a_tree, (lit "/p"), (map lit ["-hc"; "hc/mac.cmake"; "--install"; "src"]%string), (lit "/p/src/a.cpp").
  split; [rewrite name_spec; vm_compute; intuition discriminate|]. split; [vm_compute; tauto|]. split; [discriminate|].
  split; [eexists; split; reflexivity|reflexivity].
Qed.
Print Assumptions C109_abbreviation_refuted.
(** - rejected as ambiguous, altered, or taken as a request for help; *)
Theorem C109_other_words_refuted :
  parse_known_args (map lit ["-hc"; "f"; "--build"; "d"]%string) = inr 2%Z /\
  (exists a, parse_known_args (map lit ["-hc"; "f"; "-nologo"]%string) = inl a /\ ninja a = true /\ unknown a = [lit "-ologo"]) /\
  parse_known_args (map lit ["-hc"; "f"; "-hello"]%string) = inr 0%Z.
Proof. split; [reflexivity|]. split; [eexists; split; [reflexivity|split; reflexivity]|reflexivity]. Qed.
Print Assumptions C109_other_words_refuted.
(** and values written next to a short name are not values: -bpDIR goes to cmake, -hcFILE shows the help. *)
Theorem C109_attached_values_refuted :
  (exists a, parse_known_args (map lit ["-hc"; "f"; "-bpbuild"]%string) = inl a /\ buildpath a = [] /\ unknown a = [lit "-bpbuild"]) /\
  parse_known_args [lit "-hcf"] = inr 0%Z.
Proof. split; [eexists; split; [reflexivity|split; reflexivity]|reflexivity]. Qed.
Print Assumptions C109_attached_values_refuted.
