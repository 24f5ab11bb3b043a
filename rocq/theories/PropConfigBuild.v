(** C76-C81: the configuration script. *)
From Coq Require Import Bool Ascii String ZArith List.
From Verif Require Import ModelPython ModelConfigBuild SpecAggregate SpecConfigBuild ProofPython ProofPath ProofConfigBuild.
Import ListNotations.

(** A project and a user's arguments, for the examples. *)
Definition a_tree : fsys :=
  {| files := [(lit "/p/hc/mac.cmake", lit "# cmake executable path: /opt/cmake/bin/cmake
set(X 1)
"); (lit "/p/src/a.cpp", lit "int main(){}"); (lit "/p/build-mac-debug/old.o", lit "x")];
     dirs := [lit "/"; lit "/p"; lit "/p/hc"; lit "/p/src"; lit "/p/scripts"; lit "/p/build-mac-debug"] |}.
Definition some_args (bp ip hc : string) : args :=
  {| buildpath := lit bp; installpath := lit ip; buildtype := lit "Debug"; eclipse := false; xcode := false;
     export_commands := true; hostconfig := lit hc; ninja := true; graphviz := false; unknown := [lit "-DA=1"] |}.
Definition fine : str -> option Z := fun _ => Some 0%Z.
Definition script : str := lit "scripts/config-build.py".
Example tree_is_sane : Sane a_tree.
Proof. apply sane_checked. vm_compute. reflexivity. Qed.

(** C76: whatever happens - including a run that ends in an exception at any point - files and
    directories outside the build and the install directory stay as they are. *)
Theorem C76_outside_untouched : forall status fs cwd argv0 a B I p,
  absolute cwd -> BuildDir cwd a B -> InstallDir cwd a I -> ~ Below B p -> ~ Below I p ->
  let r := config_build status fs cwd argv0 a in
  get p (files (after r)) = get p (files fs) /\ (In p (dirs fs) -> In p (dirs (after r))).
Proof.
  intros status fs cwd argv0 a B I p A HB HI NB NI r. apply build_dir in HB. apply install_dir in HI. subst B I.
  exact (outside_kept status fs cwd argv0 a p A NB NI).
Qed.
(** Without the host config file nothing is touched and nothing is run. *)
Theorem C76_missing_hostconfig : forall status fs cwd argv0 a,
  fexists fs (abspath cwd (hostconfig a)) = false ->
  let r := config_build status fs cwd argv0 a in after r = fs /\ started r = [] /\ code r = 1%Z.
Proof. intros status fs cwd argv0 a H r. unfold r. rewrite (missing_hostconfig status fs cwd argv0 a H). auto. Qed.
Example C76_example : BuildDir (lit "/p") (some_args "" "" "hc/mac.cmake") (lit "/p/build-mac-debug") /\
  InstallDir (lit "/p") (some_args "" "" "hc/mac.cmake") (lit "/p/install-mac-debug") /\
  InstallDir (lit "/p") (some_args "" "../q/./x" "hc/mac.cmake") (lit "/q/x") /\
  ~ Below (lit "/p/build-mac-debug") (lit "/p/src/a.cpp") /\
  map fst (files (after (config_build fine a_tree (lit "/p") script (some_args "" "" "hc/mac.cmake")))) =
    [lit "/p/hc/mac.cmake"; lit "/p/src/a.cpp"; lit "/p/build-mac-debug/cmake_cmd"].
Proof.
  assert (P : Platform (lit "/p") (some_args "" "" "hc/mac.cmake") (lit "mac")).
  { exists (lit "/p/hc"), (lit "mac.cmake"). split; [reflexivity|]. split; [vm_compute; intuition discriminate|]. left. reflexivity. }
  split; [right; split; [reflexivity|exists (lit "mac"); auto]|].
  split; [right; split; [reflexivity|exists (lit "mac"); auto]|].
  split; [left; split; [discriminate|reflexivity]|]. split; [|reflexivity].
  apply below_false. reflexivity.
Qed.

(** C77: if a command is run then, at that time, the build and the install directory exist and
    contain no file but cmake_cmd, which holds the command run. *)
Theorem C77_fresh_directories : forall status fs cwd argv0 a B I,
  Sane fs -> absolute cwd -> BuildDir cwd a B -> InstallDir cwd a I ->
  startswith B (lit "//") = false -> startswith I (lit "//") = false ->
  let r := config_build status fs cwd argv0 a in
  started r <> [] ->
  exists cmd rest, started r = (B, cmd) :: rest /\
    In B (dirs (after r)) /\ In I (dirs (after r)) /\
    get (B ++ lit "/cmake_cmd") (files (after r)) = Some cmd /\
    (forall p t, Below B p \/ Below I p -> get p (files (after r)) = Some t -> p = B ++ lit "/cmake_cmd") /\
    (forall p, Below B p \/ Below I p -> In p (dirs (after r)) -> Below p B \/ Below p I).
Proof.
  intros status fs cwd argv0 a B I S A HB HI. apply build_dir in HB. apply install_dir in HI. subst B I.
  exact (fresh_build status fs cwd argv0 a S A).
Qed.
Example C77_example :
  started (config_build fine a_tree (lit "/p") script (some_args "" "" "hc/mac.cmake")) =
    [(lit "/p/build-mac-debug", lit "cmake -C /p/hc/mac.cmake -DCMAKE_BUILD_TYPE=Debug -DCMAKE_INSTALL_PREFIX=/p/install-mac-debug -DCMAKE_EXPORT_COMPILE_COMMANDS=on -GNinja -DA=1 /p/scripts/.. ")].
Proof. reflexivity. Qed.

(** C78: the shell hands cmake the intended arguments if no path or passed-on argument has a
    character that means something to the shell. *)
Theorem C78_command_words : forall status fs cwd argv0 a B I cmd rest,
  absolute cwd -> BuildDir cwd a B -> InstallDir cwd a I ->
  Plain (abspath cwd (hostconfig a)) -> Plain I -> Plain (buildtype a) -> Plain (dirname (abspath cwd argv0)) ->
  Forall Plain (unknown a) ->
  started (config_build status fs cwd argv0 a) = (B, cmd) :: rest ->
  sh_words cmd = Some (intended a (abspath cwd (hostconfig a)) I (dirname (abspath cwd argv0) ++ lit "/..")).
Proof.
  intros status fs cwd argv0 a B I cmd rest A HB HI PH PI PT [_ PD] PU H. apply build_dir in HB. apply install_dir in HI. subst B I.
  rewrite (command_line status fs cwd argv0 a _ _ _ A H). exact (words_of_line a _ _ _ PH PI PT PD PU).
Qed.
(** Refuted for other paths: a space in the install path. *)
Theorem C78_command_words_refuted : exists fs cwd argv0 a B I cmd,
  Sane fs /\ absolute cwd /\ BuildDir cwd a B /\ InstallDir cwd a I /\
  started (config_build fine fs cwd argv0 a) = [(B, cmd)] /\
  I = lit "/p/my install" /\
  exists ws, sh_words cmd = Some ws /\ In (lit "-DCMAKE_INSTALL_PREFIX=/p/my") ws /\ In (lit "install") ws /\
    ws <> intended a (abspath cwd (hostconfig a)) I (dirname (abspath cwd argv0) ++ lit "/..").
Proof.
  exists a_tree, (lit "/p"), script, (some_args "b" "my install" "hc/mac.cmake"), (lit "/p/b"), (lit "/p/my install").
  eexists. split; [exact tree_is_sane|]. split; [reflexivity|].
  split; [left; split; [discriminate|reflexivity]|]. split; [left; split; [discriminate|reflexivity]|].
  split; [reflexivity|]. split; [reflexivity|]. eexists. split; [vm_compute; reflexivity|].
  split; [vm_compute; tauto|]. split; [vm_compute; tauto|]. intros X. vm_compute in X. discriminate X.
Qed.
Example C78_example : Plain (lit "/p/hc/mac.cmake") /\ Plain (lit "/p/install-mac-debug") /\ Plain (lit "-DA=1") /\
  intended (some_args "" "" "hc/mac.cmake") (lit "/p/hc/mac.cmake") (lit "/p/i") (lit "/p/scripts/..") =
    [lit "cmake"; lit "-C"; lit "/p/hc/mac.cmake"; lit "-DCMAKE_BUILD_TYPE=Debug"; lit "-DCMAKE_INSTALL_PREFIX=/p/i";
     lit "-DCMAKE_EXPORT_COMPILE_COMMANDS=on"; lit "-GNinja"; lit "-DA=1"; lit "/p/scripts/.."].
Proof.
  repeat split; try discriminate; apply plain_lit; reflexivity.
Qed.

(** With -gvz, and only then, the dependency graph cmake is asked for is drawn to a file, in the same directory. *)
Theorem C78_dependency_graph : forall status fs cwd argv0 a B cmd rest,
  started (config_build status fs cwd argv0 a) = (B, cmd) :: rest ->
  rest = if graphviz a then match status cmd with
           | Some _ => [(B, lit "dot -Tpng dependency.dot -o dependency.png")]
           | None => [] end
         else [].
Proof. exact second_command. Qed.
Example C78_dependency_graph_example :
  let a := {| buildpath := []; installpath := []; buildtype := lit "Debug"; eclipse := false; xcode := false;
              export_commands := false; hostconfig := lit "hc/mac.cmake"; ninja := false; graphviz := true; unknown := [] |} in
  exists cmd, started (config_build fine a_tree (lit "/p") script a) =
    [(lit "/p/build-mac-debug", cmd); (lit "/p/build-mac-debug", lit "dot -Tpng dependency.dot -o dependency.png")] /\
  exists ws, sh_words cmd = Some ws /\ In (lit "--graphviz=dependency.dot") ws.
Proof. eexists. split; [reflexivity|]. eexists. split; [vm_compute; reflexivity|]. vm_compute. tauto. Qed.

(** C79: with the host config a regular file outside both directories, paths not occupied by
    files, the install directory not above the build directory, and the directory the script is
    started from not inside the build directory, cmake is run, with the host config intact. *)
Theorem C79_runs_cmake : forall status fs cwd argv0 a B I text,
  Sane fs -> absolute cwd -> BuildDir cwd a B -> InstallDir cwd a I ->
  startswith B (lit "//") = false -> startswith I (lit "//") = false -> B <> lit "/" -> I <> lit "/" ->
  (forall p, Below p B \/ Below p I -> get p (files fs) = None) ->
  (Below I B -> I = B) -> ~ Below (B ++ lit "/cmake_cmd") I ->
  absolute (installpath a) \/ ~ Below B cwd ->
  get (abspath cwd (hostconfig a)) (files fs) = Some text ->
  ~ Below B (abspath cwd (hostconfig a)) -> ~ Below I (abspath cwd (hostconfig a)) ->
  let r := config_build status fs cwd argv0 a in
  (exists cmd rest, started r = (B, cmd) :: rest) /\ get (abspath cwd (hostconfig a)) (files (after r)) = Some text.
Proof.
  intros status fs cwd argv0 a B I text S A HB HI DB DI RB RI G IB CI W HC NB NI r. apply build_dir in HB. apply install_dir in HI. subst B I.
  exact (runs_cmake status fs cwd argv0 a text S A DB DI RB RI G IB CI W HC NB NI).
Qed.
Example C79_example :
  let a := some_args "" "" "hc/mac.cmake" in
  started (config_build fine a_tree (lit "/p") script a) <> [] /\ ~ Below (lit "/p/build-mac-debug") (lit "/p") /\
  ~ Below (lit "/p/install-mac-debug") (lit "/p/build-mac-debug") /\
  (forall p, Below p (lit "/p/build-mac-debug") \/ Below p (lit "/p/install-mac-debug") -> get p (files a_tree) = None).
Proof.
  split; [discriminate|]. split; [apply below_false; reflexivity|]. split; [apply below_false; reflexivity|].
  intros p Hp. destruct (get p (files a_tree)) eqn:E; [|reflexivity]. exfalso. apply get_In in E. cbn [In files a_tree] in E.
  rewrite <- !below_spec in Hp. destruct E as [E|[E|[E|[]]]]; injection E as <- _; destruct Hp as [Hp|Hp]; vm_compute in Hp; discriminate.
Qed.
(** A host config that exists but cannot be read - a directory - ends the script before cmake ... *)
Theorem C79_unreadable_hostconfig : forall status fs cwd argv0 a B I,
  absolute cwd -> BuildDir cwd a B -> InstallDir cwd a I ->
  In (abspath cwd (hostconfig a)) (dirs fs) -> get (abspath cwd (hostconfig a)) (files fs) = None ->
  ~ Below B (abspath cwd (hostconfig a)) -> ~ Below I (abspath cwd (hostconfig a)) ->
  let r := config_build status fs cwd argv0 a in started r = [] /\ code r = 1%Z.
Proof.
  intros status fs cwd argv0 a B I A HB HI D G NB NI. apply build_dir in HB. apply install_dir in HI. subst B I.
  exact (directory_hostconfig status fs cwd argv0 a A D G NB NI).
Qed.
(** ... but after the old build directory has been emptied (refuted: that a run which fails
    before cmake leaves the previous build alone). *)
Theorem C79_failed_run_keeps_build_refuted : exists fs cwd argv0 a B p,
  Sane fs /\ In cwd (dirs fs) /\ BuildDir cwd a B /\ Below B p /\ get p (files fs) <> None /\
  In (abspath cwd (hostconfig a)) (dirs fs) /\
  let r := config_build fine fs cwd argv0 a in
  started r = [] /\ code r = 1%Z /\ get p (files (after r)) = None.
Proof.
  exists a_tree, (lit "/p"), script, (some_args "build-mac-debug" "" "hc"), (lit "/p/build-mac-debug"), (lit "/p/build-mac-debug/old.o").
  split; [exact tree_is_sane|]. split; [vm_compute; tauto|]. split; [left; split; [discriminate|reflexivity]|].
  split; [apply below_spec; reflexivity|]. split; [discriminate|]. split; [vm_compute; tauto|]. repeat split; reflexivity.
Qed.
(** Refuted in general, always for a well-formed file system, a readable host config, absolute
    normal paths other than the root, and no path occupied by a file:
    - building in the current directory deletes what is in it, the sources included, and then
      ends in an exception; *)
Theorem C79_build_here_refuted : exists fs cwd argv0 a,
  Sane fs /\ In cwd (dirs fs) /\ BuildDir cwd a cwd /\
  get (lit "/p/src/a.cpp") (files fs) <> None /\ fread fs (abspath cwd (hostconfig a)) <> None /\
  let r := config_build fine fs cwd argv0 a in
  started r = [] /\ code r = 1%Z /\ get (lit "/p/src/a.cpp") (files (after r)) = None /\
  get (abspath cwd (hostconfig a)) (files (after r)) = None.
Proof.
  exists a_tree, (lit "/p"), script, (some_args "." "i" "hc/mac.cmake").
  split; [exact tree_is_sane|]. split; [vm_compute; tauto|]. split; [left; split; [discriminate|reflexivity]|].
  repeat split; discriminate || reflexivity.
Qed.
(** - an install directory above the build directory takes the build directory with it; *)
Theorem C79_install_above_refuted : exists fs cwd argv0 a B I,
  Sane fs /\ In cwd (dirs fs) /\ BuildDir cwd a B /\ InstallDir cwd a I /\ Below I B /\
  fexists fs B = false /\ fexists fs I = false /\ fread fs (abspath cwd (hostconfig a)) <> None /\
  let r := config_build fine fs cwd argv0 a in
  started r = [] /\ code r = 1%Z /\ fexists (after r) I = true /\ fexists (after r) B = false.
Proof.
  exists a_tree, (lit "/p"), script, (some_args "out/build" "out" "hc/mac.cmake"), (lit "/p/out/build"), (lit "/p/out").
  split; [exact tree_is_sane|]. split; [vm_compute; tauto|]. split; [left; split; [discriminate|reflexivity]|].
  split; [left; split; [discriminate|reflexivity]|]. split; [apply below_spec; reflexivity|].
  repeat split; discriminate || reflexivity.
Qed.
(** - a host config kept in the old build directory is deleted, and cmake is still run with it. *)
Theorem C79_hostconfig_lost_refuted : exists fs cwd argv0 a B options,
  Sane fs /\ In cwd (dirs fs) /\ BuildDir cwd a B /\ fread fs (abspath cwd (hostconfig a)) <> None /\
  let r := config_build fine fs cwd argv0 a in
  started r = [(B, lit "cmake -C " ++ abspath cwd (hostconfig a) ++ options)] /\
  fexists (after r) (abspath cwd (hostconfig a)) = false.
Proof.
  exists a_tree, (lit "/p"), script, (some_args "hc" "i" "hc/mac.cmake"), (lit "/p/hc").
  eexists.
  split; [exact tree_is_sane|]. split; [vm_compute; tauto|]. split; [left; split; [discriminate|reflexivity]|].
  split; [discriminate|]. split; [vm_compute; reflexivity|]. reflexivity.
Qed.

(** C80: the exit status is 0 exactly if commands were run and each could be started ... *)
Theorem C80_exit_status : forall status fs cwd argv0 a,
  let r := config_build status fs cwd argv0 a in
  (code r = 0%Z <-> started r <> [] /\ forall d c, In (d, c) (started r) -> status c <> None) /\ (code r = 0%Z \/ code r = 1%Z).
Proof. exact exit_status. Qed.
(** ... so a failing cmake is not reported. *)
Theorem C80_failure_reported_refuted : exists status fs cwd argv0 a d c,
  Sane fs /\ started (config_build status fs cwd argv0 a) = [(d, c)] /\ status c = Some 1%Z /\
  code (config_build status fs cwd argv0 a) = 0%Z.
Proof.
  exists (fun _ => Some 1%Z), a_tree, (lit "/p"), script, (some_args "" "" "hc/mac.cmake"). do 2 eexists.
  split; [exact tree_is_sane|]. split; [reflexivity|]. split; reflexivity.
Qed.

(** C81: the command is always the cmake found in the PATH ... *)
Theorem C81_command_is_cmake : forall status fs cwd argv0 a B d cmd rest,
  BuildDir cwd a B -> started (config_build status fs cwd argv0 a) = (d, cmd) :: rest ->
  d = B /\ exists r, cmd = lit "cmake " ++ r.
Proof.
  intros status fs cwd argv0 a B d cmd rest HB. apply build_dir in HB. subst B. exact (always_cmake status fs cwd argv0 a d cmd rest).
Qed.
(** ... not the one the host config names. *)
Theorem C81_hostconfig_cmake_refuted : exists fs cwd argv0 a d cmd text,
  Sane fs /\ fread fs (abspath cwd (hostconfig a)) = Some (lit "# cmake executable path: /opt/cmake/bin/cmake" ++ nl :: text) /\
  extract_cmake_location fs (abspath cwd (hostconfig a)) = Some (Some (lit "/opt/cmake/bin/cmake")) /\
  started (config_build fine fs cwd argv0 a) = [(d, cmd)] /\
  ~ exists r, cmd = lit "/opt/cmake/bin/cmake" ++ r.
Proof.
  exists a_tree, (lit "/p"), script, (some_args "" "" "hc/mac.cmake"). do 2 eexists. exists (lit "set(X 1)
").
  split; [exact tree_is_sane|]. split; [reflexivity|]. split; [reflexivity|]. split; [reflexivity|]. intros (r & X). discriminate X.
Qed.

Print Assumptions C76_outside_untouched.
Print Assumptions C77_fresh_directories.
Print Assumptions C78_command_words.
Print Assumptions C79_runs_cmake.
Print Assumptions C80_exit_status.
Print Assumptions C81_command_is_cmake.
Print Assumptions C76_missing_hostconfig.
Print Assumptions C78_command_words_refuted.
Print Assumptions C79_build_here_refuted.
Print Assumptions C79_install_above_refuted.
Print Assumptions C79_hostconfig_lost_refuted.
Print Assumptions C80_failure_reported_refuted.
Print Assumptions C81_hostconfig_cmake_refuted.
Print Assumptions C78_dependency_graph.
Print Assumptions C79_unreadable_hostconfig.
Print Assumptions C79_failed_run_keeps_build_refuted.
