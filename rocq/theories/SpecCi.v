(** Vocabulary for the continuous integration scripts. *)
From Coq Require Import Bool Ascii String ZArith List.
From Verif Require Import ModelPython ModelConfigBuild ModelCi.
Import ListNotations.

(** [o] is part of [s]. *)
Definition Part (o s : str) : Prop := exists a b, s = a ++ o ++ b.
(** An option of the job: somewhere in the arguments, separated by spaces. *)
Definition Asked (args : list str) (o : string) : Prop := Part (lit o) (joinc " " args).
(** The commands whose failure a job may ignore: printing the environment, and copying the
    coverage report. *)
Definition Unchecked (ev : event) : Prop := exists rest, words ev = lit "env" :: rest \/ words ev = lit "cp" :: rest.
Definition Fine (ev : event) : Prop := result ev = 0%Z \/ Unchecked ev.
(** A command that ran in the build directory and succeeded. *)
Definition Passed (ws : list str) (ev : event) : Prop :=
  words ev = ws /\ at_dir ev = lit "/tmp/build" /\ result ev = 0%Z.
(** What each option asks for. *)
Definition request (o : string) (ws : list str) : Prop :=
  o = "--test-code-style"%string /\ ws = map lit ["ctest"; "--output-on-failure"; "-R"; "testUncrustifyCheck"]%string \/
  o = "--test-doxygen"%string /\ ws = map lit ["ctest"; "--output-on-failure"; "-R"; "testDoxygenCheck"]%string \/
  o = "--code-checks"%string /\ ws = map lit ["ctest"; "--output-on-failure"; "-R"; "testCppCheck|testClangTidy"]%string \/
  o = "--code-coverage"%string /\ ws = map lit ["make"; "shiva_coverage"]%string \/
  o = "--build-exe"%string /\ ws = map lit
    ["ctest"; "--output-on-failure"; "-E"; "testUncrustifyCheck|testDoxygenCheck|testCppCheck|testClangTidy"]%string.

(** A text that stays one word, or none if empty. *)
Definition Unsplit (s : str) : Prop := forall c, In c s -> c <> " "%char /\ c <> "009"%char /\ c <> "010"%char.
(** Lists of complete docker options. *)
Inductive Options : list str -> Prop :=
| no_options : Options []
| option_eq o v r : ~ In "="%char o -> startswith o (lit "e") = false -> startswith o (lit "-env") = false -> Options r -> Options ((lit "-" ++ o ++ lit "=" ++ v) :: r)
| option_gpus v r : Options r -> Options (lit "--gpus" :: v :: r).
(** The words of a text, separated by spaces, tabs or newlines, with any of these around. *)
Definition Blank (c : ascii) : Prop := c = " "%char \/ c = "009"%char \/ c = "010"%char.
Inductive Words : str -> list str -> Prop :=
| no_word b : Forall Blank b -> Words b []
| last_word b w : Forall Blank b -> w <> [] -> Unsplit w -> Words (b ++ w) [w]
| a_word b w c r ws : Forall Blank b -> w <> [] -> Unsplit w -> Blank c -> Words r ws -> Words (b ++ w ++ c :: r) (w :: ws).

(** The commands a successful job has run in the build directory, in order. *)
Definition make_all (nproc : str) : list str := map lit ["make"; "-j"]%string ++ word [V nproc] ++ [lit "VERBOSE=1"].
Definition ctest (flag tests : string) : list str := map lit ["ctest"; "--output-on-failure"; flag; tests]%string.
Definition commands (nproc : str) (args : list str) : list (list str) :=
  if asks args "--test-code-style" then [ctest "-R" "testUncrustifyCheck"]
  else if asks args "--test-doxygen" then [ctest "-R" "testDoxygenCheck"]
  else if asks args "--code-checks" then [ctest "-R" "testCppCheck|testClangTidy"]
  else (if asks args "--code-coverage" then
          [make_all nproc; map lit ["make"; "shiva_coverage"]%string;
           map lit ["cp"; "-r"; "/tmp/build/shiva_coverage.info.cleaned"; "/tmp/Shiva/shiva_coverage.info.cleaned"]%string]
        else [])
       ++ (if asks args "--build-exe" then
             make_all nproc :: (if asks args "--disable-unit-tests" then []
                                else [ctest "-E" "testUncrustifyCheck|testDoxygenCheck|testCppCheck|testClangTidy"])
           else []).
(** Ran in the build directory and succeeded, or its failure is ignored. *)
Definition Ran (ws : list str) (ev : event) : Prop := words ev = ws /\ at_dir ev = lit "/tmp/build" /\ Fine ev.

(** The directory of a script called [p]; [f] is its file name. *)
Inductive ScriptDir : str -> str -> Prop :=
| script_in d c f : c <> "/"%char -> ~ In "/"%char f -> ScriptDir ((d ++ [c]) ++ "/"%char :: f) (d ++ [c])
| script_here f : ~ In "/"%char f -> ScriptDir f (lit ".").

(** A world in which python3 runs the configuration script (C76-C81) on the file system [fs], with
    [cm] the exit status of the commands that script starts. *)
Definition configuring (cm : str -> option Z) (fs : fsys) (rest : world) : world :=
  fun past d ws =>
  match ws with
  | [p; s; _; hc; _; bt; _; bp; _; ip; x] =>
      if eqs p (lit "python3") then
        code (config_build cm fs d s
          {| buildpath := bp; installpath := ip; buildtype := bt; eclipse := false; xcode := false; export_commands := false;
             hostconfig := hc; ninja := false; graphviz := false; unknown := [x] |})
      else rest past d ws
  | _ => rest past d ws
  end.

(** ** CMake *)
(** A variable that if() takes for true: given, and not one of the false constants. *)
Definition FalseConstant (s : str) : Prop :=
  In (upper s) (map lit [""; "0"; "OFF"; "NO"; "FALSE"; "N"; "IGNORE"; "NOTFOUND"]%string) \/
  exists p, upper s = p ++ lit "-NOTFOUND".
Definition Enabled (v : dict str) (x : string) : Prop := exists s, get (lit x) v = Some s /\ ~ FalseConstant s.
(** A version number with first part [a] and second part [b]. *)
Definition Version (s a b : str) : Prop :=
  ~ In "."%char a /\ ~ In "."%char b /\ (s = a ++ lit "." ++ b \/ exists r, s = a ++ lit "." ++ b ++ lit "." ++ r).

(** The files test*.cpp below /repo/tests. *)
Definition test_sources : list string :=
  ["common/testCArray.cpp"; "common/testIndexTypes.cpp"; "common/testNestedSequenceUtilities.cpp"; "common/testSequenceUtilities.cpp";
   "common/testShivaErrorHandling.cpp"; "discretizations/finiteElementMethod/testParentElement.cpp"; "functions/testLagrangeBasis.cpp";
   "functions/testQuadrature.cpp"; "functions/testSpacing.cpp"; "geometry/mapping/testLinearTransform.cpp"; "geometry/mapping/testScaling.cpp";
   "geometry/mapping/testUniformScaling.cpp"; "geometry/shapes/testInterpolatedShape.cpp"; "geometry/shapes/testNCube.cpp";
   "geometry/shapes/testNSimplex.cpp"]%string.
