(** Vocabulary for the configuration script: paths, directories, command words. *)
From Coq Require Import Bool Ascii String ZArith List.
From Verif Require Import ModelPython ModelConfigBuild.
Import ListNotations.

(** [p] is [d] or lies below the directory [d]. *)
Definition Below (d p : str) : Prop :=
  p = d \/ exists s, p = (if eqs d [slash] then d else d ++ [slash]) ++ s.

(** File systems: nothing is both a file and a directory, a path is listed once, and what
    contains something is a directory. *)
Definition Sane (fs : fsys) : Prop :=
  NoDup (map fst (files fs)) /\
  In [slash] (dirs fs) /\
  (forall p, In p (dirs fs) -> ~ In p (map fst (files fs))) /\
  (forall d p, In p (dirs fs) \/ In p (map fst (files fs)) -> Below d p -> p <> d -> d <> [] -> In d (dirs fs)).

(** The platform name: the host config's file name without the suffix .cmake. *)
Definition Platform (cwd : str) (a : args) (name : str) : Prop :=
  exists dir base, abspath cwd (hostconfig a) = dir ++ slash :: base /\ ~ In slash base /\
    (base = name ++ lit ".cmake" \/ base = name /\ ~ exists n, base = n ++ lit ".cmake").
(** The build and install directories: as given, or named after platform and build type. *)
Definition BuildDir (cwd : str) (a : args) (B : str) : Prop :=
  buildpath a <> [] /\ B = abspath cwd (buildpath a) \/
  buildpath a = [] /\ exists n, Platform cwd a n /\ B = abspath cwd (lit "build-" ++ n ++ lit "-" ++ lower (buildtype a)).
Definition InstallDir (cwd : str) (a : args) (I : str) : Prop :=
  installpath a <> [] /\ I = abspath cwd (installpath a) \/
  installpath a = [] /\ exists n, Platform cwd a n /\ I = abspath cwd (lit "install-" ++ n ++ lit "-" ++ lower (buildtype a)).

(** A text the shell takes as one word, unchanged. *)
Definition Plain (s : str) : Prop := s <> [] /\ forall c, In c s -> plain c = true.
(** The arguments cmake is meant to get. *)
Definition words_if (b : bool) (l : list str) : list str := if b then l else [].
Definition intended (a : args) (cachefile install source : str) : list str :=
  [lit "cmake"; lit "-C"; cachefile; lit "-DCMAKE_BUILD_TYPE=" ++ buildtype a; lit "-DCMAKE_INSTALL_PREFIX=" ++ install]
  ++ words_if (export_commands a) [lit "-DCMAKE_EXPORT_COMPILE_COMMANDS=on"]
  ++ words_if (eclipse a) [lit "-G"; lit "Eclipse CDT4 - Unix Makefiles"]
  ++ words_if (xcode a) [lit "-G"; lit "Xcode"]
  ++ words_if (ninja a) [lit "-GNinja"]
  ++ words_if (graphviz a) [lit "--graphviz=dependency.dot"]
  ++ unknown a ++ [source].
