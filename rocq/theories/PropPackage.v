(** C118: finding and linking the CMake package. *)
From Coq Require Import Bool Ascii String NArith List.
From Verif Require Import ModelPackage SpecPackage ProofPackage.
Import ListNotations.
Open Scope string_scope.
Open Scope list_scope.

(** find_package accepts exactly the requests that version 0.1.0 meets, for clients with the same pointer size. *)
Theorem C118_versions : forall installed client r, suitable installed client r = true <-> SameSize installed client /\ Asks r.
Proof. exact suitable_lemma. Qed.
Print Assumptions C118_versions.

(** The same version, written with fewer parts, is not accepted as exact. *)
Theorem C118_exact_refuted : exists v, Same v this /\ forall installed client, suitable installed client (Version v true) = false.
Proof. exact exact_lemma. Qed.
Print Assumptions C118_exact_refuted.

(** The names that give a client Shiva's include directories and language level. *)
Theorem C118_subdirectory_names : forall o n,
  link o Subdirectory n = Some Requirements <-> generates o = true /\ (n = "Shiva" \/ n = "Shiva::shiva").
Proof. exact subdirectory_lemma. Qed.
Print Assumptions C118_subdirectory_names.

Theorem C118_installed_names : forall o before n, link o (Found before) n = Some Requirements <->
  n = "Shiva::Shiva" /\ (enable_blt o = true -> enable_camp o = true -> exists c, camp_export o = Some c /\ In c before).
Proof. exact found_lemma. Qed.
Print Assumptions C118_installed_names.

(** No name works both for a subdirectory and for an installation. *)
Theorem C118_one_name_refuted : forall o o' before n,
  ~ (link o Subdirectory n = Some Requirements /\ link o' (Found before) n = Some Requirements).
Proof. exact no_common_lemma. Qed.
Print Assumptions C118_one_name_refuted.

(** Installed with camp, the package cannot be loaded by a client that did not find camp before. *)
Theorem C118_self_contained_refuted : exists o, generates o = true /\ (forall n, link o (Found []) n = None) /\
  exists n, link o Subdirectory n = Some Requirements.
Proof. exact camp_lemma. Qed.
Print Assumptions C118_self_contained_refuted.

(** With relative installation directories the installed tree can be moved: both the target and Shiva_INCLUDE_DIRS refer
    to where the headers then are. *)
Theorem C118_relocatable : forall i p', absolute_ (includedir i) = false -> absolute_ (libdir i) = false ->
  let here := p' ++ components (libdir i) ++ ["cmake"; "Shiva"] in
  include_dirs i here = p' ++ components (includedir i) /\ target_include_dir i here = p' ++ components (includedir i).
Proof. exact relocatable_lemma. Qed.
Print Assumptions C118_relocatable.

(** With an absolute CMAKE_INSTALL_INCLUDEDIR the target is right, but Shiva_INCLUDE_DIRS is never the directory of the headers. *)
Theorem C118_include_dirs_refuted : forall i, absolute_ (includedir i) = true -> absolute_ (libdir i) = false -> prefix i <> [] ->
  target_include_dir i (package_dir i) = destination i (includedir i) /\
  include_dirs i (package_dir i) <> destination i (includedir i).
Proof. exact absolute_lemma. Qed.
Print Assumptions C118_include_dirs_refuted.

Definition an_install (a : bool) : install :=
  {| prefix := ["opt"; "shiva"]; includedir := {| absolute_ := a; components := ["include"] |}; libdir := {| absolute_ := false; components := ["lib"; "x86_64-linux-gnu"] |} |}.
Example C118_hypotheses :
  suitable (Some 8%N) (Some 8%N) (Version ["0"; "1"] false) = true /\ suitable (Some 8%N) None (Version ["0"; "0"; "7"] false) = true /\
  suitable (Some 8%N) (Some 8%N) (Version ["0"; "2"] false) = false /\ suitable (Some 8%N) (Some 4%N) Any = false /\
  suitable None None (Version ["0"; "1"; "0"] true) = true /\
  suitable None None (Range ["0"; "1"] ["1"] false) = true /\ suitable None None (Range ["0"; "1"] ["1"] true) = false /\
  (exists o, generates o = true /\ link o (Found []) "Shiva::Shiva" = Some Requirements /\ link o (Found []) "Shiva::shiva" = Some NoSuchTarget /\
     link o (Found []) "Shiva" = Some LinkerOption /\ link o Subdirectory "Shiva::Shiva" = Some NoSuchTarget) /\
  include_dirs (an_install false) ["home"; "me"; "lib"; "x86_64-linux-gnu"; "cmake"; "Shiva"] = ["home"; "me"; "include"] /\
  include_dirs (an_install true) (package_dir (an_install true)) = ["opt"; "shiva"; "include"].
Proof.
  repeat (split; [vm_compute; reflexivity|]). split; [|split; vm_compute; reflexivity].
  exists {| enable_blt := false; enable_camp := true; camp_export := None |}. repeat split.
Qed.
