(** The CMake package: /repo/CMakeLists.txt lines 41-52 and 73-76 (target Shiva, its alias, the link to camp) and 99-125
    (installation, export, version file), /repo/cmake/ShivaConfig.cmake.in; how a client finds and links it.

    find_package, install(EXPORT), configure_package_config_file and write_basic_package_version_file are CMake's and not
    in /repo; the definitions follow CMake 3.23 (cmFindPackageCommand.cxx, BasicConfigVersion-SameMajorVersion.cmake.in,
    CMakePackageConfigHelpers.cmake).  Not modelled: the search for the configuration file, components, the
    variables Shiva_VERSION_*. *)
From Coq Require Import Bool Ascii String NArith List.
Import ListNotations.
Open Scope string_scope.
Open Scope list_scope.

(** ** Versions *)
(** A version as written, "0.1.0": its parts, texts of digits. *)
Definition version := list string.
(** Lines 2 and 112-114: project(Shiva VERSION 0.1.0) *)
Definition package_version : version := ["0"; "1"; "0"].
Fixpoint number_from (acc : N) (s : string) : N :=
  match s with
  | EmptyString => acc
  | String c s' => number_from (acc * 10 + (N_of_ascii c - 48)) s'
  end.
Definition number : string -> N := number_from 0.
(** The parts as numbers; missing ones count as 0. *)
Definition part (v : version) (i : nat) : N := number (nth i v "0").
(** VERSION_LESS *)
Fixpoint less_from (a b : version) (i n : nat) : bool :=
  match n with
  | O => false
  | S n' => N.ltb (part a i) (part b i) || N.eqb (part a i) (part b i) && less_from a b (S i) n'
  end.
Definition version_less (a b : version) : bool := less_from a b 0 4.
Definition version_less_equal (a b : version) : bool := negb (version_less b a).
(** STREQUAL of the texts *)
Fixpoint same_text (a b : version) : bool :=
  match a, b with
  | [], [] => true
  | x :: a', y :: b' => String.eqb x y && same_text a' b'
  | _, _ => false
  end.

(** The version arguments of find_package(Shiva ...). *)
Inductive request :=
| Any                                            (* find_package(Shiva) *)
| Version (v : version) (exact : bool)           (* find_package(Shiva v) and find_package(Shiva v EXACT) *)
| Range (lo hi : version) (including : bool).    (* find_package(Shiva lo...hi) and find_package(Shiva lo...<hi) *)

(** ShivaConfigVersion.cmake, COMPATIBILITY SameMajorVersion: PACKAGE_VERSION_COMPATIBLE and PACKAGE_VERSION_EXACT. *)
Definition compatible (r : request) : bool :=
  match r with
  | Any => N.eqb 0 (part package_version 0)
  | Version v _ => if version_less package_version v then false else N.eqb (part v 0) (part package_version 0)
  | Range lo hi including =>
      if version_less package_version lo then false
      else if negb (N.eqb (part lo 0) (part package_version 0)) then false
      else if including then N.eqb (part hi 0) (part package_version 0) && version_less_equal package_version hi
      else version_less_equal hi ["1"] && version_less package_version hi
  end.
Definition is_exact (r : request) : bool :=
  match r with
  | Version v _ => if version_less package_version v then false else same_text v package_version
  | _ => false
  end.
(** PACKAGE_VERSION_UNSUITABLE: the sizes of a pointer where Shiva was installed and at the client, if known. *)
Definition unsuitable (installed client : option N) : bool :=
  match installed, client with
  | Some a, Some b => negb (N.eqb a b)
  | _, _ => false
  end.
(** cmFindPackageCommand::CheckVersionFile *)
Definition suitable (installed client : option N) (r : request) : bool :=
  negb (unsuitable installed client) &&
  match r with
  | Any => true
  | Version _ exact => is_exact r || negb exact && compatible r
  | Range _ _ _ => compatible r
  end.

(** ** Targets *)
(** The options that matter here; [camp_export]: the name under which camp's own installation exports its target, or None if
    it does not export it. *)
Record options := { enable_blt : bool; enable_camp : bool; camp_export : option string }.
(** Lines 56-76: camp is linked inside the BLT branch only. *)
Definition links_camp (o : options) : bool := enable_blt o && enable_camp o.
(** install(EXPORT) (lines 122-125) requires every linked target to be exported; otherwise generating fails. *)
Definition generates (o : options) : bool := negb (links_camp o) || match camp_export o with Some _ => true | None => false end.

(** A client: add_subdirectory(shiva), or find_package(Shiva) after some targets were found already. *)
Inductive client :=
| Subdirectory
| Found (before : list string).
(** The targets a client can link, None if find_package does not find the package or generating the project failed:
    lines 41-42 with add_subdirectory; ShivaTargets.cmake with NAMESPACE Shiva:: otherwise, which checks that the targets
    referred to exist (ShivaConfig.cmake.in line 6: find_dependency is commented out). *)
Definition targets (o : options) (c : client) : option (list string) :=
  if negb (generates o) then None
  else match c with
       | Subdirectory => Some (["Shiva"; "Shiva::shiva"] ++ (if links_camp o then ["camp"] else []))
       | Found before =>
           if links_camp o then
             match camp_export o with
             | Some n => if existsb (String.eqb n) before then Some ("Shiva::Shiva" :: before) else None
             | None => None
             end
           else Some ("Shiva::Shiva" :: before)
       end.
(** The targets that carry Shiva's include directories and C++17. *)
Definition shiva_targets (c : client) : list string :=
  match c with
  | Subdirectory => ["Shiva"; "Shiva::shiva"]
  | Found _ => ["Shiva::Shiva"]
  end.
(** target_link_libraries(app PRIVATE n): Shiva's usage requirements, some other target, the linker option -ln, or an error
    at configure time because a name with "::" must be a target (policy CMP0028). *)
Inductive linked := Requirements | OtherTarget | LinkerOption | NoSuchTarget.
Fixpoint has_colons (s : string) : bool :=
  match s with
  | String ":" (String ":" _) => true
  | String _ s' => has_colons s'
  | EmptyString => false
  end.
Definition link (o : options) (c : client) (n : string) : option linked :=
  match targets o c with
  | None => None
  | Some ts => Some (if existsb (String.eqb n) ts
                     then if existsb (String.eqb n) (shiva_targets c) then Requirements else OtherTarget
                     else if has_colons n then NoSuchTarget else LinkerOption)
  end.

(** ** Directories *)
(** A path below a root, by its components; [absolute_]: written with a leading slash. *)
Record dir := { absolute_ : bool; components : list string }.
(** CMAKE_INSTALL_INCLUDEDIR and CMAKE_INSTALL_LIBDIR (GNUInstallDirs), as set by the user, and the prefix. *)
Record install := { prefix : list string; includedir : dir; libdir : dir }.
(** Where install(... DESTINATION d) puts files: below the prefix unless d is absolute. *)
Definition destination (i : install) (d : dir) : list string :=
  if absolute_ d then components d else prefix i ++ components d.
(** The directory of ShivaConfig.cmake (lines 120-121) *)
Definition package_dir (i : install) : list string := destination i (libdir i) ++ ["cmake"; "Shiva"].
(** The number of steps up from a directory to one of its ancestors, and file(RELATIVE_PATH ...) in general: so many steps
    up and then down. *)
Fixpoint relative (from to : list string) : nat * list string :=
  match from, to with
  | x :: f, y :: t => if String.eqb x y then relative f t else (List.length from, to)
  | _, _ => (List.length from, to)
  end.
Fixpoint up (n : nat) (reversed : list string) : list string :=
  match n, reversed with
  | S n', _ :: r => up n' r
  | _, _ => reversed
  end.
Definition follow (here : list string) (r : nat * list string) : list string := rev (up (fst r) (rev here)) ++ snd r.
(** @PACKAGE_INIT@: PACKAGE_PREFIX_DIR, from the directory the configuration file is in when it is read. *)
Definition package_prefix_dir (i : install) (here : list string) : list string := follow here (relative (package_dir i) (prefix i)).
(** ShivaConfig.cmake.in line 12: Shiva_INCLUDE_DIRS = "${PACKAGE_PREFIX_DIR}/@CMAKE_INSTALL_INCLUDEDIR@"; a second slash makes
    no difference. *)
Definition include_dirs (i : install) (here : list string) : list string := package_prefix_dir i here ++ components (includedir i).
(** The include directory of the imported target: INSTALL_INTERFACE of lines 44-47, below _IMPORT_PREFIX if relative.
    ShivaTargets.cmake computes _IMPORT_PREFIX by stripping the destination from its own path if that is relative, and uses
    the prefix of the installation otherwise. *)
Definition import_prefix (i : install) (here : list string) : list string :=
  if absolute_ (libdir i) then prefix i
  else rev (up (List.length (components (libdir i)) + 2) (rev here)).
Definition target_include_dir (i : install) (here : list string) : list string :=
  if absolute_ (includedir i) then components (includedir i) else import_prefix i here ++ components (includedir i).
