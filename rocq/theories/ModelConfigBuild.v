(** /repo/scripts/config-build.py (lines 13-189).

    The argument parser (lines 27-75) is in ModelArgparse; its result is the record [args], and
    [choices] is the predicate it guarantees.  Not modelled: messages printed, the mode bits of the command file
    (lines 172-174), what the commands themselves do. *)
From Coq Require Import Bool Ascii String ZArith List.
From Verif Require Import ModelPython.
Import ListNotations.

(** ** Python and the operating system *)
(** [p] is the directory [d] or lies below it. *)
Definition below (d p : str) : bool :=
  eqs p d || startswith p (if eqs d [slash] then d else d ++ [slash]).
(** shutil.rmtree, on an absolute normalised path: an exception unless [d] is a directory; the
    root directory loses its contents but cannot itself be removed.  Together with the new file
    system: did it return? *)
Definition rmtree (fs : fsys) (d : str) : fsys * bool :=
  if mem d (dirs fs) then
    let root := eqs d [slash] in
    ({| files := filter (fun f => negb (below d (fst f))) (files fs);
        dirs := filter (fun p => negb (below d p) || root && eqs p [slash]) (dirs fs) |}, negb root)
  else (fs, false).
(** os.makedirs(p), exist_ok false *)
Definition makedirs (fs : fsys) (p : str) : option fsys :=
  if fexists fs p then None else fmakedirs fs p.
(** os.path.abspath: a relative path needs os.getcwd(), which raises an exception once the
    directory the process runs in has been removed (also if one of that name was made again). *)
Definition abspath_in (cwd : option str) (p : str) : option str :=
  if startswith p [slash] then Some (normpath p)
  else match cwd with Some d => Some (abspath d p) | None => None end.
Definition gone (d : str) (cwd : option str) : option str :=
  match cwd with Some c => if below d c then None else Some c | None => None end.
(** os.path.split(p)[1] *)
Definition basename (p : str) : str := rev (fst (span (fun c => negb (Ascii.eqb c slash)) (rev p))).
(** str.endswith *)
Definition endswith (s e : str) : bool := startswith (rev s) (rev e).
(** str.lower, on ASCII letters *)
Definition lower (s : str) : str :=
  map (fun c => let n := N_of_ascii c in if (65 <=? n)%N && (n <=? 90)%N then ascii_of_N (n + 32)%N else c) s.

(** Words a POSIX shell splits a simple command into (POSIX.1-2017, XCU 2.2, 2.3 and 2.6.5), for
    command lines made of blanks, double-quoted strings and the characters below, which have no
    meaning to the shell; None for other command lines. *)
Definition plain (c : ascii) : bool :=
  let n := N_of_ascii c in
  ((97 <=? n) && (n <=? 122) || (65 <=? n) && (n <=? 90) || (48 <=? n) && (n <=? 57))%N
  || existsb (Ascii.eqb c) (lit "_./-+=:,@%").
Definition blank (c : ascii) : bool := Ascii.eqb c " " || Ascii.eqb c "009".
Definition more (cur : option str) (c : ascii) : option str :=
  match cur with Some w => Some (w ++ [c]) | None => Some [c] end.
Definition flush (cur : option str) (ws : list str) : list str :=
  match cur with Some w => w :: ws | None => ws end.
Fixpoint sh (quoted : bool) (cur : option str) (s : str) : option (list str) :=
  match s with
  | [] => if quoted then None else Some (flush cur [])
  | c :: r =>
      if quoted then
        if Ascii.eqb c quote then sh false cur r
        else if plain c || blank c then sh true (more cur c) r else None
      else if blank c then match sh false None r with Some ws => Some (flush cur ws) | None => None end
      else if Ascii.eqb c quote then sh true (match cur with Some w => Some w | None => Some [] end) r
      else if plain c then sh false (more cur c) r
      else None
  end.
Definition sh_words (s : str) : option (list str) := sh false None s.

(** ** The script *)
(** The parsed arguments (lines 29-69, 73). *)
Record args := {
  buildpath : str; installpath : str; buildtype : str; eclipse : bool; xcode : bool; export_commands : bool;
  hostconfig : str; ninja : bool; graphviz : bool; unknown : list str }.
(** choices (line 43) *)
Definition choices (a : args) : bool :=
  mem (buildtype a) [lit "Release"; lit "Debug"; lit "RelWithDebInfo"; lit "MinSizeRel"].

(** extract_cmake_location (lines 13-23); the outer None: an exception *)
Definition cmake_line_prefix : str := lit "# cmake executable path: ".
Fixpoint find_cmake (ls : list str) : option str :=
  match ls with
  | [] => None
  | l :: ls' => if startswith l cmake_line_prefix then Some (strip (nth 4 (splitc " " l) [])) else find_cmake ls'
  end.
Definition extract_cmake_location (fs : fsys) (p : str) : option (option str) :=
  if fexists fs p then match fread fs p with Some t => Some (find_cmake (lines t)) | None => None end
  else Some None.

(** platform_info (lines 84-86) *)
Definition platform_info (cachefile : str) : str :=
  let b := basename cachefile in
  if endswith b (lit ".cmake") then firstn (length b - 6) b else b.
(** The default directory names (lines 99, 119) *)
Definition default_name (kind : string) (cachefile : str) (a : args) : str :=
  joinc "-" [lit kind; platform_info cachefile; lower (buildtype a)].

(** cmakeline (lines 135-166): the location found in the host config is overwritten in line 136. *)
Definition option_if (b : bool) (s : str) : str := if b then s else [].
Definition cmakeline (a : args) (cachefile install scriptsdir : str) : str :=
  lit "cmake" ++ lit " -C " ++ cachefile
  ++ lit " -DCMAKE_BUILD_TYPE=" ++ buildtype a
  ++ lit " -DCMAKE_INSTALL_PREFIX=" ++ install
  ++ option_if (export_commands a) (lit " -DCMAKE_EXPORT_COMPILE_COMMANDS=on")
  ++ option_if (eclipse a) (lit " -G " ++ [quote] ++ lit "Eclipse CDT4 - Unix Makefiles" ++ [quote])
  ++ option_if (xcode a) (lit " -G Xcode")
  ++ option_if (ninja a) (lit " -GNinja")
  ++ option_if (graphviz a) (lit " --graphviz=dependency.dot")
  ++ (match unknown a with [] => [] | _ => lit " " ++ joinc " " (unknown a) end)
  ++ lit " " ++ scriptsdir ++ lit "/.. ".
Definition dot_line : str := lit "dot -Tpng dependency.dot -o dependency.png".

(** How a run ends: the file system without the effects of the commands, the commands started
    (directory, command line), and the exit status of the script. *)
Record ending := { after : fsys; started : list (str * str); code : Z }.
Definition raised (fs : fsys) : ending := {| after := fs; started := []; code := 1 |}.

(** [status] is the exit status of a command, None if it cannot be started (an exception in
    subprocess.call, caught in line 187).  The value of subprocess.call is not used. *)
Definition config_build (status : str -> option Z) (fs : fsys) (cwd argv0 : str) (a : args) : ending :=
  let scriptsdir := dirname (abspath cwd argv0) in                                   (* 81 *)
  let cachefile := abspath cwd (hostconfig a) in                                     (* 83 *)
  if negb (fexists fs cachefile) then raised fs else                                 (* 88 *)
  let build := abspath cwd (match buildpath a with
                            | [] => default_name "build" cachefile a
                            | p => p end) in                                         (* 94-101 *)
  let (fs, ok) := if fexists fs build then rmtree fs build else (fs, true) in        (* 103-106 *)
  if negb ok then raised fs else
  let here := gone build (Some cwd) in
  match makedirs fs build with                                                       (* 109 *)
  | None => raised fs
  | Some fs =>
  match match installpath a with
        | [] => Some (default_name "install" cachefile a)
        | p => abspath_in here p
        end with                                                                     (* 115-119 *)
  | None => raised fs
  | Some p =>
  match abspath_in here p with                                                       (* 121 *)
  | None => raised fs
  | Some install =>
  let (fs, ok) := if fexists fs install then rmtree fs install else (fs, true) in    (* 123-126 *)
  if negb ok then raised fs else
  match makedirs fs install with                                                     (* 129 *)
  | None => raised fs
  | Some fs =>
  match extract_cmake_location fs cachefile with                                     (* 135 *)
  | None => raised fs
  | Some _ =>
  let line := cmakeline a cachefile install scriptsdir in
  match fcreate fs (build ++ lit "/cmake_cmd") with                                  (* 169 *)
  | None => raised fs
  | Some fs =>
  let fs := fappend fs (build ++ lit "/cmake_cmd") line in                           (* 170 *)
  match status line with                                                             (* 180-189 *)
  | None => {| after := fs; started := [(build, line)]; code := 1 |}
  | Some _ =>
      if graphviz a then
        {| after := fs; started := [(build, line); (build, dot_line)];
           code := match status dot_line with None => 1 | Some _ => 0 end |}
      else {| after := fs; started := [(build, line)]; code := 0 |}
  end end end end end end end.
