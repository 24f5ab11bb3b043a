(** The command line of /repo/scripts/config-build.py (lines 27-75) and the whole script.

    The parser is Python's argparse, which is not in /repo: the definitions follow
    ArgumentParser.parse_known_args of CPython 3.11.10 (Lib/argparse.py), specialised to a parser
    without positional arguments, groups, subparsers and argument files.  Without positional
    arguments its loop over the option positions is a scan from left to right.  Messages are not
    modelled; parser.error ends with status 2, the help with status 0. *)
From Coq Require Import Bool Ascii String ZArith List.
From Verif Require Import ModelPython ModelConfigBuild.
Import ListNotations.

Inductive action := Help | BuildPath | InstallPath | BuildType | Eclipse | Xcode | ExportCommands | HostConfig | Ninja | Graphviz.
(** The option names in the order they are registered (lines 27-70); -h and --help are there by default. *)
Definition options : list (str * action) :=
  [ (lit "-h", Help); (lit "--help", Help);
    (lit "-bp", BuildPath); (lit "--buildpath", BuildPath);
    (lit "-ip", InstallPath); (lit "--installpath", InstallPath);
    (lit "-bt", BuildType); (lit "--buildtype", BuildType);
    (lit "-e", Eclipse); (lit "--eclipse", Eclipse);
    (lit "-x", Xcode); (lit "--xcode", Xcode);
    (lit "-ecc", ExportCommands); (lit "--exportcompilercommands", ExportCommands);
    (lit "-hc", HostConfig); (lit "--hostconfig", HostConfig);
    (lit "-n", Ninja); (lit "--ninja", Ninja);
    (lit "-gvz", Graphviz); (lit "--graphviz", Graphviz) ].
(** nargs: type=str takes one value, action="store_true" none. *)
Definition takes_value (a : action) : bool :=
  match a with BuildPath | InstallPath | BuildType | HostConfig => true | _ => false end.
(** Line 44 *)
Definition build_types : list str := [lit "Release"; lit "Debug"; lit "RelWithDebInfo"; lit "MinSizeRel"].
(** The default values *)
Definition no_args : args :=
  {| buildpath := []; installpath := []; buildtype := lit "Debug"; eclipse := false; xcode := false;
     export_commands := false; hostconfig := []; ninja := false; graphviz := false; unknown := [] |}.

Definition dash : ascii := "-".
Definition equals : ascii := "=".
(** _negative_number_matcher: ^-\d+$|^-\d*\.\d+$ *)
Definition digit (c : ascii) : bool := ((48 <=? N_of_ascii c) && (N_of_ascii c <=? 57))%N.
Definition at_end (s : str) : bool := eqs s [] || eqs s [nl].
Definition negative_number (s : str) : bool :=
  match s with
  | c :: r =>
      Ascii.eqb c dash &&
      match span digit r with
      | (d, rest) =>
          (match d with [] => false | _ => at_end rest end) ||
          match rest with
          | p :: r' => Ascii.eqb p "." &&
              (match span digit r' with ([], _) => false | (_, rest') => at_end rest' end)
          | [] => false
          end
      end
  | [] => false
  end.

(** How an argument is classified: 'A'; '--'; an option of this name, with the text attached to
    it (and whether "=" stands between); something that looks like an option but is none. *)
Inductive kind :=
| Argument
| Dashes
| Known (a : action) (name : str) (explicit : option (bool * str))
| Unrecognised.

(** _get_option_tuples *)
Definition option_tuples (s : str) : list kind :=
  if startswith s [dash; dash] then
    let (prefix, value) := split1 equals s in
    flat_map (fun o => if startswith (fst o) prefix
                       then [Known (snd o) (fst o) (match value with Some v => Some (true, v) | None => None end)] else []) options
  else
    flat_map (fun o => if eqs (fst o) (firstn 2 s) then [Known (snd o) (fst o) (Some (false, skipn 2 s))]
                       else if startswith (fst o) s then [Known (snd o) (fst o) None] else []) options.
(** _parse_optional; None: parser.error, the option is ambiguous *)
Definition parse_optional (s : str) : option kind :=
  match s with
  | [] => Some Argument
  | c :: r =>
      if negb (Ascii.eqb c dash) then Some Argument else
      match get s options with
      | Some a => Some (Known a s None)
      | None =>
          match r with
          | [] => Some Argument
          | _ =>
              match match split1 equals s with
                    | (name, Some v) => match get name options with Some a => Some (Known a name (Some (true, v))) | None => None end
                    | (_, None) => None
                    end with
              | Some k => Some k
              | None =>
                  match option_tuples s with
                  | [k] => Some k
                  | _ :: _ :: _ => None
                  | [] => if negative_number s then Some Argument
                          else if existsb (Ascii.eqb " ") s then Some Argument
                          else Some Unrecognised
                  end
              end
          end
      end
  end.
(** The loop that finds the option positions *)
Fixpoint classify (l : list str) : option (list (str * kind)) :=
  match l with
  | [] => Some []
  | s :: l' =>
      if eqs s [dash; dash] then Some ((s, Dashes) :: map (fun t => (t, Argument)) l')
      else match parse_optional s with
           | None => None
           | Some k => match classify l' with Some r => Some ((s, k) :: r) | None => None end
           end
  end.

(** The loop in consume_optional over options written together, as in -en; [single]: the name has
    one dash.  [Ignored]: the error "ignored explicit argument"; [Stop]: the rest is no option and
    is passed on with a dash; [Last]: the last option and the text attached to it. *)
Inductive cluster_result :=
| Ignored
| Stop (acts : list action) (extra : str)
| Last (acts : list action) (a : action) (explicit : option str).
Definition before (a : action) (r : cluster_result) : cluster_result :=
  match r with
  | Ignored => Ignored
  | Stop l x => Stop (a :: l) x
  | Last l b e => Last (a :: l) b e
  end.
Fixpoint cluster (a : action) (single sep : bool) (e : str) {struct e} : cluster_result :=
  if takes_value a then Last [] a (Some e)
  else match e with
       | [] => Ignored
       | c :: r =>
           if negb single then Ignored
           else if sep || Ascii.eqb c dash then Ignored
           else match get [dash; c] options with
                | None => Stop [a] (dash :: e)
                | Some a' =>
                    before a match r with
                             | [] => Last [] a' None
                             | c' :: r' => if Ascii.eqb c' equals then cluster a' true true r' else cluster a' true false r
                             end
                end
       end.
Definition single_dash (name : str) : bool := negb (startswith name [dash; dash]).

(** take_action: the new namespace (and whether the host config has been given), or the status
    with which the script ends. *)
Definition space := (args * bool)%type.
Definition set (a : action) (v : str) (s : space) : space + Z :=
  let (n, seen) := s in
  match a with
  | Help => inr 0%Z
  | BuildPath => inl ({| buildpath := v; installpath := installpath n; buildtype := buildtype n; eclipse := eclipse n; xcode := xcode n;
      export_commands := export_commands n; hostconfig := hostconfig n; ninja := ninja n; graphviz := graphviz n; unknown := unknown n |}, seen)
  | InstallPath => inl ({| buildpath := buildpath n; installpath := v; buildtype := buildtype n; eclipse := eclipse n; xcode := xcode n;
      export_commands := export_commands n; hostconfig := hostconfig n; ninja := ninja n; graphviz := graphviz n; unknown := unknown n |}, seen)
  | BuildType => if mem v build_types then
      inl ({| buildpath := buildpath n; installpath := installpath n; buildtype := v; eclipse := eclipse n; xcode := xcode n;
      export_commands := export_commands n; hostconfig := hostconfig n; ninja := ninja n; graphviz := graphviz n; unknown := unknown n |}, seen)
      else inr 2%Z
  | Eclipse => inl ({| buildpath := buildpath n; installpath := installpath n; buildtype := buildtype n; eclipse := true; xcode := xcode n;
      export_commands := export_commands n; hostconfig := hostconfig n; ninja := ninja n; graphviz := graphviz n; unknown := unknown n |}, seen)
  | Xcode => inl ({| buildpath := buildpath n; installpath := installpath n; buildtype := buildtype n; eclipse := eclipse n; xcode := true;
      export_commands := export_commands n; hostconfig := hostconfig n; ninja := ninja n; graphviz := graphviz n; unknown := unknown n |}, seen)
  | ExportCommands => inl ({| buildpath := buildpath n; installpath := installpath n; buildtype := buildtype n; eclipse := eclipse n; xcode := xcode n;
      export_commands := true; hostconfig := hostconfig n; ninja := ninja n; graphviz := graphviz n; unknown := unknown n |}, seen)
  | HostConfig => inl ({| buildpath := buildpath n; installpath := installpath n; buildtype := buildtype n; eclipse := eclipse n; xcode := xcode n;
      export_commands := export_commands n; hostconfig := v; ninja := ninja n; graphviz := graphviz n; unknown := unknown n |}, true)
  | Ninja => inl ({| buildpath := buildpath n; installpath := installpath n; buildtype := buildtype n; eclipse := eclipse n; xcode := xcode n;
      export_commands := export_commands n; hostconfig := hostconfig n; ninja := true; graphviz := graphviz n; unknown := unknown n |}, seen)
  | Graphviz => inl ({| buildpath := buildpath n; installpath := installpath n; buildtype := buildtype n; eclipse := eclipse n; xcode := xcode n;
      export_commands := export_commands n; hostconfig := hostconfig n; ninja := ninja n; graphviz := true; unknown := unknown n |}, seen)
  end.
Fixpoint take (acts : list (action * str)) (s : space) : space + Z :=
  match acts with
  | [] => inl s
  | (a, v) :: acts' => match set a v s with inl s' => take acts' s' | inr c => inr c end
  end.
(** extras.append *)
Definition pass_on (w : str) (s : space) : space :=
  let (n, seen) := s in
  ({| buildpath := buildpath n; installpath := installpath n; buildtype := buildtype n; eclipse := eclipse n; xcode := xcode n;
      export_commands := export_commands n; hostconfig := hostconfig n; ninja := ninja n; graphviz := graphviz n;
      unknown := unknown n ++ [w] |}, seen).

(** The main loop, and the check that the required option has been given *)
Definition flags (l : list action) : list (action * str) := map (fun a => (a, [])) l.
Definition explicit_of (name : str) (a : action) (explicit : option (bool * str)) : cluster_result :=
  match explicit with
  | None => Last [] a None
  | Some (sep, e) => cluster a (single_dash name) sep e
  end.
Fixpoint consume (l : list (str * kind)) (s : space) {struct l} : args + Z :=
  match l with
  | [] => if snd s then inl (fst s) else inr 2%Z
  | (w, Known a name explicit) :: l' =>
      match explicit_of name a explicit with
      | Ignored => inr 2%Z
      | Stop acts x => match take (flags acts) s with inl s' => consume l' (pass_on x s') | inr c => inr c end
      | Last acts b (Some v) => match take (flags acts ++ [(b, v)]) s with inl s' => consume l' s' | inr c => inr c end
      | Last acts b None =>
          if takes_value b then
            match l' with
            | (v, Argument) :: l'' => match take (flags acts ++ [(b, v)]) s with inl s' => consume l'' s' | inr c => inr c end
            | _ => inr 2%Z
            end
          else match take (flags (acts ++ [b])) s with inl s' => consume l' s' | inr c => inr c end
      end
  | (w, _) :: l' => consume l' (pass_on w s)
  end.

(** parser.parse_known_args() (line 74), on sys.argv[1:]: the arguments, or the exit status. *)
Definition parse_known_args (argv : list str) : args + Z :=
  match classify argv with
  | None => inr 2%Z
  | Some l => consume l (no_args, false)
  end.

(** The whole script *)
Definition script_run (status : str -> option Z) (fs : fsys) (cwd argv0 : str) (argv : list str) : ending :=
  match parse_known_args argv with
  | inl a => config_build status fs cwd argv0 a
  | inr c => {| after := fs; started := []; code := c |}
  end.
