(** The command line of /repo/scripts/aggregateOrSplit.py: main (lines 186-210) and the whole script.

    The parser is Python's argparse, which is not in /repo: the definitions follow
    ArgumentParser._parse_known_args of CPython 3.11.10 (Lib/argparse.py), specialised to the three
    parsers built here: the main one with -h and the two commands, "aggregate" with the positional
    arguments headers (nargs='+') and output and the option --include-paths (nargs='*'), "split"
    with two positional arguments.  Messages are not modelled; parser.error ends with status 2, the
    help with status 0, an uncaught exception with status 1. *)
From Coq Require Import Bool Ascii String ZArith List.
From Verif Require Import ModelPython ModelAggregate.
From Verif Require ModelArgparse.
Import ListNotations.

Notation dash := ModelArgparse.dash.
Notation equals := ModelArgparse.equals.

Inductive option_action := Help | IncludePaths.
(** Lines 187 and 201: -h and --help by default; line 194 adds --include-paths. *)
Definition help_options : list (str * option_action) := [(lit "-h", Help); (lit "--help", Help)].
Definition aggregate_options : list (str * option_action) := help_options ++ [(lit "--include-paths", IncludePaths)].

(** How a word is classified: 'A'; '--'; an option of this name, with the text attached to it (and whether "="
    stands between); something that looks like an option but is none. *)
Inductive kind :=
| Argument
| Dashes
| Known (a : option_action) (name : str) (explicit : option (bool * str))
| Unrecognised.
Definition word : Type := str * kind.

Section Options.
Context (options : list (str * option_action)).
(** _get_option_tuples *)
Definition option_tuples (s : str) : list kind :=
  if startswith s [dash; dash] then
    let (prefix, value) := split1 equals s in
    flat_map (fun o => if startswith (fst o) prefix
                       then [Known (snd o) (fst o) (match value with Some v => Some (true, v) | None => None end)] else []) options
  else
    flat_map (fun o => if eqs (fst o) (firstn 2 s) then [Known (snd o) (fst o) (Some (false, skipn 2 s))]
                       else if startswith (fst o) s then [Known (snd o) (fst o) None] else []) options.
(** _parse_optional; None: parser.error, the option is ambiguous *)
Definition parse_optional (s : str) : option kind :=
  match s with
  | [] => Some Argument
  | c :: r =>
      if negb (Ascii.eqb c dash) then Some Argument else
      match get s options with
      | Some a => Some (Known a s None)
      | None =>
          match r with
          | [] => Some Argument
          | _ =>
              match match split1 equals s with
                    | (name, Some v) => match get name options with Some a => Some (Known a name (Some (true, v))) | None => None end
                    | (_, None) => None
                    end with
              | Some k => Some k
              | None =>
                  match option_tuples s with
                  | [k] => Some k
                  | _ :: _ :: _ => None
                  | [] => if ModelArgparse.negative_number s then Some Argument
                          else if existsb (Ascii.eqb " ") s then Some Argument
                          else Some Unrecognised
                  end
              end
          end
      end
  end.
(** The loop that finds the option positions *)
Fixpoint classify (l : list str) : option (list word) :=
  match l with
  | [] => Some []
  | s :: l' =>
      if eqs s [dash; dash] then Some ((s, Dashes) :: map (fun t => (t, Argument)) l')
      else match parse_optional s with
           | None => None
           | Some k => match classify l' with Some r => Some ((s, k) :: r) | None => None end
           end
  end.
End Options.

(** The status with which -h or --help ends: 0, or 2 if text attached to it is not accepted
    (consume_optional; text attached to -h is read as further one-letter options). *)
Fixpoint help_cluster (sep : bool) (e : str) : Z :=
  match e with
  | [] => 2
  | c :: r =>
      if sep || Ascii.eqb c dash then 2
      else if Ascii.eqb c "h" then
        match r with
        | [] => 0
        | c' :: r' => if Ascii.eqb c' equals then help_cluster true r' else help_cluster false r
        end
      else 0
  end.
Definition help_status (name : str) (explicit : option (bool * str)) : Z :=
  match explicit with
  | None => 0
  | Some (sep, e) => if startswith name [dash; dash] then 2 else help_cluster sep e
  end.

Definition is_argument (w : word) : bool := match snd w with Argument => true | _ => false end.
Definition is_dashes (w : word) : bool := match snd w with Dashes => true | _ => false end.
Definition is_option (w : word) : bool := match snd w with Known _ _ _ | Unrecognised => true | _ => false end.

(** The words before the first option, and each option with the words up to the next one. *)
Fixpoint segments (l : list word) : list word * list (word * list word) :=
  match l with
  | [] => ([], [])
  | w :: l' =>
      let (r, ss) := segments l' in
      if is_option w then ([], (w, r) :: ss) else (w :: r, ss)
  end.

Fixpoint spanw (f : word -> bool) (l : list word) : list word * list word :=
  match l with
  | [] => ([], [])
  | w :: l' => if f w then let (a, b) := spanw f l' in (w :: a, b) else ([], l)
  end.

(** The positional arguments still to come: nargs='+' and nargs=None, with the regular expressions of
    _get_nargs_pattern, (-*A[A-]* ) and (-*A-* ). *)
Inductive spec := Plus | One.
Definition take_one (run : list word) : option (list word * list word) :=
  let (d, r) := spanw is_dashes run in
  match r with
  | [] => None
  | a :: r' => let (d', r'') := spanw is_dashes r' in Some (d ++ a :: d', r'')
  end.
Definition take_plus (run : list word) : option (list word) := if existsb is_argument run then Some run else None.
(** Both in sequence: the first takes all it can, so the second gets the last argument. *)
Definition take_plus_one (run : list word) : option (list word * list word) :=
  let (d, r) := spanw is_dashes (rev run) in
  match r with
  | [] => None
  | a :: r' => if existsb is_argument r' then Some (rev r', a :: rev d) else None
  end.

(** _match_arguments_partial and consume_positionals, on the words up to the next option: the words for each
    positional argument served, the ones still to come, and the words left over. *)
Definition positionals (p : list spec) (run : list word) : list (list word) * list spec * list word :=
  match p with
  | [Plus; One] =>
      match take_plus_one run with
      | Some (g1, g2) => ([g1; g2], [], [])
      | None => match take_plus run with Some g => ([g], [One], []) | None => ([], p, run) end
      end
  | [One; One] =>
      match take_one run with
      | Some (g1, r) => match take_one r with Some (g2, r') => ([g1; g2], [], r') | None => ([g1], [One], r) end
      | None => ([], p, run)
      end
  | [One] => match take_one run with Some (g, r) => ([g], [], r) | None => ([], p, run) end
  | _ => ([], p, run)
  end.

(** _get_values: the first "--" is removed. *)
Fixpoint remove_dashes (l : list str) : list str :=
  match l with
  | [] => []
  | s :: l' => if eqs s [dash; dash] then l' else s :: remove_dashes l'
  end.
Definition values (g : list word) : list str := remove_dashes (map fst g).

Record state := { left_ : list spec; got : list (list str); paths : option (list str); extras : bool }.
Definition place (run : list word) (s : state) : state :=
  let '(gs, l, ex) := positionals (left_ s) run in
  {| left_ := l; got := got s ++ map values gs; paths := paths s;
     extras := extras s || match ex with [] => false | _ => true end |}.
Definition with_paths (s : state) (ps : list str) : state := {| left_ := left_ s; got := got s; paths := Some ps; extras := extras s |}.
Definition with_extra (s : state) : state := {| left_ := left_ s; got := got s; paths := paths s; extras := true |}.

(** The main loop of _parse_known_args over the options, and what it returns or the status it ends with. *)
Fixpoint options_loop (ss : list (word * list word)) (s : state) : state + Z :=
  match ss with
  | [] => inl s
  | (w, run) :: ss' =>
      match snd w with
      | Known Help name explicit => inr (help_status name explicit)
      | Known IncludePaths _ (Some (_, v)) => options_loop ss' (place run (with_paths s [v]))
      | Known IncludePaths _ None =>
          let (vs, r) := spanw is_argument run in options_loop ss' (place r (with_paths s (map fst vs)))
      | _ => options_loop ss' (place run (with_extra s))
      end
  end.
Definition sub_parse (options : list (str * option_action)) (p : list spec) (argv : list str) : state + Z :=
  match classify options argv with
  | None => inr 2%Z
  | Some l =>
      let (r, ss) := segments l in
      match options_loop ss (place r {| left_ := p; got := []; paths := None; extras := false |}) with
      | inl s => match left_ s with [] => inl s | _ => inr 2%Z end
      | inr c => inr c
      end
  end.

(** What the script is asked to do. *)
Inductive command :=
| Aggregate (headers : list str) (output : str) (include_paths : list str)
| Split (aggregated_file output_dir : str).

(** Lines 190-194 and 203-208.  A single-valued argument whose only word is a second "--" becomes the empty list, and
    open or makedirs raises TypeError before anything is written: status 1. *)
Definition run_aggregate (cwd : str) (more : bool) (argv : list str) : command + Z :=
  match sub_parse aggregate_options [Plus; One] argv with
  | inr c => inr c
  | inl s =>
      if more || extras s then inr 2%Z
      else match got s with
           | [hs; [out]] => inl (Aggregate hs out (match paths s with Some ps => ps | None => [cwd] end))
           | _ => inr 1%Z
           end
  end.
(** Lines 197-199 and 208-209 *)
Definition run_split (more : bool) (argv : list str) : command + Z :=
  match sub_parse help_options [One; One] argv with
  | inr c => inr c
  | inl s =>
      if more || extras s then inr 2%Z
      else match got s with
           | [[f]; [d]] => inl (Split f d)
           | _ => inr 1%Z
           end
  end.

(** The main parser (lines 187-188 and 201): everything from the first argument on is the command and its words;
    [more]: unrecognised words stand before it. *)
Fixpoint main_loop (cwd : str) (l : list word) (more : bool) : command + Z :=
  match l with
  | [] => inr 2%Z
  | (w, k) :: l' =>
      match k with
      | Known _ name explicit => inr (help_status name explicit)
      | Unrecognised => main_loop cwd l' true
      | Argument =>
          if eqs w (lit "aggregate") then run_aggregate cwd more (map fst l')
          else if eqs w (lit "split") then run_split more (map fst l')
          else inr 2%Z
      | Dashes => inr 2%Z
      end
  end.
(** parser.parse_args() (line 201), on sys.argv[1:]: the command, or the exit status. *)
Definition parse_args (cwd : str) (argv : list str) : command + Z :=
  match classify help_options argv with
  | None => inr 2%Z
  | Some l => main_loop cwd l false
  end.

(** The whole script: exit status and files; lines 202-208. *)
Inductive result :=
| Exit (status : Z) (fs : fsys)
| UnspecifiedResult
| Running.
Definition of_run (r : run) : result :=
  match r with
  | Returned fs => Exit 0 fs
  | Raised fs => Exit 1 fs
  | Unspecified => UnspecifiedResult
  | StillRunning => Running
  end.
Definition script (fuel : nat) (fs : fsys) (cwd : str) (argv : list str) : result :=
  match parse_args cwd argv with
  | inl (Aggregate hs out ps) => of_run (aggregate_headers fuel fs cwd hs out ps)
  | inl (Split f d) => of_run (split_aggregated_file fs cwd f d)
  | inr c => Exit c fs
  end.
