(** /repo/scripts/aggregateOrSplit.py: HeaderFileManager (lines 5-183).

    Not modelled: messages printed, the dictionary [dependents] (lines 56-60, never read), Python's
    recursion limit.  The argument parser (lines 186-210) is in ModelAggregateCli. *)
From Coq Require Import Bool Ascii String NArith Arith List.
From Verif Require Import ModelPython.
Import ListNotations.

(** How a run of the script ends. *)
Inductive run :=
| Returned (fs : fsys)
| Raised (fs : fsys)     (* uncaught exception; what had been written by then *)
| Unspecified            (* reads a file while that file is being rewritten *)
| StillRunning.          (* not finished within the given number of loop iterations *)

(** The name group of the re.match of lines 34-36 and 129: #include, white space, a name in
    double quotes. *)
Definition include_match (line : str) : option str :=
  match eat (lit "#include") line with
  | None => None
  | Some r =>
      match span isspace r with
      | ([], _) => None
      | (_, q :: r2) =>
          if Ascii.eqb q quote then
            match span (fun c => negb (Ascii.eqb c quote)) r2 with
            | ([], _) => None
            | (_, []) => None
            | (name, _ :: _) => Some name
            end
          else None
      | (_, []) => None
      end
  end.

Definition lower (c : ascii) : ascii :=
  let n := N_of_ascii c in if ((65 <=? n) && (n <=? 90))%N then ascii_of_N (n + 32) else c.
(** re.match(r'#pragma\s+once', line, re.IGNORECASE), line 130 *)
Definition pragma_once_match (line : str) : bool :=
  match eat (lit "#pragma") (map lower line) with
  | None => false
  | Some r => match span isspace r with
              | ([], _) => false
              | (_, r2) => startswith r2 (lit "once")
              end
  end.

(** Line 11 *)
Definition config_file : str := lit "ShivaConfig.hpp".

(** resolve_path, lines 62-85.  [fexists] takes an absolute normalised path, hence [abspath]
    where the code relies on the current directory; steps 1 and 2 look for the same file. *)
Fixpoint first_candidate (fs : fsys) (cwd : str) (cands : list str) : option str :=
  match cands with
  | [] => None
  | c :: cs => if fexists fs (abspath cwd c) then Some (normpath c) else first_candidate fs cwd cs
  end.
Definition resolve_path (fs : fsys) (cwd included_file base_path : str) (include_paths : list str) : option str :=
  first_candidate fs cwd
    (join base_path included_file :: normpath (join base_path included_file)
     :: map (fun include_path => normpath (join include_path included_file)) include_paths).

(** A set of strings as a list without duplicates. *)
Definition set_add (x : str) (s : list str) : list str := if mem x s then s else s ++ [x].
Fixpoint add_dep (h r : str) (deps : dict (list str)) : dict (list str) :=
  match deps with
  | [] => []
  | (k, s) :: d => if eqs h k then (k, set_add r s) :: d else (k, s) :: add_dep h r d
  end.

(** The loop over the lines of an open header, lines 33-52; [rec] is the recursive call.  An
    exception raised inside the loop is caught at line 53 and ends the loop. *)
Fixpoint scan (fs : fsys) (cwd : str) (include_paths : list str)
    (rec : str -> dict (list str) -> option (dict (list str)))
    (header : str) (ls : list str) (deps : dict (list str)) : option (dict (list str)) :=
  match ls with
  | [] => Some deps
  | line :: ls' =>
      match include_match line with
      | None => scan fs cwd include_paths rec header ls' deps
      | Some included_file =>
          if eqs included_file config_file then scan fs cwd include_paths rec header ls' deps
          else match resolve_path fs cwd included_file (dirname header) include_paths with
               | None => Some deps
               | Some resolved =>
                   let resolved := abspath cwd resolved in
                   let deps := add_dep header resolved deps in
                   if fexists fs resolved then
                     match rec resolved deps with
                     | None => None
                     | Some deps => scan fs cwd include_paths rec header ls' deps
                     end
                   else Some deps
               end
      end
  end.

(** create_dependency_graph, lines 13-54.  None: deeper than [fuel] (does not happen, see
    ProofAggregate: each call enters a new file). *)
Fixpoint create_dependency_graph (fuel : nat) (fs : fsys) (cwd : str) (include_paths : list str)
    (header : str) (deps : dict (list str)) : option (dict (list str)) :=
  match fuel with
  | O => None
  | S fuel' =>
      let header := abspath cwd header in
      if has header deps then Some deps
      else
        let deps := deps ++ [(header, [])] in
        match fread fs header with
        | None => Some deps
        | Some text =>
            scan fs cwd include_paths (create_dependency_graph fuel' fs cwd include_paths)
              header (lines text) deps
        end
  end.
Definition graph_fuel (fs : fsys) : nat := S (List.length (files fs) + List.length (dirs fs)).

(** Lines 143-145 *)
Fixpoint create_graphs (fs : fsys) (cwd : str) (include_paths : list str) (headers : list str)
    (deps : dict (list str)) : option (dict (list str)) :=
  match headers with
  | [] => Some deps
  | h :: hs =>
      match create_dependency_graph (graph_fuel fs) fs cwd include_paths (abspath cwd h) deps with
      | None => None
      | Some deps => create_graphs fs cwd include_paths hs deps
      end
  end.

(** One iteration of the while loop of generate_header_list, lines 94-109: the keys without
    remaining dependencies are appended, then deleted with all mentions of them. *)
Definition ready (remaining : dict (list str)) : list str :=
  map fst (filter (fun e => match snd e with [] => true | _ => false end) remaining).
Fixpoint append_unique (cwd : str) (keys unique_files included_list : list str) : list str * list str :=
  match keys with
  | [] => (unique_files, included_list)
  | k :: ks =>
      let abs_key := abspath cwd k in
      if mem abs_key unique_files then append_unique cwd ks unique_files included_list
      else append_unique cwd ks (unique_files ++ [abs_key]) (included_list ++ [abs_key])
  end.
Definition delete (included_key : str) (remaining : dict (list str)) : dict (list str) :=
  map (fun e => (fst e, filter (fun d => negb (eqs included_key d)) (snd e)))
    (filter (fun e => negb (eqs included_key (fst e))) remaining).
Definition delete_all (keys : list str) (remaining : dict (list str)) : dict (list str) :=
  fold_left (fun r k => delete k r) keys remaining.

(** generate_header_list, lines 88-111 *)
Fixpoint generate_header_list (fuel : nat) (cwd : str) (remaining : dict (list str))
    (unique_files included_list : list str) : option (list str) :=
  match remaining with
  | [] => Some included_list
  | _ =>
      match fuel with
      | O => None
      | S fuel' =>
          let local_included := ready remaining in
          let (unique_files, included_list) := append_unique cwd local_included unique_files included_list in
          generate_header_list fuel' cwd (delete_all local_included remaining) unique_files included_list
      end
  end.

(** Lines 128-139: what is written for one line. *)
Definition output_line (line : str) : str :=
  match include_match line with
  | Some _ => lit "// " ++ strip line ++ [nl]
  | None => if pragma_once_match line then lit "// " ++ strip line ++ [nl] else line
  end.
(** Lines 127-140 *)
Definition output_header (header_path text : str) : str :=
  nl :: nl :: lit "// ===== Start of " ++ header_path ++ lit " =====" ++ [nl]
  ++ concat (map output_line (lines text))
  ++ lit "// ===== End of " ++ header_path ++ lit " =====" ++ [nl].

(** The loop over included_list with process_header, lines 117-126 and 154-155.  [out] is the
    absolute path of the output file, open for writing all along. *)
Fixpoint process_headers (fs : fsys) (cwd out : str) (headers included : list str) : run :=
  match headers with
  | [] => Returned fs
  | h :: hs =>
      let header_path := abspath cwd h in
      if mem header_path included then process_headers fs cwd out hs included
      else if eqs header_path out then Unspecified
      else match fread fs header_path with
           | None => Raised fs
           | Some text =>
               process_headers (fappend fs out (output_header header_path text)) cwd out hs (included ++ [header_path])
           end
  end.

(** aggregate_headers, lines 113-155.  [fuel] bounds the iterations of the while loop only. *)
Definition aggregate_headers (fuel : nat) (fs : fsys) (cwd : str) (headers : list str)
    (output_file : str) (include_paths : list str) : run :=
  let out := abspath cwd output_file in
  match fcreate fs out with
  | None => Raised fs
  | Some fs =>
      match create_graphs fs cwd include_paths headers [] with
      | None => StillRunning
      | Some deps =>
          match generate_header_list fuel cwd deps [] [] with
          | None => StillRunning
          | Some included_list => process_headers fs cwd out included_list []
          end
      end
  end.

(** (.+) ===== at the start of [r]: the longest group, here possibly empty *)
Fixpoint greedy (r : str) : option str :=
  match r with
  | [] => None
  | c :: r' =>
      if Ascii.eqb c nl then None
      else match greedy r' with
           | Some g => Some (c :: g)
           | None => if startswith r (lit " =====") then Some [] else None
           end
  end.
(** re.match(r'// ===== Start of (.+) =====', line).group(1), and End, lines 167-168 *)
Definition marker_match (head line : str) : option str :=
  match eat head line with
  | Some (c :: r) => if Ascii.eqb c nl then None
                     else match greedy r with Some g => Some (c :: g) | None => None end
  | _ => None
  end.
Definition start_match : str -> option str := marker_match (lit "// ===== Start of ").
Definition end_match : str -> option str := marker_match (lit "// ===== End of ").

(** The loop of split_aggregated_file, lines 166-180; [output] is the absolute path of the file
    open for writing, [agg] that of the file being read. *)
Fixpoint split_lines (fs : fsys) (cwd output_dir agg : str) (output : option str) (ls : list str) : run :=
  match ls with
  | [] => Returned fs
  | line :: ls' =>
      match start_match line with
      | Some current_file =>
          let p := abspath cwd (join output_dir current_file) in
          match fcreate fs p with
          | None => Raised fs
          | Some fs' => if eqs p agg then Unspecified
                        else split_lines fs' cwd output_dir agg (Some p) ls'
          end
      | None =>
          match end_match line with
          | Some _ => split_lines fs cwd output_dir agg None ls'
          | None =>
              match output with
              | Some p => split_lines (fappend fs p line) cwd output_dir agg (Some p) ls'
              | None => split_lines fs cwd output_dir agg None ls'
              end
          end
      end
  end.

(** split_aggregated_file, lines 157-183 *)
Definition split_aggregated_file (fs : fsys) (cwd aggregated_file output_dir : str) : run :=
  match output_dir with
  | [] => Raised fs
  | _ =>
      match fmakedirs fs (abspath cwd output_dir) with
      | None => Raised fs
      | Some fs =>
          match fread fs (abspath cwd aggregated_file) with
          | None => Raised fs
          | Some text => split_lines fs cwd output_dir (abspath cwd aggregated_file) None (lines text)
          end
      end
  end.
