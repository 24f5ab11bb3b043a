(** /repo/scripts/compare_uncrustify.py.  A configuration is given by the text of its file; the
    usage check (lines 44-46) and a file that cannot be read are not modelled. *)
From Coq Require Import Bool Ascii String NArith List.
From Verif Require Import ModelPython.
Import ListNotations.

(** What one line adds to the dictionary, lines 7-16; line 18 is unreachable, since
    split('=', 1) gives one or two parts. *)
Definition parse_line (line : str) : option (str * str) :=
  let line := strip line in
  match line with
  | [] => None
  | _ => if startswith line (lit "#") then None
         else match split1 "=" line with
              | (key, Some value) => Some (strip key, strip (hd [] (splitc "#" value)))
              | (key, None) => Some (strip key, [])
              end
  end.
(** read_uncrustify_config, lines 3-19 *)
Definition read_uncrustify_config (text : str) : dict str :=
  fold_left (fun config line => match parse_line line with
                                | Some (k, v) => put k v config
                                | None => config
                                end) (lines text) [].

Definition settings := dict (option str * option str).
(** Lines 28-35 *)
Definition compare_first (config2 : dict str) (acc : dict str * settings) (e : str * str) : dict str * settings :=
  let (key, value) := e in
  let (common, different) := acc in
  match get key config2 with
  | Some value2 => if eqs value2 value then (put key value common, different)
                   else (common, put key (Some value, Some value2) different)
  | None => (common, put key (Some value, None) different)
  end.
(** Lines 37-39 *)
Definition compare_second (config1 : dict str) (different : settings) (e : str * str) : settings :=
  let (key, value) := e in
  if has key config1 then different else put key (None, Some value) different.
(** compare_config_files, lines 21-41 *)
Definition compare_config_files (text1 text2 : str) : dict str * settings :=
  let config1 := read_uncrustify_config text1 in
  let config2 := read_uncrustify_config text2 in
  let (common, different) := fold_left (compare_first config2) config1 ([], []) in
  (common, fold_left (compare_second config1) config2 different).

(** The standard output of the script, lines 51-60. *)
Definition report (text1 text2 : str) : str :=
  let (common, different) := compare_config_files text1 text2 in
  lit "Common Settings:" ++ [nl]
  ++ concat (map (fun e => fst e ++ lit " = " ++ snd e ++ [nl]) common)
  ++ [nl] ++ lit "Different Settings:" ++ [nl]
  ++ concat (map (fun e => match snd e with
                           | (Some v1, Some v2) => fst e ++ lit ": " ++ v1 ++ lit " != " ++ v2 ++ [nl]
                           | _ => []
                           end) different).
