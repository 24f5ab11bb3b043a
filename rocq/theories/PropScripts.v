(** Properties C58-C62 and C68-C70: the scripts. *)
From Coq Require Import Ascii String Relations List.
From Verif Require Import ModelPython ModelAggregate ModelUncrustify SpecAggregate SpecUncrustify
  ProofSplit ProofUncrustify ProofScripts.
Import ListNotations.

(** C58.  [fs1] is the file system once the output file has been opened, which empties it.
    Every file needed is a readable text other than the output, its includes resolve, and it
    does not include itself.  The output then is one section per needed file, included files
    first. *)
Theorem C58_aggregate : forall fs cwd headers output incs fs1, absolute cwd ->
  fcreate fs (abspath cwd output) = Some fs1 ->
  (forall p, Needed fs1 cwd incs headers p ->
     p <> abspath cwd output /\ (exists t, fread fs1 p = Some t) /\
     (forall line name, Directive fs1 p line name -> exists q, Resolves fs1 cwd incs p name q) /\
     ~ clos_trans str (Includes fs1 cwd incs) p p) ->
  exists l secs,
    (exists fuel0, forall fuel, fuel0 <= fuel ->
       aggregate_headers fuel fs cwd headers output incs = Returned (with_file fs (abspath cwd output) (concat secs))) /\
    NoDup l /\ (forall p, In p l <-> Needed fs1 cwd incs headers p) /\
    (forall p q, In p l -> Includes fs1 cwd incs p q -> Before q p l) /\
    Forall2 (fun p s => exists t, fread fs1 p = Some t /\ SectionOf p t s) l secs.
Proof. exact C58_lemma. Qed.
Print Assumptions C58_aggregate.

(** C59.  It terminates exactly if the directives it follows do not lead round in a circle. *)
Theorem C59_terminates_iff_acyclic : forall fs cwd headers output incs fs1, absolute cwd ->
  fcreate fs (abspath cwd output) = Some fs1 ->
  ((exists fuel, aggregate_headers fuel fs cwd headers output incs <> StillRunning) <->
   forall p, ReachedBy cwd (Follows fs1 cwd incs) headers p -> ~ clos_trans str (Follows fs1 cwd incs) p p).
Proof. exact C59_lemma. Qed.
Print Assumptions C59_terminates_iff_acyclic.

Theorem C59_terminates_refuted : exists fs cwd headers output incs, absolute cwd /\
  fcreate fs (abspath cwd output) <> None /\
  forall fuel, aggregate_headers fuel fs cwd headers output incs = StillRunning.
Proof. exact cyclic_lemma. Qed.
Print Assumptions C59_terminates_refuted.

(** C60.  Only files named in start markers change, and they are in the output directory if the
    names are relative and do not climb; the names aggregate writes are absolute. *)
Theorem C60_changes_only_named_files : forall fs cwd agg od text fs' p,
  fread fs (abspath cwd agg) = Some text ->
  split_aggregated_file fs cwd agg od = Returned fs' \/ split_aggregated_file fs cwd agg od = Raised fs' ->
  fread fs' p <> fread fs p ->
  exists line m rest, In line (lines text) /\ line = lit "// ===== Start of " ++ m ++ lit " =====" ++ rest /\
    p = abspath cwd (join od m).
Proof. exact C60_touch_lemma. Qed.
Print Assumptions C60_changes_only_named_files.

Theorem C60_relative_names_stay_inside : forall cwd od m, absolute cwd -> od <> [] -> StaysBelow m ->
  Inside (abspath cwd od) (abspath cwd (join od m)).
Proof. exact C60_inside_lemma. Qed.
Print Assumptions C60_relative_names_stay_inside.

Theorem C60_stays_inside_refuted : exists fs cwd headers output incs fuel fs2 od fs3 p t,
  aggregate_headers fuel fs cwd headers output incs = Returned fs2 /\
  split_aggregated_file fs2 cwd output od = Returned fs3 /\
  fread fs2 p = Some t /\ fread fs3 p <> Some t /\ ~ Inside (abspath cwd od) p.
Proof. exact outside_lemma. Qed.
Print Assumptions C60_stays_inside_refuted.

(** C61.  A file made of sections, and aggregate followed by split. *)
Theorem C61_split_sections : forall fs cwd agg od l secs (text : str -> str),
  absolute cwd -> od <> [] ->
  (forall d, In d (ancestors (abspath cwd od)) -> fread fs d = None) ->
  fread fs (abspath cwd agg) = Some (concat secs) ->
  NoDup l -> Forall2 (fun p s => SectionOf p (text p) s) l secs ->
  (forall p, In p l -> absolute p /\ abspath cwd p = p /\ ~ In nl p /\ p <> abspath cwd agg /\
     ~ In p (dirs fs) /\ ~ In p (ancestors (abspath cwd od)) /\ In (dirname p) (dirs fs) /\ Splittable (text p)) ->
  exists fs', split_aggregated_file fs cwd agg od = Returned fs' /\
    (forall p, In p l -> exists b, fread fs' p = Some b /\ Body (text p) b) /\
    (forall q, ~ In q l -> fread fs' q = fread fs q).
Proof. exact C61_lemma. Qed.
Print Assumptions C61_split_sections.

Theorem C61_aggregate_then_split : forall fs cwd headers output incs fs1 od, absolute cwd -> od <> [] ->
  fcreate fs (abspath cwd output) = Some fs1 ->
  (forall p, Needed fs1 cwd incs headers p ->
     p <> abspath cwd output /\ (exists t, fread fs1 p = Some t /\ Splittable t) /\
     (forall line name, Directive fs1 p line name -> exists q, Resolves fs1 cwd incs p name q) /\
     ~ clos_trans str (Includes fs1 cwd incs) p p /\
     ~ In nl p /\ ~ In p (dirs fs) /\ In (dirname p) (dirs fs) /\ ~ In p (ancestors (abspath cwd od))) ->
  (forall d, In d (ancestors (abspath cwd od)) -> fread fs1 d = None) ->
  exists fuel fs2 fs3,
    aggregate_headers fuel fs cwd headers output incs = Returned fs2 /\
    split_aggregated_file fs2 cwd output od = Returned fs3 /\
    (forall p, Needed fs1 cwd incs headers p ->
       exists t b, fread fs p = Some t /\ fread fs3 p = Some b /\ Body t b) /\
    (forall q, ~ Needed fs1 cwd incs headers q -> fread fs3 q = fread fs2 q).
Proof. exact roundtrip_lemma. Qed.
Print Assumptions C61_aggregate_then_split.

Theorem C61_final_newline_needed_refuted : exists fs cwd headers output incs fuel fs2 od fs3 p t,
  aggregate_headers fuel fs cwd headers output incs = Returned fs2 /\
  split_aggregated_file fs2 cwd output od = Returned fs3 /\
  Needed fs cwd incs headers p /\ fread fs p = Some t /\
  (forall line, In line (lines t) -> ~ StartLine line /\ ~ EndLine line) /\
  forall b, Body t b -> fread fs3 p <> Some b.
Proof. exact newline_lemma. Qed.
Print Assumptions C61_final_newline_needed_refuted.

(** The hypotheses of C58 and C61 hold of two files, one including the other. *)
Example C58_C61_witness : absolute ex_cwd /\ fcreate plain (abspath ex_cwd (lit "/o/x")) = Some plain1 /\
  (forall p, Needed plain1 ex_cwd [] [lit "/s/a.hpp"] p ->
     p <> abspath ex_cwd (lit "/o/x") /\ (exists t, fread plain1 p = Some t /\ Splittable t) /\
     (forall line name, Directive plain1 p line name -> exists q, Resolves plain1 ex_cwd [] p name q) /\
     ~ clos_trans str (Includes plain1 ex_cwd []) p p /\
     ~ In nl p /\ ~ In p (dirs plain) /\ In (dirname p) (dirs plain) /\ ~ In p (ancestors (abspath ex_cwd (lit "/o/d")))) /\
  (forall d, In d (ancestors (abspath ex_cwd (lit "/o/d"))) -> fread plain1 d = None) /\
  Includes plain1 ex_cwd [] (lit "/s/a.hpp") (lit "/s/b.hpp").
Proof. exact plain_lemma. Qed.
Example C60_witness : StaysBelow (lit "d/b.hpp") /\ abspath ex_cwd (join (lit "out") (lit "d/b.hpp")) = lit "/w/out/d/b.hpp".
Proof. repeat split. cbn. intros [X|[X|[]]]; discriminate X. Qed.

(** C62. *)
Theorem C62_compare : forall t1 t2,
  let (common, different) := compare_config_files t1 t2 in
  NoDup (map fst common) /\ NoDup (map fst different) /\
  (forall k v, In (k, v) common <-> Setting t1 k v /\ Setting t2 k v) /\
  (forall k o1 o2, In (k, (o1, o2)) different <-> Value t1 k o1 /\ Value t2 k o2 /\ o1 <> o2).
Proof. exact C62_lemma. Qed.
Print Assumptions C62_compare.

Theorem C62_exactly_one : forall t1 t2 k, (exists v, Setting t1 k v \/ Setting t2 k v) ->
  let (common, different) := compare_config_files t1 t2 in
  (In k (map fst common) /\ ~ In k (map fst different)) \/ (~ In k (map fst common) /\ In k (map fst different)).
Proof. exact C62_partition. Qed.
Print Assumptions C62_exactly_one.

Example C62_witness : compare_config_files (lit "a = 1 # x" ++ [nl] ++ lit "b=2" ++ [nl] ++ lit "c" ++ [nl])
    (lit "# y" ++ [nl] ++ lit " b = 3" ++ [nl] ++ lit "a=1")
  = ([(lit "a", lit "1")], [(lit "b", (Some (lit "2"), Some (lit "3"))); (lit "c", (Some [], None))]).
Proof. reflexivity. Qed.

(** C68.  Whether it returns or raises, aggregate changes no file but its output. *)
Theorem C68_other_files_unchanged : forall fuel fs cwd headers output incs fs',
  aggregate_headers fuel fs cwd headers output incs = Returned fs' \/
  aggregate_headers fuel fs cwd headers output incs = Raised fs' ->
  (forall p, p <> abspath cwd output -> fread fs' p = fread fs p) /\ dirs fs' = dirs fs.
Proof. exact C68_frame_lemma. Qed.
Print Assumptions C68_other_files_unchanged.

(** An output that is also an input is emptied before it is read. *)
Theorem C68_output_as_input : forall fs cwd headers output incs fs1, absolute cwd ->
  fcreate fs (abspath cwd output) = Some fs1 ->
  ReachedBy cwd (Follows fs1 cwd incs) headers (abspath cwd output) ->
  fread fs1 (abspath cwd output) = Some [] /\
  forall fuel fs', aggregate_headers fuel fs cwd headers output incs <> Returned fs'.
Proof. exact C68_output_lemma. Qed.
Print Assumptions C68_output_as_input.

Example C68_witness : exists fs', aggregate_headers 5 plain ex_cwd [lit "/s/a.hpp"] (lit "/o/x") [] = Returned fs' /\
  fread plain (lit "/o/x") = None /\ fread fs' (lit "/o/x") <> None.
Proof. eexists. split; [vm_compute; reflexivity|]. split; [reflexivity|vm_compute; discriminate]. Qed.

(** C69.  Directives a preprocessor obeys and aggregate does not follow. *)
Theorem C69_indented_directive_refuted : exists fs cwd headers output incs fuel fs2 p line name q t,
  aggregate_headers fuel fs cwd headers output incs = Returned fs2 /\
  In p headers /\ (exists text, fread fs p = Some text /\ In line (lines text)) /\
  PreprocessorInclude line name /\ Resolves fs cwd incs p name q /\
  fread fs2 (abspath cwd output) = Some t /\ ~ Contains t (lit "Start of " ++ q) /\ In line (lines t).
Proof. exact indented_lemma. Qed.
Print Assumptions C69_indented_directive_refuted.

Theorem C69_after_unresolved_refuted : exists fs cwd headers output incs fuel fs2 p line name q t,
  aggregate_headers fuel fs cwd headers output incs = Returned fs2 /\
  In p headers /\ Directive fs p line name /\ PreprocessorInclude line name /\ Resolves fs cwd incs p name q /\
  fread fs2 (abspath cwd output) = Some t /\ ~ Contains t (lit "Start of " ++ q).
Proof. exact unresolved_lemma. Qed.
Print Assumptions C69_after_unresolved_refuted.

(** What it does follow is an include directive for a preprocessor as well. *)
Theorem C69_followed_is_directive : forall line name, IncludeLine line name ->
  (forall c, In c line -> isspace c = true -> c = " "%char \/ c = "009"%char \/ c = nl) ->
  ~ In nl (removelast line) -> PreprocessorInclude line name.
Proof. exact include_is_preprocessor. Qed.
Print Assumptions C69_followed_is_directive.

(** C70.  Settings in both files are printed; a setting in only one of them is not. *)
Theorem C70_settings_of_both_printed : forall t1 t2 k v1 v2, Setting t1 k v1 -> Setting t2 k v2 ->
  Contains (report t1 t2) (if eqs v1 v2 then k ++ lit " = " ++ v1 ++ [nl] else k ++ lit ": " ++ v1 ++ lit " != " ++ v2 ++ [nl]).
Proof. exact report_lemma. Qed.
Print Assumptions C70_settings_of_both_printed.

Theorem C70_all_differences_printed_refuted : exists t1 t2 k v,
  Setting t1 k v /\ Unset t2 k /\ report t1 t2 = report t2 t2.
Proof. exact C70_lemma. Qed.
Print Assumptions C70_all_differences_printed_refuted.

Example C70_witness : Contains (report (lit "a=1") (lit "a=2")) (lit "a: 1 != 2" ++ [nl]).
Proof.
  apply (report_lemma (lit "a=1") (lit "a=2") (lit "a") (lit "1") (lit "2")); apply read_spec; reflexivity.
Qed.
