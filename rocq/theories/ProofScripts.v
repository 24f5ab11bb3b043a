(** Round trip of aggregate and split; runs that show what the scripts get wrong. *)
From Coq Require Import Bool Ascii String NArith Relations Lia List.
From Verif Require Import ModelPython ModelAggregate SpecAggregate ModelUncrustify SpecUncrustify ProofPython ProofPath ProofAggregate ProofGraph ProofSplit ProofUncrustify.
Import ListNotations.

Lemma reached_abs fs cwd incs headers p : absolute cwd -> Needed fs cwd incs headers p -> absolute p /\ abspath cwd p = p.
Proof.
  intros A (h & _ & R). apply clos_rt_rtn1 in R. inversion R as [|y z (line & name & _ & H) _]; subst.
  - split; [apply abspath_absolute|apply abspath_idem]; exact A.
  - destruct H as (b & d & a & _ & -> & _). split; [apply abspath_absolute|apply abspath_idem]; exact A.
Qed.

Lemma Forall2_impl' {A B} (P Q : A -> B -> Prop) l m : Forall2 P l m -> (forall a b, P a b -> Q a b) -> Forall2 Q l m.
Proof. induction 1; intros H1; constructor; auto. Qed.

(** aggregate, then split. *)
Lemma roundtrip_lemma fs cwd headers output incs fs1 od : absolute cwd -> od <> [] ->
  fcreate fs (abspath cwd output) = Some fs1 ->
  (forall p, Needed fs1 cwd incs headers p ->
     p <> abspath cwd output /\ (exists t, fread fs1 p = Some t /\ Splittable t) /\
     (forall line name, Directive fs1 p line name -> exists q, Resolves fs1 cwd incs p name q) /\
     ~ clos_trans str (Includes fs1 cwd incs) p p /\
     ~ In nl p /\ ~ In p (dirs fs) /\ In (dirname p) (dirs fs) /\ ~ In p (ancestors (abspath cwd od))) ->
  (forall d, In d (ancestors (abspath cwd od)) -> fread fs1 d = None) ->
  exists fuel fs2 fs3,
    aggregate_headers fuel fs cwd headers output incs = Returned fs2 /\
    split_aggregated_file fs2 cwd output od = Returned fs3 /\
    (forall p, Needed fs1 cwd incs headers p ->
       exists t b, fread fs p = Some t /\ fread fs3 p = Some b /\ Body t b) /\
    (forall q, ~ Needed fs1 cwd incs headers q -> fread fs3 q = fread fs2 q).
Proof.
  intros A OD C H D.
  destruct (C58_lemma fs cwd headers output incs fs1 A C) as (l & secs & (fuel & R) & N & L & _ & S).
  { intros p Hp. destruct (H p Hp) as (H1 & (t & H2 & _) & H3 & H4 & _). repeat split; eauto. }
  set (out := abspath cwd output) in *.
  pose proof (fcreate_some _ _ _ C) as ->.
  assert (OUT : forall d, d <> out -> fread (with_file fs out []) d = fread (with_file fs out (concat secs)) d).
  { intros d Hd. rewrite !fread_with. apply eqs_neq in Hd. rewrite Hd. reflexivity. }
  set (text := fun p => match fread (with_file fs out []) p with Some t => t | None => [] end).
  destruct (C61_lemma (with_file fs out (concat secs)) cwd output od l secs text A OD) as (fs3 & R3 & B3 & F3); fold out.
  - intros d Hd. rewrite <- OUT; [apply D, Hd|]. intros ->. specialize (D _ Hd). rewrite fread_with, eqs_refl in D. discriminate.
  - rewrite fread_with, eqs_refl. reflexivity.
  - exact N.
  - apply (Forall2_impl' _ _ _ _ S). intros p s (t & E & X). cbv beta. unfold text. rewrite E. exact X.
  - intros p Hp. apply L in Hp. destruct (H p Hp) as (H1 & (t & H2 & H2') & H3 & H4 & H5 & H6 & H7 & H8).
    destruct (reached_abs _ _ _ _ _ A Hp) as [P1 P2]. do 7 (split; [assumption|]). unfold text. rewrite H2. exact H2'.
  - exists fuel, (with_file fs out (concat secs)), fs3. split; [apply R; lia|]. split; [exact R3|]. split.
    + intros p Hp. destruct (H p Hp) as (H1 & (t & H2 & _) & _). destruct (B3 p (proj2 (L p) Hp)) as (b & Eb & Bb).
      exists t, b. split.
      * rewrite fread_with in H2. apply eqs_neq in H1. rewrite H1 in H2. exact H2.
      * split; [exact Eb|]. unfold text in Bb. rewrite H2 in Bb. exact Bb.
    + intros q Hq. apply F3. intros X. apply Hq, L, X.
Qed.

(** Example file systems. *)
Definition ex_cwd : str := lit "/w".
Definition ex_file (lines : list string) : str := concat (map (fun l => lit l ++ [nl]) lines).
Definition ex_dirs : list str := [lit "/"; lit "/s"; lit "/o"; lit "/w"].
Definition inc (name : string) : string := ("#include " ++ String quote (name ++ String quote ""))%string.
Definition cyclic : fsys := {| files := [(lit "/s/a.hpp", ex_file [inc "b.hpp"]); (lit "/s/b.hpp", ex_file [inc "a.hpp"])]; dirs := ex_dirs |}.
Definition plain : fsys := {| files := [(lit "/s/a.hpp", ex_file ["#pragma once"; inc "b.hpp"; "int a;"]%string);
  (lit "/s/b.hpp", ex_file ["int b;"]%string)]; dirs := ex_dirs |}.
Definition unterminated : fsys := {| files := [(lit "/s/a.hpp", lit "int a;")]; dirs := ex_dirs |}.
Definition indented : fsys := {| files := [(lit "/s/a.hpp", ex_file [(" " ++ inc "b.hpp")%string]);
  (lit "/s/b.hpp", ex_file ["int b;"]%string)]; dirs := ex_dirs |}.
Definition unresolved : fsys := {| files := [(lit "/s/a.hpp", ex_file [inc "missing.hpp"; inc "b.hpp"]);
  (lit "/s/b.hpp", ex_file ["int b;"]%string)]; dirs := ex_dirs |}.

Lemma stuck fuel cwd remaining : remaining <> [] -> ready remaining = [] -> forall u i,
  generate_header_list fuel cwd remaining u i = None.
Proof.
  intros N R. induction fuel as [|fuel IH]; intros u i; (destruct remaining as [|e r] eqn:E; [congruence|]); rewrite <- E in *;
    cbn [generate_header_list]; rewrite E at 1; [reflexivity|].
  rewrite R. cbn [append_unique]. unfold delete_all. cbn [fold_left]. apply IH.
Qed.
Lemma cyclic_lemma : exists fs cwd headers output incs, absolute cwd /\ fcreate fs (abspath cwd output) <> None /\
  forall fuel, aggregate_headers fuel fs cwd headers output incs = StillRunning.
Proof.
  exists cyclic, ex_cwd, [lit "/s/a.hpp"], (lit "/o/x"), []. split; [reflexivity|]. split; [discriminate|]. intros fuel.
  unfold aggregate_headers. 
  match goal with |- match ?c with _ => _ end = _ => let c' := eval vm_compute in c in change c with c' end. cbv iota beta.
  match goal with |- match ?c with _ => _ end = _ => let c' := eval vm_compute in c in change c with c' end. cbv iota beta.
  rewrite stuck; [reflexivity|discriminate|reflexivity].
Qed.

Lemma not_inside d p : eqs p d = false -> startswith p d = false -> Inside d p -> False.
Proof.
  intros E S [->|(s & R & ->)]; [rewrite eqs_refl in E; discriminate|].
  apply not_true_iff_false in S. apply S. apply startswith_spec.
  unfold join. destruct s as [|c s].
  - destruct (rev d) eqn:V; [apply (f_equal (@rev ascii)) in V; rewrite rev_involutive in V; subst; exists []; reflexivity|].
    destruct (Ascii.eqb a slash); [exists []; rewrite app_nil_r; reflexivity|exists [slash]; reflexivity].
  - destruct (Ascii.eqb c slash) eqn:C; [exfalso; unfold startswith in R; cbn [eat] in R; rewrite Ascii.eqb_sym in C; rewrite C in R; discriminate|].
    destruct (rev d) eqn:V; [apply (f_equal (@rev ascii)) in V; rewrite rev_involutive in V; subst; exists (c :: s); reflexivity|].
    destruct (Ascii.eqb a slash); eexists; reflexivity.
Qed.

(** Splitting what was just aggregated changes the headers themselves, outside the output directory. *)
Lemma outside_lemma : exists fs cwd headers output incs fuel fs2 od fs3 p t,
  aggregate_headers fuel fs cwd headers output incs = Returned fs2 /\
  split_aggregated_file fs2 cwd output od = Returned fs3 /\
  fread fs2 p = Some t /\ fread fs3 p <> Some t /\ ~ Inside (abspath cwd od) p.
Proof.
  exists plain, ex_cwd, [lit "/s/a.hpp"], (lit "/o/x"), [], 5. 
  eexists. exists (lit "/o/d"). eexists. exists (lit "/s/a.hpp"). eexists.
  split; [vm_compute; reflexivity|]. split; [vm_compute; reflexivity|]. split; [vm_compute; reflexivity|].
  split; [vm_compute; discriminate|]. intros X; revert X; apply not_inside; reflexivity.
Qed.
(** Without a final newline the text is not recovered. *)
Lemma newline_lemma : exists fs cwd headers output incs fuel fs2 od fs3 p t,
  aggregate_headers fuel fs cwd headers output incs = Returned fs2 /\
  split_aggregated_file fs2 cwd output od = Returned fs3 /\
  Needed fs cwd incs headers p /\ fread fs p = Some t /\
  (forall line, In line (lines t) -> ~ StartLine line /\ ~ EndLine line) /\
  forall b, Body t b -> fread fs3 p <> Some b.
Proof.
  exists unterminated, ex_cwd, [lit "/s/a.hpp"], (lit "/o/x"), [], 5.
  eexists. exists (lit "/o/d"). eexists. exists (lit "/s/a.hpp"), (lit "int a;").
  split; [vm_compute; reflexivity|]. split; [vm_compute; reflexivity|].
  split; [exists (lit "/s/a.hpp"); split; [left; reflexivity|apply rt_refl]|]. split; [reflexivity|]. split.
  - intros line [<-|[]]. split; intros (g & r & _ & _ & E); discriminate E.
  - intros b (outs & F & ->) E. inversion F as [|? o ? os H1 H2]; subst. inversion H2; subst.
    destruct H1 as [[[(n & w & r & _ & _ & _ & X)|(pr & w & o' & r & _ & Y & _ & X)] _]|(_ & _ & ->)].
    + discriminate X.
    + inversion Y as [|c c' pr' t' Z _ P Q]; subst. cbn [app] in X. injection X as X _. subst c.
      destruct Z as [Z|(k & K & [[Z1 Z2]|[Z1 Z2]])]; [discriminate|vm_compute in Z1, Z2; lia|vm_compute in Z1, Z2; lia].
    + vm_compute in E. discriminate E.
Qed.

Fixpoint contains (s part : str) : bool :=
  startswith s part || match s with [] => false | _ :: r => contains r part end.
Lemma contains_spec s part : contains s part = false -> ~ Contains s part.
Proof.
  induction s as [|c s IH]; cbn [contains]; intros H (x & y & E); apply orb_false_iff in H as [H1 H2];
    apply not_true_iff_false in H1; apply H1, startswith_spec.
  - destruct x; [exists y; exact E|discriminate].
  - destruct x as [|d x]; [exists y; exact E|]. exfalso. injection E as _ E. apply (IH H2). exists x, y. exact E.
Qed.
Lemma resolves_b fs : fs = indented \/ fs = unresolved -> Resolves fs ex_cwd [] (lit "/s/a.hpp") (lit "b.hpp") (lit "/s/b.hpp").
Proof.
  intros H. exists [], (lit "/s"), []. split; [reflexivity|]. split; [reflexivity|]. split; [destruct H as [-> | ->]; reflexivity|intros d []].
Qed.
(** An include directive with a blank in front is neither followed nor commented out. *)
Lemma indented_lemma : exists fs cwd headers output incs fuel fs2 p line name q t,
  aggregate_headers fuel fs cwd headers output incs = Returned fs2 /\
  In p headers /\ (exists text, fread fs p = Some text /\ In line (lines text)) /\
  PreprocessorInclude line name /\ Resolves fs cwd incs p name q /\
  fread fs2 (abspath cwd output) = Some t /\ ~ Contains t (lit "Start of " ++ q) /\ In line (lines t).
Proof.
  exists indented, ex_cwd, [lit "/s/a.hpp"], (lit "/o/x"), [], 5. eexists.
  exists (lit "/s/a.hpp"), (lit (" " ++ inc "b.hpp") ++ [nl]), (lit "b.hpp"), (lit "/s/b.hpp"). eexists.
  split; [vm_compute; reflexivity|]. split; [left; reflexivity|].
  split; [eexists; split; [reflexivity|left; reflexivity]|]. split.
  { exists (lit " "), [], (lit " "), [nl]. repeat split; try (intros c [<-|[]]; left; reflexivity).
    - intros c [].
    - discriminate.
    - cbn. intros X. repeat destruct X as [X|X]; try discriminate X; exact X. }
  split; [apply resolves_b; auto|]. split; [vm_compute; reflexivity|]. split; [apply contains_spec; vm_compute; reflexivity|].
  vm_compute. tauto.
Qed.
(** Neither is any directive after one that cannot be resolved followed; it is commented out. *)
Lemma unresolved_lemma : exists fs cwd headers output incs fuel fs2 p line name q t,
  aggregate_headers fuel fs cwd headers output incs = Returned fs2 /\
  In p headers /\ Directive fs p line name /\ PreprocessorInclude line name /\ Resolves fs cwd incs p name q /\
  fread fs2 (abspath cwd output) = Some t /\ ~ Contains t (lit "Start of " ++ q).
Proof.
  exists unresolved, ex_cwd, [lit "/s/a.hpp"], (lit "/o/x"), [], 5. eexists.
  exists (lit "/s/a.hpp"), (lit (inc "b.hpp") ++ [nl]), (lit "b.hpp"), (lit "/s/b.hpp"). eexists.
  split; [vm_compute; reflexivity|]. split; [left; reflexivity|].
  assert (Q : ~ In quote (lit "b.hpp")) by (cbn; intros X; repeat destruct X as [X|X]; try discriminate X; exact X).
  split.
  { eexists. split; [reflexivity|]. split; [right; left; reflexivity|]. split; [|discriminate].
    exists (lit " "), [nl]. repeat split; try discriminate; [|exact Q]. intros c [<-|[]]. reflexivity. }
  split.
  { exists [], [], (lit " "), [nl]. split; [intros c []|]. split; [intros c []|]. split; [intros c [<-|[]]; left; reflexivity|].
    split; [discriminate|]. split; [exact Q|reflexivity]. }
  split; [apply resolves_b; auto|]. split; [vm_compute; reflexivity|]. apply contains_spec; vm_compute; reflexivity.
Qed.
(** What is followed is an include directive. *)
Lemma include_is_preprocessor line name : IncludeLine line name -> (forall c, In c line -> isspace c = true -> c = " "%char \/ c = "009"%char \/ c = nl) ->
  ~ In nl (removelast line) -> PreprocessorInclude line name.
Proof.
  intros (w & r & (W1 & W2) & N & Q & ->) B NL. exists [], [], w, r.
  split; [intros c []|]. split; [intros c []|]. split; [|auto].
  intros c Hc. assert (I : In c (lit "#include" ++ w ++ [quote] ++ name ++ [quote] ++ r)) by (apply in_or_app; right; apply in_or_app; left; exact Hc).
  destruct (B c I (W2 c Hc)) as [X|[X|X]]; [auto|auto|]. exfalso. apply NL. subst c.
  replace (lit "#include" ++ w ++ [quote] ++ name ++ [quote] ++ r) with ((lit "#include" ++ w) ++ [quote] ++ name ++ [quote] ++ r) by (rewrite <- !app_assoc; reflexivity).
  rewrite removelast_app by discriminate. apply in_or_app. left. apply in_or_app. right. exact Hc.
Qed.

(** compare_uncrustify: what is printed. *)
Lemma concat_map_In {A} (f : A -> str) l x : In x l -> Contains (concat (map f l)) (f x).
Proof.
  intros H. apply in_split in H as (a & b & ->). rewrite map_app, concat_app. cbn [map concat].
  exists (concat (map f a)), (concat (map f b)). reflexivity.
Qed.
Lemma Contains_mid a s b part : Contains s part -> Contains (a ++ s ++ b) part.
Proof. intros (x & y & ->). exists (a ++ x), (y ++ b). rewrite <- !app_assoc. reflexivity. Qed.
Lemma report_lemma t1 t2 k v1 v2 : Setting t1 k v1 -> Setting t2 k v2 ->
  Contains (report t1 t2) (if eqs v1 v2 then k ++ lit " = " ++ v1 ++ [nl] else k ++ lit ": " ++ v1 ++ lit " != " ++ v2 ++ [nl]).
Proof.
  intros S1 S2. unfold report. pose proof (C62_lemma t1 t2) as C. destruct (compare_config_files t1 t2) as [cm df].
  destruct C as (_ & _ & C & D). destruct (eqs v1 v2) eqn:E.
  - apply eqs_eq in E. subst v2. 
    rewrite (app_assoc (lit "Common Settings:")). apply Contains_mid.
    apply (concat_map_In (fun e : str * str => fst e ++ lit " = " ++ snd e ++ [nl]) cm (k, v1)). apply C. auto.
  - apply eqs_neq in E. remember (k ++ lit ": " ++ v1 ++ lit " != " ++ v2 ++ [nl]) as part eqn:P. rewrite !app_assoc. rewrite <- (app_nil_r (_ ++ _)), <- app_assoc. apply Contains_mid. subst part.
    match goal with |- Contains (concat (map ?f df)) _ => apply (concat_map_In f df (k, (Some v1, Some v2))) end. apply D. cbn [Value]. repeat split; auto. congruence.
Qed.

(** The hypotheses of the round trip hold of [plain]. *)
Definition plain1 : fsys := with_file plain (lit "/o/x") [].
Lemma plain_directive p line name : Directive plain1 p line name -> p = lit "/s/a.hpp" /\ name = lit "b.hpp".
Proof.
  intros (text & R & L & I & _). apply include_match_spec in I. unfold fread in R.
  let f := eval vm_compute in (files plain1) in change (files plain1) with f in R. cbn [get] in R.
  repeat match type of R with
  | (if eqs p ?q then _ else _) = _ => let E := fresh "E" in destruct (eqs p q) eqn:E;
      [apply eqs_eq in E; injection R as <-; vm_compute in L;
       repeat (destruct L as [L|L]; [subst line; vm_compute in I; try discriminate I|]); try contradiction L|]
  end.
  - injection I as <-. subst p. split; reflexivity.
  - discriminate R.
Qed.
Lemma plain_includes p q : Includes plain1 ex_cwd [] p q -> p = lit "/s/a.hpp" /\ q = lit "/s/b.hpp".
Proof.
  intros (line & name & D & b & d & a & E & -> & _). apply plain_directive in D as [-> ->]. split; [reflexivity|].
  destruct b as [|x b]; [|destruct b; discriminate E]. injection E as <- _. reflexivity.
Qed.
Lemma plain_needed p : Needed plain1 ex_cwd [] [lit "/s/a.hpp"] p -> p = lit "/s/a.hpp" \/ p = lit "/s/b.hpp".
Proof.
  intros (h & [<-|[]] & R). apply clos_rt_rtn1 in R. destruct R as [|y z I R].
  - left. reflexivity.
  - right. apply plain_includes in I. tauto.
Qed.
Lemma plain_acyclic p : ~ clos_trans str (Includes plain1 ex_cwd []) p p.
Proof.
  intros H. assert (X : forall p q, clos_trans str (Includes plain1 ex_cwd []) p q -> p = lit "/s/a.hpp" /\ q = lit "/s/b.hpp").
  { clear. induction 1 as [p q I|p q r _ [A B] _ [C D]]; [apply plain_includes, I|]. exact (conj A D). }
  destruct (X _ _ H) as [A B]. rewrite A in B. discriminate B.
Qed.
Lemma plain_lemma : absolute ex_cwd /\ fcreate plain (abspath ex_cwd (lit "/o/x")) = Some plain1 /\
  (forall p, Needed plain1 ex_cwd [] [lit "/s/a.hpp"] p ->
     p <> abspath ex_cwd (lit "/o/x") /\ (exists t, fread plain1 p = Some t /\ Splittable t) /\
     (forall line name, Directive plain1 p line name -> exists q, Resolves plain1 ex_cwd [] p name q) /\
     ~ clos_trans str (Includes plain1 ex_cwd []) p p /\
     ~ In nl p /\ ~ In p (dirs plain) /\ In (dirname p) (dirs plain) /\ ~ In p (ancestors (abspath ex_cwd (lit "/o/d")))) /\
  (forall d, In d (ancestors (abspath ex_cwd (lit "/o/d"))) -> fread plain1 d = None) /\
  Includes plain1 ex_cwd [] (lit "/s/a.hpp") (lit "/s/b.hpp").
Proof.
  assert (RB : Resolves plain1 ex_cwd [] (lit "/s/a.hpp") (lit "b.hpp") (lit "/s/b.hpp")).
  { exists [], (lit "/s"), []. repeat split; try reflexivity. intros d []. }
  split; [reflexivity|]. split; [reflexivity|]. split; [|split].
  - intros p Hp. apply plain_needed in Hp. split; [destruct Hp as [-> | ->]; discriminate|]. split.
    { destruct Hp as [-> | ->]; (eexists; split; [reflexivity|]);
        (split; [right; match goal with |- exists t, ?x = _ => exists (removelast x) end; vm_compute; reflexivity|]);
        intros line L; vm_compute in L; repeat (destruct L as [L|L]; [subst line; split; intros (g & r & _ & _ & E); discriminate E|]); contradiction L. }
    split; [intros line name D; apply plain_directive in D as [-> ->]; eexists; exact RB|].
    split; [apply plain_acyclic|].
    assert (NI : forall l, mem p l = false -> ~ In p l) by (intros l; apply mem_false).
    split; [destruct Hp as [-> | ->]; cbn; intros X; repeat destruct X as [X|X]; try discriminate X; exact X|].
    split; [destruct Hp as [-> | ->]; apply NI; reflexivity|].
    split; [destruct Hp as [-> | ->]; apply mem_In; reflexivity|]. destruct Hp as [-> | ->]; apply NI; reflexivity.
  - intros d L. vm_compute in L. repeat (destruct L as [L|L]; [subst d; reflexivity|]). contradiction L.
  - exists (lit (inc "b.hpp") ++ [nl]), (lit "b.hpp"). split; [|exact RB].
    eexists. split; [reflexivity|]. split; [right; left; reflexivity|]. split; [apply include_match_spec; reflexivity|discriminate].
Qed.
