(** Aggregation end to end, and splitting. *)
From Coq Require Import Bool Ascii String NArith Arith Relations List Lia.
From Verif Require Import ModelPython ModelAggregate SpecAggregate ProofPython ProofPath ProofAggregate ProofGraph.
Import ListNotations.

Definition with_text (fs : fsys) (p t : str) := with_file fs p t.
Lemma fread_with fs p t q : fread (with_file fs p t) q = if eqs q p then Some t else fread fs q.
Proof.
  unfold fread, with_file. cbn [files]. destruct (eqs q p) eqn:X.
  - apply eqs_eq in X. subst. apply get_put.
  - apply eqs_neq in X. apply get_put_other. exact X.
Qed.
Lemma with_with fs p t t' : with_file (with_file fs p t) p t' = with_file fs p t'.
Proof. unfold with_file. cbn [files dirs]. rewrite put_put. reflexivity. Qed.
Lemma fappend_with fs p t s : fappend (with_file fs p t) p s = with_file fs p (t ++ s).
Proof.
  unfold fappend. change (get p (files (with_file fs p t))) with (fread (with_file fs p t) p).
  rewrite fread_with, eqs_refl. apply with_with.
Qed.
Lemma fcreate_some fs p fs1 : fcreate fs p = Some fs1 -> fs1 = with_file fs p [].
Proof. unfold fcreate. destruct (_ || _); congruence. Qed.

Lemma process_lemma fs cwd out l : forall inc old, NoDup (inc ++ l) -> (forall p, In p l -> abspath cwd p = p /\ p <> out) ->
  (forall p, In p l -> exists t, fread fs p = Some t) ->
  exists secs, process_headers (with_file fs out old) cwd out l inc = Returned (with_file fs out (old ++ concat secs)) /\
    Forall2 (fun p s => exists t, fread fs p = Some t /\ SectionOf p t s) l secs.
Proof.
  induction l as [|p l IH]; intros inc old N A T; cbn [process_headers].
  - exists []. cbn [concat]. rewrite app_nil_r. split; [reflexivity|constructor].
  - destruct (A p (or_introl eq_refl)) as [Ap Np]. rewrite Ap.
    rewrite (proj2 (mem_false p inc)) by (intros X; apply NoDup_remove_2 in N; apply N, in_or_app; left; exact X).
    rewrite (proj2 (eqs_neq p out) Np). rewrite fread_with, (proj2 (eqs_neq p out) Np).
    destruct (T p (or_introl eq_refl)) as (t & Et). rewrite Et, fappend_with.
    destruct (IH (inc ++ [p]) (old ++ output_header p t)) as (secs & -> & F).
    + rewrite <- app_assoc. exact N.
    + intros; apply A; right; assumption.
    + intros; apply T; right; assumption.
    + exists (output_header p t :: secs). cbn [concat]. rewrite <- app_assoc. split; [reflexivity|].
      constructor; [|exact F]. exists t. split; [exact Et|apply output_header_spec].
Qed.

(** General form: whatever resolves or not. *)
Lemma aggregate_lemma fs cwd headers output incs fs1 : absolute cwd ->
  fcreate fs (abspath cwd output) = Some fs1 ->
  (forall p, ReachedBy cwd (Follows fs1 cwd incs) headers p ->
     p <> abspath cwd output /\ (exists t, fread fs1 p = Some t) /\ ~ clos_trans str (Follows fs1 cwd incs) p p) ->
  exists l secs,
    (exists fuel0, forall fuel, fuel0 <= fuel ->
       aggregate_headers fuel fs cwd headers output incs = Returned (with_file fs (abspath cwd output) (concat secs))) /\
    NoDup l /\ (forall p, In p l <-> ReachedBy cwd (Follows fs1 cwd incs) headers p) /\
    (forall p q, In p l -> Follows fs1 cwd incs p q -> Before q p l) /\
    Forall2 (fun p s => exists t, fread fs1 p = Some t /\ SectionOf p t s) l secs.
Proof.
  intros C Hc H. destruct (list_lemma fs1 cwd incs C headers) as (G & l & EG & (f0 & Hf) & N & K & A & B).
  { intros p Hp. apply (H p Hp). }
  pose proof (fcreate_some _ _ _ Hc) as E1.
  destruct (process_lemma fs1 cwd (abspath cwd output) l [] []) as (secs & EP & F).
  - exact N.
  - intros p Hp. split; [apply A, Hp|]. apply K in Hp. apply (H p Hp).
  - intros p Hp. apply K in Hp. apply (H p Hp).
  - exists l, secs. split; [|auto]. exists f0. intros fuel L. unfold aggregate_headers.
    rewrite Hc, EG, (Hf fuel L). rewrite E1 in EP |- *. rewrite with_with in EP. rewrite EP.
    rewrite with_with. reflexivity.
Qed.

Lemma follows_includes fs cwd incs headers :
  (forall p, Needed fs cwd incs headers p -> forall line name, Directive fs p line name -> exists q, Resolves fs cwd incs p name q) ->
  (forall p, ReachedBy cwd (Follows fs cwd incs) headers p <-> Needed fs cwd incs headers p) /\
  (forall p q, Needed fs cwd incs headers p -> (Follows fs cwd incs p q <-> Includes fs cwd incs p q)).
Proof.
  intros H.
  assert (FI : forall p q, Follows fs cwd incs p q -> Includes fs cwd incs p q).
  { intros p q (t & b & l & a & n & Et & El & I & C & R & _). exists l, n. split; [|exact R].
    exists t. repeat split; auto. rewrite El. apply in_or_app. right. left. reflexivity. }
  assert (IF : forall p q, Needed fs cwd incs headers p -> Includes fs cwd incs p q -> Follows fs cwd incs p q).
  { intros p q Hp (l & n & (t & Et & Hl & I & C) & R). apply in_split in Hl as (b & a & El).
    exists t, b, l, a, n. repeat split; auto. intros l' n' Hl' I' C'. apply (H p Hp l' n').
    exists t. repeat split; auto. rewrite El. apply in_or_app. left. exact Hl'. }
  split.
  - intros p. unfold Needed, ReachedBy. split; intros (h & Hh & R); exists h; (split; [exact Hh|]).
    + induction R; [apply rt_step; auto|apply rt_refl|eapply rt_trans; eassumption].
    + assert (X : forall a, clos_refl_trans str (Includes fs cwd incs) (abspath cwd h) a ->
                  clos_refl_trans_n1 str (Follows fs cwd incs) (abspath cwd h) a).
      { intros a Ra. apply clos_rt_rtn1 in Ra. induction Ra as [|y z Hyz Ry IH]; [constructor|].
        econstructor; [|exact IH]. apply IF; [|exact Hyz]. exists h. split; [exact Hh|].
        apply clos_rtn1_rt. exact Ry. }
      apply clos_rtn1_rt, X, R.
  - intros p q Hp. split; auto.
Qed.

Lemma C58_lemma fs cwd headers output incs fs1 : absolute cwd ->
  fcreate fs (abspath cwd output) = Some fs1 ->
  (forall p, Needed fs1 cwd incs headers p ->
     p <> abspath cwd output /\ (exists t, fread fs1 p = Some t) /\
     (forall line name, Directive fs1 p line name -> exists q, Resolves fs1 cwd incs p name q) /\
     ~ clos_trans str (Includes fs1 cwd incs) p p) ->
  exists l secs,
    (exists fuel0, forall fuel, fuel0 <= fuel ->
       aggregate_headers fuel fs cwd headers output incs = Returned (with_file fs (abspath cwd output) (concat secs))) /\
    NoDup l /\ (forall p, In p l <-> Needed fs1 cwd incs headers p) /\
    (forall p q, In p l -> Includes fs1 cwd incs p q -> Before q p l) /\
    Forall2 (fun p s => exists t, fread fs1 p = Some t /\ SectionOf p t s) l secs.
Proof.
  intros C Hc H. destruct (follows_includes fs1 cwd incs headers) as [RN FI].
  { intros p Hp. apply (H p Hp). }
  destruct (aggregate_lemma fs cwd headers output incs fs1 C Hc) as (l & secs & R & N & K & B & F).
  - intros p Hp. apply RN in Hp. destruct (H p Hp) as (H1 & H2 & _ & H4). repeat split; auto.
    intros T. apply H4. assert (X : forall a b, clos_trans str (Follows fs1 cwd incs) a b -> clos_trans str (Includes fs1 cwd incs) a b).
    { intros a b Tab. induction Tab as [a b Hab|]; [apply t_step|eapply t_trans; eassumption].
      destruct Hab as (t & bf & ln & af & n & Et & El & I & Cn & Rn & _). exists ln, n. split; [|exact Rn].
      exists t. repeat split; auto. rewrite El. apply in_or_app. right. left. reflexivity. }
    apply X, T.
  - exists l, secs. split; [exact R|]. split; [exact N|]. split; [intros p; rewrite K; apply RN|].
    split; [|exact F]. intros p q Hp Hq. apply B; [exact Hp|]. apply FI; [apply RN, K, Hp|exact Hq].
Qed.

Lemma not_running_process fs cwd out l : forall inc, process_headers fs cwd out l inc <> StillRunning.
Proof.
  revert fs. induction l as [|p l IH]; intros fs inc; cbn [process_headers]; [discriminate|].
  destruct (mem _ inc); [apply IH|]. destruct (eqs _ out); [discriminate|].
  destruct (fread fs _); [apply IH|discriminate].
Qed.
Lemma C59_lemma fs cwd headers output incs fs1 : absolute cwd ->
  fcreate fs (abspath cwd output) = Some fs1 ->
  ((exists fuel, aggregate_headers fuel fs cwd headers output incs <> StillRunning) <->
   forall p, ReachedBy cwd (Follows fs1 cwd incs) headers p -> ~ clos_trans str (Follows fs1 cwd incs) p p).
Proof.
  intros C Hc. split.
  - intros (fuel & H) p Hp T. apply H. destruct (loop_lemma fs1 cwd incs C headers p Hp T) as (G & EG & L).
    unfold aggregate_headers. rewrite Hc, EG, L. reflexivity.
  - intros A. destruct (list_lemma fs1 cwd incs C headers A) as (G & l & EG & (f0 & Hf) & _).
    exists f0. unfold aggregate_headers. rewrite Hc, EG, (Hf f0 (le_n _)). apply not_running_process.
Qed.

(** * Other files are left alone *)
Lemma process_frame cwd out l : forall fs inc fs', (process_headers fs cwd out l inc = Returned fs' \/ process_headers fs cwd out l inc = Raised fs') ->
  (forall p, p <> out -> fread fs' p = fread fs p) /\ dirs fs' = dirs fs.
Proof.
  induction l as [|p l IH]; intros fs inc fs' H; cbn [process_headers] in H.
  - destruct H as [H|H]; [injection H as <-|discriminate]. auto.
  - destruct (mem _ inc); [apply (IH _ _ _ H)|]. destruct (eqs _ out); [destruct H; discriminate|].
    destruct (fread fs (abspath cwd p)) as [t|].
    + apply IH in H as [H1 H2]. split.
      * intros q Hq. rewrite (H1 q Hq). unfold fappend.
        destruct (get out (files fs)); rewrite fread_with, (proj2 (eqs_neq q out) Hq); reflexivity.
      * rewrite H2. unfold fappend. destruct (get out (files fs)); reflexivity.
    + destruct H as [H|H]; [discriminate|injection H as <-]. auto.
Qed.
Lemma C68_frame_lemma fuel fs cwd headers output incs fs' :
  aggregate_headers fuel fs cwd headers output incs = Returned fs' \/
  aggregate_headers fuel fs cwd headers output incs = Raised fs' ->
  (forall p, p <> abspath cwd output -> fread fs' p = fread fs p) /\ dirs fs' = dirs fs.
Proof.
  unfold aggregate_headers. destruct (fcreate fs (abspath cwd output)) as [fs1|] eqn:Hc.
  - apply fcreate_some in Hc. subst fs1.
    destruct (create_graphs _ _ _ _ _) as [G|]; [|intros [H|H]; discriminate].
    destruct (generate_header_list _ _ _ _ _) as [l|]; [|intros [H|H]; discriminate].
    intros H. apply process_frame in H as [H1 H2]. split; [|exact H2].
    intros p Hp. rewrite (H1 p Hp), fread_with, (proj2 (eqs_neq _ _) Hp). reflexivity.
  - intros [H|H]; [discriminate|injection H as <-]. auto.
Qed.
Lemma process_unspecified cwd out l : absolute cwd -> In out l -> abspath cwd out = out -> forall fs inc fs', ~ In out inc ->
  process_headers fs cwd out l inc <> Returned fs'.
Proof.
  intros C I A. induction l as [|p l IH]; intros fs inc fs' N; [destruct I|]. cbn [process_headers].
  destruct (str_dec (abspath cwd p) out) as [->|Np].
  - rewrite (proj2 (mem_false out inc) N), eqs_refl. discriminate.
  - destruct I as [->|I]; [congruence|]. specialize (IH I).
    destruct (mem _ inc); [apply IH, N|]. rewrite (proj2 (eqs_neq _ _) Np).
    destruct (fread fs _); [|discriminate]. apply IH. intros X. apply in_app_or in X as [X|[X|[]]]; auto.
Qed.
Lemma C68_output_lemma fs cwd headers output incs fs1 : absolute cwd ->
  fcreate fs (abspath cwd output) = Some fs1 ->
  ReachedBy cwd (Follows fs1 cwd incs) headers (abspath cwd output) ->
  fread fs1 (abspath cwd output) = Some [] /\
  forall fuel fs', aggregate_headers fuel fs cwd headers output incs <> Returned fs'.
Proof.
  intros C Hc R. split.
  { rewrite (fcreate_some _ _ _ Hc), fread_with, eqs_refl. reflexivity. }
  intros fuel fs'. unfold aggregate_headers. rewrite Hc.
  destruct (graph_of fs1 cwd incs C headers) as (G & EG & ND & AB & VE & CL & KR). rewrite EG.
  destruct (generate_header_list fuel cwd G [] []) as [l|] eqn:Hl; [|discriminate].
  assert (Hl' : gen cwd G fuel [] = Some l) by (unfold gen; rewrite restrict_nil; exact Hl).
  destruct (gen_sound cwd G (E fs1 cwd incs) ND AB VE _ _ _ (NoDup_nil _) (incl_nil_l _) (fun a p b X => match app_cons_not_nil a b p X with end) Hl')
    as (_ & _ & Kl).
  apply process_unspecified; [exact C| |apply abspath_idem, C|intros []]. apply Kl, KR, R.
Qed.

(** * Splitting *)
Lemma greedy_some p rest : ~ In nl p -> rest <> [] -> hd nl rest = nl -> greedy (p ++ lit " =====" ++ rest) = Some p.
Proof.
  intros N R0 R. induction p as [|c p IH]; cbn [app].
  - destruct rest as [|c rest]; [congruence|]. cbn [hd] in R. subst c. reflexivity.
  - cbn [greedy]. rewrite IH by (intros X; apply N; right; exact X).
    replace (Ascii.eqb c nl) with false; [reflexivity|]. symmetry. apply Ascii.eqb_neq.
    intros ->. apply N. left. reflexivity.
Qed.
Lemma greedy_complete g rest : ~ In nl g -> greedy (g ++ lit " =====" ++ rest) <> None.
Proof.
  intros N. induction g as [|c g IH]; cbn [app].
  - change (greedy (" "%char :: lit "=====" ++ rest) <> None). cbn [greedy].
    change (Ascii.eqb " " nl) with false. destruct (greedy (lit "=====" ++ rest)); [discriminate|].
    rewrite (proj2 (startswith_spec (" "%char :: lit "=====" ++ rest) (lit " ====="))); [discriminate|].
    exists rest. reflexivity.
  - cbn [greedy]. replace (Ascii.eqb c nl) with false.
    + destruct (greedy (g ++ lit " =====" ++ rest)) eqn:X; [discriminate|].
      exfalso. apply IH; [intros Y; apply N; right; exact Y|reflexivity].
    + symmetry. apply Ascii.eqb_neq. intros ->. apply N. left. reflexivity.
Qed.
Lemma greedy_sound r : forall g, greedy r = Some g -> ~ In nl g /\ exists rest, r = g ++ lit " =====" ++ rest.
Proof.
  induction r as [|c r IH]; intros g; [discriminate|]. cbn [greedy].
  destruct (Ascii.eqb c nl) eqn:C; [discriminate|]. apply Ascii.eqb_neq in C.
  destruct (greedy r) as [g'|].
  - intros H. injection H as <-. destruct (IH g' eq_refl) as (N & rest & ->).
    split; [intros [X|X]; auto|]. exists rest. reflexivity.
  - destruct (startswith (c :: r) (lit " =====")) eqn:S; [|discriminate].
    intros H. injection H as <-. split; [intros []|]. apply startswith_spec in S. exact S.
Qed.
Lemma marker_none head line : marker_match head line = None <-> ~ MarkerLine head line.
Proof.
  unfold marker_match, MarkerLine. split.
  - intros H (g & rest & N & Ng & ->). rewrite eat_app in H. destruct g as [|c g]; [congruence|].
    cbn [app] in H. replace (Ascii.eqb c nl) with false in H.
    + destruct (greedy (g ++ lit " =====" ++ rest)) eqn:X; [discriminate|].
      revert X. apply greedy_complete. intros Y. apply Ng. right. exact Y.
    + symmetry. apply Ascii.eqb_neq. intros ->. apply Ng. left. reflexivity.
  - intros H. destruct (eat head line) as [[|c r]|] eqn:X; try reflexivity. apply eat_spec in X.
    destruct (Ascii.eqb c nl) eqn:C; [reflexivity|]. apply Ascii.eqb_neq in C.
    destruct (greedy r) as [g|] eqn:Gr; [|reflexivity]. exfalso. apply H.
    apply greedy_sound in Gr as (N & rest & ->). exists (c :: g), rest.
    split; [discriminate|]. split; [intros [Y|Y]; auto|]. rewrite X. reflexivity.
Qed.
Lemma marker_some head line g : marker_match head line = Some g -> g <> [] /\ ~ In nl g /\ exists rest, line = head ++ g ++ lit " =====" ++ rest.
Proof.
  unfold marker_match. destruct (eat head line) as [[|c r]|] eqn:X; try discriminate. apply eat_spec in X.
  destruct (Ascii.eqb c nl) eqn:C; [discriminate|]. apply Ascii.eqb_neq in C.
  destruct (greedy r) as [g'|] eqn:Gr; [|discriminate]. intros H. injection H as <-.
  apply greedy_sound in Gr as (N & rest & ->). split; [discriminate|]. split; [intros [Y|Y]; auto|].
  exists rest. rewrite X. reflexivity.
Qed.
Lemma marker_exact head p : p <> [] -> ~ In nl p -> marker_match head (head ++ p ++ lit " =====" ++ [nl]) = Some p.
Proof.
  intros P N. unfold marker_match. rewrite eat_app. destruct p as [|c p]; [congruence|]. cbn [app].
  replace (Ascii.eqb c nl) with false.
  - rewrite greedy_some; [reflexivity| |discriminate|reflexivity]. intros X. apply N. right. exact X.
  - symmetry. apply Ascii.eqb_neq. intros ->. apply N. left. reflexivity.
Qed.

Lemma hash_first line : ((exists name, IncludeLine line name) \/ PragmaOnceLine line) -> exists r, line = "#"%char :: r.
Proof.
  intros [(n & w & rest & _ & _ & _ & ->)|(p & w & o & rest & _ & P & _ & ->)].
  - eexists. reflexivity.
  - inversion P as [|a b p' w' Hab _]; subst. exists (p' ++ w ++ o ++ rest). cbn [app]. f_equal.
    destruct Hab as [->|(n & Hn & [[_ H]|[H _]])]; [reflexivity| |]; cbn in H; lia.
Qed.
Lemma emitted_ok line out : Terminated line -> ~ StartLine line -> ~ EndLine line -> Emitted line out ->
  Terminated out /\ start_match out = None /\ end_match out = None.
Proof.
  intros T NS NE [[H (a & core & b & El & W & CO & ->)]|(_ & _ & ->)].
  - destruct (hash_first line H) as (r & Er).
    assert (A : a = []).
    { destruct a as [|x a]; [reflexivity|]. exfalso. rewrite El in Er. injection Er as -> _.
      specialize (W "#"%char (or_introl (or_introl eq_refl))). discriminate W. }
    subst a. cbn [app] in El.
    assert (Cn : exists core', core = "#"%char :: core').
    { destruct core as [|x core']; cbn [app] in El.
      - exfalso. destruct b as [|x b]; [rewrite El in Er; discriminate|]. rewrite El in Er. injection Er as -> _.
        specialize (W "#"%char (or_intror (or_introl eq_refl))). discriminate W.
      - rewrite El in Er. injection Er as -> _. exists core'. reflexivity. }
    destruct Cn as (core' & Ec). split.
    + exists (lit "// " ++ core). rewrite <- app_assoc. split; [reflexivity|].
      intros X. apply in_app_or in X as [X|X]; [cbn in X; repeat (destruct X as [X|X]; [discriminate|]); destruct X|].
      destruct T as (l' & El' & Nl). rewrite El' in El.
      apply in_split in X as (c1 & c2 & Ec2). destruct (app_eq_nil (@nil ascii) [] eq_refl) as [_ _].
      assert (Z : c2 ++ b = []).
      { rewrite Ec2 in El. rewrite <- app_assoc in El. cbn [app] in El.
        destruct (c2 ++ b) as [|y z _] using rev_ind; [reflexivity|]. exfalso.
        change (c1 ++ nl :: z ++ [y]) with (c1 ++ (nl :: z) ++ [y]) in El. rewrite app_assoc in El.
        apply app_inj_tail in El as [El _]. apply Nl. rewrite El. apply in_or_app. right. left. reflexivity. }
      apply app_eq_nil in Z as [-> _]. specialize (CO nl c1 (or_intror Ec2)). discriminate CO.
    + rewrite Ec. split; reflexivity.
  - split; [exact T|]. split; apply marker_none; assumption.
Qed.
Lemma body_ok text outs : Splittable text -> Forall2 Emitted (lines text) outs ->
  Forall (fun o => Terminated o /\ start_match o = None /\ end_match o = None) outs.
Proof.
  intros [S M] F. pose proof (lines_terminated text S) as T. revert T M.
  induction F as [|line out ls outs H _ IH]; intros T M; [constructor|].
  inversion_clear T as [|? ? T1 T2]. constructor.
  - destruct (M line (or_introl eq_refl)). apply emitted_ok with line; assumption.
  - apply IH; [exact T2|]. intros l Hl. apply M. right. exact Hl.
Qed.

Lemma split_skip fs cwd od agg line ls : start_match line = None -> end_match line = None ->
  split_lines fs cwd od agg None (line :: ls) = split_lines fs cwd od agg None ls.
Proof. intros A B. cbn [split_lines]. rewrite A, B. reflexivity. Qed.
Lemma split_body cwd od agg p outs ls : forall fs t,
  Forall (fun o => Terminated o /\ start_match o = None /\ end_match o = None) outs ->
  split_lines (with_file fs p t) cwd od agg (Some p) (outs ++ ls) =
  split_lines (with_file fs p (t ++ concat outs)) cwd od agg (Some p) ls.
Proof.
  induction outs as [|o outs IH]; intros fs t F; cbn [app concat]; [rewrite app_nil_r; reflexivity|].
  inversion_clear F as [|? ? (_ & A & B) F']. cbn [split_lines]. rewrite A, B, fappend_with, IH by exact F'.
  rewrite <- app_assoc. reflexivity.
Qed.
Definition section_lines (p : str) (outs : list str) : list str :=
  [nl] :: [nl] :: (lit "// ===== Start of " ++ p ++ lit " =====" ++ [nl]) :: outs
  ++ [lit "// ===== End of " ++ p ++ lit " =====" ++ [nl]].
Lemma section_terminated p outs : ~ In nl p -> Forall Terminated outs -> Forall Terminated (section_lines p outs).
Proof.
  intros N F.
  assert (X : forall h, ~ In nl h -> Terminated (h ++ p ++ lit " =====" ++ [nl])).
  { intros h Nh. exists (h ++ p ++ lit " ====="). rewrite <- !app_assoc. split; [reflexivity|].
    intros Z. apply in_app_or in Z as [Z|Z]; [auto|]. apply in_app_or in Z as [Z|Z]; [auto|].
    cbn in Z. repeat (destruct Z as [Z|Z]; [discriminate|]). destruct Z. }
  assert (Y : forall s : str, existsb (Ascii.eqb nl) s = false -> ~ In nl s).
  { intros s Hs I. assert (Z : existsb (Ascii.eqb nl) s = true) by (apply existsb_exists; exists nl; split; [exact I|reflexivity]).
    congruence. }
  unfold section_lines. constructor; [exists []; split; [reflexivity|intros []]|].
  constructor; [exists []; split; [reflexivity|intros []]|].
  constructor; [apply X, Y; reflexivity|]. apply Forall_app. split; [exact F|].
  constructor; [apply X, Y; reflexivity|constructor].
Qed.
Lemma split_section fs cwd od agg p outs ls : absolute p -> abspath cwd p = p -> ~ In nl p -> p <> agg ->
  mem p (dirs fs) = false -> mem (dirname p) (dirs fs) = true ->
  Forall (fun o => Terminated o /\ start_match o = None /\ end_match o = None) outs ->
  split_lines fs cwd od agg None (section_lines p outs ++ ls) =
  split_lines (with_file fs p (concat outs)) cwd od agg None ls.
Proof.
  intros A F N G D1 D2 O. unfold section_lines. cbn [app]. rewrite !split_skip by reflexivity.
  cbn [split_lines]. assert (Pn : p <> []) by (intros ->; discriminate A).
  unfold start_match at 1. rewrite marker_exact by assumption.
  rewrite (join_absolute _ _ A), F. unfold fcreate. rewrite D1, D2. cbn [orb negb].
  rewrite (proj2 (eqs_neq p agg) G). rewrite <- app_assoc. rewrite split_body by exact O. cbn [app split_lines].
  replace (start_match _) with (@None str) by reflexivity.
  unfold end_match. rewrite marker_exact by assumption. reflexivity.
Qed.

(** Files whose directories are known. *)
Lemma split_sections cwd od agg l secs : forall fs (text : str -> str),
  NoDup l -> (forall p, In p l -> absolute p /\ abspath cwd p = p /\ ~ In nl p /\ p <> agg /\
     mem p (dirs fs) = false /\ mem (dirname p) (dirs fs) = true /\ Splittable (text p)) ->
  Forall2 (fun p s => SectionOf p (text p) s) l secs ->
  exists fs', split_lines fs cwd od agg None (lines (concat secs)) = Returned fs' /\
    (forall p, In p l -> exists b, fread fs' p = Some b /\ Body (text p) b) /\
    (forall q, ~ In q l -> fread fs' q = fread fs q) /\ dirs fs' = dirs fs.
Proof.
  intros fs text N H F. revert fs N H. induction F as [|p s l secs (body & (outs & FE & ->) & ->) _ IH]; intros fs N H.
  - exists fs. split; [reflexivity|]. split; [intros ? []|auto].
  - destruct (H p (or_introl eq_refl)) as (A & Fx & Np & Ng & D1 & D2 & Sp).
    pose proof (body_ok _ _ Sp FE) as O.
    assert (OT : Forall Terminated outs) by (eapply Forall_impl; [|exact O]; intros o Ho; apply Ho).
    assert (L : lines (concat (([nl; nl] ++ lit "// ===== Start of " ++ p ++ lit " =====" ++ [nl] ++ concat outs
                 ++ lit "// ===== End of " ++ p ++ lit " =====" ++ [nl]) :: secs)) = section_lines p outs ++ lines (concat secs)).
    { cbn [concat]. rewrite <- (lines_concat_app (section_lines p outs)) by (apply section_terminated; assumption).
      f_equal. f_equal. unfold section_lines. cbn [concat]. rewrite concat_app. cbn [concat]. rewrite app_nil_r.
      cbn [app]. rewrite <- !app_assoc. reflexivity. }
    match goal with |- context [lines ?x] => replace (lines x) with (section_lines p outs ++ lines (concat secs)) by (symmetry; exact L) end.
    rewrite split_section by assumption.
    inversion_clear N as [|? ? Np' N'].
    destruct (IH (with_file fs p (concat outs)) N') as (fs' & -> & R & K & D).
    + intros q Hq. apply H. right. exact Hq.
    + exists fs'. split; [reflexivity|]. split; [|split].
      * intros q [<-|Hq]; [|apply R, Hq]. exists (concat outs). rewrite (K p Np'), fread_with, eqs_refl.
        split; [reflexivity|]. exists outs. auto.
      * intros q Hq. rewrite K by (intros X; apply Hq; right; exact X).
        rewrite fread_with. rewrite (proj2 (eqs_neq q p)); [reflexivity|]. intros ->. apply Hq. left. reflexivity.
      * rewrite D. reflexivity.
Qed.

Lemma add_dirs_In l : forall ds x, In x (add_dirs l ds) <-> In x ds \/ In x l.
Proof.
  induction l as [|d l IH]; intros ds x; cbn [add_dirs In]; [tauto|]. rewrite IH.
  destruct (mem d ds) eqn:M.
  - apply mem_In in M. split; [tauto|]. intros [H|[->|H]]; auto.
  - rewrite in_app_iff. cbn [In]. tauto.
Qed.
Lemma C61_lemma fs cwd agg od l secs (text : str -> str) :
  absolute cwd -> od <> [] ->
  (forall d, In d (ancestors (abspath cwd od)) -> fread fs d = None) ->
  fread fs (abspath cwd agg) = Some (concat secs) ->
  NoDup l -> Forall2 (fun p s => SectionOf p (text p) s) l secs ->
  (forall p, In p l -> absolute p /\ abspath cwd p = p /\ ~ In nl p /\ p <> abspath cwd agg /\
     ~ In p (dirs fs) /\ ~ In p (ancestors (abspath cwd od)) /\ In (dirname p) (dirs fs) /\ Splittable (text p)) ->
  exists fs', split_aggregated_file fs cwd agg od = Returned fs' /\
    (forall p, In p l -> exists b, fread fs' p = Some b /\ Body (text p) b) /\
    (forall q, ~ In q l -> fread fs' q = fread fs q).
Proof.
  intros C O AN R N F H. unfold split_aggregated_file. destruct od as [|c od']; [congruence|].
  set (od := c :: od') in *. unfold fmakedirs.
  assert (X : existsb (fun d => has d (files fs)) (ancestors (abspath cwd od)) = false).
  { apply not_true_is_false. intros X. apply existsb_exists in X as (d & Hd & X).
    specialize (AN d Hd). unfold has in X. unfold fread in AN. rewrite AN in X. discriminate. }
  rewrite X. set (fs1 := {| files := files fs; dirs := _ |}).
  change (fread fs1 (abspath cwd agg)) with (fread fs (abspath cwd agg)). rewrite R.
  destruct (split_sections cwd od (abspath cwd agg) l secs fs1 text N) as (fs' & -> & R1 & K & _).
  - intros p Hp. destruct (H p Hp) as (H1 & H2 & H3 & H4 & H5 & H6 & H7 & H8). repeat (split; [assumption|]).
    split; [|split; [|exact H8]].
    + apply mem_false. intros Y. unfold fs1 in Y. cbn [dirs] in Y. apply add_dirs_In in Y. tauto.
    + apply mem_In. unfold fs1. cbn [dirs]. apply add_dirs_In. auto.
  - exact F.
  - exists fs'. split; [reflexivity|]. split; [exact R1|]. intros q Hq. rewrite (K q Hq). reflexivity.
Qed.

(** Which files split touches *)
Lemma split_touch cwd od agg ls : forall fs out fs', (split_lines fs cwd od agg out ls = Returned fs' \/ split_lines fs cwd od agg out ls = Raised fs') ->
  forall p, fread fs' p <> fread fs p -> out = Some p \/
    exists line m, In line ls /\ start_match line = Some m /\ p = abspath cwd (join od m).
Proof.
  induction ls as [|line ls IH]; intros fs out fs' H p Hp; cbn [split_lines] in H.
  - destruct H as [H|H]; [injection H as <-; congruence|discriminate].
  - assert (W : (exists line0 m, In line0 ls /\ start_match line0 = Some m /\ p = abspath cwd (join od m)) ->
               exists line0 m, In line0 (line :: ls) /\ start_match line0 = Some m /\ p = abspath cwd (join od m)).
    { intros (l0 & m & Hl & X). exists l0, m. split; [right; exact Hl|exact X]. }
    destruct (start_match line) as [m|] eqn:S.
    + destruct (fcreate fs (abspath cwd (join od m))) as [fs1|] eqn:Fc.
      * destruct (eqs _ agg); [destruct H; discriminate|].
        destruct (str_dec p (abspath cwd (join od m))) as [Ep|Np].
        -- right. exists line, m. split; [left; reflexivity|auto].
        -- right. apply W. destruct (IH _ _ _ H p) as [X|X]; [|congruence|exact X].
           rewrite (fcreate_some _ _ _ Fc), fread_with, (proj2 (eqs_neq _ _) Np). exact Hp.
      * destruct H as [H|H]; [discriminate|injection H as <-; congruence].
    + destruct (end_match line).
      * destruct (IH _ _ _ H p Hp) as [X|X]; [discriminate|right; apply W, X].
      * destruct out as [o|].
        -- destruct (str_dec p o) as [->|No]; [left; reflexivity|].
           destruct (IH _ _ _ H p) as [X|X]; [|left; exact X|right; apply W, X].
           unfold fappend. destruct (get o (files fs)); rewrite fread_with, (proj2 (eqs_neq _ _) No); exact Hp.
        -- destruct (IH _ _ _ H p Hp) as [X|X]; [discriminate|right; apply W, X].
Qed.
Lemma C60_touch_lemma fs cwd agg od text fs' p : fread fs (abspath cwd agg) = Some text ->
  split_aggregated_file fs cwd agg od = Returned fs' \/ split_aggregated_file fs cwd agg od = Raised fs' ->
  fread fs' p <> fread fs p ->
  exists line m rest, In line (lines text) /\ line = lit "// ===== Start of " ++ m ++ lit " =====" ++ rest /\
    p = abspath cwd (join od m).
Proof.
  intros R H Hp. unfold split_aggregated_file in H. destruct od as [|c od']; [destruct H as [H|H]; [discriminate|injection H as <-; congruence]|].
  set (od := c :: od') in *. unfold fmakedirs in H.
  destruct (existsb _ _); [destruct H as [H|H]; [discriminate|injection H as <-; congruence]|].
  set (fs1 := {| files := files fs; dirs := _ |}) in *.
  change (fread fs1 (abspath cwd agg)) with (fread fs (abspath cwd agg)) in H. rewrite R in H.
  destruct (split_touch _ _ _ _ _ _ _ H p Hp) as [X|(line & m & Hl & S & E)]; [discriminate|].
  apply marker_some in S as (_ & _ & rest & S). exists line, m, rest. auto.
Qed.
Lemma joinc_app c a b : a <> [] -> b <> [] -> joinc c (a ++ b) = joinc c a ++ c :: joinc c b.
Proof.
  intros A B. induction a as [|x a IH]; [congruence|]. destruct a as [|y a].
  - cbn [app joinc]. destruct b; [congruence|reflexivity].
  - change (joinc c ((x :: y :: a) ++ b)) with (x ++ c :: joinc c ((y :: a) ++ b)). rewrite IH by discriminate.
    change (joinc c (x :: y :: a)) with (x ++ c :: joinc c (y :: a)). rewrite <- app_assoc. reflexivity.
Qed.
Lemma fold_below cs acc : Forall cleanish cs -> ~ In dotdot cs ->
  exists new, fold_left (step true) cs acc = new ++ acc /\ Forall clean new.
Proof.
  intros C. revert acc. induction C as [|c cs Hc _ IH]; intros acc N; cbn [fold_left].
  - exists []. split; [reflexivity|constructor].
  - destruct (IH (step true acc c)) as (new & E & F); [intros X; apply N; right; exact X|].
    rewrite E. unfold step. destruct (eqs c [] || eqs c dot) eqn:K; [exists new; auto|].
    apply orb_false_iff in K as [K1 K2]. apply eqs_neq in K1, K2.
    assert (K3 : eqs c dotdot = false) by (apply eqs_neq; intros ->; apply N; left; reflexivity).
    rewrite K3. cbn [negb orb]. exists (new ++ [c]). rewrite <- app_assoc. split; [reflexivity|].
    apply Forall_app. split; [exact F|]. repeat constructor; assumption.
Qed.
Lemma C60_inside_lemma cwd od m : absolute cwd -> od <> [] -> StaysBelow m ->
  Inside (abspath cwd od) (abspath cwd (join od m)).
Proof.
  intros C O [Rm Dm]. assert (Rm' := Rm). apply rel_startswith in Rm'.
  set (base := if startswith od [slash] then od else join cwd od).
  assert (B : absolute base /\ abspath cwd od = normpath base /\ 
     leading (if startswith (join od m) [slash] then join od m else join cwd (join od m)) = leading base /\
     stack true (if startswith (join od m) [slash] then join od m else join cwd (join od m))
       = fold_left (step true) (splitc slash m) (stack true base)).
  { unfold base. destruct (startswith od [slash]) eqn:S.
    - assert (SJ : startswith (join od m) [slash] = true).
      { destruct (join_rel_shape od m S Rm') as (a & [E1|E1] & ->); rewrite E1 in S.
        - destruct a; [reflexivity|]. apply startswith_spec in S as (r & S). cbn [app] in S. injection S as -> _. reflexivity.
        - destruct a; [reflexivity|]. apply startswith_spec in S as (r & S). cbn [app] in S. injection S as -> _. reflexivity. }
      rewrite SJ. split; [exact S|]. split; [unfold abspath; rewrite S; reflexivity|].
      split; [apply leading_join; assumption|apply stack_join; assumption].
    - assert (Ro := S). apply rel_startswith in Ro.
      assert (Aj : absolute (join cwd od)).
      { apply absolute_leading. rewrite leading_join by assumption. apply absolute_leading, C. }
      assert (J : exists a, (od = a ++ [slash] \/ od = a) /\ join od m = a ++ slash :: m /\ a <> []).
      { destruct od as [|d a _] using rev_ind; [congruence|].
        unfold join. rewrite rev_unit. destruct (Ascii.eqb d slash) eqn:D.
        - apply Ascii.eqb_eq in D. subst d. exists a. split; [left; reflexivity|]. split.
          + destruct m as [|y m]; [reflexivity|]. cbn [rel] in Rm'. apply Ascii.eqb_neq in Rm'. rewrite Rm'.
            rewrite <- app_assoc. reflexivity.
          + intros ->. cbn [app rel] in Ro. congruence.
        - exists (a ++ [d]). split; [right; reflexivity|]. split.
          + destruct m as [|y m]; [reflexivity|]. cbn [rel] in Rm'. apply Ascii.eqb_neq in Rm'. rewrite Rm'. reflexivity.
          + destruct a; discriminate. }
      destruct J as (a & Ea & Ej & Na).
      assert (Rj : rel (join od m)).
      { rewrite Ej. destruct a as [|x a]; [congruence|]. cbn [app rel]. destruct Ea as [->| ->]; exact Ro. }
      rewrite (proj2 (rel_startswith _) Rj). split; [exact Aj|]. split; [unfold abspath; rewrite S; reflexivity|].
      split; [rewrite !leading_join by assumption; reflexivity|].
      rewrite !stack_join by assumption. rewrite Ej, splitc_app, fold_left_app. f_equal.
      destruct Ea as [->| ->]; [|reflexivity]. rewrite splitc_app, fold_left_app. reflexivity. }
  destruct B as (Ab & Eo & Lj & Sj). unfold abspath at 2.
  set (full := if startswith (join od m) [slash] then join od m else join cwd (join od m)) in *.
  assert (Lb : leading base <> 0) by (apply absolute_leading, Ab).
  rewrite Eo, (normpath_abs full) by congruence. rewrite Lj, Sj.
  destruct (fold_below (splitc slash m) (stack true base) (splitc_parts _ _) Dm) as (new & -> & Fn).
  rewrite rev_app_distr. rewrite (normpath_abs base Lb).
  destruct new as [|n0 new0] eqn:En.
  { left. rewrite app_nil_r. reflexivity. }
  rewrite <- En in *. right. exists (joinc slash (rev new)).
  assert (Rn : rev new <> []) by (rewrite En; cbn [rev]; destruct (rev new0); discriminate).
  pose proof (rel_joinc _ (Forall_rev' _ _ Fn)) as Rr.
  split; [apply rel_startswith, Rr|].
  assert (Jn : joinc slash (rev new) <> []).
  { pose proof (Forall_rev' _ _ Fn) as X. destruct (rev new) as [|x r]; [congruence|]. inversion_clear X as [|? ? (X1 & _) _].
    destruct x; [congruence|]. destruct r; discriminate. }
  destruct (rev (stack true base)) as [|x r] eqn:Sb.
  - cbn [app joinc]. rewrite app_nil_r. unfold join.
    destruct (joinc slash (rev new)) as [|y z]; [congruence|]. cbn [rel] in Rr. apply Ascii.eqb_neq in Rr. rewrite Rr.
    destruct (leading base) as [|n] eqn:L; [congruence|].
    assert (E1 : repeat slash (S n) = repeat slash n ++ [slash]) by (rewrite <- (repeat_cons n slash); reflexivity).
    rewrite E1, rev_unit, Ascii.eqb_refl. reflexivity.
  - rewrite joinc_app by (try discriminate; exact Rn). rewrite <- Sb.
    set (d := joinc slash (rev (stack true base))).
    assert (Dl : exists d' e, d = d' ++ [e] /\ e <> slash).
    { pose proof (Forall_rev' _ _ (stack_clean true base)) as X.
      assert (Xn : rev (stack true base) <> []) by congruence. unfold d. clear -X Xn.
      induction X as [|y ys (Y1 & _ & Y2) Fy IH]; [congruence|].
      assert (Lst : exists y' e, y = y' ++ [e] /\ e <> slash).
      { destruct y as [|e y' _] using rev_ind; [congruence|]. exists y', e. split; [reflexivity|].
        intros ->. apply Y2, in_or_app. right. left. reflexivity. }
      destruct ys as [|z zs]; [exact Lst|]. destruct IH as (d' & e & E1 & E2); [discriminate|].
      exists (y ++ slash :: d'), e. split; [|exact E2].
      change (joinc slash (y :: z :: zs)) with (y ++ slash :: joinc slash (z :: zs)). rewrite E1.
      rewrite <- app_assoc. reflexivity. }
    destruct Dl as (d' & e & -> & Ne). unfold join. rewrite (app_assoc _ d' [e]), rev_unit.
    apply Ascii.eqb_neq in Ne. rewrite Ne.
    destruct (joinc slash (rev new)) as [|y z]; [congruence|]. cbn [rel] in Rr. apply Ascii.eqb_neq in Rr. rewrite Rr.
    rewrite <- !app_assoc. reflexivity.
Qed.
