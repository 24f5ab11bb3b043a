(** The configuration script. *)
From Coq Require Import Bool Ascii String ZArith Lia List.
From Verif Require Import ModelPython ModelConfigBuild SpecAggregate SpecConfigBuild ProofPython ProofPath.
Import ListNotations.

Lemma below_spec d p : below d p = true <-> Below d p.
Proof.
  unfold below, Below. rewrite orb_true_iff, eqs_eq, startswith_spec. reflexivity.
Qed.
Lemma below_false d p : below d p = false <-> ~ Below d p.
Proof. rewrite <- below_spec. destruct (below d p); split; congruence. Qed.

Lemma get_filter {A} (g : str -> bool) p (l : dict A) :
  get p (filter (fun f => negb (g (fst f))) l) = if g p then None else get p l.
Proof.
  induction l as [|[k v] l IH]; cbn; [now destruct (g p)|].
  destruct (g k) eqn:E; cbn.
  - destruct (eqs p k) eqn:Ek; [apply eqs_eq in Ek; subst; rewrite E in *; exact IH|exact IH].
  - destruct (eqs p k) eqn:Ek; [apply eqs_eq in Ek; subst; now rewrite E|exact IH].
Qed.
Lemma get_has {A} p (d : dict A) : has p d = false <-> get p d = None.
Proof. unfold has. destruct (get p d); split; congruence. Qed.

(** ** Removing and creating directories *)
Definition clear (fs : fsys) (d : str) : fsys * bool := if fexists fs d then rmtree fs d else (fs, true).

Lemma rmtree_files fs d p : get p (files (fst (rmtree fs d))) = get p (files fs) \/
  Below d p /\ get p (files (fst (rmtree fs d))) = None.
Proof.
  unfold rmtree. destruct (mem d (dirs fs)); cbn; [|now left]. rewrite get_filter.
  destruct (below d p) eqn:E; [right; now rewrite <- below_spec|now left].
Qed.
Lemma clear_files fs d p : get p (files (fst (clear fs d))) = get p (files fs) \/
  Below d p /\ get p (files (fst (clear fs d))) = None.
Proof. unfold clear. destruct (fexists fs d); [apply rmtree_files|now left]. Qed.
Lemma rmtree_dirs fs d p : ~ Below d p -> In p (dirs fs) -> In p (dirs (fst (rmtree fs d))).
Proof.
  intros H Hp. unfold rmtree. destruct (mem d (dirs fs)); cbn; [|exact Hp]. apply filter_In. split; [exact Hp|].
  apply below_false in H. now rewrite H.
Qed.
Lemma clear_dirs fs d p : ~ Below d p -> In p (dirs fs) -> In p (dirs (fst (clear fs d))).
Proof. intros H Hp. unfold clear. destruct (fexists fs d); [now apply rmtree_dirs|exact Hp]. Qed.
Lemma clear_dirs_incl fs d p : In p (dirs (fst (clear fs d))) -> In p (dirs fs).
Proof.
  unfold clear, rmtree. destruct (fexists fs d); [|auto]. destruct (mem d (dirs fs)); cbn; [|auto].
  intros H. apply filter_In in H. apply H.
Qed.

Lemma in_add_dirs l : forall ds p, In p (add_dirs l ds) <-> In p ds \/ In p l.
Proof.
  induction l as [|x l IH]; intros ds p; cbn; [tauto|]. rewrite IH. destruct (mem x ds) eqn:E.
  - apply mem_In in E. split; [tauto|]. intros [H|[->|H]]; auto.
  - rewrite in_app_iff. cbn. tauto.
Qed.
Lemma makedirs_ok fs d fs' : makedirs fs d = Some fs' ->
  fexists fs d = false /\ files fs' = files fs /\ (forall p, In p (dirs fs') <-> In p (dirs fs) \/ In p (ancestors d)).
Proof.
  unfold makedirs, fmakedirs. destruct (fexists fs d) eqn:E; [discriminate|]. destruct existsb; [discriminate|].
  generalize (ancestors d). intros l H. injection H as <-. cbn [files dirs]. split; [reflexivity|]. split; [reflexivity|]. intros p. apply in_add_dirs.
Qed.

Lemma fcreate_ok fs p fs' : fcreate fs p = Some fs' -> dirs fs' = dirs fs /\ files fs' = put p [] (files fs) /\
  In (dirname p) (dirs fs) /\ ~ In p (dirs fs).
Proof.
  unfold fcreate. destruct (mem p (dirs fs)) eqn:E1; [discriminate|]. destruct (mem (dirname p) (dirs fs)) eqn:E2; [|discriminate].
  cbn. intros H. injection H as <-. apply mem_In in E2. apply mem_false in E1. auto.
Qed.

(** ** Paths *)
Lemma below_refl d : Below d d. Proof. now left. Qed.
Lemma below_trans a b c : Below a b -> Below b c -> Below a c.
Proof.
  unfold Below. intros [->|(s & ->)] [->|(t & ->)]; [now left|right; now exists t|right; now exists s|].
  right. destruct (eqs (_ ++ s) [slash]); rewrite <- !app_assoc; eexists; reflexivity.
Qed.

Definition path_of (cs : list str) : str := concat (map (cons slash) cs).
Lemma path_of_joinc cs : cs <> [] -> slash :: joinc slash cs = path_of cs.
Proof.
  induction cs as [|c cs IH]; [congruence|]. intros _. destruct cs as [|d cs].
  - cbn. now rewrite app_nil_r.
  - change (slash :: (c ++ slash :: joinc slash (d :: cs)) = (slash :: c) ++ path_of (d :: cs)).
    rewrite <- IH by discriminate. reflexivity.
Qed.
Definition normal (p : str) : Prop := exists cs, cs <> [] /\ Forall clean cs /\ p = path_of cs.
Definition double (p : str) : bool := startswith p [slash; slash].
Lemma abspath_normal cwd p : absolute cwd -> double (abspath cwd p) = false ->
  abspath cwd p = [slash] \/ normal (abspath cwd p).
Proof.
  intros A D. destruct (abspath_cases cwd p A) as (q & E & L & _). rewrite E in *. clear E.
  pose proof (Forall_rev' _ _ (stack_clean true q)) as C.
  rewrite normpath_abs in * by exact L. pose proof (leading_2 q).
  destruct (leading q) as [|[|[|]]] eqn:El; [congruence| | |lia].
  - cbn [repeat app]. destruct (rev (stack true q)) as [|c cs] eqn:Er; [now left|right].
    exists (c :: cs). split; [discriminate|]. split; [exact C|]. now apply path_of_joinc.
  - unfold double, startswith in D. cbn in D. discriminate.
Qed.

Lemma splitc_path cs : Forall clean cs -> cs <> [] -> splitc slash (path_of cs) = [] :: cs.
Proof.
  intros C N. rewrite <- path_of_joinc by exact N. change (slash :: joinc slash cs) with ([] ++ slash :: joinc slash cs).
  rewrite splitc_app, splitc_joinc; [reflexivity|exact N|apply clean_cleanish, C].
Qed.
Lemma filter_clean cs : Forall clean cs -> filter (fun c => negb (eqs c [])) cs = cs.
Proof.
  induction 1 as [|c cs H _ IH]; [reflexivity|]. cbn. rewrite (proj2 (eqs_neq c [])) by apply H. cbn. now rewrite IH.
Qed.
Lemma ancestors_path cs : Forall clean cs -> cs <> [] -> ancestors (path_of cs) = [slash] :: prefixes [] cs.
Proof. intros C N. unfold ancestors. rewrite splitc_path by assumption. cbn [filter eqs negb]. now rewrite filter_clean. Qed.
Lemma prefixes_in cs : forall acc d, In d (prefixes acc cs) <->
  exists cs1 cs2, cs = cs1 ++ cs2 /\ cs1 <> [] /\ d = acc ++ path_of cs1.
Proof.
  induction cs as [|c cs IH]; intros acc d; cbn.
  - split; [tauto|]. intros (c1 & c2 & E & N & _). destruct c1; [congruence|discriminate].
  - rewrite IH. split.
    + intros [<-|(c1 & c2 & -> & N & ->)].
      * exists [c], cs. split; [reflexivity|]. split; [discriminate|]. cbn. now rewrite app_nil_r.
      * exists (c :: c1), c2. split; [reflexivity|]. split; [discriminate|]. cbn. now rewrite <- app_assoc.
    + intros ([|c' c1] & c2 & E & N & ->); [congruence|]. injection E as <- ->.
      destruct c1 as [|d c1]; [left; cbn; now rewrite app_nil_r|right].
      exists (d :: c1), c2. split; [reflexivity|]. split; [discriminate|].
      change (path_of (c :: d :: c1)) with ((slash :: c) ++ path_of (d :: c1)).
      rewrite <- app_assoc. reflexivity.
Qed.
Lemma path_of_app a b : path_of (a ++ b) = path_of a ++ path_of b.
Proof. unfold path_of. now rewrite map_app, concat_app. Qed.
Lemma path_of_not_root cs : Forall clean cs -> path_of cs <> [slash].
Proof.
  intros H. destruct H as [|c cs H _]; [discriminate|]. destruct c as [|x c]; [destruct H as (X & _); congruence|discriminate].
Qed.
Lemma normal_not_root p : normal p -> p <> [slash].
Proof. intros (cs & _ & C & ->). now apply path_of_not_root. Qed.
Lemma below_root cs : cs <> [] -> Below [slash] (path_of cs).
Proof. destruct cs as [|c cs]; [congruence|]. intros _. right. cbn. eexists. reflexivity. Qed.
Lemma path_below a b : Forall clean a -> Below (path_of a) (path_of (a ++ b)).
Proof.
  intros C. destruct b as [|c b]; [rewrite app_nil_r; now left|]. right.
  rewrite (proj2 (eqs_neq _ _) (path_of_not_root a C)), path_of_app. exists (c ++ path_of b). rewrite <- app_assoc. reflexivity.
Qed.
Lemma ancestors_below p d : normal p -> In d (ancestors p) -> Below d p.
Proof.
  intros (cs & N & C & ->) H. rewrite ancestors_path in H by assumption. destruct H as [<-|H]; [now apply below_root|].
  apply prefixes_in in H. destruct H as (c1 & c2 & -> & N1 & ->). apply path_below. now apply Forall_app in C.
Qed.
Lemma ancestors_self p : normal p -> In p (ancestors p).
Proof.
  intros (cs & N & C & ->). rewrite ancestors_path by assumption. right. apply prefixes_in.
  exists cs, []. rewrite app_nil_r. auto.
Qed.

Lemma upto_skip w r : ~ In slash w -> upto_last_slash_rev (w ++ slash :: r) = slash :: r.
Proof.
  induction w as [|c w IH]; intros H; cbn; [reflexivity|]. destruct (Ascii.eqb c slash) eqn:E.
  - apply Ascii.eqb_eq in E. subst. destruct H. now left.
  - apply IH. intros X. apply H. now right.
Qed.
Lemma dirname_file p w : normal p -> ~ In slash w -> dirname (p ++ slash :: w) = p.
Proof.
  intros (cs & N & C & ->) H. unfold dirname. rewrite rev_app_distr. cbn [rev]. rewrite <- app_assoc. cbn [app].
  rewrite upto_skip by (now rewrite <- in_rev). rewrite rev_involutive. cbn [lstripc]. rewrite Ascii.eqb_refl.
  destruct cs as [|c cs _] using rev_ind; [congruence|]. apply Forall_app in C. destruct C as [_ C].
  inversion C as [|? ? (C1 & _ & C2) _]. subst. rewrite path_of_app. unfold path_of at 2 4. cbn. rewrite app_nil_r.
  destruct c as [|x c _] using rev_ind; [congruence|].
  change (path_of cs ++ slash :: c ++ [x]) with (path_of cs ++ (slash :: c) ++ [x]). rewrite app_assoc, rev_unit. cbn [lstripc].
  destruct (Ascii.eqb x slash) eqn:E.
  { apply Ascii.eqb_eq in E. subst. destruct C2. apply in_or_app. right. now left. }
  change (rev (x :: rev (path_of cs ++ slash :: c)) = (path_of cs ++ slash :: c) ++ [x]). cbn [rev]. now rewrite rev_involutive.
Qed.

(** ** The two directories *)
Lemma endswith_spec s e : endswith s e = true <-> exists n, s = n ++ e.
Proof.
  unfold endswith. rewrite startswith_spec. split.
  - intros (r & H). exists (rev r). apply (f_equal (@rev _)) in H. now rewrite rev_involutive, rev_app_distr, rev_involutive in H.
  - intros (n & ->). exists (rev n). apply rev_app_distr.
Qed.
Lemma basename_spec d b : ~ In slash b -> basename (d ++ slash :: b) = b.
Proof.
  intros H. unfold basename. rewrite rev_app_distr. cbn [rev]. rewrite <- app_assoc. cbn [app].
  rewrite span_app.
  - cbn. apply rev_involutive.
  - intros c Hc. apply negb_true_iff, Ascii.eqb_neq. intros ->. apply H. now apply in_rev.
  - reflexivity.
Qed.
Lemma platform_spec cwd a n : Platform cwd a n -> platform_info (abspath cwd (hostconfig a)) = n.
Proof.
  intros (d & b & E & H & F). unfold platform_info. rewrite E, basename_spec by exact H.
  destruct F as [->|[-> F]].
  - rewrite (proj2 (endswith_spec _ _)) by now exists n. rewrite app_length. cbn [length lit list_ascii_of_string].
    replace (length n + 6 - 6) with (length n) by lia. rewrite firstn_app, Nat.sub_diag, firstn_all. cbn. apply app_nil_r.
  - rewrite <- endswith_spec in F. now destruct (endswith n (lit ".cmake")).
Qed.
Lemma default_name_spec kind cwd a n : Platform cwd a n ->
  default_name kind (abspath cwd (hostconfig a)) a = lit kind ++ lit "-" ++ n ++ lit "-" ++ lower (buildtype a).
Proof. intros H. unfold default_name. rewrite (platform_spec _ _ _ H). reflexivity. Qed.
Definition build_of (cwd : str) (a : args) : str :=
  abspath cwd (match buildpath a with [] => default_name "build" (abspath cwd (hostconfig a)) a | p => p end).
Definition install_of (cwd : str) (a : args) : str :=
  abspath cwd (match installpath a with [] => default_name "install" (abspath cwd (hostconfig a)) a | p => p end).
Lemma build_dir cwd a B : BuildDir cwd a B -> build_of cwd a = B.
Proof.
  unfold build_of. intros [[H ->]|[H (n & P & ->)]].
  - now destruct (buildpath a).
  - rewrite H. now rewrite (default_name_spec _ _ _ n).
Qed.
Lemma install_dir cwd a B : InstallDir cwd a B -> install_of cwd a = B.
Proof.
  unfold install_of. intros [[H ->]|[H (n & P & ->)]].
  - now destruct (installpath a).
  - rewrite H. now rewrite (default_name_spec _ _ _ n).
Qed.
Lemma abspath_in_spec B cwd p q : abspath_in (gone B (Some cwd)) p = Some q -> q = abspath cwd p.
Proof.
  unfold abspath_in, abspath. destruct (startswith p [slash]); [intros H; now injection H|].
  cbn. destruct (below B cwd); [discriminate|]. intros H. now injection H.
Qed.
Definition install_in (B cwd : str) (a : args) : option str :=
  match match installpath a with
        | [] => Some (default_name "install" (abspath cwd (hostconfig a)) a)
        | p => abspath_in (gone B (Some cwd)) p
        end with
  | None => None
  | Some p => abspath_in (gone B (Some cwd)) p
  end.
Lemma install_in_spec B cwd a q : absolute cwd -> install_in B cwd a = Some q -> q = install_of cwd a.
Proof.
  intros A. unfold install_in, install_of. destruct (installpath a) as [|c p].
  - apply abspath_in_spec.
  - destruct (abspath_in (gone B (Some cwd)) (c :: p)) as [x|] eqn:E; [|discriminate].
    apply abspath_in_spec in E. intros H. apply abspath_in_spec in H. subst. now apply abspath_idem.
Qed.

(** ** The script, stage by stage *)
Definition cmd_file (B : str) : str := B ++ lit "/cmake_cmd".
Section Run.
Context (status : str -> option Z) (fs : fsys) (cwd argv0 : str) (a : args).
Let cachefile := abspath cwd (hostconfig a).
Let B := build_of cwd a.
Let line (I : str) := cmakeline a cachefile I (dirname (abspath cwd argv0)).
Definition commands (l : str) : list (str * str) * Z :=
  match status l with
  | None => ([(build_of cwd a, l)], 1)
  | Some _ => if graphviz a then ([(build_of cwd a, l); (build_of cwd a, dot_line)], match status dot_line with None => 1 | Some _ => 0 end)
              else ([(build_of cwd a, l)], 0)
  end%Z.

Inductive Ends : ending -> Prop :=
| end_missing : fexists fs cachefile = false -> Ends (raised fs)
| end_clear1 fs1 : fexists fs cachefile = true -> clear fs B = (fs1, false) -> Ends (raised fs1)
| end_make1 fs1 : fexists fs cachefile = true -> clear fs B = (fs1, true) -> makedirs fs1 B = None -> Ends (raised fs1)
| end_cwd fs1 fs2 : fexists fs cachefile = true -> clear fs B = (fs1, true) -> makedirs fs1 B = Some fs2 ->
    install_in B cwd a = None -> Ends (raised fs2)
| end_clear2 fs1 fs2 I fs3 : fexists fs cachefile = true -> clear fs B = (fs1, true) -> makedirs fs1 B = Some fs2 ->
    install_in B cwd a = Some I -> clear fs2 I = (fs3, false) -> Ends (raised fs3)
| end_make2 fs1 fs2 I fs3 : fexists fs cachefile = true -> clear fs B = (fs1, true) -> makedirs fs1 B = Some fs2 ->
    install_in B cwd a = Some I -> clear fs2 I = (fs3, true) -> makedirs fs3 I = None -> Ends (raised fs3)
| end_cache fs1 fs2 I fs3 fs4 : fexists fs cachefile = true -> clear fs B = (fs1, true) -> makedirs fs1 B = Some fs2 ->
    install_in B cwd a = Some I -> clear fs2 I = (fs3, true) -> makedirs fs3 I = Some fs4 ->
    extract_cmake_location fs4 cachefile = None -> Ends (raised fs4)
| end_open fs1 fs2 I fs3 fs4 x : fexists fs cachefile = true -> clear fs B = (fs1, true) -> makedirs fs1 B = Some fs2 ->
    install_in B cwd a = Some I -> clear fs2 I = (fs3, true) -> makedirs fs3 I = Some fs4 ->
    extract_cmake_location fs4 cachefile = Some x -> fcreate fs4 (cmd_file B) = None -> Ends (raised fs4)
| end_run fs1 fs2 I fs3 fs4 x fs5 : fexists fs cachefile = true -> clear fs B = (fs1, true) -> makedirs fs1 B = Some fs2 ->
    install_in B cwd a = Some I -> clear fs2 I = (fs3, true) -> makedirs fs3 I = Some fs4 ->
    extract_cmake_location fs4 cachefile = Some x -> fcreate fs4 (cmd_file B) = Some fs5 ->
    Ends {| after := fappend fs5 (cmd_file B) (line I); started := fst (commands (line I)); code := snd (commands (line I)) |}.

Lemma run_ends : Ends (config_build status fs cwd argv0 a).
Proof.
  unfold config_build. fold cachefile. destruct (fexists fs cachefile) eqn:E0; cbn [negb]; [|now apply end_missing].
  change (abspath cwd match buildpath a with [] => default_name "build" cachefile a | x :: y => x :: y end) with B.
  change (if fexists fs B then rmtree fs B else (fs, true)) with (clear fs B).
  destruct (clear fs B) as [fs1 [|]] eqn:E1; cbn [negb]; [|now apply end_clear1].
  destruct (makedirs fs1 B) as [fs2|] eqn:E2; [|now apply end_make1].
  destruct (install_in B cwd a) as [I|] eqn:E3.
  2:{ pose proof E3 as E3'. unfold install_in in E3. fold cachefile in E3.
      destruct (installpath a) as [|c p]; [rewrite E3; now apply (end_cwd fs1)|].
      destruct (abspath_in (gone B (Some cwd)) (c :: p)) as [x|]; [rewrite E3|]; now apply (end_cwd fs1). }
  assert (X : forall (Y : Type) (f : str -> Y) y,
    match match installpath a with
        | [] => Some (default_name "install" cachefile a)
        | p => abspath_in (gone B (Some cwd)) p
        end with
    | None => y
    | Some p => match abspath_in (gone B (Some cwd)) p with None => y | Some i => f i end
    end = f I).
  { intros Y f y. unfold install_in in E3. fold cachefile in E3. 
    destruct (match installpath a with [] => _ | _ => _ end); [now rewrite E3|discriminate]. }
  rewrite X. clear X.
  change (if fexists fs2 I then rmtree fs2 I else (fs2, true)) with (clear fs2 I).
  destruct (clear fs2 I) as [fs3 [|]] eqn:E4; cbn [negb]; [|now apply (end_clear2 fs1 fs2 I)].
  destruct (makedirs fs3 I) as [fs4|] eqn:E5; [|now apply (end_make2 fs1 fs2 I)].
  destruct (extract_cmake_location fs4 cachefile) as [x|] eqn:E6; [|now apply (end_cache fs1 fs2 I fs3)].
  fold (cmd_file B). destruct (fcreate fs4 (cmd_file B)) as [fs5|] eqn:E7; [|now apply (end_open fs1 fs2 I fs3 fs4 x)].
  pose proof (end_run fs1 fs2 I fs3 fs4 x fs5 E0 E1 E2 E3 E4 E5 E6 E7) as R. unfold commands in R. fold (line I).
  fold B in R. destruct (status (line I)); [destruct (graphviz a)|]; exact R.
Qed.

(** *** What is outside both directories *)
Definition Keep (p : str) (f f' : fsys) : Prop :=
  get p (files f') = get p (files f) /\ (In p (dirs f) -> In p (dirs f')).
Lemma keep_trans p f g h : Keep p f g -> Keep p g h -> Keep p f h.
Proof. intros [H1 H2] [H3 H4]. split; [congruence|auto]. Qed.
Lemma keep_clear p f f' d ok : clear f d = (f', ok) -> ~ Below d p -> Keep p f f'.
Proof.
  intros H N. replace f' with (fst (clear f d)) by now rewrite H. split.
  - destruct (clear_files f d p) as [X|[X _]]; [exact X|contradiction].
  - now apply clear_dirs.
Qed.
Lemma keep_make p f f' d : makedirs f d = Some f' -> Keep p f f'.
Proof. intros H. apply makedirs_ok in H. destruct H as (_ & F & D). split; [now rewrite F|intros X; apply D; now left]. Qed.
Lemma keep_cmd p f f' t : fcreate f (cmd_file B) = Some f' -> ~ Below B p -> Keep p f (fappend f' (cmd_file B) t).
Proof.
  intros H N. apply fcreate_ok in H. destruct H as (D & F & _).
  assert (P : p <> cmd_file B).
  { intros ->. apply N. right. unfold cmd_file. destruct (eqs B [slash]) eqn:E.
    - eexists. reflexivity.
    - exists (lit "cmake_cmd"). rewrite <- app_assoc. reflexivity. }
  unfold fappend. rewrite F, get_put. split; cbn; [|now rewrite D].
  rewrite F, put_put, get_put_other by exact P. reflexivity.
Qed.
Lemma outside_kept p : absolute cwd -> ~ Below B p -> ~ Below (install_of cwd a) p ->
  Keep p fs (after (config_build status fs cwd argv0 a)).
Proof.
  intros A NB NI.
  assert (N : forall I, install_in B cwd a = Some I -> ~ Below I p).
  { intros I H. apply install_in_spec in H; [now subst|exact A]. }
  destruct run_ends; cbn [after raised];
    repeat match goal with
    | H : clear ?f B = (?g, _) |- _ => apply (keep_clear p) in H; [|exact NB]
    | H : install_in B cwd a = Some ?I, H' : clear ?f ?I = (?g, _) |- _ => apply (keep_clear p) in H'; [|exact (N _ H)]
    | H : makedirs ?f ?d = Some ?g |- _ => apply (keep_make p) in H
    | H : fcreate ?f ?d = Some ?g |- _ => apply (keep_cmd p _ _ (line I)) in H; [|exact NB]
    end; eauto using keep_trans. now split.
Qed.
End Run.

(** ** A started run leaves a fresh build directory *)
Lemma clear_gone f d f' p : clear f d = (f', true) -> Below d p -> Sane f -> d <> [] ->
  get p (files f') = None /\ ~ In p (dirs f').
Proof.
  intros H N (_ & _ & S3 & S4) Nd. unfold clear in H. destruct (fexists f d) eqn:E.
  - unfold rmtree in H. destruct (mem d (dirs f)); [|discriminate]. injection H as <- H. cbn [files dirs].
    apply negb_true_iff in H. rewrite get_filter, (proj2 (below_spec d p) N). split; [reflexivity|].
    rewrite filter_In, (proj2 (below_spec d p) N), H. cbn. intros [_ X]. discriminate.
  - injection H as <-. unfold fexists in E. apply orb_false_iff in E. destruct E as [E1 E2].
    apply mem_false in E2. apply has_false in E1.
    assert (K : ~ (In p (dirs f) \/ In p (map fst (files f)))).
    { intros K. destruct (str_dec p d) as [->|Np]; [tauto|]. apply E2. now apply (S4 d p). }
    split; [apply get_None|]; tauto.
Qed.
Lemma clear_subset f d f' ok p : clear f d = (f', ok) ->
  (get p (files f') = None \/ get p (files f') = get p (files f)) /\ (In p (dirs f') -> In p (dirs f)).
Proof.
  intros H. replace f' with (fst (clear f d)) by now rewrite H. split; [|apply clear_dirs_incl].
  destruct (clear_files f d p) as [X|[_ X]]; auto.
Qed.
Lemma clear_not_root f f' : Sane f -> clear f [slash] = (f', true) -> False.
Proof.
  intros (_ & R & _) H. unfold clear, fexists in H. rewrite (proj2 (mem_In _ _) R), orb_true_r in H.
  unfold rmtree in H. rewrite (proj2 (mem_In _ _) R) in H. discriminate.
Qed.
Lemma cmd_below B : normal B -> Below B (cmd_file B).
Proof.
  intros N. right. rewrite (proj2 (eqs_neq _ _) (normal_not_root B N)). exists (lit "cmake_cmd").
  unfold cmd_file. rewrite <- app_assoc. reflexivity.
Qed.
Lemma normal_not_nil p : normal p -> p <> [].
Proof. intros (cs & N & _ & ->). destruct cs; [congruence|discriminate]. Qed.

Lemma fappend_fresh f f' p t : fcreate f p = Some f' ->
  dirs (fappend f' p t) = dirs f /\ files (fappend f' p t) = put p t (files f).
Proof.
  intros H. apply fcreate_ok in H. destruct H as (D & F & _). unfold fappend. rewrite F, get_put. cbn. split; [exact D|].
  rewrite F. apply put_put.
Qed.

Lemma hd_commands status cwd a l : exists rest, fst (commands status cwd a l) = (build_of cwd a, l) :: rest.
Proof. unfold commands. destruct (status l); [destruct (graphviz a)|]; eexists; reflexivity. Qed.

Lemma fresh_build status fs cwd argv0 a : Sane fs -> absolute cwd ->
  double (build_of cwd a) = false -> double (install_of cwd a) = false ->
  let r := config_build status fs cwd argv0 a in
  started r <> [] ->
  exists cmd rest, started r = (build_of cwd a, cmd) :: rest /\
    In (build_of cwd a) (dirs (after r)) /\ In (install_of cwd a) (dirs (after r)) /\
    get (cmd_file (build_of cwd a)) (files (after r)) = Some cmd /\
    (forall p t, Below (build_of cwd a) p \/ Below (install_of cwd a) p -> get p (files (after r)) = Some t ->
       p = cmd_file (build_of cwd a)) /\
    (forall p, Below (build_of cwd a) p \/ Below (install_of cwd a) p -> In p (dirs (after r)) ->
       Below p (build_of cwd a) \/ Below p (install_of cwd a)).
Proof.
  intros S A DB DI r. pose proof (run_ends status fs cwd argv0 a) as R. fold r in R.
  destruct R as [| | | | | | | | fs1 fs2 I fs3 fs4 x fs5 E0 E1 E2 E3 E4 E5 E6 E7];
    try (intros X; cbn in X; congruence). intros _.
  apply install_in_spec in E3; [|exact A]. subst I. cbn [started after].
  set (B := build_of cwd a) in *. set (I := install_of cwd a) in *.
  set (line := cmakeline a (abspath cwd (hostconfig a)) I (dirname (abspath cwd argv0))).
  destruct (hd_commands status cwd a line) as [rest Hh]. exists line, rest. split; [exact Hh|]. clear Hh rest.
  assert (NB : normal B).
  { destruct (abspath_normal cwd _ A DB) as [X|X]; [|exact X]. exfalso. change (B = [slash]) in X. rewrite X in E1.
    now apply clear_not_root in E1. }
  pose proof (makedirs_ok _ _ _ E2) as (_ & F2 & D2).
  pose proof (makedirs_ok _ _ _ E5) as (_ & F4 & D4).
  pose proof (fappend_fresh _ _ _ line E7) as (D5 & F5). pose proof (fcreate_ok _ _ _ E7) as (_ & _ & Dn & _).
  rewrite D5, F5. unfold cmd_file in Dn. change (lit "/cmake_cmd") with (slash :: lit "cmake_cmd") in Dn.
  rewrite dirname_file in Dn by (try exact NB; vm_compute; intuition discriminate).
  assert (NI : normal I).
  { destruct (abspath_normal cwd _ A DI) as [X|X]; [|exact X]. exfalso. change (I = [slash]) in X. rewrite X in E4.
    unfold clear, fexists, rmtree in E4.
    assert (R : In [slash] (dirs fs2)).
    { apply D2. right. now left. }
    rewrite (proj2 (mem_In _ _) R), orb_true_r in E4. discriminate. }
  split; [exact Dn|]. split; [apply D4; right; now apply ancestors_self|].
  split; [apply get_put|].
  assert (GB : forall p, Below B p -> get p (files fs1) = None /\ ~ In p (dirs fs1)).
  { intros p Hp. apply (clear_gone fs B fs1 p); auto using normal_not_nil. }
  assert (GI : forall p, Below I p -> get p (files fs3) = None /\ (In p (dirs fs3) -> In p (ancestors B))).
  { intros p Hp. unfold clear in E4. destruct (fexists fs2 I) eqn:E.
    - unfold rmtree in E4. destruct (mem I (dirs fs2)); [|discriminate]. injection E4 as <- H. cbn [files dirs].
      apply negb_true_iff in H. rewrite get_filter, (proj2 (below_spec I p) Hp). split; [reflexivity|].
      rewrite filter_In, (proj2 (below_spec I p) Hp), H. cbn. intros [_ X]. discriminate.
    - injection E4 as <-. unfold fexists in E. apply orb_false_iff in E. destruct E as [e1 e2].
      apply mem_false in e2. apply has_false in e1. rewrite F2 in *.
      destruct S as (S1 & S2 & S3 & S4).
      assert (K : ~ (In p (dirs fs1) \/ In p (map fst (files fs1)))).
      { intros K. destruct (str_dec p I) as [->|Np].
        { destruct K as [K|K]; [apply e2, D2; now left|contradiction]. }
        assert (K' : In p (dirs fs) \/ In p (map fst (files fs))).
        { destruct (clear_subset fs B fs1 true p E1) as [Y1 Y2].
          destruct K as [K|K]; [left; auto|right]. destruct (In_dec str_dec p (map fst (files fs))) as [|Q]; [assumption|].
          exfalso. apply get_None in Q. assert (get p (files fs1) = None) by (destruct Y1; congruence).
          now apply get_None in H. }
        assert (Q : ~ Below B p).
        { intros Q. destruct (GB p Q) as [Q1 Q2]. apply get_None in Q1. tauto. }
        pose proof (S4 I p K' Hp Np (normal_not_nil _ NI)) as II.
        apply e2, D2. left. replace fs1 with (fst (clear fs B)) by now rewrite E1. apply clear_dirs; [|exact II].
        intros Q'. apply Q. now apply (below_trans B I p). }
      split; [apply get_None; tauto|]. intros X. apply D2 in X. tauto. }
  assert (GB3 : forall p, Below B p -> get p (files fs3) = None /\ (In p (dirs fs3) -> In p (ancestors B))).
  { intros p Hp. destruct (GB p Hp) as [Q1 Q2]. destruct (clear_subset fs2 I fs3 true p E4) as [Y1 Y2]. split.
    - rewrite F2 in Y1. destruct Y1; congruence.
    - intros X. apply Y2, D2 in X. tauto. }
  split.
  - intros p t Hp Ht. destruct (str_dec p (cmd_file B)) as [|Np]; [assumption|]. exfalso.
    rewrite get_put_other in Ht by exact Np. rewrite F4 in Ht.
    destruct Hp as [Hp|Hp]; [destruct (GB3 p Hp) as [Q _]|destruct (GI p Hp) as [Q _]]; congruence.
  - intros p Hp X. apply D4 in X. destruct X as [X|X]; [left|right; now apply ancestors_below].
    apply ancestors_below; [exact NB|]. destruct Hp as [Hp|Hp]; [apply (GB3 p Hp)|apply (GI p Hp)]; exact X.
Qed.

(** ** When the script gets as far as starting cmake *)
Lemma clear_true f d : d <> [slash] -> get d (files f) = None -> exists f', clear f d = (f', true) /\ fexists f' d = false.
Proof.
  intros N G. unfold clear, fexists. rewrite (proj2 (has_false d (files f))) by now apply get_None. cbn [orb].
  destruct (mem d (dirs f)) eqn:E; eexists; [|split; [reflexivity|]].
  - unfold rmtree. rewrite E, (proj2 (eqs_neq _ _) N). cbn [negb]. split; [reflexivity|]. cbn [files dirs].
    apply orb_false_iff. split.
    + apply has_false, get_None. rewrite get_filter. now destruct (below d d).
    + apply mem_false. rewrite filter_In, (proj2 (below_spec d d) (below_refl d)). cbn. intros [_ X]. discriminate.
  - rewrite E, orb_false_r. now apply has_false, get_None.
Qed.
Lemma makedirs_true f d : fexists f d = false -> (forall p, In p (ancestors d) -> get p (files f) = None) ->
  exists f', makedirs f d = Some f'.
Proof.
  intros E H. unfold makedirs, fmakedirs. rewrite E. destruct existsb eqn:X; [|eexists; reflexivity].
  apply existsb_exists in X. destruct X as (p & Hp & X). apply has_In in X. specialize (H p Hp). apply get_None in H. contradiction.
Qed.
Lemma cmd_not_above B : ~ Below (cmd_file B) B.
Proof.
  intros [H|(s & H)]; apply (f_equal (@length _)) in H; unfold cmd_file in H.
  - rewrite app_length in H. cbn in H. lia.
  - destruct (eqs _ _) in H; rewrite ?app_length in H; cbn in H; lia.
Qed.
Lemma install_in_some B cwd a : absolute cwd -> absolute (installpath a) \/ ~ Below B cwd ->
  install_in B cwd a = Some (install_of cwd a).
Proof.
  intros A H. assert (X : exists q, install_in B cwd a = Some q).
  { unfold install_in. destruct (installpath a) as [|c p] eqn:E.
    - destruct H as [H|H]; [discriminate|]. unfold abspath_in, gone. rewrite (proj2 (below_false _ _) H).
      destruct (startswith _ _); eexists; reflexivity.
    - destruct H as [H|H].
      + unfold abspath_in at 1 2. unfold absolute in H. rewrite H. apply absolute_leading in H.
        assert (Y : absolute (normpath (c :: p))) by (apply absolute_leading; now rewrite leading_normpath).
        unfold absolute in Y. unfold abspath_in. rewrite Y. eexists. reflexivity.
      + unfold abspath_in, gone. rewrite (proj2 (below_false _ _) H). destruct (startswith (c :: p) [slash]);
          destruct (startswith _ _); eexists; reflexivity. }
  destruct X as [q X]. rewrite X. f_equal. now apply install_in_spec in X.
Qed.

Lemma reaches_cmake status fs cwd argv0 a : Sane fs -> absolute cwd ->
  let B := build_of cwd a in let I := install_of cwd a in let H := abspath cwd (hostconfig a) in
  double B = false -> double I = false -> B <> [slash] -> I <> [slash] ->
  (forall p, Below p B \/ Below p I -> get p (files fs) = None) ->
  (Below I B -> I = B) -> ~ Below (cmd_file B) I ->
  absolute (installpath a) \/ ~ Below B cwd ->
  get H (files fs) <> None -> ~ Below B H -> ~ Below I H ->
  exists rest, started (config_build status fs cwd argv0 a) = (B, cmakeline a H I (dirname (abspath cwd argv0))) :: rest.
Proof.
  intros S A B I H DB DI RB RI G IB CI W HC HB HI.
  assert (NB : normal B) by (destruct (abspath_normal cwd _ A DB) as [X|X]; [contradiction|exact X]).
  assert (NI : normal I) by (destruct (abspath_normal cwd _ A DI) as [X|X]; [contradiction|exact X]).
  destruct (clear_true fs B RB (G B (or_introl (below_refl B)))) as (fs1 & E1 & E1').
  assert (G1 : forall p, Below p B \/ Below p I -> get p (files fs1) = None).
  { intros p Hp. destruct (clear_subset fs B fs1 true p E1) as [X _]. specialize (G p Hp). destruct X; congruence. }
  destruct (makedirs_true fs1 B E1') as [fs2 E2].
  { intros p Hp. apply G1. left. now apply ancestors_below. }
  pose proof (makedirs_ok _ _ _ E2) as (_ & F2 & D2).
  destruct (clear_true fs2 I RI) as (fs3 & E4 & E4').
  { rewrite F2. apply G1. right. apply below_refl. }
  destruct (makedirs_true fs3 I E4') as [fs4 E5].
  { intros p Hp. destruct (clear_subset fs2 I fs3 true p E4) as [X _]. rewrite F2 in X.
    rewrite (G1 p) in X by (right; now apply ancestors_below). tauto. }
  pose proof (makedirs_ok _ _ _ E5) as (_ & F4 & D4).
  assert (E0 : fexists fs H = true).
  { unfold fexists. rewrite (proj2 (has_In H (files fs))); [reflexivity|].
    destruct (In_dec str_dec H (map fst (files fs))) as [|X]; [assumption|]. apply get_None in X. contradiction. }
  assert (HC4 : get H (files fs4) = get H (files fs)).
  { rewrite F4. destruct (keep_clear H _ _ _ _ E4 HI) as [X _]. rewrite X, F2. apply (keep_clear H _ _ _ _ E1 HB). }
  assert (E6 : exists x, extract_cmake_location fs4 H = Some x).
  { unfold extract_cmake_location, fread. destruct (fexists fs4 H); [|eexists; reflexivity].
    rewrite HC4. destruct (get H (files fs)); [eexists; reflexivity|congruence]. }
  destruct E6 as [x E6].
  assert (E7 : exists f, fcreate fs4 (cmd_file B) = Some f).
  { unfold fcreate. replace (mem (cmd_file B) (dirs fs4)) with false; [replace (mem (dirname (cmd_file B)) (dirs fs4)) with true; [eexists; reflexivity|]|]; symmetry.
    - unfold cmd_file. change (lit "/cmake_cmd") with (slash :: lit "cmake_cmd").
      rewrite dirname_file by (try exact NB; vm_compute; intuition discriminate). apply mem_In, D4.
      destruct (str_dec I B) as [e|n]; [right; rewrite <- e at 1; now apply ancestors_self|left].
      replace fs3 with (fst (clear fs2 I)) by now rewrite E4. apply clear_dirs; [tauto|]. apply D2. right. now apply ancestors_self.
    - apply mem_false. intros X. apply D4 in X. destruct X as [X|X]; [|now apply ancestors_below in X].
      apply (clear_subset fs2 I fs3 true _ E4), D2 in X. destruct X as [X|X].
      + revert X. apply (clear_gone fs B fs1 _ E1 (cmd_below B NB) S (normal_not_nil _ NB)).
      + apply ancestors_below in X; [|exact NB]. now apply cmd_not_above in X. }
  destruct E7 as [fs5 E7]. pose proof (install_in_some B cwd a A W) as E3. fold I in E3. subst B I H.
  destruct (run_ends status fs cwd argv0 a) as
    [X|g1 X0 X1|g1 X0 X1 X2|g1 g2 X0 X1 X2 X3|g1 g2 J g3 X0 X1 X2 X3 X4|g1 g2 J g3 X0 X1 X2 X3 X4 X5
    |g1 g2 J g3 g4 X0 X1 X2 X3 X4 X5 X6|g1 g2 J g3 g4 y X0 X1 X2 X3 X4 X5 X6 X7|g1 g2 J g3 g4 y g5 X0 X1 X2 X3 X4 X5 X6 X7];
    try congruence;
    assert (Y1 : g1 = fs1) by congruence; subst g1; try congruence;
    assert (Y2 : g2 = fs2) by congruence; subst g2; try congruence;
    assert (Y3 : J = install_of cwd a) by congruence; subst J; try congruence;
    assert (Y4 : g3 = fs3) by congruence; subst g3; try congruence;
    assert (Y5 : g4 = fs4) by congruence; subst g4; try congruence.
  cbn [started]. apply hd_commands.
Qed.

(** ** The shell's view of the command line *)
Lemma sh_plain w : (forall c, In c w -> plain c = true) -> forall cur s,
  sh false (Some cur) (w ++ s) = sh false (Some (cur ++ w)) s.
Proof.
  induction w as [|c w IH]; intros H cur s; [now rewrite app_nil_r|]. cbn [app sh].
  assert (P : plain c = true) by (apply H; now left).
  assert (Q : blank c = false /\ Ascii.eqb c quote = false).
  { unfold blank. split; [apply orb_false_iff; split|]; apply Ascii.eqb_neq; intros ->; vm_compute in P; discriminate. }
  destruct Q as [-> ->]. rewrite P. cbn [more]. rewrite IH by (intros x Hx; apply H; now right). now rewrite <- app_assoc.
Qed.
(** The text [t], after a word, adds the words [ws]. *)
Definition Piece (t : str) (ws : list str) : Prop :=
  forall c s out, sh false (Some (last ws c)) s = Some out -> sh false (Some c) (t ++ s) = Some (removelast (c :: ws) ++ out).
Lemma piece_nil : Piece [] [].
Proof. intros c s out H. exact H. Qed.
Lemma piece_word w : Plain w -> Piece (lit " " ++ w) [w].
Proof.
  intros [N P] c s out H. change (sh false (Some c) (" "%char :: (w ++ s)) = Some (c :: out)).
  destruct w as [|x w]; [congruence|]. cbn [app sh].
  change (blank " ") with true. cbn [flush].
  assert (E : forall s, sh false None (x :: s) = sh false (Some [x]) s).
  { intros s'. pose proof (sh_plain [x] (fun c Hc => P c (or_introl (match Hc with or_introl e => e | or_intror f => match f with end end))) [] s') as E.
    cbn [app] in E. rewrite <- E. cbn [sh more app]. destruct (blank x) eqn:Eb; [|reflexivity].
    exfalso. assert (P' : plain x = true) by (apply P; now left). unfold blank in Eb. apply orb_true_iff in Eb.
    destruct Eb as [Eb|Eb]; apply Ascii.eqb_eq in Eb; subst x; vm_compute in P'; discriminate. }
  match goal with |- match ?X with _ => _ end = _ => change X with (sh false None (x :: w ++ s)) end.
  rewrite E, sh_plain by (intros d Hd; apply P; now right). cbn [last] in H. cbn [app]. exact (f_equal (fun o => match o with Some ws => Some (c :: ws) | None => None end) H).
Qed.
Lemma last_app {A} (l m : list A) d : last (l ++ m) d = last m (last l d).
Proof.
  revert d. induction l as [|x l IH]; intros d; [reflexivity|]. cbn [app].
  destruct m as [|y m]; [now rewrite app_nil_r|].
  assert (E : forall z l, l <> [] -> @last A (z :: l) d = last l d) by (intros z [|] H; [congruence|reflexivity]).
  rewrite E by (destruct l; discriminate). rewrite IH.
  assert (F : forall (l : list A) x d d', last (x :: l) d = last (x :: l) d').
  { clear. induction l as [|y l IH]; intros x d d'; [reflexivity|]. cbn [last] in *. apply (IH y). }
  apply F.
Qed.
Lemma piece_app t u ws xs : Piece t ws -> Piece u xs -> Piece (t ++ u) (ws ++ xs).
Proof.
  intros H K c s out E. rewrite <- app_assoc. rewrite last_app in E. apply K in E. apply H in E. rewrite E. f_equal.
  rewrite app_assoc. f_equal. clear. revert c. induction ws as [|w ws IH]; intros c; [reflexivity|].
  change (removelast (c :: w :: ws)) with (c :: removelast (w :: ws)). cbn [app].
  change (removelast (c :: w :: ws ++ xs)) with (c :: removelast (w :: ws ++ xs)). f_equal.
  replace (last (w :: ws) c) with (last ws w).
  - apply IH.
  - change (w :: ws) with ([w] ++ ws). rewrite last_app. reflexivity.
Qed.
Lemma piece_if b t ws : Piece t ws -> Piece (option_if b t) (words_if b ws).
Proof. destruct b; [auto|intros _; apply piece_nil]. Qed.
Lemma plain_app u v : (forall c, In c u -> plain c = true) -> Plain v -> Plain (u ++ v).
Proof.
  intros H [N P]. split; [destruct u, v; cbn; congruence|]. intros c Hc. apply in_app_or in Hc. destruct Hc; auto.
Qed.
Lemma plain_lit u : forallb plain u = true -> forall c, In c u -> plain c = true.
Proof. intros H. now apply forallb_forall. Qed.
Lemma piece_unknown l : Forall Plain l -> Piece (match l with [] => [] | _ => lit " " ++ joinc " " l end) l.
Proof.
  induction 1 as [|x l H HF IH]; [apply piece_nil|]. destruct l as [|y l]; [now apply piece_word|].
  change (Piece (lit " " ++ x ++ lit " " ++ joinc " " (y :: l)) ([x] ++ y :: l)).
  rewrite app_assoc. apply piece_app; [now apply piece_word|exact IH].
Qed.
Lemma piece_eclipse : Piece (lit " -G " ++ [quote] ++ lit "Eclipse CDT4 - Unix Makefiles" ++ [quote]) [lit "-G"; lit "Eclipse CDT4 - Unix Makefiles"].
Proof.
  intros c s out H.
  assert (E : forall s', sh false (Some c) ((lit " -G " ++ [quote] ++ lit "Eclipse CDT4 - Unix Makefiles" ++ [quote]) ++ s')
    = match sh false (Some (lit "Eclipse CDT4 - Unix Makefiles")) s' with Some ws => Some (c :: lit "-G" :: ws) | None => None end).
  { intros s'. transitivity (match (match sh false (Some (lit "Eclipse CDT4 - Unix Makefiles")) s' with Some ws => Some (lit "-G" :: ws) | None => None end) with Some ws => Some (c :: ws) | None => None end).
    - reflexivity.
    - now destruct (sh false _ s'). }
  rewrite E. cbn [last] in H. now rewrite H.
Qed.
Lemma words_of_line a H I D : Plain H -> Plain I -> Plain (buildtype a) -> (forall c, In c D -> plain c = true) -> Forall Plain (unknown a) ->
  sh_words (cmakeline a H I D) = Some (intended a H I (D ++ lit "/..")).
Proof.
  intros PH PI PT PD PU.
  assert (P : Piece (lit " -C" ++ (lit " " ++ H) ++ (lit " " ++ lit "-DCMAKE_BUILD_TYPE=" ++ buildtype a) ++ (lit " " ++ lit "-DCMAKE_INSTALL_PREFIX=" ++ I)
    ++ option_if (export_commands a) (lit " -DCMAKE_EXPORT_COMPILE_COMMANDS=on")
    ++ option_if (eclipse a) (lit " -G " ++ [quote] ++ lit "Eclipse CDT4 - Unix Makefiles" ++ [quote])
    ++ option_if (xcode a) (lit " -G Xcode")
    ++ option_if (ninja a) (lit " -GNinja")
    ++ option_if (graphviz a) (lit " --graphviz=dependency.dot")
    ++ (match unknown a with [] => [] | _ => lit " " ++ joinc " " (unknown a) end)
    ++ (lit " " ++ D ++ lit "/.."))
    ([lit "-C"] ++ [H] ++ [lit "-DCMAKE_BUILD_TYPE=" ++ buildtype a] ++ [lit "-DCMAKE_INSTALL_PREFIX=" ++ I]
     ++ words_if (export_commands a) [lit "-DCMAKE_EXPORT_COMPILE_COMMANDS=on"]
     ++ words_if (eclipse a) [lit "-G"; lit "Eclipse CDT4 - Unix Makefiles"]
     ++ words_if (xcode a) ([lit "-G"] ++ [lit "Xcode"])
     ++ words_if (ninja a) [lit "-GNinja"]
     ++ words_if (graphviz a) [lit "--graphviz=dependency.dot"]
     ++ unknown a ++ [D ++ lit "/.."])).
  { repeat apply piece_app; try apply piece_if;
      try apply piece_eclipse; try (now apply piece_unknown);
      try (apply (piece_word (lit "-C"))); try (apply (piece_word (lit "-GNinja"))); try (apply (piece_word (lit "--graphviz=dependency.dot")));
      try (apply (piece_word (lit "-DCMAKE_EXPORT_COMPILE_COMMANDS=on")));
      try (change (lit " -G Xcode") with ((lit " " ++ lit "-G") ++ (lit " " ++ lit "Xcode")); apply piece_app);
      try apply piece_word; try assumption;
      try (split; [discriminate|apply plain_lit; reflexivity]);
      try (apply plain_app; [apply plain_lit; reflexivity|assumption]).
    apply plain_app; [exact PD|]. split; [discriminate|apply plain_lit; reflexivity]. }
  unfold sh_words, cmakeline, intended.
  assert (E : forall s, sh false None (lit "cmake" ++ s) = sh false (Some (lit "cmake")) s) by reflexivity.
  rewrite E. specialize (P (lit "cmake") (lit " ")).
  match type of P with forall out, sh false (Some ?l) _ = _ -> _ => specialize (P [l] eq_refl) end.
  etransitivity; [etransitivity; [|exact P]|].
  - f_equal. change (lit " -C ") with (lit " -C" ++ lit " ").
    change (lit " -DCMAKE_BUILD_TYPE=") with (lit " " ++ lit "-DCMAKE_BUILD_TYPE=").
    change (lit " -DCMAKE_INSTALL_PREFIX=") with (lit " " ++ lit "-DCMAKE_INSTALL_PREFIX=").
    change (lit "/.. ") with (lit "/.." ++ lit " "). rewrite <- !app_assoc. reflexivity.
  - f_equal.
    match goal with |- removelast (?c :: ?l) ++ [last ?l ?c] = _ => assert (Z : removelast (c :: l) ++ [last l c] = c :: l) end.
    { match goal with |- removelast (?c :: ?l) ++ _ = _ => replace (last l c) with (last (c :: l) c) end.
      - symmetry. apply app_removelast_last. discriminate.
      - reflexivity. }
    exact Z.
Qed.

(** ** Exit status *)
Lemma exit_status status fs cwd argv0 a :
  let r := config_build status fs cwd argv0 a in
  (code r = 0 <-> started r <> [] /\ forall d c, In (d, c) (started r) -> status c <> None)%Z /\ (code r = 0 \/ code r = 1)%Z.
Proof.
  intros r. pose proof (run_ends status fs cwd argv0 a) as R. fold r in R.
  destruct R as [| | | | | | | | fs1 fs2 I fs3 fs4 x fs5 E0 E1 E2 E3 E4 E5 E6 E7]; cbn [raised code started];
    try (split; [split; [discriminate|intros [X _]; congruence]|now right]).
  unfold commands. set (l := cmakeline _ _ _ _). destruct (status l) as [n|] eqn:El.
  - destruct (graphviz a).
    + cbn [fst snd]. destruct (status dot_line) eqn:Ed.
      * split; [|now left]. split; [|reflexivity]. intros _. split; [discriminate|]. intros d c [H|[H|[]]]; injection H as <- <-; congruence.
      * split; [|now right]. split; [discriminate|]. intros [_ H]. exfalso. apply (H (build_of cwd a) dot_line); [right; now left|exact Ed].
    + cbn [fst snd]. split; [|now left]. split; [|reflexivity]. intros _. split; [discriminate|]. intros d c [H|[]]; injection H as <- <-; congruence.
  - cbn [fst snd]. split; [|now right]. split; [discriminate|]. intros [_ H]. exfalso. apply (H (build_of cwd a) l); [now left|exact El].
Qed.
Lemma missing_hostconfig status fs cwd argv0 a : fexists fs (abspath cwd (hostconfig a)) = false ->
  config_build status fs cwd argv0 a = {| after := fs; started := []; code := 1 |}.
Proof. intros H. unfold config_build. rewrite H. reflexivity. Qed.
Lemma always_cmake status fs cwd argv0 a d c rest : started (config_build status fs cwd argv0 a) = (d, c) :: rest ->
  d = build_of cwd a /\ exists r, c = lit "cmake " ++ r.
Proof.
  intros H. destruct (run_ends status fs cwd argv0 a) as [| | | | | | | | fs1 fs2 I fs3 fs4 x fs5 E0 E1 E2 E3 E4 E5 E6 E7];
    try discriminate. cbn [started] in H.
  match type of H with fst (commands _ _ _ ?l) = _ => destruct (hd_commands status cwd a l) as [q Hq] end.
  rewrite Hq in H. injection H as <- <- _. split; [reflexivity|]. unfold cmakeline.
  change (lit " -C ") with (lit " " ++ lit "-C "). rewrite <- app_assoc. eexists. reflexivity.
Qed.

Lemma second_command status fs cwd argv0 a d c rest : started (config_build status fs cwd argv0 a) = (d, c) :: rest ->
  rest = if graphviz a then match status c with Some _ => [(d, lit "dot -Tpng dependency.dot -o dependency.png")] | None => [] end else [].
Proof.
  intros H. destruct (run_ends status fs cwd argv0 a) as [| | | | | | | | fs1 fs2 I fs3 fs4 x fs5 E0 E1 E2 E3 E4 E5 E6 E7];
    try discriminate. cbn [started] in H. unfold commands in H.
  match type of H with context [status ?l] => set (l0 := l) in H; destruct (status l0) as [n|] eqn:Es end;
    destruct (graphviz a); cbn [fst] in H; injection H as <- <- <-; rewrite ?Es; reflexivity.
Qed.
Lemma directory_hostconfig status fs cwd argv0 a : absolute cwd -> let hc := abspath cwd (hostconfig a) in
  In hc (dirs fs) -> get hc (files fs) = None -> ~ Below (build_of cwd a) hc -> ~ Below (install_of cwd a) hc ->
  started (config_build status fs cwd argv0 a) = [] /\ code (config_build status fs cwd argv0 a) = 1%Z.
Proof.
  intros A hc D G NB NI.
  assert (N : forall I, install_in (build_of cwd a) cwd a = Some I -> ~ Below I hc).
  { intros I H. apply install_in_spec in H; [now subst|exact A]. }
  destruct (run_ends status fs cwd argv0 a) as [| | | | | | | | fs1 fs2 I fs3 fs4 x fs5 E0 E1 E2 E3 E4 E5 E6 E7];
    try (split; reflexivity). exfalso.
  assert (K : Keep hc fs fs4).
  { eapply keep_trans; [apply (keep_clear hc _ _ _ _ E1 NB)|]. eapply keep_trans; [apply (keep_make hc _ _ _ E2)|].
    eapply keep_trans; [apply (keep_clear hc _ _ _ _ E4 (N I E3))|]. apply (keep_make hc _ _ _ E5). }
  destruct K as [K1 K2]. unfold extract_cmake_location in E6. fold hc in E6. unfold fexists, fread in E6.
  rewrite (proj2 (mem_In _ _) (K2 D)), orb_true_r in E6. rewrite K1, G in E6. discriminate.
Qed.

(** ** Deciding [Sane] *)
Fixpoint distinct (l : list str) : bool := match l with [] => true | x :: l' => negb (mem x l') && distinct l' end.
Lemma distinct_NoDup l : distinct l = true -> NoDup l.
Proof.
  induction l as [|x l IH]; cbn; [constructor|]. rewrite andb_true_iff, negb_true_iff, mem_false. intros [H1 H2]. constructor; auto.
Qed.
Definition sane_check (fs : fsys) : bool :=
  let known := dirs fs ++ map fst (files fs) in
  distinct (map fst (files fs))
  && mem [slash] (dirs fs)
  && forallb (fun p => negb (mem p (map fst (files fs)))) (dirs fs)
  && forallb (fun p => forallb (fun k => let d := firstn k p in
       negb (below d p) || eqs p d || eqs d [] || mem d (dirs fs)) (seq 0 (S (length p)))) known.
Lemma sane_checked fs : sane_check fs = true -> Sane fs.
Proof.
  unfold sane_check. rewrite !andb_true_iff. intros [[[H1 H2] H3] H4]. apply mem_In in H2.
  rewrite forallb_forall in H3, H4. split; [|split; [exact H2|split]].
  - now apply distinct_NoDup.
  - intros p Hp X. specialize (H3 p Hp). apply negb_true_iff, mem_false in H3. contradiction.
  - intros d p Hp B N Nd. specialize (H4 p). rewrite in_app_iff in H4. specialize (H4 Hp). rewrite forallb_forall in H4.
    assert (E : firstn (length d) p = d /\ length d <= length p).
    { assert (F : exists t, p = d ++ t).
      { destruct B as [->|(s & ->)]; [exists []; now rewrite app_nil_r|].
        destruct (eqs d [slash]); [now exists s|exists (slash :: s); now rewrite <- app_assoc]. }
      destruct F as [t ->]. rewrite firstn_app, Nat.sub_diag, firstn_all, app_length. cbn. rewrite app_nil_r. split; [reflexivity|lia]. }
    destruct E as [E L]. specialize (H4 (length d)). rewrite in_seq in H4. specialize (H4 ltac:(lia)). cbv zeta in H4.
    rewrite E, (proj2 (below_spec d p) B), (proj2 (eqs_neq p d) N), (proj2 (eqs_neq d []) Nd) in H4. now apply mem_In.
Qed.

Lemma command_line status fs cwd argv0 a d c rest : absolute cwd -> started (config_build status fs cwd argv0 a) = (d, c) :: rest ->
  c = cmakeline a (abspath cwd (hostconfig a)) (install_of cwd a) (dirname (abspath cwd argv0)).
Proof.
  intros A H. destruct (run_ends status fs cwd argv0 a) as [| | | | | | | | fs1 fs2 I fs3 fs4 x fs5 E0 E1 E2 E3 E4 E5 E6 E7];
    try discriminate. cbn [started] in H.
  match type of H with fst (commands _ _ _ ?l) = _ => destruct (hd_commands status cwd a l) as [q Hq] end.
  rewrite Hq in H. injection H as _ <- _. apply install_in_spec in E3; [|exact A]. now subst I.
Qed.
Lemma runs_cmake status fs cwd argv0 a text : Sane fs -> absolute cwd ->
  let B := build_of cwd a in let I := install_of cwd a in let H := abspath cwd (hostconfig a) in
  double B = false -> double I = false -> B <> [slash] -> I <> [slash] ->
  (forall p, Below p B \/ Below p I -> get p (files fs) = None) ->
  (Below I B -> I = B) -> ~ Below (cmd_file B) I ->
  absolute (installpath a) \/ ~ Below B cwd ->
  get H (files fs) = Some text -> ~ Below B H -> ~ Below I H ->
  let r := config_build status fs cwd argv0 a in
  (exists cmd rest, started r = (B, cmd) :: rest) /\ get H (files (after r)) = Some text.
Proof.
  intros S A B I H DB DI RB RI G IB CI W HC HB HI r. split.
  - destruct (reaches_cmake status fs cwd argv0 a S A DB DI RB RI G IB CI W) as [rest E]; [fold H; congruence|exact HB|exact HI|].
    do 2 eexists. exact E.
  - rewrite <- HC. apply (outside_kept status fs cwd argv0 a H A HB HI).
Qed.
