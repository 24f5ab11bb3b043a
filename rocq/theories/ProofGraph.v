(** create_dependency_graph builds exactly the graph of followed includes; the aggregation. *)
From Coq Require Import Bool Ascii String NArith Arith Relations List Lia.
From Verif Require Import ModelPython ModelAggregate SpecAggregate ProofPython ProofPath ProofAggregate.
Import ListNotations.

Section Graph.
Context (fs : fsys) (cwd : str) (incs : list str) (Hcwd : absolute cwd).

Lemma fexists_norm c : fexists fs (abspath cwd (normpath c)) = fexists fs (abspath cwd c).
Proof. rewrite abspath_normpath by exact Hcwd. reflexivity. Qed.
Lemma resolve_spec p name q : (exists r, resolve_path fs cwd name (dirname p) incs = Some r /\ abspath cwd r = q) <->
  Resolves fs cwd incs p name q.
Proof.
  assert (C : forall dirs0 extra, (extra = [] \/ exists d ds, dirs0 = d :: ds /\ extra = [join d name]) ->
    (exists r, first_candidate fs cwd (extra ++ map (fun d => normpath (join d name)) dirs0) = Some r /\ abspath cwd r = q) <->
    exists before dir after, dirs0 = before ++ dir :: after /\ q = abspath cwd (join dir name) /\ fexists fs q = true /\
      forall d, In d before -> fexists fs (abspath cwd (join d name)) = false).
  { intros dirs0 extra X. assert (X0 : (exists r, first_candidate fs cwd (map (fun d => normpath (join d name)) dirs0) = Some r /\ abspath cwd r = q) <->
      exists before dir after, dirs0 = before ++ dir :: after /\ q = abspath cwd (join dir name) /\ fexists fs q = true /\
      forall d, In d before -> fexists fs (abspath cwd (join d name)) = false).
    { clear X extra. induction dirs0 as [|d ds IH]; cbn [map first_candidate].
      - split; [intros (r & H & _); discriminate|]. intros ([|? ?] & ? & ? & H & _); discriminate.
      - rewrite fexists_norm. destruct (fexists fs (abspath cwd (join d name))) eqn:F.
        + split.
          * intros (r & H & <-). injection H as <-. exists [], d, ds.
            rewrite !abspath_normpath by exact Hcwd. repeat split; auto. intros ? [].
          * intros ([|b before] & dir & after & H & -> & Fq & B); cbn [app] in H; injection H as -> H.
            -- eexists. split; [reflexivity|]. rewrite !abspath_normpath by exact Hcwd. reflexivity.
            -- rewrite (B b (or_introl eq_refl)) in F. discriminate.
        + rewrite IH. split.
          * intros (b & dir & a & -> & Eq & Fq & B). exists (d :: b), dir, a. repeat split; auto.
            intros x [<-|Hx]; auto.
          * intros ([|b before] & dir & after & H & Eq & Fq & B); cbn [app] in H; injection H as -> H.
            -- subst. congruence.
            -- exists before, dir, after. repeat split; auto. intros x Hx. apply B. right. exact Hx. }
    destruct X as [-> |(d & ds & -> & ->)]; [exact X0|]. rewrite <- X0. cbn [app map first_candidate].
    rewrite fexists_norm. destruct (fexists fs (abspath cwd (join d name))); [|reflexivity].
    split; intros (r & H & <-); injection H as <-; eexists; (split; [reflexivity|]);
      rewrite !abspath_normpath by exact Hcwd; reflexivity. }
  apply (C (dirname p :: incs) [join (dirname p) name]). right. exists (dirname p), incs. split; reflexivity.
Qed.

(** The followed includes of a file, in order. *)
Fixpoint follow (p : str) (ls : list str) : list str :=
  match ls with
  | [] => []
  | line :: ls' =>
      match include_match line with
      | None => follow p ls'
      | Some n =>
          if eqs n config_file then follow p ls'
          else match resolve_path fs cwd n (dirname p) incs with
               | None => []
               | Some r => abspath cwd r :: follow p ls'
               end
      end
  end.
Definition succs (p : str) : list str :=
  match fread fs p with None => [] | Some t => follow p (lines t) end.

Lemma resolve_exists p n r : resolve_path fs cwd n (dirname p) incs = Some r -> fexists fs (abspath cwd r) = true.
Proof.
  intros H. assert (R : Resolves fs cwd incs p n (abspath cwd r)) by (apply resolve_spec; eauto).
  destruct R as (? & ? & ? & _ & _ & F & _). exact F.
Qed.
Lemma follow_spec p ls q : In q (follow p ls) <->
  exists before line after name, ls = before ++ line :: after /\ IncludeLine line name /\
    name <> config_file /\ Resolves fs cwd incs p name q /\
    forall l n, In l before -> IncludeLine l n -> n <> config_file -> exists q', Resolves fs cwd incs p n q'.
Proof.
  induction ls as [|line ls IH]; cbn [follow].
  - split; [intros []|]. intros ([|? ?] & ? & ? & ? & H & _); discriminate.
  - assert (SKIP : (forall n, IncludeLine line n -> n = config_file) ->
      (In q (follow p ls) <-> exists before line0 after name, line :: ls = before ++ line0 :: after /\
         IncludeLine line0 name /\ name <> config_file /\ Resolves fs cwd incs p name q /\
         forall l n, In l before -> IncludeLine l n -> n <> config_file -> exists q', Resolves fs cwd incs p n q')).
    { intros S. rewrite IH. split.
      - intros (b & l & a & n & -> & I & C & R & B). exists (line :: b), l, a, n. repeat split; auto.
        intros l' n' [<-|H] I' C'; [destruct (C' (S _ I'))|eauto].
      - intros ([|l0 b] & l & a & n & H & I & C & R & B); cbn [app] in H; injection H as -> ->.
        + destruct (C (S _ I)).
        + exists b, l, a, n. repeat split; auto. intros; eapply B; eauto. right. assumption. }
    destruct (include_match line) as [n|] eqn:M.
    + pose proof (proj1 (include_match_spec _ _) M) as I. destruct (eqs n config_file) eqn:C.
      * apply SKIP. intros n' I'. apply include_match_spec in I'. rewrite M in I'. injection I' as <-.
        apply eqs_eq. exact C.
      * apply eqs_neq in C. destruct (resolve_path fs cwd n (dirname p) incs) as [r|] eqn:R.
        -- cbn [In]. rewrite IH. split.
           ++ intros [<-|(b & l & a & n' & -> & I' & C' & R' & B)].
              ** exists [], line, ls, n. repeat split; auto; [apply resolve_spec; eauto|intros ? ? []].
              ** exists (line :: b), l, a, n'. repeat split; auto.
                 intros l' n2 [<-|H] I2 C2; [|eauto].
                 apply include_match_spec in I2. rewrite M in I2. injection I2 as <-.
                 exists (abspath cwd r). apply resolve_spec. eauto.
           ++ intros ([|l0 b] & l & a & n' & H & I' & C' & R' & B); cbn [app] in H; injection H as -> ->.
              ** left. apply include_match_spec in I'. rewrite M in I'. injection I' as <-.
                 apply resolve_spec in R' as (r' & R' & <-). congruence.
              ** right. exists b, l, a, n'. repeat split; auto. intros; eapply B; eauto. right. assumption.
        -- split; [intros []|].
           assert (NR : forall q', ~ Resolves fs cwd incs p n q').
           { intros q' X. apply resolve_spec in X as (r' & X & _). congruence. }
           intros ([|l0 b] & l & a & n' & H & I' & C' & R' & B); cbn [app] in H; injection H as -> ->.
           ++ apply include_match_spec in I'. rewrite M in I'. injection I' as <-. destruct (NR _ R').
           ++ destruct (B l0 n (or_introl eq_refl) I C) as (q' & X). destruct (NR _ X).
    + apply SKIP. intros n' I'. apply include_match_spec in I'. congruence.
Qed.
Lemma succs_spec p q : In q (succs p) <-> Follows fs cwd incs p q.
Proof.
  unfold succs, Follows. destruct (fread fs p) as [t|] eqn:F.
  - rewrite follow_spec. split.
    + intros (b & l & a & n & H). exists t, b, l, a, n. tauto.
    + intros (t' & b & l & a & n & Et & H). injection Et as <-. exists b, l, a, n. tauto.
  - split; [intros []|]. intros (t & ? & ? & ? & ? & H & _). discriminate.
Qed.
Lemma succs_exist p q : In q (succs p) -> fexists fs q = true.
Proof.
  intros H. apply succs_spec in H as (? & ? & ? & ? & ? & _ & _ & _ & _ & (? & ? & ? & _ & _ & F & _) & _). exact F.
Qed.
Lemma succs_abs p q : In q (succs p) -> abspath cwd q = q.
Proof.
  intros H. apply succs_spec in H as (? & ? & ? & ? & ? & _ & _ & _ & _ & (? & ? & ? & _ & -> & _) & _).
  apply abspath_idem, Hcwd.
Qed.

Definition E (p q : str) : Prop := In q (succs p).
Definition universe : list str := map fst (files fs) ++ dirs fs.
Definition missing (d : dict (list str)) : nat := length (filter (fun u => negb (has u d)) universe).
Lemma fexists_universe q : fexists fs q = true <-> In q universe.
Proof.
  unfold fexists, universe. rewrite orb_true_iff, has_In, mem_In, in_app_iff. reflexivity.
Qed.
Lemma filter_le {A} (f g : A -> bool) l : (forall x, f x = true -> g x = true) ->
  length (filter f l) <= length (filter g l).
Proof.
  intros H. induction l as [|x l IH]; cbn [filter]; [lia|].
  destruct (f x) eqn:F; [rewrite (H x F); cbn [length]; lia|]. destruct (g x); cbn [length]; lia.
Qed.
Lemma filter_lt {A} (f g : A -> bool) l : (forall x, f x = true -> g x = true) ->
  (exists x, In x l /\ f x = false /\ g x = true) -> length (filter f l) < length (filter g l).
Proof.
  intros H (x & Hx & Fx & Gx). induction l as [|y l IH]; [destruct Hx|]. cbn [filter].
  destruct Hx as [->|Hx].
  - rewrite Fx, Gx. cbn [length]. pose proof (filter_le f g l H). lia.
  - specialize (IH Hx). destruct (f y) eqn:F; [rewrite (H y F); cbn [length]; lia|].
    destruct (g y); cbn [length]; lia.
Qed.
Lemma missing_le d d' : incl (map fst d) (map fst d') -> missing d' <= missing d.
Proof.
  intros I. apply filter_le. intros u H. apply negb_true_iff, has_false in H.
  apply negb_true_iff, has_false. intros X. apply H, I, X.
Qed.
Lemma missing_lt d d' h : incl (map fst d) (map fst d') -> In h universe -> ~ In h (map fst d) -> In h (map fst d') ->
  missing d' < missing d.
Proof.
  intros I U N N'. apply filter_lt.
  - intros u H. apply negb_true_iff, has_false in H.
    apply negb_true_iff, has_false. intros X. apply H, I, X.
  - exists h. split; [exact U|]. split; [apply negb_false_iff, has_In, N'|apply negb_true_iff, has_false, N].
Qed.

(** What a call adds to the dictionary. *)
Definition Added (roots : str -> Prop) (d new : dict (list str)) : Prop :=
  NoDup (map fst (d ++ new)) /\
  forall k v, In (k, v) new -> v = add_all [] (succs k) /\ abspath cwd k = k /\
    (exists r, roots r /\ clos_refl_trans str E r k) /\
    forall r, In r (succs k) -> In r (map fst (d ++ new)).

Lemma add_dep_middle h r d0 v new : ~ In h (map fst d0) ->
  add_dep h r (d0 ++ (h, v) :: new) = d0 ++ (h, set_add r v) :: new.
Proof.
  induction d0 as [|[k s] d0 IH]; cbn [app add_dep map fst]; intros H.
  - rewrite eqs_refl. reflexivity.
  - rewrite IH by (intros X; apply H; right; exact X).
    destruct (eqs h k) eqn:X; [|reflexivity]. apply eqs_eq in X. subst. exfalso. apply H. left. reflexivity.
Qed.

Lemma scan_lemma (rec : str -> dict (list str) -> option (dict (list str))) bound h d0 :
  (forall r d, fexists fs r = true -> abspath cwd r = r -> missing d <= bound -> NoDup (map fst d) ->
     exists new, rec r d = Some (d ++ new) /\ Added (eq r) d new /\ In r (map fst (d ++ new))) ->
  ~ In h (map fst d0) ->
  forall ls done new, NoDup (map fst (d0 ++ (h, add_all [] done) :: new)) ->
  missing (d0 ++ (h, add_all [] done) :: new) <= bound ->
  exists new', scan fs cwd incs rec h ls (d0 ++ (h, add_all [] done) :: new)
      = Some (d0 ++ (h, add_all [] (done ++ follow h ls)) :: new ++ new') /\
    Added (fun r => In r (follow h ls)) (d0 ++ (h, add_all [] (done ++ follow h ls)) :: new) new' /\
    forall r, In r (follow h ls) -> In r (map fst (d0 ++ (h, []) :: new ++ new')).
Proof.
  intros REC Hh. induction ls as [|line ls IH]; intros done new ND M; cbn [scan follow].
  - exists []. rewrite !app_nil_r. split; [reflexivity|]. split; [|intros ? []].
    split; [rewrite app_nil_r; exact ND|intros ? ? []].
  - destruct (include_match line) as [n|]; [|apply IH; assumption].
    destruct (eqs n config_file); [apply IH; assumption|].
    destruct (resolve_path fs cwd n (dirname h) incs) as [r|] eqn:R.
    + rewrite (resolve_exists h n r R). rewrite add_dep_middle by exact Hh.
      replace (set_add (abspath cwd r) (add_all [] done)) with (add_all [] (done ++ [abspath cwd r]))
        by (unfold add_all; rewrite fold_left_app; reflexivity).
      set (q := abspath cwd r) in *.
      assert (KE : forall s s' nw, map fst (d0 ++ (h, s) :: nw : dict (list str)) = map fst (d0 ++ (h, s') :: nw)).
      { intros. rewrite !map_app. reflexivity. }
      assert (MK : forall d d', map fst d = map fst d' -> missing d = missing d').
      { intros d d' X. apply Nat.le_antisymm; apply missing_le; rewrite X; apply incl_refl. }
      destruct (REC q (d0 ++ (h, add_all [] (done ++ [q])) :: new)) as (new1 & -> & (N1 & A1) & I1).
      { apply (resolve_exists h n r R). }
      { apply abspath_idem, Hcwd. }
      { rewrite (MK _ _ (KE _ (add_all [] done) new)). exact M. }
      { rewrite (KE _ (add_all [] done)). exact ND. }
      rewrite <- app_assoc. cbn [app].
      destruct (IH (done ++ [q]) (new ++ new1)) as (new2 & -> & (N2 & A2) & I2).
      { rewrite <- app_assoc in N1. exact N1. }
      { etransitivity; [|exact M]. apply missing_le. rewrite !map_app. cbn [map fst]. rewrite map_app.
        intros x X. rewrite !in_app_iff in *. cbn [In] in *. rewrite in_app_iff. tauto. }
      exists (new1 ++ new2). rewrite <- !app_assoc. cbn [app] in *. split; [reflexivity|].
      assert (KK : map fst ((d0 ++ (h, add_all [] (done ++ q :: follow h ls)) :: new) ++ new1 ++ new2)
                 = map fst ((d0 ++ (h, add_all [] ((done ++ [q]) ++ follow h ls)) :: new ++ new1) ++ new2)).
      { rewrite <- !app_assoc. cbn [app]. rewrite <- !app_assoc. apply KE. }
      split; [split|].
      * rewrite KK. exact N2.
      * intros k v H. apply in_app_or in H as [H|H].
        -- destruct (A1 k v H) as (Ev & Ab & (r0 & <- & RT) & Cl). split; [exact Ev|]. split; [exact Ab|]. split.
           ++ exists q. split; [left; reflexivity|exact RT].
           ++ intros x Hx. rewrite KK. specialize (Cl x Hx).
              rewrite <- app_assoc in Cl. cbn [app] in Cl. rewrite map_app. apply in_or_app. left.
              rewrite (KE _ (add_all [] (done ++ [q]))). exact Cl.
        -- destruct (A2 k v H) as (Ev & Ab & (r0 & H0 & RT) & Cl). split; [exact Ev|]. split; [exact Ab|]. split.
           ++ exists r0. split; [right; exact H0|exact RT].
           ++ intros x Hx. rewrite KK. apply Cl, Hx.
      * intros x [<-|Hx].
        -- rewrite <- app_assoc in I1. cbn [app] in I1. rewrite (KE _ []) in I1.
           rewrite app_assoc. rewrite !map_app in *. cbn [map fst] in *. rewrite !map_app in *.
           rewrite !in_app_iff in *. cbn [In] in *. rewrite !in_app_iff in *. tauto.
        -- specialize (I2 x Hx). rewrite <- app_assoc in I2. exact I2.
    + exists []. rewrite !app_nil_r. split; [reflexivity|]. split; [|intros ? []].
      split; [rewrite app_nil_r; exact ND|intros ? ? []].
Qed.

Lemma graph_lemma fuel : forall header d, missing d < fuel -> NoDup (map fst d) ->
  exists new, create_dependency_graph fuel fs cwd incs header d = Some (d ++ new) /\
    Added (eq (abspath cwd header)) d new /\ In (abspath cwd header) (map fst (d ++ new)).
Proof.
  induction fuel as [|fuel IH]; intros header d M ND; [lia|]. cbn [create_dependency_graph].
  set (h := abspath cwd header). assert (Ah : abspath cwd h = h) by (apply abspath_idem, Hcwd).
  destruct (has h d) eqn:H.
  - exists []. rewrite app_nil_r. split; [reflexivity|]. split; [|apply has_In, H].
    split; [rewrite app_nil_r; exact ND|intros ? ? []].
  - apply has_false in H.
    assert (ND1 : NoDup (map fst (d ++ [(h, [])]))).
    { rewrite map_app. cbn [map fst]. apply NoDup_Add with (a := h) (l := map fst d).
      - rewrite <- (app_nil_r (map fst d)) at 1. apply Add_app.
      - split; assumption. }
    assert (Kh : In h (map fst (d ++ [(h, [])]))).
    { rewrite map_app. apply in_or_app. right. left. reflexivity. }
    destruct (fread fs h) as [t|] eqn:F.
    + assert (U : In h universe).
      { unfold universe. apply in_or_app. left. apply has_In. unfold has. unfold fread in F. rewrite F. reflexivity. }
      assert (M1 : missing (d ++ [(h, [])]) < fuel).
      { pose proof (missing_lt d (d ++ [(h, [])]) h) as X. rewrite map_app in X at 1. cbn [map fst] in X.
        assert (missing (d ++ [(h, [])]) < missing d); [|lia].
        apply X; auto. apply incl_appl, incl_refl. }
      destruct (scan_lemma (create_dependency_graph fuel fs cwd incs) (fuel - 1) h d) with (ls := lines t) (done := @nil str) (new := @nil (str * list str))
        as (new' & Es & (N & A) & I).
      { intros r d' Fr Ar Md Nd. destruct (IH r d') as (nw & Eg & Ad & In'); [lia|exact Nd|].
        rewrite Ar in *. exists nw. auto. }
      { exact H. }
      { exact ND1. }
      { cbn [add_all fold_left]. lia. }
      cbn [add_all fold_left app] in Es. rewrite Es.
      exists ((h, add_all [] (follow h (lines t))) :: new'). cbn [app] in *.
      split; [reflexivity|].
      assert (Sh : succs h = follow h (lines t)) by (unfold succs; rewrite F; reflexivity).
      rewrite <- app_assoc in N. cbn [app] in N.
      split; [split; [exact N|]|rewrite map_app; apply in_or_app; right; left; reflexivity].
      intros k v [X|X].
      * injection X as <- <-. rewrite Sh. split; [reflexivity|]. split; [exact Ah|]. split.
        -- exists h. split; [reflexivity|apply rt_refl].
        -- intros r Hr. specialize (I r Hr). rewrite map_app in *. exact I.
      * destruct (A k v X) as (Ev & Ak & (r0 & H0 & RT) & Cl). split; [exact Ev|]. split; [exact Ak|]. split.
        -- exists h. split; [reflexivity|]. eapply rt_trans; [|exact RT]. apply rt_step. unfold E. rewrite Sh. exact H0.
        -- intros r Hr. specialize (Cl r Hr). rewrite <- app_assoc in Cl. exact Cl.
    + exists [(h, [])]. split; [reflexivity|]. split; [|exact Kh]. split; [exact ND1|].
      intros k v [X|[]]. injection X as <- <-.
      assert (Sh : succs h = []) by (unfold succs; rewrite F; reflexivity). rewrite Sh.
      split; [reflexivity|]. split; [exact Ah|]. split; [|intros ? []].
      exists h. split; [reflexivity|apply rt_refl].
Qed.
Lemma missing_bound d : missing d < graph_fuel fs.
Proof.
  unfold missing, graph_fuel. pose proof (filter_le (fun u => negb (has u d)) (fun _ => true) universe (fun _ _ => eq_refl)) as H.
  assert (F : forall l : list str, filter (fun _ => true) l = l)
    by (induction l as [|x l IH]; cbn [filter]; [|rewrite IH]; reflexivity).
  rewrite F in H. unfold universe in H at 2. rewrite app_length, map_length in H. lia.
Qed.

Lemma graphs_lemma headers : forall d, NoDup (map fst d) ->
  exists new, create_graphs fs cwd incs headers d = Some (d ++ new) /\
    Added (fun r => exists h, In h headers /\ r = abspath cwd h) d new /\
    forall h, In h headers -> In (abspath cwd h) (map fst (d ++ new)).
Proof.
  induction headers as [|h hs IH]; intros d ND; cbn [create_graphs].
  - exists []. rewrite app_nil_r. split; [reflexivity|]. split; [|intros ? []].
    split; [rewrite app_nil_r; exact ND|intros ? ? []].
  - destruct (graph_lemma (graph_fuel fs) (abspath cwd h) d (missing_bound d) ND) as (n1 & -> & (N1 & A1) & I1).
    destruct (IH (d ++ n1) N1) as (n2 & -> & (N2 & A2) & I2).
    exists (n1 ++ n2). rewrite <- app_assoc in *. split; [reflexivity|]. rewrite abspath_idem in * by exact Hcwd.
    split; [split; [exact N2|]|].
    + intros k v X. apply in_app_or in X as [X|X].
      * destruct (A1 k v X) as (Ev & Ak & (r0 & <- & RT) & Cl). repeat (split; [assumption|]). split.
        -- eexists. split; [exists h; split; [left; reflexivity|reflexivity]|exact RT].
        -- intros r Hr. specialize (Cl r Hr). rewrite app_assoc, map_app. apply in_or_app. left. exact Cl.
      * destruct (A2 k v X) as (Ev & Ak & (r0 & (h0 & H0 & ->) & RT) & Cl). repeat (split; [assumption|]). split.
        -- eexists. split; [exists h0; split; [right; exact H0|reflexivity]|exact RT].
        -- exact Cl.
    + intros h0 [<-|H0]; [|apply I2, H0]. rewrite app_assoc, map_app. apply in_or_app. left. exact I1.
Qed.

Lemma reach_iff headers p : ReachedBy cwd (Follows fs cwd incs) headers p <->
  exists h, In h headers /\ clos_refl_trans str E (abspath cwd h) p.
Proof.
  assert (X : forall a b, clos_refl_trans str (Follows fs cwd incs) a b <-> clos_refl_trans str E a b).
  { intros a b. split; (induction 1; [apply rt_step, succs_spec; assumption|apply rt_refl|eapply rt_trans; eassumption]). }
  unfold ReachedBy. split; intros (h & H & R); exists h; (split; [exact H|apply X, R]).
Qed.
Lemma trans_iff a b : clos_trans str (Follows fs cwd incs) a b <-> clos_trans str E a b.
Proof. split; (induction 1; [apply t_step, succs_spec; assumption|eapply t_trans; eassumption]). Qed.

(** The graph of the headers, as a dictionary. *)
Lemma graph_of headers : exists G, create_graphs fs cwd incs headers [] = Some G /\
  NoDup (map fst G) /\
  (forall k, In k (map fst G) -> abspath cwd k = k) /\
  (forall k v, In (k, v) G -> forall d, In d v <-> E k d) /\
  (forall k v d, In (k, v) G -> In d v -> In d (map fst G)) /\
  forall p, In p (map fst G) <-> ReachedBy cwd (Follows fs cwd incs) headers p.
Proof.
  destruct (graphs_lemma headers [] (NoDup_nil _)) as (G & -> & (N & A) & I). cbn [app] in *.
  assert (V : forall k v, In (k, v) G -> forall d, In d v <-> E k d).
  { intros k v H d. destruct (A k v H) as (-> & _). rewrite In_add_all. unfold E. cbn [In]. tauto. }
  assert (CLO : forall k d, In k (map fst G) -> E k d -> In d (map fst G)).
  { intros k d Hk He. apply in_map_iff in Hk as ([k' v] & <- & H). cbn [fst] in He.
    destruct (A k' v H) as (_ & _ & _ & Cl). apply Cl, He. }
  exists G. split; [reflexivity|]. split; [exact N|]. split; [|split; [exact V|split]].
  - intros k Hk. apply in_map_iff in Hk as ([k' v] & <- & H). apply (A _ _ H).
  - intros k v d H Hd. apply (CLO k d); [apply (in_map fst) in H; exact H|apply (V _ _ H), Hd].
  - intros p. rewrite reach_iff. split.
    + intros Hp. apply in_map_iff in Hp as ([k v] & <- & H).
      destruct (A k v H) as (_ & _ & (r & (h & Hh & ->) & RT) & _). exists h. auto.
    + intros (h & Hh & RT). specialize (I h Hh). revert I.
      apply clos_rt_rt1n in RT. induction RT as [|a b c Hab _ IH]; [auto|].
      intros Ha. apply IH. apply (CLO a); assumption.
Qed.

(** * The while loop *)
Lemma list_lemma headers : (forall p, ReachedBy cwd (Follows fs cwd incs) headers p -> ~ clos_trans str (Follows fs cwd incs) p p) ->
  exists G l, create_graphs fs cwd incs headers [] = Some G /\
    (exists fuel0, forall fuel, fuel0 <= fuel -> generate_header_list fuel cwd G [] [] = Some l) /\
    NoDup l /\ (forall p, In p l <-> ReachedBy cwd (Follows fs cwd incs) headers p) /\
    (forall p, In p l -> abspath cwd p = p) /\
    forall p q, In p l -> Follows fs cwd incs p q -> Before q p l.
Proof.
  intros AC. destruct (graph_of headers) as (G & EG & ND & AB & VE & CL & KR).
  destruct (gen_terminates cwd G E ND AB VE CL) with (fuel := length (restrict G [])) (gone := @nil str) as (l & Hl).
  { intros p Hp C. apply (AC p); [apply KR, Hp|apply trans_iff, C]. }
  { constructor. }
  { lia. }
  exists G, l. split; [exact EG|].
  destruct (gen_sound cwd G E ND AB VE _ _ _ (NoDup_nil _) (incl_nil_l _) (fun a p b X => match app_cons_not_nil a b p X with end) Hl)
    as (Nl & Ol & Kl).
  split; [|split; [exact Nl|split; [|split]]].
  - exists (length (restrict G [])). intros fuel L.
    pose proof (gen_mono cwd G _ _ _ _ L Hl) as X. unfold gen in X. rewrite restrict_nil in X. exact X.
  - intros p. rewrite Kl. apply KR.
  - intros p Hp. apply AB, Kl, Hp.
  - intros p q Hp Hq. apply in_split in Hp as (a & b & ->).
    specialize (Ol a p b eq_refl q (proj2 (succs_spec p q) Hq)).
    apply in_split in Ol as (x & y & ->). exists x, y, b. rewrite <- app_assoc. reflexivity.
Qed.
Lemma loop_lemma headers p : ReachedBy cwd (Follows fs cwd incs) headers p -> clos_trans str (Follows fs cwd incs) p p ->
  exists G, create_graphs fs cwd incs headers [] = Some G /\
    forall fuel, generate_header_list fuel cwd G [] [] = None.
Proof.
  intros Hp C. destruct (graph_of headers) as (G & EG & ND & AB & VE & CL & KR). exists G. split; [exact EG|].
  intros fuel. pose proof (gen_loops cwd G E ND AB VE (fun x => clos_refl_trans str E p x /\ clos_refl_trans str E x p)) as X.
  assert (CT : clos_trans str E p p) by (apply trans_iff, C).
  specialize (fun A B => X A B fuel [] (NoDup_nil _) (fun _ _ => @in_nil _ _)).
  unfold gen in X. rewrite restrict_nil in X. apply X.
  - intros x (Hx1 & Hx2). split.
    + apply KR, reach_iff. apply reach_iff in Hp as (h & Hh & Hp). exists h. split; [exact Hh|].
      eapply rt_trans; eassumption.
    + assert (T : clos_trans str E x x).
      { assert (RTT : forall a b c, clos_refl_trans str E a b -> clos_trans str E b c -> clos_trans str E a c).
        { intros a b c H. revert c. induction H; intros c T; [eapply t_trans; [apply t_step; eassumption|exact T]|exact T|auto]. }
        assert (TRT : forall a b c, clos_trans str E a b -> clos_refl_trans str E b c -> clos_trans str E a c).
        { intros a b c T H. revert T. induction H; intros T; [eapply t_trans; [exact T|apply t_step; assumption]|exact T|auto]. }
        apply (TRT x p x); [|exact Hx1]. apply (RTT x p p); assumption. }
      apply clos_trans_t1n in T. assert (Y : exists y, E x y /\ clos_refl_trans str E y x).
      { inversion T as [y Hy|y z Hy Hz]; subst.
        - exists x. split; [exact Hy|apply rt_refl].
        - exists y. split; [exact Hy|]. apply clos_t1n_trans in Hz. clear -Hz.
          induction Hz; [apply rt_step; assumption|eapply rt_trans; eassumption]. }
      destruct Y as (y & Exy & Hy). exists y. split; [exact Exy|]. split.
      * eapply rt_trans; [exact Hx1|apply rt_step, Exy].
      * eapply rt_trans; eassumption.
  - exists p. split; apply rt_refl.
Qed.
End Graph.
