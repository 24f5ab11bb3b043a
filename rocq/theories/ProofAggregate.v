(** Proofs about /repo/scripts/aggregateOrSplit.py. *)
From Coq Require Import Bool Ascii String NArith Arith Relations List Lia.
From Verif Require Import ModelPython ModelAggregate SpecAggregate ProofPython ProofPath.
Import ListNotations.

(** * Matching *)
Lemma include_match_spec line name : include_match line = Some name <-> IncludeLine line name.
Proof.
  unfold include_match, IncludeLine. split.
  - destruct (eat (lit "#include") line) as [r|] eqn:E; [|discriminate]. apply eat_spec in E.
    destruct (span_spec isspace r) as (R & W & _). destruct (span isspace r) as [w r1].
    cbn [fst snd] in *. destruct w as [|c w]; [discriminate|]. destruct r1 as [|q r2]; [discriminate|].
    destruct (Ascii.eqb q quote) eqn:Q; [|discriminate]. apply Ascii.eqb_eq in Q. subst q.
    destruct (span_spec (fun c => negb (Ascii.eqb c quote)) r2) as (R2 & N & M).
    destruct (span _ r2) as [n r3]. cbn [fst snd] in *.
    destruct n as [|x n]; [discriminate|]. destruct r3 as [|y r3]; [discriminate|].
    intros H. injection H as <-. apply negb_false_iff, Ascii.eqb_eq in M. subst y.
    exists (c :: w), r3. split; [split; [discriminate|exact W]|]. split; [discriminate|].
    split; [|rewrite E, R, R2; reflexivity].
    intros H. apply N in H. rewrite Ascii.eqb_refl in H. discriminate H.
  - intros (w & rest & (W0 & W) & N0 & N & ->). rewrite eat_app.
    change (w ++ [quote] ++ name ++ [quote] ++ rest) with (w ++ quote :: name ++ quote :: rest).
    rewrite span_app; [|exact W|reflexivity]. destruct w as [|c w]; [congruence|].
    rewrite Ascii.eqb_refl. rewrite span_app.
    + destruct name; [congruence|]. reflexivity.
    + intros c' H. apply negb_true_iff, Ascii.eqb_neq. intros ->. auto.
    + rewrite Ascii.eqb_refl. reflexivity.
Qed.
Lemma include_match_none line : include_match line = None <-> forall name, ~ IncludeLine line name.
Proof.
  split.
  - intros H name I. apply include_match_spec in I. congruence.
  - intros H. destruct (include_match line) as [n|] eqn:E; [|reflexivity].
    apply include_match_spec in E. destruct (H n E).
Qed.

Lemma lower_space c : isspace (lower c) = isspace c.
Proof. destruct c as [[] [] [] [] [] [] [] []]; reflexivity. Qed.
Definition small (c : ascii) := lower c = c.
Lemma lower_same a b : small b -> (lower a = b <-> same_letter a b).
Proof.
  intros Hb. unfold same_letter. split.
  - intros H. unfold lower in H.
    destruct ((65 <=? N_of_ascii a) && (N_of_ascii a <=? 90))%N eqn:E; [right|left; exact H].
    apply andb_true_iff in E as [E1 E2]. apply N.leb_le in E1, E2.
    exists (N_of_ascii a). split; [lia|]. left. split; [reflexivity|].
    rewrite <- H. apply N_ascii_embedding. lia.
  - intros [->|(n & Hn & [[Ea Eb]|[Eb Ea]])]; [exact Hb| |].
    + unfold lower. rewrite Ea. replace ((65 <=? n) && (n <=? 90))%N with true.
      * rewrite <- Eb. apply ascii_N_embedding.
      * symmetry. apply andb_true_iff. split; apply N.leb_le; lia.
    + exfalso. unfold small, lower in Hb. rewrite Eb in Hb.
      replace ((65 <=? n) && (n <=? 90))%N with true in Hb.
      * apply (f_equal N_of_ascii) in Hb. rewrite N_ascii_embedding, Eb in Hb by lia. lia.
      * symmetry. apply andb_true_iff. split; apply N.leb_le; lia.
Qed.
Lemma lower_word w p : Forall small w -> (map lower p = w <-> Forall2 same_letter p w).
Proof.
  intros Hw. revert p. induction Hw as [|b w Hb _ IH]; intros [|a p]; cbn [map];
    try (split; [discriminate|intros H; inversion H]).
  - split; [constructor|reflexivity].
  - split.
    + intros H. injection H as H1 H2. constructor; [apply lower_same; assumption|apply IH; assumption].
    + intros H. inversion_clear H as [|? ? ? ? H1 H2]. f_equal; [apply lower_same; assumption|apply IH; assumption].
Qed.
Lemma map_eq_app' {A B} (f : A -> B) l a b : map f l = a ++ b ->
  exists l1 l2, l = l1 ++ l2 /\ map f l1 = a /\ map f l2 = b.
Proof.
  revert a. induction l as [|x l IH]; intros a H; cbn [map] in H.
  - destruct a; [|discriminate]. exists [], []. auto.
  - destruct a as [|y a]; cbn [app] in H.
    + exists [], (x :: l). auto.
    + injection H as H1 H2. destruct (IH a H2) as (l1 & l2 & -> & E1 & E2).
      exists (x :: l1), l2. cbn [map app]. rewrite H1, E1. auto.
Qed.
Lemma pragma_spec line : pragma_once_match line = true <-> PragmaOnceLine line.
Proof.
  assert (S1 : Forall small (lit "#pragma")) by (repeat constructor).
  assert (S2 : Forall small (lit "once")) by (repeat constructor).
  assert (SP : forall c, In c (map lower line) -> True) by auto.
  unfold pragma_once_match, PragmaOnceLine. split.
  - destruct (eat (lit "#pragma") (map lower line)) as [r|] eqn:E; [|discriminate]. apply eat_spec in E.
    destruct (map_eq_app' _ _ _ _ E) as (p & l2 & -> & Ep & E2).
    destruct (span_spec isspace r) as (R & W & _). destruct (span isspace r) as [w r2]. cbn [fst snd] in *.
    rewrite R in E2. destruct (map_eq_app' _ _ _ _ E2) as (w' & l3 & -> & Ew & E3).
    destruct w as [|c w]; [discriminate|]. intros H. apply startswith_spec in H as (rest & H).
    rewrite H in E3. destruct (map_eq_app' _ _ _ _ E3) as (o & rest' & -> & Eo & _).
    exists p, w', o, rest'. repeat split; auto.
    + destruct w'; discriminate.
    + intros x Hx. rewrite <- lower_space. apply W. rewrite <- Ew. apply in_map. exact Hx.
    + apply lower_word; assumption.
    + apply lower_word; assumption.
  - intros (p & w & o & rest & (W0 & W) & P & O & ->).
    apply (lower_word _ _ S1) in P. apply (lower_word _ _ S2) in O.
    rewrite !map_app, P, O, eat_app. rewrite span_app.
    + destruct w as [|c w]; [congruence|]. cbn [map]. apply startswith_spec. exists (map lower rest). reflexivity.
    + intros c H. apply in_map_iff in H as (x & <- & H). rewrite lower_space. auto.
    + reflexivity.
Qed.
Lemma output_line_spec line : Emitted line (output_line line).
Proof.
  unfold Emitted, output_line.
  assert (C : exists a core b, line = a ++ core ++ b /\ (forall c, In c a \/ In c b -> isspace c = true) /\
     (forall c r, core = c :: r \/ core = r ++ [c] -> isspace c = false) /\
     lit "// " ++ strip line ++ [nl] = lit "// " ++ core ++ [nl]).
  { destruct (strip_spec line) as (a & b & E & S & T1 & T2). exists a, (strip line), b.
    repeat split; auto. intros c r [H|H]; eauto. }
  destruct (include_match line) as [n|] eqn:E.
  - left. split; [left; exists n; apply include_match_spec; exact E|exact C].
  - destruct (pragma_once_match line) eqn:P.
    + left. split; [right; apply pragma_spec; exact P|exact C].
    + right. split; [apply include_match_none; exact E|]. split; [|reflexivity].
      intros H. apply pragma_spec in H. congruence.
Qed.
Lemma body_spec text : Body text (concat (map output_line (lines text))).
Proof.
  exists (map output_line (lines text)). split; [|reflexivity].
  induction (lines text); constructor; [apply output_line_spec|assumption].
Qed.
Lemma output_header_spec p text : SectionOf p text (output_header p text).
Proof. exists (concat (map output_line (lines text))). split; [apply body_spec|reflexivity]. Qed.

(** * Graphs *)
Lemma not_NoDup (l : list str) : ~ NoDup l -> exists a l1 l2 l3, l = l1 ++ a :: l2 ++ a :: l3.
Proof.
  induction l as [|x l IH]; intros H; [destruct H; constructor|].
  destruct (in_dec str_dec x l) as [I|I].
  - apply in_split in I as (l2 & l3 & ->). exists x, [], l2, l3. reflexivity.
  - destruct IH as (a & l1 & l2 & l3 & ->).
    + intros N. apply H. constructor; assumption.
    + exists a, (x :: l1), l2, l3. reflexivity.
Qed.
Section Graph.
Context (E : str -> str -> Prop).
Fixpoint walk (x : str) (l : list str) : Prop :=
  match l with [] => True | y :: l' => E x y /\ walk y l' end.
Lemma walk_exists (R : list str) : (forall x, In x R -> exists y, In y R /\ E x y) ->
  forall n x, In x R -> exists l, length l = n /\ walk x l /\ incl l R.
Proof.
  intros H. induction n as [|n IH]; intros x Hx.
  - exists []. repeat split. intros ? [].
  - destruct (H x Hx) as (y & Hy & Exy). destruct (IH y Hy) as (l & L & W & I).
    exists (y :: l). cbn [length walk]. repeat split; auto. intros z [<-|Z]; auto.
Qed.
Lemma walk_trans x l1 a l2 : walk x (l1 ++ a :: l2) -> clos_trans str E x a /\ walk a l2.
Proof.
  revert x. induction l1 as [|y l1 IH]; intros x; cbn [app walk].
  - intros [H W]. split; [apply t_step; exact H|exact W].
  - intros [H W]. destruct (IH y W) as [T W']. split; [|exact W'].
    eapply t_trans; [apply t_step; exact H|exact T].
Qed.
Lemma finite_cycle (R : list str) : R <> [] -> (forall x, In x R -> exists y, In y R /\ E x y) ->
  exists x, In x R /\ clos_trans str E x x.
Proof.
  intros N H. destruct R as [|x R'] eqn:ER; [congruence|]. rewrite <- ER in *.
  assert (Hx : In x R) by (rewrite ER; left; reflexivity).
  destruct (walk_exists R H (length R) x Hx) as (l & L & W & I).
  assert (D : ~ NoDup (x :: l)).
  { intros D.
    pose proof (NoDup_incl_length D (l' := R)) as P. cbn [length] in P.
    assert (incl (x :: l) R) by (intros z [<-|Z]; auto). specialize (P H0). lia. }
  apply not_NoDup in D as (a & l1 & l2 & l3 & D).
  destruct l1 as [|y l1]; cbn [app] in D; injection D as -> ->.
  - exists a. split; [exact Hx|]. apply walk_trans in W as [T _]. exact T.
  - exists a. split; [apply I; apply in_or_app; right; left; reflexivity|].
    apply walk_trans in W as [_ W]. apply walk_trans in W as [T _]. exact T.
Qed.
End Graph.

Definition add_all (s rs : list str) : list str := fold_left (fun s r => set_add r s) rs s.
Lemma In_set_add x r s : In x (set_add r s) <-> In x s \/ x = r.
Proof.
  unfold set_add. destruct (mem r s) eqn:M.
  - apply mem_In in M. split; [auto|]. intros [H| ->]; auto.
  - rewrite in_app_iff. cbn [In]. intuition.
Qed.
Lemma In_add_all x rs s : In x (add_all s rs) <-> In x s \/ In x rs.
Proof.
  revert s. induction rs as [|r rs IH]; intros s; cbn [add_all fold_left In]; [tauto|].
  unfold add_all in IH. rewrite IH, In_set_add. intuition.
Qed.

(** * The generated order *)
Definition restrict (G : dict (list str)) (gone : list str) : dict (list str) :=
  map (fun e => (fst e, filter (fun d => negb (mem d gone)) (snd e)))
    (filter (fun e => negb (mem (fst e) gone)) G).
Lemma filter_filter {A} (f g : A -> bool) l : filter f (filter g l) = filter (fun x => g x && f x) l.
Proof.
  induction l as [|x l IH]; cbn [filter]; [reflexivity|].
  destruct (g x); cbn [filter andb]; [|exact IH]. destruct (f x); rewrite IH; reflexivity.
Qed.
Lemma filter_map {A B} (f : B -> bool) (g : A -> B) l : filter f (map g l) = map g (filter (fun x => f (g x)) l).
Proof.
  induction l as [|x l IH]; cbn [filter map]; [reflexivity|]. destruct (f (g x)); cbn [map]; rewrite IH; reflexivity.
Qed.
Lemma mem_app x a b : mem x (a ++ b) = mem x a || mem x b.
Proof. induction a as [|y a IH]; cbn [app mem]; [reflexivity|]. rewrite IH. apply orb_assoc. Qed.
Lemma delete_restrict k G gone : delete k (restrict G gone) = restrict G (gone ++ [k]).
Proof.
  unfold delete, restrict. rewrite filter_map, filter_filter, map_map. cbn [fst snd].
  rewrite (filter_ext (fun e => negb (mem (fst e) gone) && negb (eqs k (fst e)))
             (fun e => negb (mem (fst e) (gone ++ [k])))).
  - apply map_ext. intros e. f_equal. rewrite filter_filter. apply filter_ext.
    intros d. rewrite mem_app. cbn [mem]. rewrite orb_false_r, negb_orb, (eqs_sym k). reflexivity.
  - intros e. rewrite mem_app. cbn [mem]. rewrite orb_false_r, negb_orb, (eqs_sym k). reflexivity.
Qed.
Lemma delete_all_restrict ks G gone : delete_all ks (restrict G gone) = restrict G (gone ++ ks).
Proof.
  revert gone. induction ks as [|k ks IH]; intros gone; cbn [delete_all fold_left].
  - rewrite app_nil_r. reflexivity.
  - unfold delete_all in IH. rewrite delete_restrict, IH, <- app_assoc. reflexivity.
Qed.
Lemma restrict_nil G : restrict G [] = G.
Proof.
  unfold restrict. rewrite (filter_ext _ (fun _ => true)) by reflexivity.
  assert (F : forall A (l : list A), filter (fun _ => true) l = l)
    by (induction l as [|x l IH]; cbn [filter]; [|rewrite IH]; reflexivity).
  rewrite F. rewrite <- (map_id G) at 2. apply map_ext. intros [k v]. cbn [fst snd]. rewrite F. reflexivity.
Qed.
Lemma keys_restrict G gone x : In x (map fst (restrict G gone)) <-> In x (map fst G) /\ ~ In x gone.
Proof.
  unfold restrict. rewrite map_map. cbn [fst]. rewrite !in_map_iff. split.
  - intros (e & <- & H). apply filter_In in H as [H M]. apply negb_true_iff, mem_false in M.
    split; [exists e; auto|exact M].
  - intros ((e & <- & H) & M). exists e. split; [reflexivity|]. apply filter_In. split; [exact H|].
    apply negb_true_iff, mem_false. exact M.
Qed.
Lemma ready_restrict G gone x : In x (ready (restrict G gone)) <->
  exists v, In (x, v) G /\ ~ In x gone /\ forall d, In d v -> In d gone.
Proof.
  unfold ready. rewrite in_map_iff. split.
  - intros ([k v] & <- & H). apply filter_In in H as [H M]. cbn [fst snd] in *.
    unfold restrict in H. apply in_map_iff in H as ([k' v'] & Eq & H). cbn [fst snd] in Eq.
    injection Eq as -> <-. apply filter_In in H as [H N]. cbn [fst] in N.
    apply negb_true_iff, mem_false in N. exists v'. split; [exact H|]. split; [exact N|].
    intros d Hd. destruct (filter _ v') eqn:F; [|discriminate].
    destruct (mem d gone) eqn:Md; [apply mem_In; exact Md|].
    assert (X : In d (filter (fun d => negb (mem d gone)) v')) by (apply filter_In; rewrite Md; auto).
    rewrite F in X. destruct X.
  - intros (v & H & N & D). exists (x, []). split; [reflexivity|]. apply filter_In. split; [|reflexivity].
    unfold restrict. apply in_map_iff. exists (x, v). cbn [fst snd]. split.
    + f_equal. assert (Fn : forall d, In d v -> In d gone) by exact D. clear -Fn.
      induction v as [|d v IH]; cbn [filter]; [reflexivity|].
      rewrite (proj2 (mem_In d gone)) by (apply Fn; left; reflexivity). cbn [negb].
      apply IH. intros; apply Fn; right; assumption.
    + apply filter_In. cbn [fst]. split; [exact H|]. apply negb_true_iff, mem_false. exact N.
Qed.
Lemma NoDup_filter_fst {A} (f : str * A -> bool) (d : dict A) : NoDup (map fst d) -> NoDup (map fst (filter f d)).
Proof.
  induction d as [|e d IH]; cbn [map filter]; [auto|]. intros H. inversion_clear H.
  destruct (f e); [|auto]. cbn [map]. constructor; [|auto].
  intros X. apply H0. apply in_map_iff in X as (e' & Ee & X). apply filter_In in X as [X _].
  rewrite <- Ee. apply in_map. exact X.
Qed.
Lemma ready_NoDup G gone : NoDup (map fst G) -> NoDup (ready (restrict G gone)).
Proof.
  intros H. unfold ready. apply NoDup_filter_fst. unfold restrict. rewrite map_map. cbn [fst].
  apply NoDup_filter_fst. exact H.
Qed.

Section Generate.
Context (cwd : str) (G : dict (list str)) (E : str -> str -> Prop).
Context (ND : NoDup (map fst G)).
Context (AB : forall k, In k (map fst G) -> abspath cwd k = k).
Context (VE : forall k v, In (k, v) G -> forall d, In d v <-> E k d).
Context (CL : forall k v d, In (k, v) G -> In d v -> In d (map fst G)).

Lemma append_unique_all ks gone : NoDup (gone ++ ks) -> (forall k, In k ks -> abspath cwd k = k) ->
  append_unique cwd ks gone gone = (gone ++ ks, gone ++ ks).
Proof.
  revert gone. induction ks as [|k ks IH]; intros gone N A; cbn [append_unique].
  - rewrite app_nil_r. reflexivity.
  - rewrite (A k (or_introl eq_refl)). rewrite (proj2 (mem_false k gone)).
    + rewrite IH.
      * rewrite <- app_assoc. reflexivity.
      * rewrite <- app_assoc. exact N.
      * intros; apply A; right; assumption.
    + intros X. apply NoDup_remove_2 in N. apply N, in_or_app. left. exact X.
Qed.

Definition gen (fuel : nat) (gone : list str) := generate_header_list fuel cwd (restrict G gone) gone gone.
Lemma NoDup_app_ready gone : NoDup gone -> NoDup (gone ++ ready (restrict G gone)).
Proof.
  intros N. pose proof (ready_NoDup G gone ND) as R.
  assert (D : forall x, In x (ready (restrict G gone)) -> ~ In x gone).
  { intros x Hx. apply ready_restrict in Hx as (v & _ & H & _). exact H. }
  clear -N R D. set (r := ready _) in *. clearbody r. induction N as [|x gone Hx _ IH]; cbn [app]; [exact R|].
  constructor.
  - intros H. apply in_app_or in H as [H|H]; [auto|]. apply (D x H). left. reflexivity.
  - apply IH. intros y Hy X. apply (D y Hy). right. exact X.
Qed.
Lemma gen_step fuel gone : NoDup gone -> restrict G gone <> [] ->
  gen (S fuel) gone = gen fuel (gone ++ ready (restrict G gone)).
Proof.
  intros N R. unfold gen. cbn [generate_header_list].
  destruct (restrict G gone) as [|e r] eqn:Er; [congruence|]. rewrite <- Er in *.
  rewrite append_unique_all.
  - rewrite delete_all_restrict. reflexivity.
  - apply NoDup_app_ready, N.
  - intros k Hk. apply AB. apply ready_restrict in Hk as (v & H & _). apply (in_map fst) in H. exact H.
Qed.
Definition Ordered (l : list str) := forall a p b, l = a ++ p :: b -> forall q, E p q -> In q a.
Lemma Ordered_ready gone : Ordered gone -> Ordered (gone ++ ready (restrict G gone)).
Proof.
  intros O a p b Eq q Hq. assert (C : (exists c, gone = a ++ p :: c) \/ (exists c, a = gone ++ c)).
  { clear -Eq. revert Eq. generalize (ready (restrict G gone)) as r. intros r. revert a. induction gone as [|x gone IH]; intros a Eq; cbn [app] in Eq.
    - right. exists a. reflexivity.
    - destruct a as [|y a]; cbn [app] in Eq; injection Eq as -> Eq.
      + left. exists gone. reflexivity.
      + destruct (IH a Eq) as [(c & ->)|(c & ->)]; [left|right]; exists c; reflexivity. }
  destruct C as [(c & C)|(c & ->)]; [exact (O a p c C q Hq)|].
  rewrite <- app_assoc in Eq. apply app_inv_head in Eq.
  assert (P : In p (ready (restrict G gone))) by (rewrite Eq; apply in_or_app; right; left; reflexivity).
  apply ready_restrict in P as (v & H & _ & D). apply in_or_app. left. apply D. apply (VE _ _ H). exact Hq.
Qed.
Lemma gen_sound fuel : forall gone l, NoDup gone -> incl gone (map fst G) -> Ordered gone -> gen fuel gone = Some l ->
  NoDup l /\ Ordered l /\ forall p, In p l <-> In p (map fst G).
Proof.
  assert (B : forall gone, NoDup gone -> incl gone (map fst G) -> Ordered gone -> restrict G gone = [] ->
            NoDup gone /\ Ordered gone /\ forall p, In p gone <-> In p (map fst G)).
  { intros gone N I O R. split; [exact N|]. split; [exact O|]. intros p. split; [apply I|].
    intros H. destruct (mem p gone) eqn:M; [apply mem_In; exact M|]. exfalso.
    apply mem_false in M. assert (X : In p (map fst (restrict G gone))) by (apply keys_restrict; auto).
    rewrite R in X. destruct X. }
  induction fuel as [|fuel IH]; intros gone l N I O H.
  - unfold gen in H. cbn [generate_header_list] in H. destruct (restrict G gone) eqn:R; [|discriminate].
    injection H as <-. apply B; assumption.
  - destruct (restrict G gone) as [|e r] eqn:R.
    + unfold gen in H. rewrite R in H. cbn [generate_header_list] in H. injection H as <-. apply B; assumption.
    + rewrite gen_step in H by (try assumption; congruence). revert H. apply IH.
      * apply NoDup_app_ready, N.
      * intros x X. apply in_app_or in X as [X|X]; [auto|].
        apply ready_restrict in X as (v & H & _). apply (in_map fst) in H. exact H.
      * apply Ordered_ready, O.
Qed.
Lemma gen_progress gone : restrict G gone <> [] ->
  (forall p, In p (map fst G) -> ~ clos_trans str E p p) -> ready (restrict G gone) <> [].
Proof.
  intros R A Q. destruct (finite_cycle E (map fst (restrict G gone))) as (x & Hx & C).
  - destruct (restrict G gone); [congruence|discriminate].
  - intros x Hx. apply keys_restrict in Hx as [Hx Nx].
    apply in_map_iff in Hx as ([k v] & Ek & Hkv). cbn [fst] in Ek. subst k.
    assert (NR : ~ In x (ready (restrict G gone))) by (rewrite Q; intros []).
    assert (Y : exists d, In d v /\ ~ In d gone).
    { destruct (Exists_dec (fun d => ~ In d gone) v) as [X|X].
      - intros d. destruct (in_dec str_dec d gone); [right; tauto|left; assumption].
      - apply Exists_exists in X. exact X.
      - exfalso. apply NR, ready_restrict. exists v. split; [exact Hkv|]. split; [exact Nx|].
        intros d Hd. destruct (in_dec str_dec d gone) as [|Nd]; [assumption|].
        exfalso. apply X, Exists_exists. exists d. auto. }
    destruct Y as (d & Hd & Nd). exists d. split; [|apply (VE _ _ Hkv), Hd].
    apply keys_restrict. split; [exact (CL _ _ _ Hkv Hd)|exact Nd].
  - apply keys_restrict in Hx as [Hx _]. exact (A x Hx C).
Qed.
Lemma restrict_length gone ks : ks <> [] -> incl ks (map fst (restrict G gone)) ->
  length (restrict G (gone ++ ks)) < length (restrict G gone).
Proof.
  intros N I. destruct ks as [|k ks]; [congruence|].
  assert (Hk : In k (map fst (restrict G gone))) by (apply I; left; reflexivity).
  unfold restrict. rewrite !map_length. apply keys_restrict in Hk as [Hk Nk]. clear I ND AB VE CL.
  revert Hk. induction G as [|e d IH]; cbn [map filter In]; [tauto|].
  intros [H|H].
  - subst k. rewrite (proj2 (mem_false _ gone) Nk). rewrite mem_app. cbn [mem].
    rewrite eqs_refl, orb_true_r. cbn [negb length].
    assert (M : forall l : dict (list str), length (filter (fun e0 => negb (mem (fst e0) (gone ++ fst e :: ks))) l)
              <= length (filter (fun e0 => negb (mem (fst e0) gone)) l)).
    { induction l as [|y l IHl]; cbn [filter length]; [lia|]. rewrite mem_app.
      destruct (mem (fst y) gone); cbn [orb negb]; [exact IHl|].
      destruct (mem (fst y) (fst e :: ks)); cbn [negb length]; lia. }
    specialize (M d). lia.
  - specialize (IH H). rewrite mem_app. destruct (mem (fst e) gone); cbn [orb negb]; [exact IH|].
    destruct (mem (fst e) (k :: ks)); cbn [negb length]; lia.
Qed.
Lemma ready_keys gone : incl (ready (restrict G gone)) (map fst (restrict G gone)).
Proof.
  intros x H. unfold ready in H. apply in_map_iff in H as (e & <- & H). apply filter_In in H as [H _].
  apply in_map. exact H.
Qed.
Lemma gen_terminates : (forall p, In p (map fst G) -> ~ clos_trans str E p p) ->
  forall fuel gone, NoDup gone -> length (restrict G gone) <= fuel -> exists l, gen fuel gone = Some l.
Proof.
  intros A. induction fuel as [|fuel IH]; intros gone N L.
  - unfold gen. cbn [generate_header_list]. destruct (restrict G gone); [eauto|cbn [length] in L; lia].
  - destruct (restrict G gone) as [|e r] eqn:R.
    + unfold gen. rewrite R. cbn [generate_header_list]. eauto.
    + assert (Rn : restrict G gone <> []) by congruence.
      rewrite gen_step by assumption. apply IH; [apply NoDup_app_ready, N|].
      pose proof (restrict_length gone _ (gen_progress gone Rn A) (ready_keys gone)). rewrite R in *.
      cbn [length] in *. lia.
Qed.
Lemma gen_loops (C : str -> Prop) : (forall x, C x -> In x (map fst G) /\ exists y, E x y /\ C y) ->
  (exists x, C x) -> forall fuel gone, NoDup gone -> (forall x, C x -> ~ In x gone) -> gen fuel gone = None.
Proof.
  intros HC (x0 & Hx0). induction fuel as [|fuel IH]; intros gone N D.
  - unfold gen. cbn [generate_header_list]. destruct (restrict G gone) eqn:R; [|reflexivity].
    exfalso. assert (X : In x0 (map fst (restrict G gone))) by (apply keys_restrict; split; [apply HC|apply D]; exact Hx0).
    rewrite R in X. destruct X.
  - rewrite gen_step; [|exact N|].
    + apply IH; [apply NoDup_app_ready, N|]. intros x Hx H. apply in_app_or in H as [H|H]; [exact (D x Hx H)|].
      apply ready_restrict in H as (v & Hv & _ & Dv). destruct (HC x Hx) as (_ & y & Exy & Cy).
      apply (D y Cy), Dv, (VE _ _ Hv), Exy.
    + intros R. assert (X : In x0 (map fst (restrict G gone))) by (apply keys_restrict; split; [apply HC|apply D]; exact Hx0).
      rewrite R in X. destruct X.
Qed.
Lemma gen_mono fuel fuel' gone l : fuel <= fuel' -> gen fuel gone = Some l -> gen fuel' gone = Some l.
Proof.
  unfold gen. generalize (restrict G gone) as rem.
  assert (X : forall i u rem, fuel <= fuel' -> generate_header_list fuel cwd rem u i = Some l ->
    generate_header_list fuel' cwd rem u i = Some l); [|intros rem L; apply X, L].
  revert fuel'. induction fuel as [|fuel IH]; intros fuel' i u rem L; cbn [generate_header_list].
  - destruct rem; [|discriminate]. destruct fuel'; cbn [generate_header_list]; auto.
  - destruct fuel' as [|fuel']; [lia|]. cbn [generate_header_list]. destruct rem; [auto|].
    destruct (append_unique _ _ _ _). apply IH. lia.
Qed.
End Generate.
