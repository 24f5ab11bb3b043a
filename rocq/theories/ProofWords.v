From Coq Require Import Bool Ascii String ZArith Lia List.
From Verif Require Import ModelPython ModelConfigBuild ModelArgparse SpecArgparse SpecWords ProofPython ProofArgparse ProofConfigBuild.
From Verif Require Import SpecAggregate ProofPath.
Import ListNotations.

Lemma white_space_spec c : isspace c = true <-> In c white_space.
Proof.
  destruct c as [b0 b1 b2 b3 b4 b5 b6 b7].
  destruct b0, b1, b2, b3, b4, b5, b6, b7; vm_compute; split; intros H; first [reflexivity|discriminate H|tauto|intuition discriminate].
Qed.

Lemma digit_spec c : digit c = true <-> In c (lit "0123456789").
Proof.
  destruct c as [b0 b1 b2 b3 b4 b5 b6 b7].
  destruct b0, b1, b2, b3, b4, b5, b6, b7; vm_compute; split; intros H; first [reflexivity|discriminate H|tauto|intuition discriminate].
Qed.
Lemma at_end_spec s : at_end s = true <-> s = [] \/ s = [nl].
Proof. unfold at_end. rewrite orb_true_iff, !eqs_eq. tauto. Qed.
Lemma digit_span a r : Forall (fun c => In c (lit "0123456789")) a ->
  (forall c r', r = c :: r' -> digit c = false) -> span digit (a ++ r) = (a, r).
Proof.
  intros A N. induction A as [|c a Hc A IH]; cbn [app].
  - destruct r as [|c r]; [reflexivity|]. cbn [span]. rewrite (N c r eq_refl). reflexivity.
  - cbn [span]. apply digit_spec in Hc. rewrite Hc, IH. reflexivity.
Qed.
Lemma end_no_digit e : e = [] \/ e = [nl] -> forall c r', e = c :: r' -> digit c = false.
Proof. intros [->| ->] c r' H; [discriminate|]. injection H as <- _. reflexivity. Qed.
Lemma negative_spec w : negative_number w = true <-> NegativeNumber w.
Proof.
  split.
  - destruct w as [|c r]; [discriminate|]. cbn [negative_number]. intros H. apply andb_true_iff in H as [D H].
    apply Ascii.eqb_eq in D. subst c. destruct (span_spec digit r) as (R & W & _).
    destruct (span digit r) as [d rest]. cbn [fst snd] in *. subst r.
    assert (WD : Forall (fun c => In c (lit "0123456789")) d) by (apply Forall_forall; intros c I; apply digit_spec, W, I).
    apply orb_true_iff in H as [H|H].
    + exists d, rest. destruct d as [|x d]; [discriminate|]. apply at_end_spec in H. split; [exact H|]. left.
      split; [reflexivity|]. split; [discriminate|exact WD].
    + destruct rest as [|p r']; [discriminate|]. apply andb_true_iff in H as [P H]. apply Ascii.eqb_eq in P. subst p.
      destruct (span_spec digit r') as (R & W' & _). destruct (span digit r') as [b e]. cbn [fst snd] in *. subst r'.
      destruct b as [|x b]; [discriminate|]. apply at_end_spec in H.
      exists d, e. split; [exact H|]. right. exists (x :: b). split; [reflexivity|]. split.
      * destruct d; [left; reflexivity|right; split; [discriminate|exact WD]].
      * split; [discriminate|]. apply Forall_forall. intros c I. apply digit_spec, W', I.
  - intros (a & e & E & [[-> [Na A]]|(b & -> & A & Nb & B)]); cbn [negative_number]; rewrite Ascii.eqb_refl; cbn [andb].
    + rewrite digit_span by (try assumption; apply end_no_digit, E). destruct a; [congruence|].
      apply at_end_spec in E. rewrite E. reflexivity.
    + assert (A' : Forall (fun c => In c (lit "0123456789")) a) by (destruct A as [->|[_ A]]; [constructor|exact A]).
      rewrite digit_span; [|assumption|intros c r' X; injection X as <- _; reflexivity].
      apply orb_true_iff. right. cbn [app]. rewrite digit_span by (try assumption; apply end_no_digit, E).
      destruct b; [congruence|]. apply at_end_spec in E. rewrite E. reflexivity.
Qed.

Lemma dashed_lemma w : Foreign w -> Prefix [dash] w -> w <> [dash] ->
  (NegativeNumber w \/ In " "%char w -> parse_known_args [lit "-hc"; w] = inl (asked [Equal false HostConfig w] [])) /\
  (~ (NegativeNumber w \/ In " "%char w) -> parse_known_args [lit "-hc"; w] = inr 2%Z).
Proof.
  intros F [r ->] N. cbn [app] in *. destruct (foreign_classified _ F) as [ED _]. apply foreign_spec in F.
  assert (B : existsb (Ascii.eqb " ") (dash :: r) = true <-> In " "%char (dash :: r)).
  { rewrite existsb_exists. split; [intros (x & I & X); apply Ascii.eqb_eq in X; subst x; exact I|].
    intros I. exists " "%char. split; [exact I|reflexivity]. }
  assert (K : parse_optional (dash :: r) = Some (if negative_number (dash :: r) then Argument else if existsb (Ascii.eqb " ") (dash :: r) then Argument else Unrecognised)).
  { cbn [parse_optional] in F |- *. rewrite Ascii.eqb_refl in F |- *. cbn [negb] in F |- *.
    destruct (get (dash :: r) options); [destruct F; discriminate|]. destruct r as [|d r]; [congruence|].
    destruct (match split1 equals _ with (name, Some v) => _ | (_, None) => None end) as [k|] eqn:S.
    { exfalso. destruct (split1 equals (dash :: d :: r)) as [name [v|]]; [|discriminate]. destruct (get name options); [|discriminate].
      injection S as <-. destruct F; discriminate. }
    pose proof (fun k => tuples_known k (dash :: d :: r)) as T.
    destruct (option_tuples _) as [|k [|k' l]].
    - destruct (negative_number _); [reflexivity|]. destruct (existsb _ _); reflexivity.
    - exfalso. destruct (T k (or_introl eq_refl)) as (a & n & x & ->). destruct F; discriminate.
    - destruct F; discriminate. }
  unfold parse_known_args. change (lit "-hc") with (name_of false HostConfig).
  destruct (name_classified false HostConfig) as [N1 N2]. cbn [classify]. rewrite N1, N2, ED, K.
  split.
  - intros H. replace (if negative_number _ then _ else _) with Argument; [reflexivity|].
    destruct (negative_number (dash :: r)) eqn:NN; [reflexivity|]. destruct H as [H|H]; [apply negative_spec in H; congruence|].
    apply B in H. rewrite H. reflexivity.
  - intros H. replace (if negative_number _ then _ else _) with Unrecognised; [reflexivity|].
    destruct (negative_number (dash :: r)) eqn:NN; [exfalso; apply H; left; apply negative_spec, NN|].
    destruct (existsb (Ascii.eqb " ") (dash :: r)) eqn:X; [exfalso; apply H; right; apply B; reflexivity|]. reflexivity.
Qed.

(** ** Switches written together *)
Lemma letters_in l : Forall OneLetter l -> forall c, In c (flat_map letter l) -> c = "e"%char \/ c = "x"%char \/ c = "n"%char.
Proof.
  intros H c I. apply in_flat_map in I as (a & Ia & Ic). rewrite Forall_forall in H. specialize (H a Ia).
  destruct H as [->|[->| ->]]; cbn in Ic; destruct Ic as [<-|[]]; auto.
Qed.
Lemma together_classified a b l : OneLetter a -> OneLetter b -> Forall OneLetter l ->
  eqs (together (a :: b :: l)) [dash; dash] = false /\
  parse_optional (together (a :: b :: l)) = Some (Known a (short_name a) (Some (false, flat_map letter (b :: l)))).
Proof.
  intros Ha Hb Hl. assert (NE : ~ In equals (together (a :: b :: l))).
  { intros [X|X]; [discriminate X|]. assert (Hab : Forall OneLetter (a :: b :: l)) by (constructor; [|constructor]; assumption).
    apply (letters_in _ Hab) in X as [X|[X|X]]; discriminate X. }
  assert (S : split1 equals (together (a :: b :: l)) = (together (a :: b :: l), None)) by (apply split1_none; auto).
  split; [destruct Ha as [->|[->| ->]]; reflexivity|].
  unfold together in *. cbn [flat_map] in *.
  destruct Ha as [->|[->| ->]], Hb as [->|[->| ->]]; cbn [letter lit list_ascii_of_string app] in *;
    unfold parse_optional; rewrite S; reflexivity.
Qed.
Lemma cluster_together l : forall a b, OneLetter a -> OneLetter b -> Forall OneLetter l ->
  exists x y, cluster a true false (flat_map letter (b :: l)) = Last x y None /\ x ++ [y] = a :: b :: l.
Proof.
  induction l as [|c l IH]; intros a b Ha Hb Hl.
  - exists [a], b. split; [|reflexivity]. destruct Ha as [->|[->| ->]], Hb as [->|[->| ->]]; reflexivity.
  - inversion Hl as [|? ? Hc Hl']. subst. destruct (IH b c Hb Hc Hl') as (x & y & E & X).
    exists (a :: x), y. split; [|cbn [app]; rewrite X; reflexivity].
    change (Last (a :: x) y None) with (before a (Last x y None)). rewrite <- E. cbn [flat_map].
    destruct Ha as [->|[->| ->]], Hb as [->|[->| ->]], Hc as [->|[->| ->]]; reflexivity.
Qed.
Lemma consume_switches l : forall r s, Forall OneLetter l ->
  consume (map (fun a => (short_name a, Known a (short_name a) None)) l ++ r) s =
  match take (flags l) s with inl s' => consume r s' | inr c => inr c end.
Proof.
  induction l as [|a l IH]; intros r s H; [reflexivity|]. inversion H as [|? ? Ha Hl]. subst. cbn [map app].
  destruct s as [n b]. destruct Ha as [->|[->| ->]]; cbn; rewrite IH by exact Hl; reflexivity.
Qed.
Lemma consume_together a b l r s : OneLetter a -> OneLetter b -> Forall OneLetter l ->
  consume ((together (a :: b :: l), Known a (short_name a) (Some (false, flat_map letter (b :: l)))) :: r) s =
  consume (map (fun a => (short_name a, Known a (short_name a) None)) (a :: b :: l) ++ r) s.
Proof.
  intros Ha Hb Hl. rewrite consume_switches by (constructor; [|constructor]; assumption).
  destruct (cluster_together l a b Ha Hb Hl) as (x & y & E & X).
  cbn [consume explicit_of]. replace (single_dash (short_name a)) with true by (destruct Ha as [->|[->| ->]]; reflexivity).
  rewrite E, X. replace (takes_value y) with false; [reflexivity|].
  assert (Y : In y (a :: b :: l)) by (rewrite <- X; apply in_or_app; right; left; reflexivity).
  assert (Hab : Forall OneLetter (a :: b :: l)) by (constructor; [|constructor]; assumption).
  rewrite Forall_forall in Hab. destruct (Hab y Y) as [->|[->| ->]]; reflexivity.
Qed.
Lemma consume_tail n : forall k t1 t2 s, (length k <= n)%nat -> (forall s, consume t1 s = consume t2 s) ->
  (forall w r, t1 <> (w, Argument) :: r) -> (forall w r, t2 <> (w, Argument) :: r) ->
  consume (k ++ t1) s = consume (k ++ t2) s.
Proof.
  induction n as [|n IH]; intros k t1 t2 s L H N1 N2.
  { destruct k; [apply H|cbn in L; lia]. }
  destruct k as [|[w x] k]; [apply H|]. cbn [length] in L. cbn [app consume].
  destruct x as [| |a name explicit|]; try (apply IH; auto; lia).
  destruct (explicit_of name a explicit) as [|acts y|acts b [v|]]; [reflexivity|..].
  - destruct (take _ s); [apply IH; auto; lia|reflexivity].
  - destruct (take _ s); [apply IH; auto; lia|reflexivity].
  - destruct (takes_value b).
    + destruct k as [|[v x] k].
      * cbn [app]. destruct t1 as [|[v1 x1] t1], t2 as [|[v2 x2] t2]; try reflexivity;
          try destruct x1; try destruct x2; try reflexivity; exfalso; try (eapply N1; reflexivity); eapply N2; reflexivity.
      * cbn [app]. destruct x; try reflexivity. destruct (take _ s); [apply IH; auto; cbn [length] in L; lia|reflexivity].
    + destruct (take _ s); [apply IH; auto; lia|reflexivity].
Qed.
Lemma classify_app pre t : ~ In [dash; dash] pre ->
  classify (pre ++ t) = match classify pre, classify t with Some k, Some r => Some (k ++ r) | _, _ => None end.
Proof.
  induction pre as [|w pre IH]; intros N.
  - cbn [app classify]. destruct (classify t); reflexivity.
  - cbn [app classify]. destruct (eqs w [dash; dash]) eqn:E; [exfalso; apply N; left; apply eqs_eq, E|].
    destruct (parse_optional w); [|reflexivity]. rewrite IH by (intros X; apply N; right; exact X).
    destruct (classify pre), (classify t); reflexivity.
Qed.
Lemma classify_switches l : Forall OneLetter l -> forall t,
  classify (map short_name l ++ t) = match classify t with Some r => Some (map (fun a => (short_name a, Known a (short_name a) None)) l ++ r) | None => None end.
Proof.
  induction 1 as [|a l Ha Hl IH]; intros t; [cbn [map app]; destruct (classify t); reflexivity|]. cbn [map app classify].
  destruct (name_classified false a) as [A1 A2]. cbn [name_of] in A1, A2. rewrite A1, A2, IH. destruct (classify t); reflexivity.
Qed.
Lemma together_lemma pre l post : (2 <= length l)%nat -> Forall OneLetter l -> ~ In [dash; dash] pre ->
  parse_known_args (pre ++ together l :: post) = parse_known_args (pre ++ map short_name l ++ post).
Proof.
  intros L H N. destruct l as [|a [|b l]]; cbn in L; try lia.
  inversion H as [|? ? Ha H']. inversion H' as [|? ? Hb Hl]. subst.
  unfold parse_known_args. rewrite !classify_app by assumption. rewrite classify_switches by assumption.
  destruct (together_classified a b l Ha Hb Hl) as [T1 T2].
  replace (classify (together (a :: b :: l) :: post)) with
    (match classify post with Some r => Some ((together (a :: b :: l), Known a (short_name a) (Some (false, flat_map letter (b :: l)))) :: r) | None => None end)
    by (cbn [classify]; rewrite T1, T2; reflexivity).
  destruct (classify pre) as [k|]; [|reflexivity]. destruct (classify post) as [r|]; [|reflexivity].
  apply (consume_tail (length k)); [lia| |discriminate|discriminate].
  intros s. apply consume_together; assumption.
Qed.

(** ** Directories *)
Lemma directory_lemma cs c : Forall Component cs -> ~ In slash c ->
  dirname (absolute_name cs ++ slash :: c) = match cs with [] => [slash] | _ => absolute_name cs end.
Proof.
  intros C H. unfold dirname. rewrite rev_app_distr. cbn [rev]. rewrite <- app_assoc. cbn [app].
  rewrite upto_skip by (now rewrite <- in_rev). rewrite rev_involutive. cbn [lstripc]. rewrite Ascii.eqb_refl.
  destruct cs as [|d cs _] using rev_ind; [reflexivity|]. apply Forall_app in C. destruct C as [_ C].
  inversion C as [|? ? (C1 & C2) _]. subst.
  destruct d as [|x d _] using rev_ind; [congruence|].
  assert (P : absolute_name (cs ++ [d ++ [x]]) = (absolute_name cs ++ slash :: d) ++ [x]).
  { unfold absolute_name. rewrite flat_map_app. cbn [flat_map]. rewrite app_nil_r, <- app_assoc. reflexivity. }
  match goal with |- match lstripc slash (rev ?q) with _ => _ end = match ?z with [] => _ | _ => _ end =>
    change q with (absolute_name (cs ++ [d ++ [x]])); destruct z as [|s0 l0] eqn:Q end; [destruct cs; discriminate Q|].
  rewrite P, rev_unit. cbn [lstripc]. destruct (Ascii.eqb x slash) eqn:E.
  { apply Ascii.eqb_eq in E. subst. destruct C2. apply in_or_app. right. now left. }
  rewrite rev_involutive. reflexivity.
Qed.

Lemma normcomps_entries abs cs : Forall Entry cs -> forall acc, normcomps abs acc cs = rev acc ++ cs.
Proof.
  induction 1 as [|c cs [[H1 H2] [H3 H4]] _ IH]; intros acc; cbn [normcomps]; [rewrite app_nil_r; reflexivity|].
  rewrite (proj2 (eqs_neq c []) H1), (proj2 (eqs_neq c dot) H3), (proj2 (eqs_neq c dotdot) H4). cbn [orb negb].
  rewrite IH. cbn [rev]. rewrite <- app_assoc. reflexivity.
Qed.
Lemma absolute_name_path cs : absolute_name cs = path_of cs.
Proof. unfold absolute_name, path_of. rewrite flat_map_concat_map. reflexivity. Qed.
Lemma entries_clean cs : Forall Entry cs -> Forall clean cs.
Proof. apply Forall_impl. intros c [[A B] [C _]]. split; [exact A|]. split; [exact C|exact B]. Qed.
Lemma abspath_entries cwd cs : Forall Entry cs -> cs <> [] -> abspath cwd (absolute_name cs) = absolute_name cs.
Proof.
  intros H N. rewrite absolute_name_path. pose proof (entries_clean cs H) as C. unfold abspath.
  destruct cs as [|c cs]; [congruence|].
  assert (L : leading (path_of (c :: cs)) = 1).
  { inversion H as [|? ? [[C1 C2] _] _]. subst. destruct c as [|x c]; [congruence|].
    cbn [path_of map concat app]. assert (X : Ascii.eqb x slash = false).
    { apply Ascii.eqb_neq. intros ->. apply C2. left. reflexivity. }
    unfold path_of. cbn [map concat app leading]. rewrite Ascii.eqb_refl, X. destruct (c ++ concat (map (cons slash) cs)); reflexivity. }
  replace (startswith (path_of (c :: cs)) [slash]) with true by reflexivity.
  unfold normpath. rewrite L, splitc_path by assumption. cbn [Nat.eqb negb].
  change (normcomps true [] ([] :: c :: cs)) with (normcomps true [] (c :: cs)).
  rewrite normcomps_entries by assumption. cbn [rev app repeat]. rewrite path_of_joinc by assumption. reflexivity.
Qed.
Lemma join_entries cs n ns name : Forall Entry cs -> Forall Entry (n :: ns) -> slash :: name = absolute_name (n :: ns) ->
  join (match cs with [] => [slash] | _ => absolute_name cs end) name = absolute_name (cs ++ n :: ns).
Proof.
  intros C N E. assert (A : absolute_name (cs ++ n :: ns) = absolute_name cs ++ slash :: name)
    by (rewrite E; unfold absolute_name; apply flat_map_app).
  rewrite A. inversion N as [|? ? [[N1 N2] _] _]. subst. destruct n as [|x n]; [congruence|].
  injection E as ->. assert (X : Ascii.eqb x slash = false).
  { apply Ascii.eqb_neq. intros ->. apply N2. left. reflexivity. }
  cbn [app join]. rewrite X. destruct cs as [|c cs _] using rev_ind; [reflexivity|].
  apply Forall_app in C as [_ C]. inversion C as [|? ? [[C1 C2] _] _]. subst.
  destruct c as [|y c _] using rev_ind; [congruence|].
  assert (P : absolute_name (cs ++ [c ++ [y]]) = (absolute_name cs ++ slash :: c) ++ [y]).
  { unfold absolute_name. rewrite flat_map_app. cbn [flat_map]. rewrite app_nil_r, <- app_assoc. reflexivity. }
  match goal with |- context [rev (match ?z with [] => _ | _ => _ end)] => destruct z eqn:Q end; [destruct cs; discriminate Q|].
  rewrite <- Q. match goal with |- context [rev ?q] => replace (rev q) with (y :: rev (absolute_name cs ++ slash :: c)) end.
  2: { rewrite <- rev_unit. f_equal. symmetry. exact P. }
  replace (Ascii.eqb y slash) with false; [reflexivity|]. symmetry. apply Ascii.eqb_neq. intros ->.
  apply C2. apply in_or_app. right. left. reflexivity.
Qed.
Lemma sibling_lemma fs cwd incs cs f ns name q : Forall Entry cs -> Component f -> Forall Entry ns -> ns <> [] ->
  slash :: name = absolute_name ns -> fexists fs (absolute_name (cs ++ ns)) = true ->
  (Resolves fs cwd incs (absolute_name (cs ++ [f])) name q <-> q = absolute_name (cs ++ ns)).
Proof.
  intros C [_ F] N NE E X. destruct ns as [|n ns]; [congruence|].
  assert (D : dirname (absolute_name (cs ++ [f])) = match cs with [] => [slash] | _ => absolute_name cs end).
  { rewrite <- (directory_lemma cs f); [|revert C; apply Forall_impl; intros ? [? _]; assumption|exact F].
    f_equal. unfold absolute_name. rewrite flat_map_app. cbn [flat_map]. rewrite app_nil_r. reflexivity. }
  assert (J : abspath cwd (join (dirname (absolute_name (cs ++ [f]))) name) = absolute_name (cs ++ n :: ns)).
  { rewrite D, (join_entries cs n ns name C N E). apply abspath_entries; [apply Forall_app; auto|destruct cs; discriminate]. }
  unfold Resolves. split.
  - intros (b & d & a & L & -> & EX & U). destruct b as [|d0 b].
    + injection L as <- _. exact J.
    + injection L as <- _. specialize (U _ (or_introl eq_refl)). rewrite J in U. congruence.
  - intros ->. exists [], (dirname (absolute_name (cs ++ [f]))), incs. split; [reflexivity|]. split; [symmetry; exact J|].
    split; [exact X|]. intros d [].
Qed.

From Verif Require Import Base SpecIndex ModelIndex ProofBox ProofIndex.
Lemma scalar_lemma r i : InRange [r] [i] -> (r <= INT_MAX)%Z ->
  linearIndex [r] [i] = Ok i /\ linearIndex_scalar i = Ok i.
Proof.
  intros H R. split; [|reflexivity]. apply InRange_cons in H as (i0 & t0 & Q0 & H & _). injection Q0 as <- <-.
  assert (E : linearIndex [r] [i] = imul i 1) by reflexivity. rewrite E. unfold imul, mkint.
  rewrite Z.mul_1_r. destruct (int_ok i) eqn:I; [reflexivity|]. exfalso. unfold int_ok, INT_MAX, INT_MIN in *.
  apply andb_false_iff in I. rewrite !Z.leb_gt in I. lia.
Qed.
