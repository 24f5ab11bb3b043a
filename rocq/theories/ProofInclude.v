(** Lemmas about including headers. *)
From Coq Require Import Bool String List Arith Lia.
From Verif Require Import ModelInclude SpecInclude.
Import ListNotations.
Open Scope string_scope.
Open Scope list_scope.

Lemma path_eqb_eq a b : path_eqb a b = true <-> a = b.
Proof.
  revert b. induction a as [|x a IH]; intros [|y b]; cbn [path_eqb]; split; try discriminate; try reflexivity.
  - intros H. apply andb_prop in H as [H1 H2]. apply String.eqb_eq in H1. apply IH in H2. congruence.
  - intros H. injection H as -> ->. rewrite String.eqb_refl. apply IH. reflexivity.
Qed.
Lemma root_eqb_eq a b : root_eqb a b = true <-> a = b.
Proof.
  destruct a, b; cbn [root_eqb]; split; try discriminate; try reflexivity.
  - intros H. apply Nat.eqb_eq in H. congruence.
  - intros H. injection H as ->. apply Nat.eqb_refl.
Qed.
Lemma loc_eqb_eq a b : loc_eqb a b = true <-> a = b.
Proof.
  destruct a as [r p], b as [s q]. unfold loc_eqb. cbn [fst snd]. rewrite andb_true_iff, root_eqb_eq, path_eqb_eq. split; [intros [-> ->]; reflexivity|intros H; injection H; auto].
Qed.
Lemma seen_spec l s : seen_before l s = true <-> In l s.
Proof.
  unfold seen_before. rewrite existsb_exists. split.
  - intros [x [I E]]. apply loc_eqb_eq in E. subst. exact I.
  - intros I. exists l. split; [exact I|]. apply loc_eqb_eq. reflexivity.
Qed.

(** ** Files that include only what lies below them *)
Section Dfs.
Context (t : tree) (dirs : list root) (rank : location -> nat) (deps : location -> list location) (good : location -> Prop)
  (ok : forall l, good l -> exists h, t l = Some h /\ once h = true /\ Forall2 (fun p d => resolve t dirs l p = Some d) (includes h) (deps l))
  (down : forall l d, good l -> In d (deps l) -> good d /\ (rank d < rank l)%nat).

(** Every dependency comes before, or was done before. *)
Definition Topo (D : location -> Prop) (out : list location) : Prop :=
  forall o1 x o2, out = o1 ++ x :: o2 -> forall d, In d (deps x) -> D d \/ In d o1.
Inductive Reach : location -> location -> Prop :=
| reach_self x : Reach x x
| reach_step x y z : In y (deps x) -> Reach y z -> Reach x z.

Lemma topo_app D a b : Topo D a -> Topo (fun x => D x \/ In x a) b -> Topo D (a ++ b).
Proof.
  intros A B o1 x o2 E d I. apply app_eq_app in E as [m [[-> E]|[-> E]]].
  - destruct m as [|y m].
    + cbn [app] in E. specialize (B [] x o2 (eq_sym E) d I). rewrite ?app_nil_r in *. destruct B as [[B|B]|[]]; auto.
    + cbn [app] in E. injection E as <- E. apply (A o1 x m eq_refl d I).
  - specialize (B m x o2 E d I). destruct B as [[B|B]|B]; [left; exact B|right; apply in_or_app; auto..].
Qed.
Lemma topo_weaken (D D' : location -> Prop) a : (forall x, D x -> D' x) -> Topo D a -> Topo D' a.
Proof. intros W T o1 x o2 E d I. destruct (T o1 x o2 E d I); auto. Qed.

Definition Good_result (D : location -> Prop) (b : nat) (targets seen : list location) (r : pasted) : Prop :=
  exists seen' out, r = Pasted seen' out /\
    (forall x, In x seen' <-> In x seen \/ In x out) /\ NoDup out /\ (forall x, In x out -> ~ In x seen) /\
    (forall x, In x out -> good x /\ (rank x < b)%nat) /\ Topo D out /\ (forall x, In x targets -> D x \/ In x out) /\
    (forall x, In x out -> exists y, In y targets /\ Reach y x).
Lemma paste_ok : forall depth b cur incs targets seen D, (b < depth)%nat ->
  Forall2 (fun p d => resolve t dirs cur p = Some d) incs targets ->
  (forall d, In d targets -> good d /\ (rank d < b)%nat) ->
  (forall x, In x seen -> D x \/ (b <= rank x)%nat) -> (forall x, D x -> In x seen) ->
  Good_result D b targets seen (paste depth t dirs cur incs seen).
Proof.
  induction depth as [|depth IHd]; [lia|].
  intros b cur incs targets seen D Lb F. revert seen D.
  induction F as [|p l incs targets R F IHl]; intros seen D G S1 S2.
  { exists seen, []. split; [reflexivity|]. split; [intros x; cbn [In]; tauto|]. split; [constructor|]. split; [intros x []|]. split; [intros x []|].
    split; [|split; intros x []]. intros o1 x o2 E. destruct o1; discriminate E. }
  destruct (G l (or_introl eq_refl)) as [Gl Rl]. destruct (ok l Gl) as (h & Th & Oh & Fh).
  assert (Gt : forall d, In d targets -> good d /\ (rank d < b)%nat) by (intros d I; apply G; right; exact I).
  change (paste (S depth) t dirs cur (p :: incs) seen) with
    (match resolve t dirs cur p with
     | None => NotFound p
     | Some l => match t l with
       | None => NotFound p
       | Some h => if once h && seen_before l seen then paste (S depth) t dirs cur incs seen
           else match paste depth t dirs l (includes h) (l :: seen) with
                | Pasted s o => match paste (S depth) t dirs cur incs s with Pasted s' o' => Pasted s' (o ++ [l] ++ o') | e => e end
                | e => e end
       end end).
  rewrite R, Th, Oh. cbn [andb]. destruct (seen_before l seen) eqn:Sl.
  - apply seen_spec in Sl. destruct (IHl seen D Gt S1 S2) as (seen' & out & E & H1 & H2 & H3 & H4 & H5 & H6 & H7).
    exists seen', out. rewrite E. split; [reflexivity|]. repeat (split; [assumption|]).
    split.
    + intros x [<-|I]; [|auto]. destruct (S1 l Sl) as [X|X]; [auto|lia].
    + intros x I. destruct (H7 x I) as [y [Iy Ry]]. exists y. split; [right; exact Iy|exact Ry].
  - assert (Nl : ~ In l seen) by (intros I; apply seen_spec in I; congruence).
    destruct (IHd (rank l) l (includes h) (deps l) (l :: seen) D) as (s & o & E & H1 & H2 & H3 & H4 & H5 & H6 & H7);
      [lia|exact Fh|intros d I; exact (down l d Gl I)| | |].
    { intros x [<-|I]; [right; lia|]. destruct (S1 x I); [auto|right; lia]. }
    { intros x I. right. apply S2. exact I. }
    rewrite E.
    destruct (IHl s (fun x => D x \/ In x (o ++ [l])) Gt) as (s' & o' & E' & K1 & K2 & K3 & K4 & K5 & K6 & K7).
    { intros x I. apply H1 in I as [[<-|I]|I].
      - left. right. apply in_or_app. right. left. reflexivity.
      - destruct (S1 x I); auto.
      - left. right. apply in_or_app. auto. }
    { intros x [I|I]; [apply H1; left; right; apply S2; exact I|]. apply H1. apply in_app_or in I as [I|[<-|[]]]; [auto|left; left; reflexivity]. }
    rewrite E'. exists s', (o ++ [l] ++ o'). split; [reflexivity|].
    assert (No : ~ In l o) by (intros I; destruct (H4 l I); lia).
    assert (Ko : forall x, In x o' -> ~ In x o /\ x <> l /\ ~ In x seen).
    { intros x I. pose proof (K3 x I) as N. rewrite H1 in N. repeat split; intros J; apply N; [auto|subst; left; left; reflexivity|left; right; exact J]. }
    split; [|split; [|split; [|split; [|split; [|split]]]]].
    + intros x. rewrite K1, H1, !in_app_iff. cbn [In]. intuition.
    + assert (ND : forall a b : list location, NoDup a -> NoDup b -> (forall x, In x a -> ~ In x b) -> NoDup (a ++ b)).
      { induction a as [|y a IHa]; intros b0 Na Nb Dj; [exact Nb|]. inversion Na; subst. cbn [app]. constructor.
        - intros I. apply in_app_or in I as [I|I]; [contradiction|]. exact (Dj y (or_introl eq_refl) I).
        - apply IHa; auto. intros x I. apply Dj. right. exact I. }
      apply ND; [exact H2| |].
      * cbn [app]. constructor; [|exact K2]. intros I. destruct (Ko l I) as [_ [X _]]. exact (X eq_refl).
      * intros x I [<-|J]; [exact (No I)|]. destruct (Ko x J) as [X _]. exact (X I).
    + intros x I. apply in_app_or in I as [I|[<-|I]].
      * intros J. apply (H3 x I). right. exact J.
      * exact Nl.
      * exact (proj2 (proj2 (Ko x I))).
    + intros x I. apply in_app_or in I as [I|[<-|I]].
      * destruct (H4 x I). split; [assumption|lia].
      * auto.
      * exact (K4 x I).
    + rewrite app_assoc. apply topo_app; [|exact K5]. apply topo_app; [exact H5|].
      intros o1 x o2 Eq d I. destruct o1 as [|y o1]; [|destruct o1; discriminate Eq]. injection Eq as <- _.
      left. destruct (H6 d I); auto.
    + intros x [<-|I].
      * right. apply in_or_app. right. left. reflexivity.
      * destruct (K6 x I) as [[X|X]|X]; [auto| |]; right; rewrite app_assoc; apply in_or_app; auto.
    + intros x I. apply in_app_or in I as [I|[<-|I]].
      * destruct (H7 x I) as [y [Iy Ry]]. exists l. split; [left; reflexivity|]. apply (reach_step l y x); assumption.
      * exists l. split; [left; reflexivity|constructor].
      * destruct (K7 x I) as [y [Iy Ry]]. exists y. split; [right; exact Iy|exact Ry].
Qed.

(** What a file reaches comes before it. *)
Lemma topo_prefix D a b : Topo D (a ++ b) -> Topo D a.
Proof. intros T o1 x o2 E d I. apply (T o1 x (o2 ++ b)); [rewrite E, <- app_assoc; reflexivity|exact I]. Qed.
Lemma reach_before x y : Reach x y -> forall out o1 o2, Topo (fun _ => False) out -> out = o1 ++ x :: o2 -> y = x \/ In y o1.
Proof.
  induction 1 as [x|x y z I R IH]; intros out o1 o2 T E; [auto|]. right.
  destruct (T o1 x o2 E y I) as [[]|J]. apply in_split in J as [p [q ->]].
  destruct (IH (p ++ y :: q) p q) as [->|J]; [|reflexivity| |].
  - apply (topo_prefix _ _ (x :: o2)). rewrite <- E. exact T.
  - apply in_or_app. right. left. reflexivity.
  - apply in_or_app. left. exact J.
Qed.
End Dfs.

(** ** The headers, from the lowest up *)
Definition order : list path :=
  [ ["shiva"; "ShivaConfig.hpp"];
    ["shiva"; "common"; "ShivaMacros.hpp"]; ["shiva"; "common"; "ShivaErrorHandling.hpp"]; ["shiva"; "common"; "types.hpp"];
    ["shiva"; "common"; "CArrayHelper.hpp"]; ["shiva"; "common"; "CArray.hpp"]; ["shiva"; "common"; "LinearIndex.hpp"];
    ["shiva"; "common"; "SequenceUtilities.hpp"]; ["shiva"; "common"; "MultiIndex.hpp"]; ["shiva"; "common"; "IndexTypes.hpp"];
    ["shiva"; "common"; "NestedSequenceUtilities.hpp"]; ["shiva"; "common"; "MathUtilities.hpp"]; ["shiva"; "common"; "pmpl.hpp"];
    ["shiva"; "functions"; "bases"; "BasisProduct.hpp"]; ["shiva"; "functions"; "bases"; "LagrangeBasis.hpp"];
    ["shiva"; "functions"; "spacing"; "Spacing.hpp"]; ["shiva"; "functions"; "quadrature"; "Quadrature.hpp"];
    ["shiva"; "geometry"; "shapes"; "NCube.hpp"]; ["shiva"; "geometry"; "shapes"; "NSimplex.hpp"];
    ["shiva"; "geometry"; "shapes"; "InterpolatedShape.hpp"]; ["shiva"; "geometry"; "mapping"; "LinearTransform.hpp"];
    ["shiva"; "geometry"; "mapping"; "Scaling.hpp"]; ["shiva"; "geometry"; "mapping"; "UniformScaling.hpp"];
    ["shiva"; "geometry"; "mapping"; "JacobianTransforms.hpp"];
    ["shiva"; "discretizations"; "finiteElementMethod"; "parentElements"; "ParentElement.hpp"] ].
Lemma public_order p : Public p <-> In p order.
Proof. unfold Public, order. cbn [In]. tauto. Qed.
Fixpoint index (p : path) (l : list path) : nat := match l with [] => 0 | q :: l' => if path_eqb p q then 0 else S (index p l') end.
Lemma index_lt p l : In p l -> (index p l < List.length l)%nat.
Proof.
  induction l as [|q l IH]; [intros []|]. intros I. cbn [index List.length]. destruct (path_eqb p q) eqn:E; [lia|].
  destruct I as [->|I]; [|specialize (IH I); lia]. rewrite (proj2 (path_eqb_eq p p) eq_refl) in E. discriminate.
Qed.

Definition no_client : nat -> path -> option header := fun _ _ => None.
Definition own : tree := files_of no_client.
Definition own_resolve (i : interface) (l : location) (q : path) : option location := resolve own (target_dirs i) l q.
Definition the_deps (i : interface) (l : location) : list location :=
  match own l with
  | Some h => flat_map (fun q => match own_resolve i l q with Some d => [d] | None => [] end) (includes h)
  | None => []
  end.
Definition the_rank (l : location) : nat := index (snd l) order.
Definition the_good (i : interface) (l : location) : Prop := exists p, In p order /\ l = home i p.
Definition goodb (i : interface) (l : location) : bool := existsb (fun p => loc_eqb l (home i p)) order.
Lemma goodb_spec i l : goodb i l = true -> the_good i l.
Proof. unfold goodb. rewrite existsb_exists. intros [p [I E]]. apply loc_eqb_eq in E. exists p. auto. Qed.
Definition below_shiva (q : path) : bool := match walk [] q with Some (c :: _) => String.eqb c "shiva" | _ => false end.
Fixpoint knownb (i : interface) (fuel : nat) (n : string) (l : location) : bool :=
  match fuel with
  | O => false
  | S f => match own l with Some h => existsb (String.eqb n) (declares h) | None => false end || existsb (knownb i f n) (the_deps i l)
  end.
Definition isSome {A} (o : option A) : bool := match o with Some _ => true | None => false end.
Definition checkb (i : interface) (l : location) : bool :=
  match own l with
  | Some h => once h &&
      forallb (fun q => match own_resolve i l q with
                        | Some d => goodb i d && (Nat.ltb (the_rank d) (the_rank l)) && (isSome (present own (fst l) (directory (snd l)) q) || below_shiva q)
                        | None => false end) (includes h) &&
      forallb (fun n => knownb i 20 n l) (uses h)
  | None => false
  end.
Lemma all_checked i : forallb (fun p => checkb i (home i p) && below_shiva p) order = true.
Proof. destruct i; vm_compute; reflexivity. Qed.

Definition of_client (r : root) : bool := match r with Client _ => true | _ => false end.
Lemma home_root i p : of_client (fst (home i p)) = false.
Proof. destruct i; cbn [home]; [destruct (path_eqb p ["shiva"; "ShivaConfig.hpp"])|]; reflexivity. Qed.
Lemma home_path i p : snd (home i p) = p.
Proof. destruct i; cbn [home]; [destruct (path_eqb p ["shiva"; "ShivaConfig.hpp"])|]; reflexivity. Qed.
Lemma own_file client l : of_client (fst l) = false -> files_of client l = own l.
Proof. destruct l as [[| | |n] p]; try discriminate; reflexivity. Qed.
Lemma own_present client r d q : of_client r = false -> present (files_of client) r d q = present own r d q.
Proof. intros R. unfold present. destruct (walk (rev d) q) as [w|]; [|reflexivity]. rewrite (own_file client (r, w)) by exact R. reflexivity. Qed.
Lemma own_search client i q : search (files_of client) (target_dirs i) q = search own (target_dirs i) q.
Proof. destruct i; cbn [target_dirs search]; rewrite !own_present by reflexivity; reflexivity. Qed.
Lemma client_present client n q : NoShiva client -> below_shiva q = true -> present (files_of client) (Client n) [] q = None.
Proof.
  intros N B. unfold present. cbn [rev]. unfold below_shiva in B. destruct (walk [] q) as [[|c w]|]; try discriminate.
  apply String.eqb_eq in B. subst c. cbn [files_of]. rewrite N. reflexivity.
Qed.
Lemma client_search client extra ds q : NoShiva client -> below_shiva q = true ->
  search (files_of client) (map Client extra ++ ds) q = search (files_of client) ds q.
Proof. intros N B. induction extra as [|n extra IH]; [reflexivity|]. cbn [map app search]. rewrite client_present by assumption. exact IH. Qed.
Lemma transfer client extra i l q d : NoShiva client -> of_client (fst l) = false -> own_resolve i l q = Some d ->
  isSome (present own (fst l) (directory (snd l)) q) || below_shiva q = true ->
  resolve (files_of client) (map Client extra ++ target_dirs i) l q = Some d.
Proof.
  intros N C R B. unfold own_resolve, resolve in *. rewrite own_present by exact C.
  destruct (present own (fst l) (directory (snd l)) q); [exact R|]. cbn [isSome orb] in B.
  rewrite client_search, own_search by assumption. exact R.
Qed.
Lemma from_main client extra i p : NoShiva client -> In p order ->
  resolve (files_of client) (map Client extra ++ target_dirs i) (Client 0, ["main.cpp"]) p = Some (home i p).
Proof.
  intros N I. pose proof (all_checked i) as A. rewrite forallb_forall in A. specialize (A p I). apply andb_prop in A as [_ B].
  unfold resolve. cbn [fst snd directory removelast]. rewrite client_present, client_search, own_search by assumption.
  clear N B. unfold order in I. cbn [In] in I. destruct i; repeat (destruct I as [<-|I]; [vm_compute; reflexivity|]); destruct I.
Qed.
Lemma good_checked i l : the_good i l -> checkb i l = true /\ of_client (fst l) = false.
Proof.
  intros [p [I ->]]. pose proof (all_checked i) as A. rewrite forallb_forall in A. specialize (A p I). apply andb_prop in A as [A _].
  split; [exact A|apply home_root].
Qed.
Lemma the_ok client extra i l : NoShiva client -> the_good i l -> exists h, files_of client l = Some h /\ once h = true /\
  Forall2 (fun p d => resolve (files_of client) (map Client extra ++ target_dirs i) l p = Some d) (includes h) (the_deps i l).
Proof.
  intros N G. destruct (good_checked i l G) as [A C]. unfold checkb, the_deps in *. rewrite (own_file client) by exact C.
  destruct (own l) as [h|]; [|discriminate]. apply andb_prop in A as [A _]. apply andb_prop in A as [O A].
  exists h. split; [reflexivity|]. split; [exact O|]. clear O. induction (includes h) as [|q qs IH]; [constructor|].
  cbn [forallb flat_map] in *. apply andb_prop in A as [A1 A2]. destruct (own_resolve i l q) as [d|] eqn:E; [|discriminate].
  apply andb_prop in A1 as [_ A1]. cbn [app]. constructor; [|exact (IH A2)]. apply transfer; assumption.
Qed.
Lemma the_down i l d : the_good i l -> In d (the_deps i l) -> the_good i d /\ (the_rank d < the_rank l)%nat.
Proof.
  intros G I. destruct (good_checked i l G) as [A _]. unfold checkb, the_deps in *.
  destruct (own l) as [h|]; [|discriminate]. apply andb_prop in A as [A _]. apply andb_prop in A as [_ A].
  induction (includes h) as [|q qs IH]; [destruct I|].
  cbn [forallb flat_map] in *. apply andb_prop in A as [A1 A2]. destruct (own_resolve i l q) as [e|] eqn:E; [|discriminate].
  destruct I as [<-|I]; [|exact (IH I A2)]. apply andb_prop in A1 as [A1 _]. apply andb_prop in A1 as [A1 A3].
  split; [apply goodb_spec; exact A1|apply Nat.ltb_lt; exact A3].
Qed.
Lemma knownb_reach i fuel : forall n l, knownb i fuel n l = true -> exists y h, Reach (the_deps i) l y /\ own y = Some h /\ In n (declares h).
Proof.
  induction fuel as [|f IH]; intros n l K; [discriminate|]. cbn [knownb] in K. apply orb_prop in K as [K|K].
  - destruct (own l) as [h|] eqn:E; [|discriminate]. apply existsb_exists in K as [m [I X]]. apply String.eqb_eq in X. subst m.
    exists l, h. split; [constructor|auto].
  - apply existsb_exists in K as [d [I X]]. destruct (IH n d X) as (y & h & R & E & J). exists y, h. split; [|auto]. apply (reach_step _ l d y); assumption.
Qed.
Lemma reach_good i x y : Reach (the_deps i) x y -> the_good i x -> the_good i y.
Proof. induction 1 as [|x y z I R IH]; intros G; [exact G|]. apply IH. exact (proj1 (the_down i x y G I)). Qed.
Lemma forall2_in {A B} (P : A -> B -> Prop) l m : Forall2 P l m -> forall b, In b m -> exists a, In a l /\ P a b.
Proof. induction 1 as [|a b l m H F IH]; intros c I; [destruct I|]. destruct I as [<-|I]; [exists a; split; [left; reflexivity|exact H]|]. destruct (IH c I) as [x [J K]]. exists x. split; [right; exact J|exact K]. Qed.
Lemma reach_needs client extra i x y : NoShiva client -> Reach (the_deps i) x y -> the_good i x -> Needs (files_of client) (map Client extra ++ target_dirs i) x y.
Proof.
  intros N. induction 1 as [|x y z I R IH]; intros G; [constructor|].
  destruct (the_ok client extra i x N G) as (h & T & _ & F). destruct (forall2_in _ _ _ F y I) as [p [J K]].
  apply (needs_include _ _ x h p y z T J K). apply IH. exact (proj1 (the_down i x y G I)).
Qed.

(** The result for headers that clients include. *)
Lemma translate_raw client extra i l seen b : NoShiva client -> Forall Public l -> b = List.length order -> seen = [] ->
  Good_result the_rank (the_deps i) (the_good i) (fun _ => False) b (map (home i) l) seen (translate client extra i l).
Proof.
  intros N P -> ->. unfold translate. apply paste_ok with (b := List.length order).
  - intros x G. exact (the_ok client extra i x N G).
  - intros x d G I. exact (the_down i x d G I).
  - cbn. lia.
  - induction P as [|p l Pp P IH]; [constructor|]. cbn [map]. constructor; [|exact IH]. apply from_main; [exact N|apply public_order; exact Pp].
  - intros d I. apply in_map_iff in I as [p [<- I]]. rewrite Forall_forall in P. specialize (P p I). apply public_order in P.
    split; [exists p; auto|]. unfold the_rank. rewrite home_path. apply index_lt. exact P.
  - intros x [].
  - intros x [].
Qed.
Lemma translate_lemma client extra i l : NoShiva client -> Forall Public l -> exists seen out,
  translate client extra i l = Pasted seen out /\ NoDup out /\ (forall p, In p l -> In (home i p) out) /\
  (forall x, In x out -> exists p q, In p l /\ Public q /\ x = home i q /\ Needs (files_of client) (map Client extra ++ target_dirs i) (home i p) x) /\
  NamesKnown (files_of client) out.
Proof.
  intros N P. destruct (translate_raw client extra i l [] _ N P eq_refl eq_refl) as (seen & out & E & H1 & H2 & _ & H4 & H5 & H6 & H7).
  exists seen, out. split; [exact E|]. split; [exact H2|].
  split; [intros p I; destruct (H6 (home i p) (in_map (home i) l p I)) as [[]|X]; exact X|]. split.
  - intros x I. destruct (H7 x I) as [y [Iy R]]. apply in_map_iff in Iy as [p [<- Ip]].
    assert (G : the_good i (home i p)) by (rewrite Forall_forall in P; exists p; split; [apply public_order, P, Ip|reflexivity]).
    destruct (reach_good i _ _ R G) as [q [Iq ->]]. exists p, q. split; [exact Ip|]. split; [apply public_order; exact Iq|]. split; [reflexivity|].
    apply (reach_needs client extra i); assumption.
  - intros o1 x o2 h n Eq T U. assert (Gx : the_good i x) by (apply H4; rewrite Eq; apply in_or_app; right; left; reflexivity).
    destruct (good_checked i x Gx) as [A C]. rewrite (own_file client) in T by exact C. unfold checkb in A. rewrite T in A.
    apply andb_prop in A as [_ A]. rewrite forallb_forall in A. specialize (A n U).
    destruct (knownb_reach i 20 n x A) as (y & hy & R & Ty & Iy).
    destruct (reach_before (the_deps i) x y R out o1 o2 H5 Eq) as [->|J].
    + left. rewrite T in Ty. injection Ty as <-. exact Iy.
    + right. exists y, hy. split; [exact J|]. split; [|exact Iy]. rewrite (own_file client); [exact Ty|].
      exact (proj2 (good_checked i y (reach_good i x y R Gx))).
Qed.

(** Shiva.hpp. *)
Lemma paste_app depth t dirs cur a b seen : paste (S depth) t dirs cur (a ++ b) seen =
  match paste (S depth) t dirs cur a seen with
  | Pasted s o => match paste (S depth) t dirs cur b s with Pasted s' o' => Pasted s' (o ++ o') | e => e end
  | e => e
  end.
Proof.
  revert seen. induction a as [|p a IH]; intros seen.
  - cbn [app]. change (paste (S depth) t dirs cur [] seen) with (Pasted seen []). cbv iota. generalize (paste (S depth) t dirs cur b seen). intros [| |]; reflexivity.
  - cbn [app].
    assert (U : forall r s, paste (S depth) t dirs cur (p :: r) s =
      match resolve t dirs cur p with
      | None => NotFound p
      | Some l => match t l with
        | None => NotFound p
        | Some h => if once h && seen_before l s then paste (S depth) t dirs cur r s
            else match paste depth t dirs l (includes h) (l :: s) with
                 | Pasted s o => match paste (S depth) t dirs cur r s with Pasted s' o' => Pasted s' (o ++ [l] ++ o') | e => e end
                 | e => e end
        end end) by reflexivity.
    rewrite !U. destruct (resolve t dirs cur p) as [l|]; [|reflexivity]. destruct (t l) as [h|]; [|reflexivity].
    destruct (once h && seen_before l seen); [apply IH|].
    destruct (paste depth t dirs l (includes h) (l :: seen)) as [s o| |]; [|reflexivity|reflexivity].
    rewrite IH. destruct (paste (S depth) t dirs cur a s) as [s' o'| |]; [|reflexivity|reflexivity].
    destruct (paste (S depth) t dirs cur b s') as [s'' o''| |]; [|reflexivity|reflexivity].
    rewrite <- !app_assoc. reflexivity.
Qed.
Definition umbrella : path := ["shiva"; "Shiva.hpp"].
Lemma umbrella_lemma client extra i before after : NoShiva client -> (forall n, client n ["geometry"; "Cube.hpp"] = None) ->
  Forall Public before -> translate client extra i (before ++ umbrella :: after) = NotFound ["geometry"; "Cube.hpp"].
Proof.
  intros N C P. destruct (translate_lemma client extra i before N P) as (seen & out & E & _).
  unfold translate in *. change 200%nat with (S 199) in *. rewrite paste_app, E.
  set (t := files_of client). set (dirs := map Client extra ++ target_dirs i).
  assert (R : resolve t dirs (Client 0, ["main.cpp"]) umbrella = Some (match i with Installed => Prefix | FromBuildTree => Sources end, umbrella)).
  { unfold resolve. cbn [fst snd directory removelast]. unfold t, dirs. rewrite client_present, client_search, own_search by (assumption || reflexivity).
    destruct i; vm_compute; reflexivity. }
  assert (S' : search t dirs ["geometry"; "Cube.hpp"] = None).
  { unfold t, dirs. clear R t dirs E. induction extra as [|n extra IH].
    - cbn [map app]. rewrite own_search. destruct i; vm_compute; reflexivity.
    - cbn [map app search]. unfold present at 1. cbn [rev]. change (walk [] ["geometry"; "Cube.hpp"]) with (Some ["geometry"; "Cube.hpp"]).
      cbn [files_of]. rewrite C. exact IH. }
  assert (R' : resolve t dirs (match i with Installed => Prefix | FromBuildTree => Sources end, umbrella) ["geometry"; "Cube.hpp"] = None).
  { unfold resolve. cbn [fst snd]. unfold t at 1. rewrite own_present by (destruct i; reflexivity). rewrite S'. destruct i; vm_compute; reflexivity. }
  assert (T : t (match i with Installed => Prefix | FromBuildTree => Sources end, umbrella) =
    Some (file false [["geometry"; "Cube.hpp"]; ["geometry"; "Cuboid.hpp"]; ["geometry"; "RectangularCuboid.hpp"]] [] [])).
  { unfold t. rewrite own_file by (destruct i; reflexivity). destruct i; vm_compute; reflexivity. }
  revert R R' T. generalize (match i with Installed => Prefix | FromBuildTree => Sources end, umbrella). intros l R R' T. clear E.
  change (paste (S 199) t dirs (Client 0, ["main.cpp"]) (umbrella :: after) seen) with
      (match resolve t dirs (Client 0, ["main.cpp"]) umbrella with
      | None => NotFound umbrella
      | Some l => match t l with
        | None => NotFound umbrella
        | Some h => if once h && seen_before l seen then paste 200 t dirs (Client 0, ["main.cpp"]) after seen
            else match paste 199 t dirs l (includes h) (l :: seen) with
                 | Pasted s o => match paste 200 t dirs (Client 0, ["main.cpp"]) after s with Pasted s' o' => Pasted s' (o ++ [l] ++ o') | e => e end
                 | e => e end
        end end).
  rewrite R, T. cbn [once file andb includes].
  change 199%nat with (S 198). cbn [paste]. rewrite R'. reflexivity.
Qed.

(** ShivaMacros.hpp alone. *)
Lemma macros_lemma client extra i : NoShiva client -> exists seen out,
  translate client extra i [["shiva"; "common"; "ShivaMacros.hpp"]] = Pasted seen out /\
  (exists x h, In x out /\ files_of client x = Some h /\ In "SHIVA_ASSERT_MSG" (declares h)) /\
  forall x h, In x out -> files_of client x = Some h -> ~ In "shivaAssertionFailed" (declares h).
Proof.
  intros N. set (m := ["shiva"; "common"; "ShivaMacros.hpp"]).
  assert (P : Forall Public [m]) by (constructor; [unfold Public, m; cbn [In]; tauto|constructor]).
  destruct (translate_raw client extra i [m] [] _ N P eq_refl eq_refl) as (seen & out & E & H1 & H2 & _ & H4 & H5 & H6 & H7).
  exists seen, out. split; [exact E|]. split.
  - destruct (H6 (home i m) (or_introl eq_refl)) as [[]|X]. exists (home i m).
    eexists. split; [exact X|]. rewrite (own_file client) by apply home_root. split; [destruct i; vm_compute; reflexivity|].
    vm_compute. tauto.
  - intros x h I T. destruct (H7 x I) as [y [[<-|[]] R]].
    assert (X : x = home i m \/ x = home i ["shiva"; "ShivaConfig.hpp"]).
    { inversion R as [|a d c Id Rd]; [auto|]. subst a c. destruct i; vm_compute in Id; destruct Id as [<-|[]]; right;
        (inversion Rd as [|a' d' c' Id' Rd']; [reflexivity|]; subst a' c'; vm_compute in Id'; destruct Id'). }
    rewrite (own_file client) in T by (destruct X as [->| ->]; apply home_root).
    destruct X as [->| ->]; destruct i; vm_compute in T; injection T as <-; cbn [declares In]; intuition discriminate.
Qed.
