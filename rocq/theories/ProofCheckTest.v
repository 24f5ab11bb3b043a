(** Lemmas about the verdict of a code check. *)
From Coq Require Import Bool Ascii String ZArith Lia List.
From Verif Require Import ModelPython ModelCheckTest SpecCheckTest.
Import ListNotations.
Open Scope Z_scope.

Lemma newlines_app a b : newlines (a ++ b) = newlines a + newlines b.
Proof. induction a as [|c a IH]; cbn [newlines app]; [reflexivity|]. rewrite IH. lia. Qed.
Lemma newlines_nonneg s : 0 <= newlines s.
Proof. induction s as [|c s IH]; cbn [newlines]; [lia|]. destruct (Ascii.eqb c nl); lia. Qed.
Definition content (f : option str) : str := match f with Some u => u | None => [] end.

Lemma steps_trans st s t u : steps st s t -> steps st t u -> steps st s u.
Proof. induction 1; [auto|]. intros H1. econstructor; [eassumption|auto]. Qed.
Lemma steps_one st s t : step st s t -> steps st s t.
Proof. intros H. econstructor; [exact H|constructor]. Qed.

Section Run.
Context (err : list str) (status : Z) (old : option str).

(** What holds all the time. *)
Definition Inv (s : state) : Prop :=
  (sh_at s = WaitsForMake \/ pending s = [] /\
     (sh_at s = Counts /\ status = 0 \/
      (exists c, sh_at s = Exits c /\
         (status <> 0 /\ c = status \/
          status = 0 /\ ((exists p q, concat err = p ++ q /\ c = exit_code (newlines p)) \/ c = exit_code (newlines (content old))))))) /\
  (if teeing s then exists f, file s = Some f /\ f ++ pipe s ++ concat (pending s) = concat err
   else file s = old /\ pipe s ++ concat (pending s) = concat err).
Lemma inv_start : Inv (start err old).
Proof. split; [left; reflexivity|]. cbn. auto. Qed.
Lemma inv_step s t : Inv s -> step status s t -> Inv t.
Proof.
  intros [A B] H. destruct H as [a l p t f|p t f|l p f s|l a b f s Na|l p t f]; unfold Inv; cbn [sh_at pending teeing file pipe concat] in *.
  - split; [left; reflexivity|]. destruct t.
    + destruct B as [g [E B]]. exists g. split; [exact E|]. rewrite <- B, <- !app_assoc. reflexivity.
    + destruct B as [E B]. split; [exact E|]. rewrite <- B, <- !app_assoc. reflexivity.
  - split; [|exact B]. right. split; [reflexivity|]. destruct (status =? 0) eqn:S.
    + left. split; [reflexivity|]. apply Z.eqb_eq. exact S.
    + right. exists status. split; [reflexivity|]. left. split; [apply Z.eqb_neq; exact S|reflexivity].
  - split; [exact A|]. exists []. split; [reflexivity|]. exact (proj2 B).
  - split; [exact A|]. destruct B as [g [E B]]. injection E as <-. exists (f ++ a). split; [reflexivity|].
    rewrite <- B, <- !app_assoc. reflexivity.
  - split; [|exact B]. destruct A as [A|[P [[_ S]|[c [A _]]]]]; [discriminate A| |discriminate A].
    right. split; [exact P|]. right. eexists. split; [reflexivity|]. right. split; [exact S|].
    subst l. cbn [concat] in B. rewrite app_nil_r in B. destruct t.
    + destruct B as [g [-> B]]. left. exists g, p. split; [symmetry; exact B|reflexivity].
    + destruct B as [-> B]. right. reflexivity.
Qed.
Lemma inv_steps s t : Inv s -> steps status s t -> Inv t.
Proof. intros I H. induction H; [exact I|]. apply IHsteps. apply (inv_step s t); assumption. Qed.

Lemma verdict_sound c : CanEnd err status old c ->
  status <> 0 /\ c = status \/
  status = 0 /\ ((exists p q, concat err = p ++ q /\ c = exit_code (newlines p)) \/ c = exit_code (newlines (content old))).
Proof.
  intros [s [H E]]. pose proof (inv_steps _ _ inv_start H) as [A _]. rewrite E in A.
  destruct A as [A|[_ [[A _]|[c' [A R]]]]]; [discriminate A..|]. injection A as ->. exact R.
Qed.

(** make writes everything and exits, tee does nothing. *)
Lemma all_written l t f : forall p, steps status
  {| pending := l; pipe := p; teeing := t; file := f; sh_at := WaitsForMake |}
  {| pending := []; pipe := p ++ concat l; teeing := t; file := f; sh_at := if status =? 0 then Counts else Exits status |}.
Proof.
  induction l as [|a l IH]; intros p; cbn [concat].
  - rewrite app_nil_r. apply steps_one. constructor.
  - econstructor; [constructor|]. rewrite app_assoc. apply IH.
Qed.
Lemma to_count : status = 0 -> steps status (start err old)
  {| pending := []; pipe := concat err; teeing := false; file := old; sh_at := Counts |}.
Proof. intros S. pose proof (all_written err false old []) as H. rewrite S in H |- *. exact H. Qed.
Lemma to_prefix p q : status = 0 -> concat err = p ++ q -> steps status (start err old)
  {| pending := []; pipe := q; teeing := true; file := Some p; sh_at := Counts |}.
Proof.
  intros S E. eapply steps_trans; [exact (to_count S)|]. rewrite E. econstructor; [apply tee_opens|].
  destruct p as [|c p]; [constructor|]. apply steps_one. apply (tee_copies status [] (c :: p) q [] Counts). discriminate.
Qed.
Lemma verdict_complete c :
  status <> 0 /\ c = status \/
  status = 0 /\ ((exists p q, concat err = p ++ q /\ c = exit_code (newlines p)) \/ c = exit_code (newlines (content old))) ->
  CanEnd err status old c.
Proof.
  intros [[N ->]|[S [[p [q [E ->]]]| ->]]].
  - eexists. split; [exact (all_written err false old [])|]. apply Z.eqb_neq in N. cbn [sh_at]. rewrite N. reflexivity.
  - eexists. split; [eapply steps_trans; [exact (to_prefix p q S E)|apply steps_one, shell_counts]|reflexivity].
  - eexists. split; [eapply steps_trans; [exact (to_count S)|apply steps_one, shell_counts]|reflexivity].
Qed.
Lemma verdict_lemma c : CanEnd err status old c <->
  status <> 0 /\ c = status \/
  status = 0 /\ ((exists p q, concat err = p ++ q /\ c = newlines p mod 256) \/
                 c = newlines (match old with Some u => u | None => [] end) mod 256).
Proof. split; [apply verdict_sound|apply verdict_complete]. Qed.

Lemma drained_lemma c : CanEndDrained err status old c <-> status = 0 /\ c = newlines (concat err) mod 256.
Proof.
  split.
  - intros (s & t & H & A & T & P & St & E). pose proof (inv_steps _ _ inv_start H) as [I J]. rewrite A in I. rewrite T, P in J.
    destruct I as [I|[Q [[_ S]|[c' [I _]]]]]; [discriminate I| |discriminate I].
    split; [exact S|]. rewrite Q in J. cbn [concat app] in J. destruct J as [f [F J]]. rewrite app_nil_r in J. subst f.
    destruct St as [? ? ? ? ?|? ? ?|? ? ? ?|? ? ? ? ? ?|? ? ? ?]; cbn [sh_at file teeing pipe] in *; try discriminate.
    + congruence.
    + rewrite F in E. injection E as <-. reflexivity.
  - intros [S ->]. assert (E : concat err = concat err ++ []) by (rewrite app_nil_r; reflexivity).
    eexists. eexists. split; [exact (to_prefix _ _ S E)|]. split; [reflexivity|]. split; [reflexivity|]. split; [reflexivity|].
    split; [apply shell_counts|reflexivity].
Qed.

Lemma never_stuck_lemma : NeverStuck err status old.
Proof.
  intros s H. destruct (inv_steps _ _ inv_start H) as [A _]. destruct s as [l p t f [| |c]]; cbn [sh_at pending] in A.
  - destruct (status =? 0) eqn:S.
    + eexists. eexists. split; [eapply steps_trans; [apply all_written|rewrite S; apply steps_one, shell_counts]|reflexivity].
    + eexists. eexists. split; [apply all_written|rewrite S; reflexivity].
  - eexists. eexists. split; [apply steps_one, shell_counts|reflexivity].
  - eexists. eexists. split; [constructor|reflexivity].
Qed.
End Run.

(** No infinite runs. *)
Definition weight (s : state) : nat :=
  (2 * length (concat (pending s)) + 2 * length (pending s) + length (pipe s) + (if teeing s then 0 else 1)
   + match sh_at s with WaitsForMake => 2 | Counts => 1 | Exits _ => 0 end)%nat.
Lemma weight_step status s t : step status s t -> (weight t < weight s)%nat.
Proof.
  intros H. destruct H as [a l p t f|p t f|l p f s|l a b f s Na|l p t f]; unfold weight; cbn [pending pipe teeing sh_at concat length];
    rewrite ?app_length; try lia.
  - destruct (status =? 0); lia.
  - destruct a; [contradiction|]. cbn [length]. lia.
Qed.
Lemma ends_lemma status err old : Acc (fun t s => step status s t) (start err old).
Proof.
  assert (W : well_founded (fun t s => step status s t)).
  { intros s. remember (weight s) as n eqn:E. revert s E. induction n as [n IH] using lt_wf_ind. intros s ->.
    constructor. intros t H. apply (IH (weight t)); [apply (weight_step status); exact H|reflexivity]. }
  apply W.
Qed.

(** What it is used for. *)
Lemma clean_lemma old c : newlines (match old with Some u => u | None => [] end) = 0 -> CanEnd [] 0 old c -> c = 0.
Proof.
  intros O H. apply verdict_lemma in H as [[H _]|[_ [[p [q [E ->]]]| ->]]]; [lia| |rewrite O; reflexivity].
  symmetry in E. apply app_eq_nil in E as [-> _]. reflexivity.
Qed.
Lemma broken_lemma err status old c : 0 < status < 256 -> CanEnd err status old c -> c = status.
Proof. intros S H. apply verdict_lemma in H as [[_ ->]|[Z _]]; [reflexivity|lia]. Qed.
Lemma drained_detects err old c : 0 < newlines (concat err) < 256 -> CanEndDrained err 0 old c -> c <> 0.
Proof. intros N H. apply drained_lemma in H as [_ ->]. rewrite Z.mod_small; lia. Qed.
Lemma race_lemma err : CanEnd err 0 None 0.
Proof. apply verdict_lemma. right. split; [reflexivity|]. right. reflexivity. Qed.
Lemma multiple_lemma err old k : newlines (concat err) = 256 * k -> CanEndDrained err 0 old 0.
Proof. intros E. apply drained_lemma. split; [reflexivity|]. rewrite E, Z.mul_comm, Z.mod_mul; [reflexivity|lia]. Qed.
Lemma stale_lemma old : newlines old mod 256 <> 0 -> exists c, c <> 0 /\ CanEnd [] 0 (Some old) c.
Proof. intros N. exists (newlines old mod 256). split; [exact N|]. apply verdict_lemma. right. split; [reflexivity|]. right. reflexivity. Qed.
