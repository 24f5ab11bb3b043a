(** C110: the verdict of the code-check tests. *)
From Coq Require Import Bool Ascii String ZArith List.
From Verif Require Import ModelPython ModelCheckTest SpecCheckTest ProofCheckTest.
Import ListNotations.
Open Scope Z_scope.

(** All possible results: make's status if it fails; otherwise the number of lines, modulo 256, of
    some beginning of what make wrote, or of what an earlier run left behind. *)
Theorem C110_verdict : forall err status old c, CanEnd err status old c <->
  status <> 0 /\ c = status \/
  status = 0 /\ ((exists p q, concat err = p ++ q /\ c = newlines p mod 256) \/
                 c = newlines (match old with Some u => u | None => [] end) mod 256).
Proof. exact verdict_lemma. Qed.
Print Assumptions C110_verdict.

(** Every run ends, and none gets stuck before the shell exits. *)
Theorem C110_terminates : forall err status old,
  Acc (fun t s => step status s t) (start err old) /\ NeverStuck err status old.
Proof. intros err status old. exact (conj (ends_lemma status err old) (never_stuck_lemma err status old)). Qed.
Print Assumptions C110_terminates.

(** Without complaints the test passes, in whatever order things happen; if make fails, it fails. *)
Theorem C110_clean_passes : forall old c,
  newlines (match old with Some u => u | None => [] end) = 0 -> CanEnd [] 0 old c -> c = 0.
Proof. exact clean_lemma. Qed.
Print Assumptions C110_clean_passes.
Theorem C110_broken_fails : forall err status old c, 0 < status < 256 -> CanEnd err status old c -> c = status.
Proof. exact broken_lemma. Qed.
Print Assumptions C110_broken_fails.

(** If tee has copied everything before the shell counts, up to 255 lines of complaints are noticed. *)
Theorem C110_complaints_fail_when_copied : forall err old c,
  0 < newlines (concat err) < 256 -> CanEndDrained err 0 old c -> c <> 0.
Proof. exact drained_detects. Qed.
Print Assumptions C110_complaints_fail_when_copied.

(** Refuted without that: whatever is complained about, some order of events lets the test pass; *)
Theorem C110_complaints_fail_refuted : forall err, CanEnd err 0 None 0.
Proof. exact race_lemma. Qed.
Print Assumptions C110_complaints_fail_refuted.
(** with a multiple of 256 lines it passes even when everything has been copied; *)
Theorem C110_many_complaints_refuted : forall err old k, newlines (concat err) = 256 * k -> CanEndDrained err 0 old 0.
Proof. exact multiple_lemma. Qed.
Print Assumptions C110_many_complaints_refuted.
(** and complaints left behind by an earlier run can fail a clean one. *)
Theorem C110_stale_file_refuted : forall old, newlines old mod 256 <> 0 -> exists c, c <> 0 /\ CanEnd [] 0 (Some old) c.
Proof. exact stale_lemma. Qed.
Print Assumptions C110_stale_file_refuted.

Example C110_hypotheses :
  let err := [lit "a.hpp:3: unused
"; lit "b.hpp:4: unused
"] in
  newlines (concat err) = 2 /\ CanEndDrained err 0 None 2 /\ newlines (concat (repeat (lit "x
") 256)) = 256 * 1.
Proof. split; [reflexivity|]. split; [apply drained_lemma; split; reflexivity|reflexivity]. Qed.
