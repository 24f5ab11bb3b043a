(** Vocabulary for the verdict of a code check. *)
From Coq Require Import Bool Ascii String ZArith List.
From Verif Require Import ModelPython ModelCheckTest.
Import ListNotations.
Open Scope Z_scope.

(** The test can end with [code]: some order of the steps leads there. *)
Definition CanEnd (err : list str) (status : Z) (old : option str) (code : Z) : Prop :=
  exists s, steps status (start err old) s /\ sh_at s = Exits code.
(** The same with tee having copied everything when the shell counts. *)
Definition CanEndDrained (err : list str) (status : Z) (old : option str) (code : Z) : Prop :=
  exists s t, steps status (start err old) s /\ sh_at s = Counts /\ teeing s = true /\ pipe s = [] /\
    step status s t /\ sh_at t = Exits code.
(** A run that has not ended can go on until the shell exits. *)
Definition NeverStuck (err : list str) (status : Z) (old : option str) : Prop :=
  forall s, steps status (start err old) s -> exists t c, steps status s t /\ sh_at t = Exits c.
