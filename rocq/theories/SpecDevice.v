(** Vocabulary for concurrent calls of the kernel wrapper. *)
From Coq Require Import List ZArith.
From Verif Require Import Base ModelDevice.
Import ListNotations.
Open Scope Z_scope.

(** The calls, made one after the other on [d], leave [d']: each replaces the first [size]
    elements by what its kernel makes of them. *)
Inductive Serial {A} : list A -> list (call A) -> list A -> Prop :=
| Serial_nil d : Serial d [] d
| Serial_cons d k ks l d' :
    0 <= size k <= Z.of_nat (length d) ->
    kernel k (firstn (Z.to_nat (size k)) d) = Ok l -> length l = Z.to_nat (size k) ->
    Serial (l ++ skipn (Z.to_nat (size k)) d) ks d' ->
    Serial d (k :: ks) d'.

(** A thread that has returned from all its calls. *)
Definition Finished {A} (c : caller A) : Prop := todo c = [] /\ now c = Idle.

(** The number of calls of all threads. *)
Fixpoint calls {A} (ts : list (list A * list (call A))) : nat :=
  match ts with [] => O | t :: ts' => (length (snd t) + calls ts')%nat end.

(** No block at or above the next pointer. *)
Definition Unused {A} (m : nat -> option (list A)) (n : nat) : Prop := forall p, (n <= p)%nat -> m p = None.
