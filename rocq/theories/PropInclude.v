(** C111: including Shiva's headers in any order works. *)
From Coq Require Import Bool String List.
From Verif Require Import ModelInclude SpecInclude ProofInclude.
Import ListNotations.
Open Scope string_scope.

(** A client may include Shiva's headers in any order and as often as it likes, whether it uses
    the build tree or an installation and whatever its own files are, as long as none of its
    include directories has a subdirectory "shiva".  Every include is resolved, no file is pasted twice,
    each header asked for is pasted, nothing is pasted but what these need, and each file is
    pasted after the declarations of all the names it uses. *)
Theorem C111_any_order : forall client extra i l, NoShiva client -> Forall Public l -> exists seen out,
  translate client extra i l = Pasted seen out /\ NoDup out /\ (forall p, In p l -> In (home i p) out) /\
  (forall x, In x out -> exists p q, In p l /\ Public q /\ x = home i q /\ Needs (files_of client) (map Client extra ++ target_dirs i)%list (home i p) x) /\
  NamesKnown (files_of client) out.
Proof. exact translate_lemma. Qed.
Print Assumptions C111_any_order.

(** Not so for the header that is named after the library: it cannot be included. *)
Theorem C111_umbrella_refuted : forall client extra i before after, NoShiva client -> (forall n, client n ["geometry"; "Cube.hpp"] = None) ->
  Forall Public before -> translate client extra i (before ++ ["shiva"; "Shiva.hpp"] :: after)%list = NotFound ["geometry"; "Cube.hpp"].
Proof. exact umbrella_lemma. Qed.
Print Assumptions C111_umbrella_refuted.

(** Nor is every macro usable after including the header that defines it: the expansion of
    SHIVA_ASSERT_MSG calls a function that ShivaMacros.hpp does not bring along. *)
Theorem C111_assert_refuted : forall client extra i, NoShiva client -> exists seen out,
  translate client extra i [["shiva"; "common"; "ShivaMacros.hpp"]] = Pasted seen out /\
  (exists x h, In x out /\ files_of client x = Some h /\ In "SHIVA_ASSERT_MSG" (declares h)) /\
  forall x h, In x out -> files_of client x = Some h -> ~ In "shivaAssertionFailed" (declares h).
Proof. exact macros_lemma. Qed.
Print Assumptions C111_assert_refuted.

(** A client with a header of its own called types.hpp. *)
Definition a_client (n : nat) (p : path) : option header :=
  if path_eqb p ["types.hpp"] then Some (file true [] ["my_type"] []) else None.
Example C111_hypotheses :
  NoShiva a_client /\ (forall n, a_client n ["geometry"; "Cube.hpp"] = None) /\
  Forall Public [["shiva"; "functions"; "quadrature"; "Quadrature.hpp"]; ["shiva"; "common"; "ShivaErrorHandling.hpp"]; ["shiva"; "common"; "ShivaMacros.hpp"]] /\
  (exists seen, translate a_client [1; 0] FromBuildTree
     [["shiva"; "functions"; "quadrature"; "Quadrature.hpp"]; ["shiva"; "common"; "ShivaErrorHandling.hpp"]; ["shiva"; "common"; "ShivaMacros.hpp"]] =
   Pasted seen [(Generated, ["shiva"; "ShivaConfig.hpp"]); (Sources, ["shiva"; "common"; "ShivaMacros.hpp"]);
     (Sources, ["shiva"; "functions"; "spacing"; "Spacing.hpp"]); (Sources, ["shiva"; "functions"; "quadrature"; "Quadrature.hpp"]);
     (Sources, ["shiva"; "common"; "ShivaErrorHandling.hpp"])]).
Proof.
  split; [intros n p; reflexivity|]. split; [intros n; reflexivity|].
  split; [repeat constructor; unfold Public; cbn [In]; tauto|]. eexists. vm_compute. reflexivity.
Qed.
Print Assumptions C111_hypotheses.
