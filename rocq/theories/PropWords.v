(** Words and names the other statements are about, described without the functions of the model:
    C12 (scalar linear index), C62 (white space), C69 (where an include is looked up first), C109
    (negative numbers, switches written together). *)
From Coq Require Import Bool Ascii String ZArith List.
From Verif Require Import Base SpecIndex ModelIndex ModelPython ModelConfigBuild ModelArgparse SpecAggregate SpecArgparse SpecWords ProofIndex ProofWords.
Import ListNotations.
Open Scope string_scope.
Open Scope list_scope.

(** C12.  A scalar index and an index with one dimension have the same linear index, themselves. *)
Theorem C12_scalar_index : forall r i, InRange [r] [i] -> (r <= INT_MAX)%Z ->
  linearIndex [r] [i] = Ok i /\ linearIndex_scalar i = Ok i.
Proof. exact scalar_lemma. Qed.
Print Assumptions C12_scalar_index.

(** C62.  What is stripped around an option and its value. *)
Theorem C62_white_space : forall c, isspace c = true <-> In c white_space.
Proof. exact white_space_spec. Qed.
Print Assumptions C62_white_space.

(** C69.  An include directive in /c1/.../cn/f for n1/.../nk means /c1/.../cn/n1/.../nk if that
    exists, whatever the include paths and the current directory; also in the root directory. *)
Theorem C69_next_to_the_file : forall fs cwd incs cs f ns name q,
  Forall Entry cs -> Component f -> Forall Entry ns -> ns <> [] ->
  slash :: name = absolute_name ns -> fexists fs (absolute_name (cs ++ ns)) = true ->
  (Resolves fs cwd incs (absolute_name (cs ++ [f])) name q <-> q = absolute_name (cs ++ ns)).
Proof. exact sibling_lemma. Qed.
Print Assumptions C69_next_to_the_file.

Example C69_next_to_the_file_witness :
  absolute_name (map lit ["src"; "a.hpp"]) = lit "/src/a.hpp" /\
  slash :: lit "common/b.hpp" = absolute_name (map lit ["common"; "b.hpp"]) /\
  absolute_name (map lit ["b.hpp"]) = lit "/b.hpp" /\ Forall Entry (map lit ["common"; "b.hpp"]).
Proof.
  repeat split. repeat constructor; try discriminate; vm_compute; intuition discriminate.
Qed.

(** C109.  A dashed word that is no option is a value after -hc exactly if it is a negative number
    or has a blank; otherwise the script ends with status 2. *)
Theorem C109_dashed_values : forall w, Foreign w -> Prefix [dash] w -> w <> [dash] ->
  (NegativeNumber w \/ In " "%char w -> parse_known_args [lit "-hc"; w] = inl (asked [Equal false HostConfig w] [])) /\
  (~ (NegativeNumber w \/ In " "%char w) -> parse_known_args [lit "-hc"; w] = inr 2%Z).
Proof. exact dashed_lemma. Qed.
Print Assumptions C109_dashed_values.

Example C109_dashed_values_witness :
  NegativeNumber (lit "-19") /\ NegativeNumber (lit "-.5" ++ [nl]) /\ ~ NegativeNumber (lit "-1x") /\
  Foreign (lit "-19") /\ Foreign (lit "-1x").
Proof.
  rewrite <- !ProofWords.negative_spec. repeat split; try discriminate;
    apply ProofArgparse.foreign_spec; vm_compute; auto.
Qed.

(** One-letter switches written together mean the same as written apart, wherever they stand. *)
Theorem C109_together : forall pre l post,
  (2 <= length l)%nat -> Forall OneLetter l -> ~ In (lit "--") pre ->
  parse_known_args (pre ++ together l :: post) = parse_known_args (pre ++ map short_name l ++ post).
Proof. exact together_lemma. Qed.
Print Assumptions C109_together.

Example C109_together_witness :
  together [Ninja; Eclipse; Xcode] = lit "-nex" /\ map short_name [Ninja; Eclipse; Xcode] = map lit ["-n"; "-e"; "-x"] /\
  parse_known_args (map lit ["-nex"; "-hc"; "f"]) =
    inl (asked [Switch false Ninja; Switch false Eclipse; Switch false Xcode; Next false HostConfig (lit "f")] []).
Proof. repeat split. Qed.
