(** What aggregateOrSplit.py is about, independently of how it works: include directives, the
    include relation between files, and the text of an aggregated file. *)
From Coq Require Import Bool Ascii String NArith Relations List.
From Verif Require Import ModelPython.
Import ListNotations.

Definition absolute (p : str) : Prop := startswith p [slash] = true.

Definition spaces (w : str) : Prop := w <> [] /\ forall c, In c w -> isspace c = true.

(** The line starts with [#include "name"]. *)
Definition IncludeLine (line name : str) : Prop :=
  exists w rest, spaces w /\ name <> [] /\ ~ In quote name /\
    line = lit "#include" ++ w ++ [quote] ++ name ++ [quote] ++ rest.
(** The line starts with [#pragma once], in any case. *)
Definition same_letter (a b : ascii) : Prop :=
  a = b \/ exists n, (65 <= n <= 90)%N /\ (N_of_ascii a = n /\ N_of_ascii b = n + 32 \/ N_of_ascii b = n /\ N_of_ascii a = n + 32)%N.
Definition PragmaOnceLine (line : str) : Prop :=
  exists p w o rest, spaces w /\ Forall2 same_letter p (lit "#pragma") /\ Forall2 same_letter o (lit "once") /\
    line = p ++ w ++ o ++ rest.

Section Files.
Context (fs : fsys) (cwd : str) (include_paths : list str).

(** File [p] has a directive for [name], other than the generated configuration header. *)
Definition Directive (p line name : str) : Prop :=
  exists text, fread fs p = Some text /\ In line (lines text) /\ IncludeLine line name /\
    name <> lit "ShivaConfig.hpp".
(** [q] is the first existing file called [name] from the directory of [p] and then from the
    include paths. *)
Definition Resolves (p name q : str) : Prop :=
  exists before dir after, dirname p :: include_paths = before ++ dir :: after /\
    q = abspath cwd (join dir name) /\ fexists fs q = true /\
    forall d, In d before -> fexists fs (abspath cwd (join d name)) = false.
Definition Includes (p q : str) : Prop :=
  exists line name, Directive p line name /\ Resolves p name q.
(** As [Includes], but only directives before the first one that does not resolve. *)
Definition Follows (p q : str) : Prop :=
  exists text before line after name,
    fread fs p = Some text /\ lines text = before ++ line :: after /\
    IncludeLine line name /\ name <> lit "ShivaConfig.hpp" /\ Resolves p name q /\
    forall l n, In l before -> IncludeLine l n -> n <> lit "ShivaConfig.hpp" -> exists q', Resolves p n q'.

Definition ReachedBy (R : str -> str -> Prop) (headers : list str) (p : str) : Prop :=
  exists h, In h headers /\ clos_refl_trans str R (abspath cwd h) p.
(** Transitively included from the given headers. *)
Definition Needed : list str -> str -> Prop := ReachedBy Includes.
End Files.

(** [a] comes before [b] in [l]. *)
Definition Before (a b : str) (l : list str) : Prop := exists x y z, l = x ++ a :: y ++ b :: z.

(** What is emitted for a line: include and pragma-once lines are commented out, without the
    white space around them. *)
Definition Emitted (line out : str) : Prop :=
  ((exists name, IncludeLine line name) \/ PragmaOnceLine line) /\
  (exists a core b, line = a ++ core ++ b /\ (forall c, In c a \/ In c b -> isspace c = true) /\
     (forall c r, core = c :: r \/ core = r ++ [c] -> isspace c = false) /\
     out = lit "// " ++ core ++ [nl])
  \/ (forall name, ~ IncludeLine line name) /\ ~ PragmaOnceLine line /\ out = line.
Definition Body (text out : str) : Prop := exists outs, Forall2 Emitted (lines text) outs /\ out = concat outs.
Definition SectionOf (p text out : str) : Prop :=
  exists body, Body text body /\
    out = [nl; nl] ++ lit "// ===== Start of " ++ p ++ lit " =====" ++ [nl] ++ body
          ++ lit "// ===== End of " ++ p ++ lit " =====" ++ [nl].

(** Lines that split takes for the start or the end of a header called [g] or longer. *)
Definition MarkerLine (head line : str) : Prop :=
  exists g rest, g <> [] /\ ~ In nl g /\ line = head ++ g ++ lit " =====" ++ rest.
Definition StartLine : str -> Prop := MarkerLine (lit "// ===== Start of ").
Definition EndLine : str -> Prop := MarkerLine (lit "// ===== End of ").
(** A text that splits cleanly: it is empty or ends in a newline, and has no marker lines. *)
Definition Splittable (text : str) : Prop :=
  (text = [] \/ exists t, text = t ++ [nl]) /\
  forall line, In line (lines text) -> ~ StartLine line /\ ~ EndLine line.

(** [p] is the directory [d] or inside it. *)
Definition Inside (d p : str) : Prop :=
  p = d \/ exists s, startswith s [slash] = false /\ p = join d s.
(** A relative name that does not climb out of the directory it starts from. *)
Definition StaysBelow (m : str) : Prop :=
  startswith m [slash] = false /\ ~ In (lit "..") (splitc slash m).

(** What a C++ preprocessor takes for a quoted include directive: blanks are allowed before and
    after the number sign. *)
Definition blanks (w : str) : Prop := forall c, In c w -> c = " "%char \/ c = "009"%char.
Definition PreprocessorInclude (line name : str) : Prop :=
  exists a b c rest, blanks a /\ blanks b /\ blanks c /\ name <> [] /\ ~ In quote name /\
    line = a ++ lit "#" ++ b ++ lit "include" ++ c ++ [quote] ++ name ++ [quote] ++ rest.
Definition Contains (s part : str) : Prop := exists x y, s = x ++ part ++ y.
