(** What a configuration file says. *)
From Coq Require Import Bool Ascii String NArith List.
From Verif Require Import ModelPython.
Import ListNotations.

(** [t] is [s] without the white space around it. *)
Definition Trimmed (s t : str) : Prop :=
  exists a b, s = a ++ t ++ b /\ (forall c, In c a \/ In c b -> isspace c = true) /\
    forall c r, t = c :: r \/ t = r ++ [c] -> isspace c = false.
(** The line gives [k] the value [v]: [k = v], or [k = v # comment], or a lone [k], which has
    the empty value.  Empty lines and comment lines give nothing. *)
Definition Assigns (line k v : str) : Prop :=
  exists core, Trimmed line core /\ core <> [] /\ (forall r, core <> "#"%char :: r) /\
    ((exists key rest value, core = key ++ "="%char :: rest /\ ~ In "="%char key /\ Trimmed key k /\
        (rest = value /\ ~ In "#"%char value \/ exists comment, rest = value ++ "#"%char :: comment /\ ~ In "#"%char value) /\
        Trimmed value v)
     \/ ~ In "="%char core /\ k = core /\ v = []).
(** The last line for [k] counts. *)
Definition Setting (text k v : str) : Prop :=
  exists before line after, lines text = before ++ line :: after /\ Assigns line k v /\
    forall l v', In l after -> ~ Assigns l k v'.
Definition Unset (text k : str) : Prop := forall v, ~ Setting text k v.
(** The value of [k], if it has one. *)
Definition Value (text k : str) (o : option str) : Prop :=
  match o with Some v => Setting text k v | None => Unset text k end.
