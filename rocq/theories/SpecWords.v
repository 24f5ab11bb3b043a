(** Negative numbers as argparse knows them, switches written together, absolute names. *)
From Coq Require Import Bool Ascii String ZArith List.
From Verif Require Import ModelPython ModelConfigBuild ModelArgparse SpecArgparse.
Import ListNotations.

Definition Digits (d : str) : Prop := d <> [] /\ Forall (fun c => In c (lit "0123456789")) d.
(** -12, -1.5, -.5, possibly with a newline at the end *)
Definition NegativeNumber (w : str) : Prop :=
  exists a e, (e = [] \/ e = [nl]) /\
    (w = dash :: a ++ e /\ Digits a \/
     exists b, w = dash :: a ++ ("."%char :: b) ++ e /\ (a = [] \/ Digits a) /\ Digits b).

(** The switches with a name of one letter, and words as -en *)
Definition letter (a : action) : str :=
  match a with Eclipse => lit "e" | Xcode => lit "x" | Ninja => lit "n" | _ => [] end.
Definition OneLetter (a : action) : Prop := a = Eclipse \/ a = Xcode \/ a = Ninja.
Definition together (l : list action) : str := dash :: flat_map letter l.

(** /c1/c2/.../cn, the empty name if there is no component *)
Definition absolute_name (cs : list str) : str := flat_map (fun c => slash :: c) cs.
Definition Component (c : str) : Prop := c <> [] /\ ~ In slash c.
(** a component that names an entry of its directory *)
Definition Entry (c : str) : Prop := Component c /\ c <> lit "." /\ c <> lit "..".
(** Python's white space among the characters up to 255 *)
Definition white_space : list ascii :=
  map ascii_of_nat [9; 10; 11; 12; 13; 28; 29; 30; 31; 32; 133; 160].
