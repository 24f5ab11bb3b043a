(** Vocabulary for command lines of the script that aggregates and splits headers. *)
From Coq Require Import Bool Ascii String ZArith List.
From Verif Require Import ModelPython ModelAggregate ModelAggregateCli SpecArgparse.
Import ListNotations.

(** A word that does not start with a dash. *)
Definition Ordinary (w : str) : Prop := ~ Prefix (lit "-") w.
(** The option or the beginning of its name. *)
Definition Abbreviation (n : str) : Prop := Prefix (lit "--i") n /\ Prefix n (lit "--include-paths").
(** The option, with its values in the next words or with one value after "=". *)
Inductive occurrence :=
| Spaced (n : str) (vs : list str)
| Attached (n v : str).
Definition spelt (o : occurrence) : list str :=
  match o with
  | Spaced n vs => n :: vs
  | Attached n v => [n ++ lit "=" ++ v]
  end.
Definition given (o : occurrence) : list str :=
  match o with
  | Spaced _ vs => vs
  | Attached _ v => [v]
  end.
Definition Proper (o : occurrence) : Prop :=
  match o with
  | Spaced n vs => Abbreviation n /\ Forall Ordinary vs
  | Attached n _ => Abbreviation n
  end.

(** [l] is [m] with some words left out. *)
Inductive Among {A} : list A -> list A -> Prop :=
| AmongNil l : Among [] l
| AmongTake x l m : Among l m -> Among (x :: l) (x :: m)
| AmongSkip x l m : Among l m -> Among l (x :: m).
(** A value given on the command line: a word of it, or what follows an "=". *)
Definition OnLine (argv : list str) (v : str) : Prop := In v argv \/ exists n, In (n ++ lit "=" ++ v) argv.
(** A word that asks for the help text. *)
Definition AsksHelp (w : str) : Prop := Prefix (lit "-h") w \/ Prefix (lit "--h") w.
(** A status that ends the script before a file is touched. *)
Definition Ends (argv : list str) (c : Z) : Prop := c = 1%Z \/ c = 2%Z \/ c = 0%Z /\ exists w, In w argv /\ AsksHelp w.
(** A word that looks like an option but is none of the script's: it starts with a dash, which is not followed by "h", a digit
    or ".", has no blank, and with two dashes it is, up to "=", no beginning of an option's name. *)
Definition Unknown (w : str) : Prop :=
  (exists c r, w = lit "-" ++ c :: r /\ ~ In c (lit "h0123456789.") /\ ~ In " "%char w) /\ w <> lit "--" /\
  (Prefix (lit "--") w -> forall p, UpToEquals w p -> ~ Prefix p (lit "--help") /\ ~ Prefix p (lit "--include-paths")).

(** A command that returns ends the script with status 0, an exception with status 1. *)
Definition exit_of (r : run) : result :=
  match r with
  | Returned fs => Exit 0%Z fs
  | Raised fs => Exit 1%Z fs
  | Unspecified => UnspecifiedResult
  | StillRunning => Running
  end.
