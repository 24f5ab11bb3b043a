(** Vocabulary for command lines of the configuration script. *)
From Coq Require Import Bool Ascii String ZArith List.
From Verif Require Import ModelPython ModelConfigBuild ModelArgparse.
Import ListNotations.

(** The options with a value and the switches, by their names. *)
Definition short_name (a : action) : str :=
  match a with
  | Help => lit "-h" | BuildPath => lit "-bp" | InstallPath => lit "-ip" | BuildType => lit "-bt" | Eclipse => lit "-e"
  | Xcode => lit "-x" | ExportCommands => lit "-ecc" | HostConfig => lit "-hc" | Ninja => lit "-n" | Graphviz => lit "-gvz"
  end.
Definition long_name (a : action) : str :=
  match a with
  | Help => lit "--help" | BuildPath => lit "--buildpath" | InstallPath => lit "--installpath" | BuildType => lit "--buildtype"
  | Eclipse => lit "--eclipse" | Xcode => lit "--xcode" | ExportCommands => lit "--exportcompilercommands"
  | HostConfig => lit "--hostconfig" | Ninja => lit "--ninja" | Graphviz => lit "--graphviz"
  end.
Definition Name (n : str) : Prop := exists a, n = short_name a \/ n = long_name a.
Definition Prefix (p s : str) : Prop := exists r, s = p ++ r.
(** [w] up to the first "=" *)
Definition UpToEquals (w n : str) : Prop := ~ In equals n /\ (w = n \/ exists v, w = n ++ equals :: v).

(** A word that is no option: it does not start with a dash, or is a single dash, or
    - with two dashes: up to "=" it is no beginning of an option name;
    - with one dash: it is no beginning of an option name, is not an option name followed by "=",
      and does not begin with the name of a one-letter option. *)
Definition Foreign (w : str) : Prop :=
  ~ Prefix [dash] w \/ w = [dash] \/
  Prefix [dash; dash] w /\ (forall p n, UpToEquals w p -> Name n -> ~ Prefix p n) \/
  Prefix [dash] w /\ ~ Prefix [dash; dash] w /\
    (forall n, Name n -> ~ Prefix w n /\ ~ Prefix (n ++ [equals]) w /\ (length n = 2 -> ~ Prefix n w)).

(** What a command line is made of: an option with its value - in the next word, which then does
    not start with a dash, or after "=" -, a switch, another word. *)
Inductive item :=
| Next (long : bool) (a : action) (v : str)
| Equal (long : bool) (a : action) (v : str)
| Switch (long : bool) (a : action)
| Other (w : str).
Definition name_of (long : bool) (a : action) : str := if long then long_name a else short_name a.
Definition words (i : item) : list str :=
  match i with
  | Next l a v => [name_of l a; v]
  | Equal l a v => [name_of l a ++ equals :: v]
  | Switch l a => [name_of l a]
  | Other w => [w]
  end.
Definition ValueOption (a : action) (v : str) : Prop :=
  match a with
  | BuildPath | InstallPath | HostConfig => True
  | BuildType => In v [lit "Release"; lit "Debug"; lit "RelWithDebInfo"; lit "MinSizeRel"]
  | _ => False
  end.
Definition SwitchOption (a : action) : Prop :=
  match a with Eclipse | Xcode | ExportCommands | Ninja | Graphviz => True | _ => False end.
Definition WellFormed (i : item) : Prop :=
  match i with
  | Next _ a v => ValueOption a v /\ ~ Prefix [dash] v
  | Equal _ a v => ValueOption a v
  | Switch _ a => SwitchOption a
  | Other w => Foreign w
  end.

(** What the command line asks for: the last value given, the switches, the other words in order. *)
Definition same (a b : action) : bool :=
  match a, b with
  | BuildPath, BuildPath | InstallPath, InstallPath | BuildType, BuildType | HostConfig, HostConfig
  | Eclipse, Eclipse | Xcode, Xcode | ExportCommands, ExportCommands | Ninja, Ninja | Graphviz, Graphviz | Help, Help => true
  | _, _ => false
  end.
Definition gives (a : action) (i : item) : list str :=
  match i with
  | Next _ b v | Equal _ b v => if same a b then [v] else []
  | _ => []
  end.
Definition value (a : action) (default : str) (l : list item) : str := last (flat_map (gives a) l) default.
Definition on (a : action) (l : list item) : bool :=
  existsb (fun i => match i with Switch _ b => same a b | _ => false end) l.
Definition others (l : list item) : list str := flat_map (fun i => match i with Other w => [w] | _ => [] end) l.
Definition asked (l : list item) (rest : list str) : args :=
  {| buildpath := value BuildPath [] l; installpath := value InstallPath [] l; buildtype := value BuildType (lit "Debug") l;
     eclipse := on Eclipse l; xcode := on Xcode l; export_commands := on ExportCommands l;
     hostconfig := value HostConfig [] l; ninja := on Ninja l; graphviz := on Graphviz l;
     unknown := others l ++ rest |}.
(** What may follow: nothing, or "--" and any words. *)
Definition Rest (rest : list str) : Prop := rest = [] \/ exists r, rest = [dash; dash] :: r.
