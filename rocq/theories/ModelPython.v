(** The parts of Python's str, re, os.path and file system calls used by /repo/scripts/*.py.
    Python itself is not in /repo: these definitions follow the CPython documentation and the
    POSIX flavour of os.path (posixpath.py).

    Simplifications.  Characters are code points 0..255.  A text is what reading a file in
    text mode gives, that is, after newline translation, so lines end in "\n" only.  Files are
    identified by their absolute normalised path: no symbolic links, permissions always
    suffice, and a path starting with exactly two slashes names no file. *)
From Coq Require Import Bool Ascii String NArith List.
Import ListNotations.

Definition str := list ascii.
Definition lit (s : string) : str := list_ascii_of_string s.
Definition nl : ascii := "010".
Definition slash : ascii := "/".
Definition quote : ascii := "034".

Fixpoint eqs (a b : str) : bool :=
  match a, b with
  | [], [] => true
  | x :: a', y :: b' => Ascii.eqb x y && eqs a' b'
  | _, _ => false
  end.
Fixpoint mem (x : str) (l : list str) : bool :=
  match l with [] => false | y :: l' => eqs x y || mem x l' end.

(** Dictionaries: association lists in insertion order, one entry per key. *)
Definition dict (A : Type) := list (str * A).
Fixpoint get {A} (k : str) (d : dict A) : option A :=
  match d with
  | [] => None
  | (k', v) :: d' => if eqs k k' then Some v else get k d'
  end.
(** d[k] = v *)
Fixpoint put {A} (k : str) (v : A) (d : dict A) : dict A :=
  match d with
  | [] => [(k, v)]
  | (k', v') :: d' => if eqs k k' then (k', v) :: d' else (k', v') :: put k v d'
  end.
Definition has {A} (k : str) (d : dict A) : bool := match get k d with Some _ => true | None => false end.

(** str.isspace, also regex \s *)
Definition isspace (c : ascii) : bool :=
  let n := N_of_ascii c in
  ((9 <=? n) && (n <=? 13) || (28 <=? n) && (n <=? 32) || (n =? 133) || (n =? 160))%N.
Fixpoint lstrip (s : str) : str :=
  match s with c :: r => if isspace c then lstrip r else s | [] => [] end.
Definition rstrip (s : str) : str := rev (lstrip (rev s)).
(** str.strip *)
Definition strip (s : str) : str := rstrip (lstrip s).

(** [for line in file] *)
Fixpoint lines (s : str) : list str :=
  match s with
  | [] => []
  | c :: r =>
      if Ascii.eqb c nl then [c] :: lines r
      else match lines r with
           | [] => [[c]]
           | l :: ls => (c :: l) :: ls
           end
  end.

(** Rest of [s] after the literal [p]. *)
Fixpoint eat (p s : str) : option str :=
  match p, s with
  | [], _ => Some s
  | x :: p', y :: s' => if Ascii.eqb x y then eat p' s' else None
  | _, [] => None
  end.
Definition startswith (s p : str) : bool := match eat p s with Some _ => true | None => false end.
Fixpoint span (f : ascii -> bool) (s : str) : str * str :=
  match s with
  | c :: r => if f c then let (a, b) := span f r in (c :: a, b) else ([], s)
  | [] => ([], [])
  end.
(** s.split(c, 1): the parts before and after the first [c], if there is one. *)
Definition split1 (c : ascii) (s : str) : str * option str :=
  match span (fun x => negb (Ascii.eqb x c)) s with
  | (a, _ :: b) => (a, Some b)
  | (a, []) => (a, None)
  end.
(** s.split(c) *)
Fixpoint splitc (c : ascii) (s : str) : list str :=
  match s with
  | [] => [[]]
  | x :: r =>
      if Ascii.eqb x c then [] :: splitc c r
      else match splitc c r with
           | [] => [[x]]
           | l :: ls => (x :: l) :: ls
           end
  end.
(** c.join(l) *)
Fixpoint joinc (c : ascii) (l : list str) : str :=
  match l with
  | [] => []
  | [a] => a
  | a :: l' => a ++ c :: joinc c l'
  end.

(** posixpath.join *)
Definition join (a b : str) : str :=
  match b with
  | c :: _ => if Ascii.eqb c slash then b
              else match rev a with
                   | [] => b
                   | d :: _ => if Ascii.eqb d slash then a ++ b else a ++ slash :: b
                   end
  | [] => match rev a with
          | [] => b
          | d :: _ => if Ascii.eqb d slash then a else a ++ [slash]
          end
  end.

(** The number of slashes posixpath.normpath keeps in front. *)
Definition leading (p : str) : nat :=
  match p with
  | a :: b :: c :: _ => if Ascii.eqb a slash then
                          if Ascii.eqb b slash then if Ascii.eqb c slash then 1 else 2 else 1
                        else 0
  | [a; b] => if Ascii.eqb a slash then if Ascii.eqb b slash then 2 else 1 else 0
  | [a] => if Ascii.eqb a slash then 1 else 0
  | [] => 0
  end.
Definition dot : str := lit ".".
Definition dotdot : str := lit "..".
(** The loop of posixpath.normpath; [acc] is new_comps, last first. *)
Fixpoint normcomps (abs : bool) (acc : list str) (comps : list str) : list str :=
  match comps with
  | [] => rev acc
  | c :: cs =>
      if eqs c [] || eqs c dot then normcomps abs acc cs
      else if negb (eqs c dotdot)
              || match acc with [] => negb abs | d :: _ => eqs d dotdot end
      then normcomps abs (c :: acc) cs
      else normcomps abs (tl acc) cs
  end.
(** posixpath.normpath *)
Definition normpath (p : str) : str :=
  let n := leading p in
  let s := repeat slash n ++ joinc slash (normcomps (negb (Nat.eqb n 0)) [] (splitc slash p)) in
  match s with [] => dot | _ => s end.
(** posixpath.abspath *)
Definition abspath (cwd p : str) : str :=
  normpath (if startswith p [slash] then p else join cwd p).
(** posixpath.dirname *)
Fixpoint lstripc (c : ascii) (s : str) : str :=
  match s with x :: r => if Ascii.eqb x c then lstripc c r else s | [] => [] end.
Fixpoint upto_last_slash_rev (r : str) : str := (* of the reversed path *)
  match r with [] => [] | c :: r' => if Ascii.eqb c slash then r else upto_last_slash_rev r' end.
Definition dirname (p : str) : str :=
  let head := rev (upto_last_slash_rev (rev p)) in
  match lstripc slash (rev head) with
  | [] => head
  | r => rev r
  end.

(** The file system: regular files with their texts, and directories. *)
Record fsys := { files : dict str; dirs : list str }.
Definition with_file (fs : fsys) (p t : str) : fsys := {| files := put p t (files fs); dirs := dirs fs |}.
(** os.path.exists, on an absolute normalised path *)
Definition fexists (fs : fsys) (p : str) : bool := has p (files fs) || mem p (dirs fs).
(** open(p, 'r').read(); None: an exception *)
Definition fread (fs : fsys) (p : str) : option str := get p (files fs).
(** open(p, 'w'): needs the directory, which must not be a file, and [p] not a directory *)
Definition fcreate (fs : fsys) (p : str) : option fsys :=
  if mem p (dirs fs) || negb (mem (dirname p) (dirs fs)) then None else Some (with_file fs p []).
(** file.write *)
Definition fappend (fs : fsys) (p t : str) : fsys :=
  match get p (files fs) with
  | Some old => with_file fs p (old ++ t)
  | None => with_file fs p t
  end.
(** os.makedirs(p, exist_ok=True), on an absolute normalised path: every ancestor is made. *)
Fixpoint prefixes (acc : str) (cs : list str) : list str :=
  match cs with [] => [] | c :: cs' => let d := acc ++ slash :: c in d :: prefixes d cs' end.
Definition ancestors (p : str) : list str :=
  [slash] :: prefixes [] (filter (fun c => negb (eqs c [])) (splitc slash p)).
Fixpoint add_dirs (l : list str) (ds : list str) : list str :=
  match l with [] => ds | d :: l' => add_dirs l' (if mem d ds then ds else ds ++ [d]) end.
Definition fmakedirs (fs : fsys) (p : str) : option fsys :=
  if existsb (fun d => has d (files fs)) (ancestors p) then None
  else Some {| files := files fs; dirs := add_dirs (ancestors p) (dirs fs) |}.
