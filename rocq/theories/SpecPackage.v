(** Vocabulary for finding and linking the CMake package. *)
From Coq Require Import Bool Ascii String NArith List.
From Verif Require Import ModelPackage.
Import ListNotations.
Open Scope string_scope.
Open Scope list_scope.

(** The value of a text of digits, and the parts of a version; a missing one is 0. *)
Fixpoint decimal (s : string) : N :=
  match s with
  | EmptyString => 0
  | String c s' => (N_of_ascii c - N_of_ascii "0"%char) * 10 ^ N.of_nat (String.length s') + decimal s'
  end%N.
Definition nth_part (v : version) (k : nat) : N := match nth_error v k with Some s => decimal s | None => 0%N end.
(** Version numbers are compared part by part. *)
Definition Before (a b : version) : Prop := exists k, k < 4 /\ (forall j, j < k -> nth_part a j = nth_part b j) /\ (nth_part a k < nth_part b k)%N.
Definition Same (a b : version) : Prop := forall k, k < 4 -> nth_part a k = nth_part b k.
Definition Upto (a b : version) : Prop := Before a b \/ Same a b.
Definition this : version := ["0"; "1"; "0"].
Definition one : version := ["1"].

(** What a request asks for, if versions with the same first number are taken to be compatible. *)
Definition Asks (r : request) : Prop :=
  match r with
  | Any => True
  | Version v false => nth_part v 0 = 0%N /\ Upto v this
  | Version v true => v = this
  | Range lo hi true => nth_part lo 0 = 0%N /\ nth_part hi 0 = 0%N /\ Upto lo this /\ Upto this hi
  | Range lo hi false => nth_part lo 0 = 0%N /\ Upto hi one /\ Upto lo this /\ Before this hi
  end.
Definition SameSize (a b : option N) : Prop := forall x y, a = Some x -> b = Some y -> x = y.
