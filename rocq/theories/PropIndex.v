(** Properties C11-C16: index ranges, sequences, packs. *)
From Verif Require Import Base SpecIndex ModelIndex ModelSequence ProofIndex.

(** The order the loops are compared with exists and is unique for every box. *)
Theorem C11_enumeration_exists_unique : forall lo hi,
  exists E, LexEnum lo hi E /\ forall E', LexEnum lo hi E' -> E' = E.
Proof. exact LexEnum_exists_unique. Qed.
Print Assumptions C11_enumeration_exists_unique.

(** C11.  For every rank, ranges, start and callback [f] that does not modify the
    index, [forRange] performs exactly the calls [f m] for the tuples [m] of the box
    start <= m < ranges, each once, in lexicographic order, stops at the first call
    that does not return normally, and leaves the index at [final].  [n0] only
    bounds the model's loop fuel. *)
Theorem C11_forRange_visits_box_in_order :
  forall (S : Type) (f : list Z -> S -> outcome S) ranges start E,
  ranges <> [] -> length start = length ranges ->
  Forall is_int ranges -> Forall is_int start -> LexEnum start ranges E ->
  exists n0 final, (forall fuel s, (n0 <= fuel)%nat ->
    forRange (reading f) ranges fuel start s = (s' <- foldM f E s ;; Ok (final, s'))) /\
    length final = length start /\
    forall k, (k < length start)%nat -> nth k final 0 =
      if forallb (fun p => fst p <? snd p) (firstn k (combine start ranges))
      then Z.max (nth k start 0) (nth k ranges 0) else nth k start 0.
Proof. exact @forRange_stmt. Qed.
Print Assumptions C11_forRange_visits_box_in_order.

(** Non-vacuity: ranges (2,3), start (0,1), a callback that records its argument. *)
Example C11_witness :
  LexEnum [0; 1] [2; 3] [[0; 1]; [0; 2]; [1; 1]; [1; 2]] /\
  forRange (reading (fun m tr => Ok (tr ++ [m]))) [2; 3] 9 [0; 1] [] =
    Ok ([2; 3], [[0; 1]; [0; 2]; [1; 1]; [1; 2]]).
Proof. split; [exact (ProofBox.box_LexEnum [0; 1] [2; 3]) | reflexivity]. Qed.

(** C12 is false of the code: distinct in-range indices share a linear index, the
    linear index can leave [0, size), and its computation can overflow. *)
Theorem C12_linearIndex_injective_refuted :
  exists ranges d1 d2, InRange ranges d1 /\ InRange ranges d2 /\ d1 <> d2 /\
    exists k, linearIndex ranges d1 = Ok k /\ linearIndex ranges d2 = Ok k.
Proof. exact linearIndex_collision. Qed.
Print Assumptions C12_linearIndex_injective_refuted.

Theorem C12_linearIndex_in_bounds_refuted :
  exists ranges data k, InRange ranges data /\ linearIndex ranges data = Ok k /\ prodZ ranges <= k.
Proof. exact linearIndex_too_big. Qed.
Print Assumptions C12_linearIndex_in_bounds_refuted.

Theorem C12_linearIndex_no_overflow_refuted :
  exists ranges data, InRange ranges data /\ prodZ ranges <= INT_MAX /\
    linearIndex ranges data = UB IntOverflow.
Proof. exact linearIndex_overflow. Qed.
Print Assumptions C12_linearIndex_no_overflow_refuted.

(** Exactly when it is the row-major position: for every dimension with more than one
    value, the product of the *leading* ranges the code multiplies equals the product
    of the *trailing* ones. *)
Theorem C12_linearIndex_row_major_iff : forall ranges,
  ranges <> [] -> Forall (fun r => 0 < r) ranges -> prodZ ranges <= INT_MAX ->
  ((forall data, InRange ranges data ->
      exists k, linearIndex ranges data = Ok k /\ RowMajorPos ranges data k)
   <-> (forall k r, nth_error ranges k = Some r -> 2 <= r ->
          prodZ (firstn (length ranges - 1 - k) ranges) = prodZ (skipn (S k) ranges))).
Proof. exact linearIndex_iff. Qed.
Print Assumptions C12_linearIndex_row_major_iff.

(** When no range is 1 this says that the list of ranges is a palindrome. *)
Theorem C12_linearIndex_row_major_iff_palindrome : forall ranges,
  ranges <> [] -> Forall (fun r => 2 <= r) ranges -> prodZ ranges <= INT_MAX ->
  ((forall data, InRange ranges data ->
      exists k, linearIndex ranges data = Ok k /\ RowMajorPos ranges data k)
   <-> rev ranges = ranges).
Proof. exact linearIndex_palindrome_iff. Qed.
Print Assumptions C12_linearIndex_row_major_iff_palindrome.

Example C12_witness : rev [2; 3; 2] = [2; 3; 2] /\ linearIndex [2; 3; 2] [1; 2; 1] = Ok 11.
Proof. split; reflexivity. Qed.

(** C13. *)
Theorem C13_forSequence : forall (S : Type) n (f : Z -> S -> outcome S) s,
  (0 <= n -> forSequence n f s = foldM f (map Z.of_nat (seq 0 (Z.to_nat n))) s) /\
  (n < 0 -> forSequence n f s = IllFormed).
Proof. exact @forSequence_stmt. Qed.
Print Assumptions C13_forSequence.

Example C13_witness : forSequence 4 (fun i tr => Ok (tr ++ [i])) [] = Ok [0; 1; 2; 3].
Proof. reflexivity. Qed.

(** C14.  Without extra arguments the callback is called once with 0..n-1. *)
Theorem C14_executeSequence_no_args : forall (A R : Type) (f : callee A R) n, 0 <= n ->
  accepts f (repeat TIndex (Z.to_nat n)) = true ->
  executeSequence n f [] [] = call f [] (map Z.of_nat (seq 0 (Z.to_nat n))).
Proof. exact @execute_no_args. Qed.
Print Assumptions C14_executeSequence_no_args.

(** With extra arguments: one call, arguments first, then 0..n-1 -- but only if the
    callback also accepts the indices first; otherwise the template call operator is
    used or the program is rejected. *)
Theorem C14_executeSequence_args : forall (A R : Type) (f : callee A R) n tys args, 0 <= n ->
  let ity := repeat TIndex (Z.to_nat n) in
  let idx := map Z.of_nat (seq 0 (Z.to_nat n)) in
  (accepts f (ity ++ tys) = true -> accepts f (tys ++ ity) = true ->
     executeSequence n f tys args = call f args idx) /\
  (accepts f (ity ++ tys) = false -> has_tmpl f tys = true ->
     executeSequence n f tys args = call_tmpl f idx args) /\
  (accepts f (ity ++ tys) = true -> accepts f (tys ++ ity) = false ->
     executeSequence n f tys args = IllFormed) /\
  (accepts f (ity ++ tys) = false -> has_tmpl f tys = false ->
     executeSequence n f tys args = IllFormed).
Proof. exact @execute_args. Qed.
Print Assumptions C14_executeSequence_args.

(** The documented call order alone is not enough: a callback invocable exactly as
    documented, func( args..., indices... ), is rejected. *)
Theorem C14_documented_order_refuted :
  exists (f : callee Z (list Z)) n tys args, 0 <= n /\
    accepts f (tys ++ repeat TIndex (Z.to_nat n)) = true /\
    executeSequence n f tys args = IllFormed.
Proof. exact execute_documented_order_refuted. Qed.
Print Assumptions C14_documented_order_refuted.

(** C15. *)
Theorem C15_forNestedSequence : forall (S : Type) ends (f : list Z -> S -> outcome S) s E,
  ends <> [] -> Forall (fun e => 0 <= e) ends ->
  LexEnum (repeat 0 (length ends)) ends E ->
  forNestedSequence ends f s = foldM f E s.
Proof. exact @forNestedSequence_lemma. Qed.
Print Assumptions C15_forNestedSequence.

Theorem C15_forNestedSequence_is_forRange_from_zero :
  forall (S : Type) ends (f : list Z -> S -> outcome S),
  ends <> [] -> Forall (fun e => 0 <= e <= INT_MAX) ends ->
  exists n0 final, forall fuel s, (n0 <= fuel)%nat ->
    forRange (reading f) ends fuel (default_index ends) s =
    (s' <- forNestedSequence ends f s ;; Ok (final, s')).
Proof. exact @nested_eq_forRange. Qed.
Print Assumptions C15_forNestedSequence_is_forRange_from_zero.

Example C15_witness :
  forNestedSequence [2; 1; 2] (fun m tr => Ok (tr ++ [m])) [] =
  Ok [[0; 0; 0]; [0; 0; 1]; [1; 0; 0]; [1; 0; 1]].
Proof. reflexivity. Qed.

(** C16 (the CArray variant [get] is in PropCArray.v, C06). *)
Theorem C16_IntPackPeeler : forall pack k,
  (forall x, 0 <= k -> nth_error pack (Z.to_nat k) = Some x -> IntPackPeeler k pack = Ok x) /\
  (~ (0 <= k < Z.of_nat (length pack)) -> IntPackPeeler k pack = IllFormed).
Proof. exact peeler_stmt. Qed.
Print Assumptions C16_IntPackPeeler.

Example C16_witness : IntPackPeeler 2 [5; 6; 7] = Ok 7 /\ IntPackPeeler 3 [5; 6; 7] = IllFormed.
Proof. split; reflexivity. Qed.
