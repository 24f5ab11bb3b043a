(** Model of include/shiva/common/IndexTypes.hpp, MultiIndex.hpp and
    LinearIndex.hpp.  A [MultiIndexRange<int, RANGES...>] object is its [data]
    array (a list); [RANGES] is the list [ranges]. *)
From Verif Require Import Base.

(** MultiIndex.hpp:77, [data[NUM_INDICES] = {0}]: default value. *)
Definition default_index (ranges : list Z) : list Z := repeat 0 (length ranges).

(** MultiIndex.hpp:61, [NUM_INDICES = sizeof...(RANGES)]. *)
Definition NUM_INDICES (ranges : list Z) : Z := Z.of_nat (length ranges).

(** MultiIndex.hpp:71-74, [range( i )]. *)
Definition range (ranges : list Z) (i : Z) : outcome Z := rd ranges i.

(** IndexTypes.hpp:37-45, [strideHelper( integer_sequence<INDICES...>, ranges )]:
    [( ranges[INDICES] * ... * 1 )]. *)
Definition strideHelper (INDICES : list Z) (ranges : list Z) : outcome Z :=
  fold_binary_right imul (map (rd ranges) INDICES) (Ok 1).

(** IndexTypes.hpp:55-67, [stride<INDEX>( index )]. *)
Definition stride (INDEX : Z) (ranges : list Z) : outcome Z :=
  is <- make_integer_sequence ((NUM_INDICES ranges - 1) - INDEX) ;;
  strideHelper is ranges.

(** IndexTypes.hpp:76-84, [linearIndexHelper( index, integer_sequence<INDICES...> )]:
    [( ( index.data[INDICES] * stride<INDICES>( index ) ) + ... )]. *)
Definition linearIndexHelper (ranges data INDICES : list Z) : outcome Z :=
  fold_unary_right iadd
    (map (fun I => x <- rd data I ;; s <- stride I ranges ;; imul x s) INDICES).

(** IndexTypes.hpp:135-141, [linearIndex( MultiIndexRange const & )]. *)
Definition linearIndex (ranges data : list Z) : outcome Z :=
  is <- make_integer_sequence (NUM_INDICES ranges) ;;
  linearIndexHelper ranges data is.

(** IndexTypes.hpp:149-154 with LinearIndex.hpp:28-29, [linearIndex( LinearIndex const & )]. *)
Definition linearIndex_scalar (index : Z) : outcome Z := Ok index.

Section ForRange.
  Context {S : Type}.
  (** The callback receives the index by reference ([func( index )],
      IndexTypes.hpp:110), so it may change it: it returns the index as it leaves
      it, and the new program state. *)
  Context (func : list Z -> S -> outcome (list Z * S)).
  Context (ranges : list Z).

  (** The [for] statement of IndexTypes.hpp:108-111 and 117-120 after its
      initialiser: [a] is a reference to [index.data[DIM]], so both the test and
      the increment re-read the index the body left behind.  [fuel] bounds the
      number of iterations of the model only. *)
  Fixpoint for_loop (fuel : nat) (DIM : Z) (body : list Z -> S -> outcome (list Z * S))
    (index : list Z) (s : S) : outcome (list Z * S) :=
    match fuel with
    | O => OutOfFuel
    | Datatypes.S fuel' =>
        a <- rd index DIM ;;
        r <- range ranges DIM ;;
        if a <? r then
          '(index1, s1) <- body index s ;;
          a1 <- rd index1 DIM ;;
          a2 <- iadd a1 1 ;;
          index2 <- wr index1 DIM a2 ;;
          for_loop fuel' DIM body index2 s1
        else Ok (index, s)
    end.

  (** IndexTypes.hpp:98-123, [forRangeHelper<DIM>( start, index, func )]. [rest] is
      the number of dimensions after [DIM]: 0 is the case
      [DIM == NUM_INDICES - 1] of line 105. *)
  Fixpoint forRangeHelper (fuel rest : nat) (DIM : Z) (start index : list Z) (s : S)
    : outcome (list Z * S) :=
    st <- rd start DIM ;;
    index0 <- wr index DIM st ;;
    for_loop fuel DIM
      (match rest with
       | O => func
       | Datatypes.S rest' => fun ix s' => forRangeHelper fuel rest' (DIM + 1) start ix s'
       end) index0 s.

  (** IndexTypes.hpp:164-172, [forRange( index, func )]; a [MultiIndexRange] without
      ranges has a zero-length array member and is ill-formed. *)
  Definition forRange (fuel : nat) (index : list Z) (s : S) : outcome (list Z * S) :=
    match length ranges with
    | O => IllFormed
    | Datatypes.S rest => forRangeHelper fuel rest 0 index index s
    end.
End ForRange.

(** A callback that takes the index by value or const reference. *)
Definition reading {S} (f : list Z -> S -> outcome S) (ix : list Z) (s : S)
  : outcome (list Z * S) := s' <- f ix s ;; Ok (ix, s').
