(** Model of include/shiva/common/CArrayHelper.hpp and include/shiva/common/CArray.hpp.

    A [CArray] object is an [arr]: the position of its first element in the
    underlying buffer (0 for an array that owns its data, the pointer's position
    for a view or slice), its dimensions, whether its element type is
    const-qualified and whether the object itself is accessed through a const
    lvalue.  Element values live in a buffer (a list); an access yields an [lval],
    the position it designates and whether it may be assigned.

    Simplifications: the index type is [int] (CArray.hpp:51); pointers are
    positions in one buffer; forming the address of, or a reference to, an element
    outside the buffer is undefined behaviour. *)
From Verif Require Import Base ModelAssert.

(** CArrayHelper.hpp:47-59, [strideHelper<DIM, DIMS...>()]. *)
Fixpoint strideHelper (pack : list Z) : outcome Z :=
  match pack with
  | [] => IllFormed
  | [DIM] => Ok DIM
  | DIM :: DIMS => s <- strideHelper DIMS ;; imul DIM s
  end.

(** CArrayHelper.hpp:68-73, [stride<DIM, DIMS...>()]. *)
Definition stride (pack : list Z) : outcome Z :=
  match pack with
  | [] => IllFormed
  | DIM :: DIMS => strideHelper (DIMS ++ [1])
  end.

Definition index_in (i d : Z) : bool := (0 <=? i) && (i <? d).

(** CArrayHelper.hpp:93-107, compile-time [level<INDEX, INDICES...>()], whose
    [static_assert] is always on; it returns [int] from a constant expression. *)
Fixpoint level_ct (dims idx : list Z) : outcome Z :=
  match dims, idx with
  | DIM :: DIMS, INDEX :: INDICES =>
      if index_in INDEX DIM then
        thisStride <- constexpr_ (strideHelper (DIMS ++ [1])) ;;
        match DIMS with
        | [] => imul INDEX thisStride
        | _ :: _ => x <- imul INDEX thisStride ;; y <- level_ct DIMS INDICES ;; iadd x y
        end
      else IllFormed
  | _, _ => IllFormed
  end.

(** CArrayHelper.hpp:112-131, run-time [level( index, indices... )]; the assertion
    of lines 116-119 is compiled in only with SHIVA_ENABLE_BOUNDS_CHECK. *)
Fixpoint level_rt (c : ctx) (dims idx : list Z) : outcome Z :=
  match dims, idx with
  | DIM :: DIMS, index :: indices =>
      _ <- (if bounds_check c then ASSERT_MSG c (index_in index DIM) else Ok tt) ;;
      thisStride <- constexpr_ (strideHelper (DIMS ++ [1])) ;;
      match DIMS with
      | [] => imul index thisStride
      | _ :: _ => x <- imul index thisStride ;; y <- level_rt c DIMS indices ;; iadd x y
      end
  | _, _ => IllFormed
  end.

(** CArrayHelper.hpp:167-179, [get<COUNT, INDEX, INDICES...>()]. *)
Fixpoint get (COUNT : Z) (pack : list Z) : outcome Z :=
  match pack with
  | [] => IllFormed
  | INDEX :: INDICES => if COUNT =? 0 then Ok INDEX else get (COUNT - 1) INDICES
  end.

(** CArrayHelper.hpp:185-190 and CArray.hpp:61, [size()]: [( DIMS * ... )]. *)
Definition size (dims : list Z) : outcome Z := fold_unary_right imul (map Ok dims).

(** CArray.hpp:54, [rank()]. *)
Definition rank (dims : list Z) : Z := Z.of_nat (length dims).

(** CArray.hpp:57-58, [extent<INDEX>()]. *)
Definition extent (INDEX : Z) (dims : list Z) : outcome Z := get INDEX dims.

(** CArray.hpp:265-266, [CArrayNd<T, DIMS...>]: owns [T[size<DIMS...>()]]; the bound is
    a constant expression and must be positive. *)
Definition CArrayNd_size (dims : list Z) : outcome Z :=
  n <- constexpr_ (size dims) ;; if 0 <? n then Ok n else IllFormed.

(** CArray.hpp:89-91, list-initialising constructor [m_data{ args ... }] of an owning
    array: aggregate initialisation, remaining elements are zero, too many
    initialisers are ill-formed. *)
Definition list_init {T} (zero : T) (dims : list Z) (args : list T) : outcome (list T) :=
  n <- CArrayNd_size dims ;;
  if Z.of_nat (length args) <=? n
  then Ok (args ++ repeat zero (Z.to_nat n - length args))
  else IllFormed.

Record arr : Set := {
  base      : Z;
  dims      : list Z;
  elt_const : bool;   (* T is const-qualified *)
  obj_const : bool    (* accessed through a const lvalue: const overloads apply *)
}.

Record lval : Set := { addr : Z; writable : bool }.

(** An owning array is its own buffer. *)
Definition owning (ds : list Z) : arr :=
  {| base := 0; dims := ds; elt_const := false; obj_const := false |}.

(** CArray.hpp:69-82, views over a caller's buffer [T const (&)[N]] or
    [remove_const_t<T>(&)[N]]. *)
Definition view_of (ds : list Z) (elt_c : bool) : arr :=
  {| base := 0; dims := ds; elt_const := elt_c; obj_const := false |}.

(** [m_data[k]] for a buffer of [n] elements. *)
Definition elem (n : Z) (a : arr) (k : Z) : outcome Z :=
  if (0 <=? base a + k) && (base a + k <? n) then Ok (base a + k) else UB OutOfBounds.

Definition is_writable (a : arr) : bool := negb (elt_const a) && negb (obj_const a).

(** CArray.hpp:139-159, [operator()( indices... )], non-const and const overloads. *)
Definition paren (c : ctx) (n : Z) (a : arr) (idx : list Z) : outcome lval :=
  if Nat.eqb (length idx) (length (dims a)) then
    k <- level_rt c (dims a) idx ;; p <- elem n a k ;;
    Ok {| addr := p; writable := is_writable a |}
  else IllFormed.

(** CArray.hpp:112-131, [operator()<INDICES...>()], non-const and const overloads. *)
Definition paren_ct (n : Z) (a : arr) (idx : list Z) : outcome lval :=
  if Nat.eqb (length idx) (length (dims a)) then
    k <- level_ct (dims a) idx ;; p <- elem n a k ;;
    Ok {| addr := p; writable := is_writable a |}
  else IllFormed.

(** CArray.hpp:194-216 and 225-251, [operator[]( index )] with
    [squareBracketOperatorHelper]: a slice for rank > 1 (types of lines 166-176), an
    element for rank 1.  The const_cast of line 210 restores the constness of [T]
    that the const call of line 249 added. *)
Definition bracket (c : ctx) (n : Z) (a : arr) (index : Z) : outcome (arr + lval) :=
  match dims a with
  | [] => IllFormed
  | DIM :: rest =>
      _ <- (if bounds_check c then ASSERT_MSG c (index_in index DIM) else Ok tt) ;;
      match rest with
      | _ :: _ =>
          s <- stride (dims a ++ [1]) ;;
          k <- imul index s ;;
          p <- elem n a k ;;
          Ok (inl {| base := p; dims := rest;
                     elt_const := elt_const a || obj_const a; obj_const := false |})
      | [] => lv <- paren c n a [index] ;; Ok (inr lv)
      end
  end.

(** How a program names an element: [brackets] applications of [operator[]] followed,
    when the result is still an array, by one call of [operator()]. *)
Inductive last_step : Set := Paren | ParenCT.
Record path : Set := { brackets : nat; last : last_step }.

Fixpoint access_from (c : ctx) (n : Z) (a : arr) (nb : nat) (fin : last_step) (idx : list Z)
  : outcome lval :=
  match nb with
  | O => match fin with Paren => paren c n a idx | ParenCT => paren_ct n a idx end
  | S nb' =>
      match idx with
      | [] => IllFormed
      | i :: idx' =>
          r <- bracket c n a i ;;
          match r with
          | inl a' => access_from c n a' nb' fin idx'
          | inr lv => match nb', idx' with O, [] => Ok lv | _, _ => IllFormed end
          end
      end
  end.

(** During constant evaluation any undefined behaviour makes the program
    ill-formed. *)
Definition access (c : ctx) (n : Z) (a : arr) (p : path) (idx : list Z) : outcome lval :=
  let r := access_from c n a (brackets p) (last p) idx in
  if const_eval c then constexpr_ r else r.

(** Reading an element and assigning to one, in a buffer [mem]. *)
Definition load {T} (mem : list T) (lv : lval) : outcome T := rd mem (addr lv).
Definition assign {T} (mem : list T) (lv : lval) (x : T) : outcome (list T) :=
  if writable lv then wr mem (addr lv) x else IllFormed.

Definition buflen {T} (mem : list T) : Z := Z.of_nat (length mem).

(** [a(..) = x] and reading [a(..)] along an access path. *)
Definition put {T} (c : ctx) (a : arr) (p : path) (idx : list Z) (x : T) (mem : list T)
  : outcome (list T) :=
  lv <- access c (buflen mem) a p idx ;; assign mem lv x.
Definition fetch {T} (c : ctx) (a : arr) (p : path) (idx : list Z) (mem : list T) : outcome T :=
  lv <- access c (buflen mem) a p idx ;; load mem lv.

(** A program that uses one array: a history of writes and reads. *)
Inductive aop (T : Type) : Type :=
| OpPut (p : path) (idx : list Z) (x : T)
| OpGet (p : path) (idx : list Z).
Arguments OpPut {T}. Arguments OpGet {T}.

(** Runs a history; returns the final buffer and the values read, in order. *)
Fixpoint run_ops {T} (c : ctx) (a : arr) (ops : list (aop T)) (mem : list T)
  : outcome (list T * list T) :=
  match ops with
  | [] => Ok (mem, [])
  | OpPut p idx x :: ops' => mem' <- put c a p idx x mem ;; run_ops c a ops' mem'
  | OpGet p idx :: ops' =>
      v <- fetch c a p idx mem ;;
      '(mem', vs) <- run_ops c a ops' mem ;; Ok (mem', v :: vs)
  end.
