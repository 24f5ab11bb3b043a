(** Model of include/shiva/functions/spacing/Spacing.hpp.  [Num] is REAL_TYPE, [N] the
    number of points.  [.._rt] is the run-time accessor [coordinate( index )], [.._ct]
    the template accessor [coordinate<INDEX>()].  Integer subexpressions are checked
    [int] operations; [&] and [>>] act on two's complement integers.  The literals
    1.0, 2.0 and -1.0 are integers converted to REAL_TYPE (exact). *)
From Verif Require Import Base Num.
Open Scope Z_scope.

Section Spacing.
Context (F : Num).
Notation "x *. y" := (nmul F x y) (at level 40, left associativity).
Notation "x +. y" := (nadd F x y) (at level 50, left associativity).
Notation "x -. y" := (nsub F x y) (at level 50, left associativity).
Notation "-. x" := (nopp F x) (at level 35).
Notation ofZ := (nofZ F).
Notation lit := (nlit F).

(** [if constexpr ( INDEX == 0 ) return t0; ... return last;] *)
Fixpoint table {A} (vs : list A) (other : A) (INDEX : Z) : A :=
  match vs with
  | [] => other
  | v :: vs' => if INDEX =? 0 then v else table vs' other (INDEX - 1)
  end.

(** Spacing.hpp:42, [EqualSpacing::interval()]. *)
Definition equal_interval (N : Z) : outcome (T F) :=
  n1 <- isub N 1 ;; ndiv F (ofZ 2) (ofZ n1).

(** Spacing.hpp:49, [EqualSpacing::coordinate( index )]. *)
Definition equal_rt (N index : Z) : outcome (T F) :=
  h <- equal_interval N ;; Ok (ofZ (-1) +. ofZ index *. h).

(** Spacing.hpp:58, [EqualSpacing::coordinate<INDEX>()]. *)
Definition equal_ct (N INDEX : Z) : outcome (T F) :=
  h <- equal_interval N ;; Ok (ofZ (-1) +. ofZ INDEX *. h).

(** Spacing.hpp:72. *)
Definition invSqrt3 : T F := lit 57735026918962576450914878050195745565 38.
(** Spacing.hpp:75. *)
Definition sqrt3div5 : T F := lit 77459666924148337703585307995647992217 38.
(** Spacing.hpp:97-98 and 123-124, [c4]. *)
Definition c4 : list (T F) :=
  [lit 8611363115940525752239464888928095051 37; lit 3399810435848562648026657591032446872 37].

(** Spacing.hpp:85-102, [GaussLegendreSpacing::coordinate( index )]. *)
Definition legendre_rt (N index : Z) : outcome (T F) :=
  if N =? 2 then i2 <- imul index 2 ;; Ok (invSqrt3 *. (ofZ (-1) +. ofZ i2))
  else if N =? 3 then Ok (sqrt3div5 *. (ofZ (-1) +. ofZ index))
  else if N =? 4 then
    i1 <- iadd index 1 ;;
    c <- rd c4 (Z.shiftr (Z.land i1 2) 1) ;;
    s <- isub (Z.land index 2) 1 ;;
    Ok (c *. ofZ s)
  else Ok (ofZ 0).

(** Spacing.hpp:110-132, [GaussLegendreSpacing::coordinate<INDEX>()]. *)
Definition legendre_ct (N INDEX : Z) : outcome (T F) :=
  if N =? 2 then Ok (invSqrt3 *. (ofZ (-1) +. ofZ INDEX *. ofZ 2))
  else if N =? 3 then Ok (sqrt3div5 *. (ofZ (-1) +. ofZ INDEX))
  else if N =? 4 then
    c0 <- rd c4 0 ;; c1 <- rd c4 1 ;;
    Ok (table [-. c0; -. c1; c1; c0] (ofZ 0) INDEX)
  else Ok (ofZ 0).

(** Spacing.hpp:146. *)
Definition invSqrt5 : T F := lit 44721359549995793928183473374625524709 38.
(** Spacing.hpp:149. *)
Definition sqrt3div7 : T F := lit 65465367070797714379829245624685835557 38.

(** Spacing.hpp:159-188, [GaussLobattoSpacing::coordinate( index )]. *)
Definition lobatto_rt (N index : Z) : outcome (T F) :=
  if N =? 2 then Ok (ofZ (-1) +. ofZ index *. ofZ 2)
  else if N =? 3 then Ok (ofZ (-1) +. ofZ index)
  else if N =? 4 then
    s <- isub (Z.land index 2) 1 ;;
    i1 <- iadd index 1 ;;
    Ok (ofZ s *. (ofZ 1 -. ofZ (Z.shiftr (Z.land i1 2) 1) *. (ofZ 1 -. invSqrt5)))
  else if N =? 5 then rd [ofZ (-1); -. sqrt3div7; ofZ 0; sqrt3div7; ofZ 1] index
  else Ok (ofZ 0).

(** Spacing.hpp:224-229. *)
Definition lobatto6 : list (T F) :=
  let a := lit 7650553239294648 16 in let b := lit 2852315164806455 16 in
  [ofZ (-1); -. a; -. b; b; a; ofZ 1].
(** Spacing.hpp:233-239. *)
Definition lobatto7 : list (T F) :=
  let a := lit 83022389627857 14 in let b := lit 4688487934707 13 in
  [ofZ (-1); -. a; -. b; ofZ 0; b; a; ofZ 1].
(** Spacing.hpp:243-250. *)
Definition lobatto8 : list (T F) :=
  let a := lit 87174014850961 14 in let b := lit 59170018143314 14 in
  let c := lit 20929921790248 14 in
  [ofZ (-1); -. a; -. b; -. c; c; b; a; ofZ 1].
(** Spacing.hpp:254-262. *)
Definition lobatto9 : list (T F) :=
  let a := lit 89975799541146 14 in let b := lit 67718627951074 14 in
  let c := lit 36311746382618 14 in
  [ofZ (-1); -. a; -. b; -. c; ofZ 0; c; b; a; ofZ 1].

(** Spacing.hpp:196-265, [GaussLobattoSpacing::coordinate<INDEX>()]. *)
Definition lobatto_ct (N INDEX : Z) : outcome (T F) :=
  if N =? 2 then Ok (ofZ (-1) +. ofZ INDEX *. ofZ 2)
  else if N =? 3 then Ok (ofZ (-1) +. ofZ INDEX)
  else if N =? 4 then Ok (table [ofZ (-1); -. invSqrt5; invSqrt5; ofZ 1] (ofZ 0) INDEX)
  else if N =? 5 then Ok (table [ofZ (-1); -. sqrt3div7; ofZ 0; sqrt3div7; ofZ 1] (ofZ 0) INDEX)
  else if N =? 6 then Ok (table lobatto6 (ofZ 0) INDEX)
  else if N =? 7 then Ok (table lobatto7 (ofZ 0) INDEX)
  else if N =? 8 then Ok (table lobatto8 (ofZ 0) INDEX)
  else if N =? 9 then Ok (table lobatto9 (ofZ 0) INDEX)
  else Ok (ofZ 0).
End Spacing.

(** The three spacings a user can choose; [coord_rt] and [coord_ct] are the two
    accessors of the chosen spacing template with [N] points. *)
Inductive spacing : Set := EqualSpacing | GaussLegendreSpacing | GaussLobattoSpacing.
Definition coord_rt (F : Num) (s : spacing) (N index : Z) : outcome (T F) :=
  match s with
  | EqualSpacing => equal_rt F N index
  | GaussLegendreSpacing => legendre_rt F N index
  | GaussLobattoSpacing => lobatto_rt F N index
  end.
Definition coord_ct (F : Num) (s : spacing) (N INDEX : Z) : outcome (T F) :=
  match s with
  | EqualSpacing => equal_ct F N INDEX
  | GaussLegendreSpacing => legendre_ct F N INDEX
  | GaussLobattoSpacing => lobatto_ct F N INDEX
  end.
