(** Model of include/shiva/functions/quadrature/Quadrature.hpp.  A quadrature class
    derives from a spacing, whose coordinates are its nodes, and adds weights.
    [.._rt] is [weight( index )], [.._ct] is [weight<INDEX>()]. *)
From Verif Require Import Base Num ModelSpacing.
Open Scope Z_scope.

Section Quadrature.
Context (F : Num).
Notation "x *. y" := (nmul F x y) (at level 40, left associativity).
Notation "x +. y" := (nadd F x y) (at level 50, left associativity).
Notation "x -. y" := (nsub F x y) (at level 50, left associativity).
Notation ofZ := (nofZ F).
Notation lit := (nlit F).

(** Quadrature.hpp:62 and 97-116, the literal 0.15214515486254614262693605077800059277. *)
Definition w4 : T F := lit 15214515486254614262693605077800059277 38.
Definition half : T F := lit 5 1.

(** Quadrature.hpp:46-66, [QuadratureGaussLegendre::weight( index )]. *)
Definition legendre_weight_rt (N index : Z) : outcome (T F) :=
  if (2 <=? N) && (N <=? 4) then
    if N =? 2 then Ok (ofZ 1)
    else if N =? 3 then
      Ok (lit 5555555555555555555555555555555556 34
          +. lit 3333333333333333333333333333333333 34 *. ofZ (Z.land index 1))
    else if N =? 4 then
      i1 <- iadd index 1 ;; s <- iadd (-1) (Z.land i1 2) ;;
      Ok (half +. ofZ s *. w4)
    else Ok (nmax F)
  else IllFormed.

(** Quadrature.hpp:74-119, [QuadratureGaussLegendre::weight<INDEX>()]. *)
Definition legendre_weight_ct (N INDEX : Z) : outcome (T F) :=
  if (2 <=? N) && (N <=? 4) then
    if N =? 2 then Ok (ofZ 1)
    else if N =? 3 then
      Ok (table [lit 5555555555555555555555555555555556 34;
                 lit 8888888888888888888888888888888889 34;
                 lit 5555555555555555555555555555555556 34] (nmax F) INDEX)
    else if N =? 4 then
      Ok (table [half -. w4; half +. w4; half +. w4; half -. w4] (nmax F) INDEX)
    else Ok (nmax F)
  else IllFormed.

(** Quadrature.hpp:138-162, [QuadratureGaussLobatto::weight( index )].  [!( index - 2 )]
    is the bool [index - 2 == 0] converted to REAL_TYPE. *)
Definition lobatto_weight_rt (N index : Z) : outcome (T F) :=
  if (2 <=? N) && (N <=? 5) then
    if N =? 2 then Ok (ofZ 1)
    else if N =? 3 then Ok (lit 3333333333333333333333333333333333 34 +. ofZ (Z.land index 1))
    else if N =? 4 then
      i1 <- iadd index 1 ;;
      Ok (lit 1666666666666666666666666666666667 34
          +. ofZ (Z.shiftr (Z.land i1 2) 1) *. lit 6666666666666666666666666666666667 34)
    else if N =? 5 then
      d <- isub index 2 ;;
      Ok (lit 1 1 +. ofZ (Z.land index 1) *. lit 4444444444444444444444444444444444 34
          +. ofZ (if d =? 0 then 1 else 0) *. lit 6111111111111111111111111111111111 34)
    else Ok (nmax F)
  else IllFormed.

(** Quadrature.hpp:199-207, 208-217, 218-228, 229-240. *)
Definition lobatto_w6 : list (T F) :=
  [lit 6666666666667 14; lit 37847495629785 14; lit 55485837703548 14;
   lit 55485837703548 14; lit 37847495629785 14; lit 6666666666667 14].
Definition lobatto_w7 : list (T F) :=
  [lit 47619047619048 15; lit 27682604736157 14; lit 43174538120986 14;
   lit 48761904761905 14;
   lit 43174538120986 14; lit 27682604736157 14; lit 47619047619048 15].
Definition lobatto_w8 : list (T F) :=
  [lit 35714285714286 15; lit 2107042271435 13; lit 34112269248351 14; lit 4124587946587 13;
   lit 4124587946587 13; lit 3411226924835 13; lit 21070422714351 14; lit 35714285714286 15].
Definition lobatto_w9 : list (T F) :=
  [lit 2777777777778 14; lit 16549536156081 14; lit 27453871250016 14; lit 34642851097305 14;
   lit 37151927437642 14;
   lit 34642851097305 14; lit 27453871250016 14; lit 16549536156081 14; lit 2777777777778 14].

(** Quadrature.hpp:171-242, [QuadratureGaussLobatto::weight<INDEX>()]. *)
Definition lobatto_weight_ct (N INDEX : Z) : outcome (T F) :=
  if (2 <=? N) && (N <=? 9) then
    if N =? 2 then Ok (ofZ 1)
    else if N =? 3 then Ok (lit 3333333333333333333333333333333333 34 +. ofZ (Z.land INDEX 1))
    else if N =? 4 then
      Ok (table [lit 1666666666666666666666666666666667 34; lit 8333333333333333333333333333333333 34;
                 lit 8333333333333333333333333333333333 34; lit 1666666666666666666666666666666667 34]
            (nmax F) INDEX)
    else if N =? 5 then
      Ok (table [lit 1 1; lit 5444444444444444444444444444444444 34;
                 lit 7111111111111111111111111111111111 34;
                 lit 5444444444444444444444444444444444 34; lit 1 1] (nmax F) INDEX)
    else if N =? 6 then Ok (table lobatto_w6 (nmax F) INDEX)
    else if N =? 7 then Ok (table lobatto_w7 (nmax F) INDEX)
    else if N =? 8 then Ok (table lobatto_w8 (nmax F) INDEX)
    else if N =? 9 then Ok (table lobatto_w9 (nmax F) INDEX)
    else Ok (nmax F)
  else IllFormed.
End Quadrature.

(** The two quadrature rules; nodes come from the spacing each derives from
    (Quadrature.hpp:39 and 130). *)
Inductive rule : Set := QuadratureGaussLegendre | QuadratureGaussLobatto.
Definition rule_spacing (q : rule) : spacing :=
  match q with
  | QuadratureGaussLegendre => GaussLegendreSpacing
  | QuadratureGaussLobatto => GaussLobattoSpacing
  end.
Definition weight_rt (F : Num) (q : rule) (N index : Z) : outcome (T F) :=
  match q with
  | QuadratureGaussLegendre => legendre_weight_rt F N index
  | QuadratureGaussLobatto => lobatto_weight_rt F N index
  end.
Definition weight_ct (F : Num) (q : rule) (N INDEX : Z) : outcome (T F) :=
  match q with
  | QuadratureGaussLegendre => legendre_weight_ct F N INDEX
  | QuadratureGaussLobatto => lobatto_weight_ct F N INDEX
  end.
