(** Model of include/shiva/geometry/shapes/NCube.hpp and NSimplex.hpp.  Template
    arguments: dimension [N], integer bounds [MIN], [MAX] and [DIVISOR]. *)
From Verif Require Import Base Num ModelMath.
Open Scope Z_scope.

(** NCube.hpp:49-50 and NSimplex.hpp:49-50, class-level [static_assert]s. *)
Definition bounds_ok (MIN MAX DIVISOR : Z) : outcome unit :=
  if (MIN <? MAX) && (0 <? DIVISOR) then Ok tt else IllFormed.

(** NCube.hpp:75-80, [numMCubes<M>()]:
    [pow<int,N-M>(2) * factorial<N> / ( factorial<M> * factorial<N-M> )]; [*] and [/]
    associate to the left.  The factorials are constants of the program and are
    computed first. *)
Definition numMCubes (N M : Z) : outcome Z :=
  if M <=? N then
    NmM <- constexpr_ (isub N M) ;;
    fN <- factorial N ;;
    fM <- factorial M ;;
    fNM <- factorial NmM ;;
    p <- pow_int NmM 2 ;;
    x <- imul p fN ;;
    d <- imul fM fNM ;;
    idiv x d
  else IllFormed.

(** NCube.hpp:86-89, 95-105, 111-121, 127-137, 148-151. *)
Definition cube_numVertices (N : Z) : outcome Z := numMCubes N 0.
Definition cube_numEdges (N : Z) : outcome Z := if 0 <? N then numMCubes N 1 else Ok 0.
Definition cube_numFaces (N : Z) : outcome Z := if 1 <? N then numMCubes N 2 else Ok 0.
Definition cube_numCells (N : Z) : outcome Z := if 2 <? N then numMCubes N 3 else Ok 0.
Definition cube_numHyperFaces (N : Z) : outcome Z := imul 2 N.

(** NSimplex.hpp:72-77, [numMSimplexes<M>()]. *)
Definition numMSimplexes (N M : Z) : outcome Z :=
  if M <=? N then
    N1 <- constexpr_ (iadd N 1) ;; M1 <- constexpr_ (iadd M 1) ;;
    binomialCoefficient N1 M1
  else IllFormed.

(** NSimplex.hpp:83-86, 92-102, 108-118, 124-134, 145-148. *)
Definition simplex_numVertices (N : Z) : outcome Z := numMSimplexes N 0.
Definition simplex_numEdges (N : Z) : outcome Z := if 0 <? N then numMSimplexes N 1 else Ok 0.
Definition simplex_numFaces (N : Z) : outcome Z := if 1 <? N then numMSimplexes N 2 else Ok 0.
Definition simplex_numCells (N : Z) : outcome Z := if 2 <? N then numMSimplexes N 3 else Ok 0.
Definition simplex_numHyperFaces (N : Z) : outcome Z :=
  N1 <- constexpr_ (isub N 1) ;; numMSimplexes N N1.

Section Geometry.
Context (F : Num) (MIN MAX DIVISOR : Z).

(** NCube.hpp:156-159 and NSimplex.hpp:153-156. *)
Definition minCoord : outcome (T F) :=
  _ <- bounds_ok MIN MAX DIVISOR ;; ndiv F (nofZ F MIN) (nofZ F DIVISOR).
(** NCube.hpp:164-167 and NSimplex.hpp:161-164. *)
Definition maxCoord : outcome (T F) :=
  _ <- bounds_ok MIN MAX DIVISOR ;; ndiv F (nofZ F MAX) (nofZ F DIVISOR).
(** NCube.hpp:174-177 and NSimplex.hpp:171-174; [MAX - MIN] is an [int] subtraction. *)
Definition length_ : outcome (T F) :=
  _ <- bounds_ok MIN MAX DIVISOR ;;
  d <- isub MAX MIN ;; ndiv F (nofZ F d) (nofZ F DIVISOR).

(** NCube.hpp:199-211, [volumeHelper<DIM>()]: [length() * volumeHelper<DIM-1>()]. *)
Fixpoint cube_volumeHelper (DIM : nat) : outcome (T F) :=
  match DIM with
  | O => Ok (nofZ F 1)
  | S DIM' => l <- length_ ;; v <- cube_volumeHelper DIM' ;; Ok (nmul F l v)
  end.
(** NCube.hpp:184-190, [volume()], enabled only for DIM > 0. *)
Definition cube_volume (N : Z) : outcome (T F) :=
  if 0 <? N then cube_volumeHelper (Z.to_nat N) else IllFormed.

(** NSimplex.hpp:196-208, [length() / DIM * volumeHelper<DIM-1>()]. *)
Fixpoint simplex_volumeHelper (DIM : nat) : outcome (T F) :=
  match DIM with
  | O => Ok (nofZ F 1)
  | S DIM' =>
      l <- length_ ;; q <- ndiv F l (nofZ F (Z.of_nat DIM)) ;;
      v <- simplex_volumeHelper DIM' ;; Ok (nmul F q v)
  end.
(** NSimplex.hpp:181-187. *)
Definition simplex_volume (N : Z) : outcome (T F) :=
  if 0 <? N then simplex_volumeHelper (Z.to_nat N) else IllFormed.
End Geometry.
