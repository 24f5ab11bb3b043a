(** Properties C47-C50: face counts, coordinates and volumes of NCube and NSimplex. *)
From Verif Require Import Base Num ModelMath ModelShapes SpecMath ProofCount ProofShapes.
From Coq Require Import Reals Factorial QArith.
Open Scope Z_scope.

(** C47. *)
Theorem C47_cube_face_counts : forall N M, is_int N -> is_int M ->
  forall v, numMCubes N M = Ok v -> Count (CubeFace N M) v.
Proof. exact numMCubes_counts. Qed.
Print Assumptions C47_cube_face_counts.

Theorem C47_cube_named_counts : forall N, is_int N -> 0 <= N ->
  (forall v, cube_numVertices N = Ok v -> Count (CubeFace N 0) v) /\
  (forall v, cube_numEdges N = Ok v -> Count (CubeFace N 1) v) /\
  (forall v, cube_numFaces N = Ok v -> Count (CubeFace N 2) v) /\
  (forall v, cube_numCells N = Ok v -> Count (CubeFace N 3) v) /\
  (forall v, cube_numHyperFaces N = Ok v -> Count (CubeFace N (N - 1)) v) /\
  (2 * N <= INT_MAX -> exists v, cube_numHyperFaces N = Ok v).
Proof. exact cube_counters_lemma. Qed.
Print Assumptions C47_cube_named_counts.

Example C47_witness : numMCubes 4 2 = Ok 24 /\ cube_numCells 2 = Ok 0 /\ cube_numHyperFaces 3 = Ok 6.
Proof. repeat split. Qed.

(** C48.  Exactly when a count is defined ... *)
Theorem C48_cube_counts_defined : forall N M, is_int N -> is_int M ->
  ((exists v, numMCubes N M = Ok v) <->
   0 <= M <= N /\ N <= 12 /\ 2 ^ (N - M) * Z.of_nat (fact (Z.to_nat N)) <= INT_MAX) /\
  (~ (0 <= M <= N /\ N <= 12) -> numMCubes N M = IllFormed) /\
  (0 <= M <= N -> N <= 12 -> INT_MAX < 2 ^ (N - M) * Z.of_nat (fact (Z.to_nat N)) ->
     numMCubes N M = UB IntOverflow).
Proof. exact numMCubes_defined. Qed.
Print Assumptions C48_cube_counts_defined.

(** ... which is not whenever it fits an int: 1024 vertices, and an overflow. *)
Theorem C48_cube_counts_fit_refuted : exists N M n, 0 <= M <= N /\ N <= 12 /\
  Count (CubeFace N M) n /\ n <= INT_MAX /\ cube_numVertices N = UB IntOverflow /\ M = 0.
Proof. exact cube_counts_fit_refuted. Qed.
Print Assumptions C48_cube_counts_fit_refuted.

Theorem C48_cube_counts_accepted_refuted : exists N, 0 <= N /\
  Count (CubeFace N 0) (2 ^ N) /\ 2 ^ N <= INT_MAX /\ cube_numVertices N = IllFormed.
Proof. exact cube_counts_reject_refuted. Qed.
Print Assumptions C48_cube_counts_accepted_refuted.

(** C49. *)
Theorem C49_simplex_face_counts : forall N M, is_int N -> is_int M ->
  (forall v, numMSimplexes N M = Ok v -> Count (SimplexFace N M) v) /\
  ((exists v, numMSimplexes N M = Ok v) <-> -1 <= M <= N /\ N <= 11) /\
  (~ (-1 <= M <= N /\ N <= 11) -> numMSimplexes N M = IllFormed).
Proof. exact numMSimplexes_lemma. Qed.
Print Assumptions C49_simplex_face_counts.

Theorem C49_simplex_named_counts : forall N, is_int N -> 0 <= N ->
  (forall v, simplex_numVertices N = Ok v -> Count (SimplexFace N 0) v) /\
  (forall v, simplex_numEdges N = Ok v -> Count (SimplexFace N 1) v) /\
  (forall v, simplex_numFaces N = Ok v -> Count (SimplexFace N 2) v) /\
  (forall v, simplex_numCells N = Ok v -> Count (SimplexFace N 3) v) /\
  (forall v, simplex_numHyperFaces N = Ok v -> Count (SimplexFace N (N - 1)) v) /\
  (N <= 11 -> (exists v, simplex_numVertices N = Ok v) /\ (exists v, simplex_numEdges N = Ok v) /\
              (exists v, simplex_numFaces N = Ok v) /\ (exists v, simplex_numCells N = Ok v) /\
              (exists v, simplex_numHyperFaces N = Ok v)) /\
  (12 <= N -> simplex_numVertices N = IllFormed).
Proof. exact simplex_counters_lemma. Qed.
Print Assumptions C49_simplex_named_counts.

Example C49_witness : numMSimplexes 4 2 = Ok 10 /\ simplex_numCells 2 = Ok 0 /\
  simplex_numHyperFaces 3 = Ok 4 /\ simplex_numVertices 12 = IllFormed.
Proof. repeat split. Qed.

(** C50. *)
Theorem C50_coordinates_and_volume : forall N MIN MAX DIVISOR, MIN < MAX -> 0 < DIVISOR ->
  minCoord RNum MIN MAX DIVISOR = Ok (IZR MIN / IZR DIVISOR)%R /\
  maxCoord RNum MIN MAX DIVISOR = Ok (IZR MAX / IZR DIVISOR)%R /\
  (MAX - MIN <= INT_MAX ->
    (exists l, length_ RNum MIN MAX DIVISOR = Ok l /\
      l = (IZR MAX / IZR DIVISOR - IZR MIN / IZR DIVISOR)%R /\
      (0 < N -> cube_volume RNum MIN MAX DIVISOR N = Ok (l ^ Z.to_nat N)%R /\
         simplex_volume RNum MIN MAX DIVISOR N = Ok (l ^ Z.to_nat N / INR (fact (Z.to_nat N)))%R /\
         forall V, SimplexVolume (Z.to_nat N) V -> simplex_volume RNum MIN MAX DIVISOR N = Ok (V l)))) /\
  (INT_MAX < MAX - MIN -> length_ RNum MIN MAX DIVISOR = UB IntOverflow) /\
  (N <= 0 -> cube_volume RNum MIN MAX DIVISOR N = IllFormed /\ simplex_volume RNum MIN MAX DIVISOR N = IllFormed).
Proof. exact volume_lemma. Qed.
Print Assumptions C50_coordinates_and_volume.

Theorem C50_bad_bounds_rejected : forall MIN MAX DIVISOR, ~ (MIN < MAX /\ 0 < DIVISOR) ->
  minCoord RNum MIN MAX DIVISOR = IllFormed /\ maxCoord RNum MIN MAX DIVISOR = IllFormed /\
  length_ RNum MIN MAX DIVISOR = IllFormed.
Proof. exact bad_bounds_lemma. Qed.
Print Assumptions C50_bad_bounds_rejected.

Example C50_witness :
  cube_volume QNum (-1) 2 2 3 = Ok (27 # 8)%Q /\ simplex_volume QNum (-1) 2 2 3 = Ok (9 # 16)%Q /\
  length_ QNum (-2000000000) 2000000000 1 = UB IntOverflow /\
  (forall n, exists V, SimplexVolume n V).
Proof. split; [reflexivity|]. split; [reflexivity|]. split; [reflexivity|]. exact SimplexVolume_exists. Qed.
