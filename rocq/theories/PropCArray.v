(** Properties C01-C10, C55 and C63: arrays, views, slices, assertions. *)
From Verif Require Import Base SpecIndex ModelAssert ModelCArray SpecCArray ProofCArray.

(** C01.  Every access path (k brackets, then run-time or compile-time parentheses)
    designates, for an in-range tuple, the element at its row-major position. *)
Theorem C01_access_is_row_major : forall c n a p idx,
  view_ok n a -> InRange (dims a) idx -> path_ok p a ->
  exists lv k, access c n a p idx = Ok lv /\ RowMajorPos (dims a) idx k /\
    addr lv = base a + k /\ 0 <= k < prodZ (dims a).
Proof. exact row_major_lemma. Qed.
Print Assumptions C01_access_is_row_major.

Example C01_witness :
  view_ok 24 (owning [2; 3; 4]) /\ InRange [2; 3; 4] [1; 2; 3] /\
  access (host_runtime true) 24 (owning [2; 3; 4]) {| brackets := 1; last := Paren |} [1; 2; 3] =
    Ok {| addr := 23; writable := true |}.
Proof. split; [exact view_ok_234 | split; [exact inrange_234 | reflexivity]]. Qed.

(** C02. *)
Theorem C02_access_is_bijective : forall c n a p, view_ok n a -> path_ok p a ->
  (forall t u lv lv', InRange (dims a) t -> InRange (dims a) u ->
     access c n a p t = Ok lv -> access c n a p u = Ok lv' -> addr lv = addr lv' -> t = u) /\
  (forall k, base a <= k < base a + prodZ (dims a) ->
     exists t lv, InRange (dims a) t /\ access c n a p t = Ok lv /\ addr lv = k).
Proof. exact bijection_lemma. Qed.
Print Assumptions C02_access_is_bijective.

(** C03.  All access styles agree, with or without bounds checks, at run time or
    compile time, on host or device. *)
Theorem C03_access_styles_agree : forall c1 c2 n a p q idx,
  view_ok n a -> InRange (dims a) idx -> path_ok p a -> path_ok q a ->
  access c1 n a p idx = access c2 n a q idx /\ exists lv, access c1 n a p idx = Ok lv.
Proof. exact styles_agree_lemma. Qed.
Print Assumptions C03_access_styles_agree.

(** C04.  Run-time bounds checks abort exactly on the tuples out of range. *)
Theorem C04_bounds_check_exact : forall c n a p idx,
  runtime_checked c -> view_ok n a ->
  length idx = length (dims a) -> path_ok p a -> last p = Paren ->
  (access c n a p idx = Aborted <-> ~ InRange (dims a) idx) /\
  (InRange (dims a) idx -> exists lv, access c n a p idx = Ok lv).
Proof. exact bounds_check_lemma. Qed.
Print Assumptions C04_bounds_check_exact.

Example C04_witness :
  access (host_runtime true) 24 (owning [2; 3; 4]) {| brackets := 0; last := Paren |} [1; -1; 3] = Aborted
  /\ access (host_runtime true) 24 (owning [2; 3; 4]) {| brackets := 3; last := Paren |} [0; 2; 4] = Aborted.
Proof. split; reflexivity. Qed.

(** Compile-time indices are checked always, in every configuration. *)
Theorem C04_compile_time_bounds : forall c n a idx,
  view_ok n a -> length idx = length (dims a) -> ~ InRange (dims a) idx ->
  access c n a {| brackets := 0; last := ParenCT |} idx = IllFormed.
Proof. exact ct_bounds_lemma. Qed.
Print Assumptions C04_compile_time_bounds.

(** C05.  Unchecked access: undefined behaviour, or the element at the flat offset. *)
Theorem C05_unchecked_access : forall c n a idx,
  unchecked c -> view_ok n a -> length idx = length (dims a) ->
  let r := access c n a {| brackets := 0; last := Paren |} idx in
  (exists lv, r = Ok lv /\ addr lv = base a + flat_offset (dims a) idx /\ 0 <= addr lv < n) \/
  (exists f, r = UB f).
Proof. exact unchecked_any_lemma. Qed.
Print Assumptions C05_unchecked_access.

Theorem C05_unchecked_access_iff : forall c n a idx,
  unchecked c -> view_ok n a -> length idx = length (dims a) ->
  flat_offset_abs (dims a) idx <= INT_MAX ->
  let k := base a + flat_offset (dims a) idx in
  let r := access c n a {| brackets := 0; last := Paren |} idx in
  (0 <= k < n -> exists lv, r = Ok lv /\ addr lv = k) /\ (~ (0 <= k < n) -> r = UB OutOfBounds).
Proof. exact unchecked_lemma. Qed.
Print Assumptions C05_unchecked_access_iff.

(** "An out-of-range index is never silently accepted" is false without the check ... *)
Theorem C05_never_accepted_unchecked_refuted :
  exists c n a idx t lv, unchecked c /\ view_ok n a /\ length idx = length (dims a) /\
    ~ InRange (dims a) idx /\ InRange (dims a) t /\ t <> idx /\
    access c n a {| brackets := 0; last := Paren |} idx = Ok lv /\
    access c n a {| brackets := 0; last := Paren |} t = Ok lv.
Proof. exact alias_unchecked. Qed.
Print Assumptions C05_never_accepted_unchecked_refuted.

(** ... and also with the check compiled in, during constant evaluation. *)
Theorem C05_never_accepted_consteval_refuted :
  exists c n a idx lv, bounds_check c = true /\ const_eval c = true /\ view_ok n a /\
    length idx = length (dims a) /\ ~ InRange (dims a) idx /\
    access c n a {| brackets := 0; last := Paren |} idx = Ok lv.
Proof. exact alias_consteval. Qed.
Print Assumptions C05_never_accepted_consteval_refuted.

(** C06. *)
Theorem C06_shape : forall ds, ds <> [] -> Forall (fun d => 0 < d <= INT_MAX) ds ->
  rank ds = Z.of_nat (length ds) /\
  (forall k d, nth_error ds k = Some d -> extent (Z.of_nat k) ds = Ok d) /\
  (forall k, ~ (0 <= k < rank ds) -> extent k ds = IllFormed) /\
  (prodZ ds <= INT_MAX -> exists n, size ds = Ok n /\ CArrayNd_size ds = Ok n /\ CountInRange ds n) /\
  (INT_MAX < prodZ ds -> CArrayNd_size ds = IllFormed).
Proof. exact shape_lemma. Qed.
Print Assumptions C06_shape.

Example C06_witness : size [2; 3; 4] = Ok 24 /\ CArrayNd_size [65536; 65536] = IllFormed.
Proof. split; reflexivity. Qed.

(** C07. *)
Theorem C07_list_initialisation : forall (T : Type) c (zero : T) ds args, pos_dims ds ->
  (Z.of_nat (length args) <= prodZ ds ->
   exists mem, list_init zero ds args = Ok mem /\ buflen mem = prodZ ds /\
     forall idx r p, RowMajorPos ds idx r -> path_ok p (owning ds) ->
       fetch c (owning ds) p idx mem =
         Ok (match nth_error args (Z.to_nat r) with Some x => x | None => zero end)) /\
  (prodZ ds < Z.of_nat (length args) -> list_init zero ds args = IllFormed).
Proof. exact @list_init_lemma. Qed.
Print Assumptions C07_list_initialisation.

Example C07_witness :
  list_init 0 [2; 2] [10; 11; 12] = Ok [10; 11; 12; 0] /\ list_init 0 [2] [1; 2; 3] = IllFormed.
Proof. split; reflexivity. Qed.

(** C08.  A slice [a[i]] is a view [s] of exactly the elements a(i,..): same addresses,
    writes through it are seen through [a] at (i,t), and change nothing else, neither
    in [a] nor elsewhere in the buffer. *)
Theorem C08_slice : forall (T : Type) c (mem : list T) a i d ds,
  view_ok (buflen mem) a -> dims a = d :: ds -> ds <> [] -> 0 <= i < d ->
  exists s, bracket c (buflen mem) a i = Ok (inl s) /\ dims s = ds /\ view_ok (buflen mem) s /\
    (forall t p q, InRange ds t -> path_ok p s -> path_ok q a ->
       access c (buflen mem) s p t = access c (buflen mem) a q (i :: t)) /\
    (forall t p x mem', InRange ds t -> path_ok p s -> put c s p t x mem = Ok mem' ->
       forall q u, InRange (dims a) u -> path_ok q a -> u <> i :: t ->
         fetch c a q u mem' = fetch c a q u mem) /\
    (forall t p x mem', InRange ds t -> path_ok p s -> put c s p t x mem = Ok mem' ->
       forall q, path_ok q a -> fetch c a q (i :: t) mem' = Ok x) /\
    (forall t p x mem' k, InRange ds t -> path_ok p s -> put c s p t x mem = Ok mem' ->
       outside s k -> nth_error mem' k = nth_error mem k).
Proof. exact @slice_lemma. Qed.
Print Assumptions C08_slice.

Example C08_witness :
  bracket (host_runtime true) 24 (owning [2; 3; 4]) 1 =
    Ok (inl {| base := 12; dims := [3; 4]; elt_const := false; obj_const := false |}).
Proof. reflexivity. Qed.

(** C09. *)
Theorem C09_no_overflow : forall c ds n a p idx,
  view_ok n a -> dims a = ds -> InRange ds idx -> path_ok p a ->
  (forall f, access c n a p idx <> UB f) /\
  (exists s, stride ds = Ok s) /\ (exists s, size ds = Ok s).
Proof. exact no_ub_lemma. Qed.
Print Assumptions C09_no_overflow.

Example C09_witness :
  view_ok 2147483647 (owning [2147483647]) /\ InRange [2147483647] [2147483646].
Proof. exact big_view. Qed.

(** C10.  Refinement: any history of in-range writes and reads, through any mixture of
    access paths, behaves like a function from tuples to values; the rest of the
    buffer is untouched. *)
Theorem C10_array_is_a_map : forall (T : Type) c a (ops : list (aop T)) mem (m0 : amap T),
  view_ok (buflen mem) a -> is_writable a = true -> Forall (op_ok a) ops ->
  (forall t p, InRange (dims a) t -> path_ok p a -> fetch c a p t mem = Ok (m0 t)) ->
  exists mem', run_ops c a ops mem = Ok (mem', snd (spec_run m0 ops)) /\
    (forall t p, InRange (dims a) t -> path_ok p a ->
       fetch c a p t mem' = Ok (fst (spec_run m0 ops) t)) /\
    length mem' = length mem /\
    (forall k, outside a k -> nth_error mem' k = nth_error mem k).
Proof. exact @history_lemma. Qed.
Print Assumptions C10_array_is_a_map.

Example C10_witness :
  run_ops (host_runtime true) (owning [2; 2])
    [OpPut {| brackets := 2; last := Paren |} [1; 0] 7;
     OpGet {| brackets := 0; last := ParenCT |} [1; 0];
     OpPut {| brackets := 1; last := ParenCT |} [1; 0] 9;
     OpGet {| brackets := 1; last := Paren |} [1; 0];
     OpGet {| brackets := 0; last := Paren |} [0; 1]] [1; 2; 3; 4]
  = Ok ([1; 2; 9; 4], [7; 9; 2]).
Proof. reflexivity. Qed.

(** C55. *)
Theorem C55_assertion_macro : forall c cond,
  (cond = true -> ASSERT_MSG c cond = Ok tt) /\
  (cond = false -> const_eval c = false -> ASSERT_MSG c cond = Aborted) /\
  (cond = false -> const_eval c = true -> tgt c <> DeviceCuda -> has_builtin c = true ->
     ASSERT_MSG c cond = Ok tt).
Proof. exact assert_lemma. Qed.
Print Assumptions C55_assertion_macro.

Theorem C55_assertion_failed : forall t callAbort,
  shivaAssertionFailed t callAbort = Aborted <-> (t <> Host \/ callAbort = true).
Proof. exact assertion_failed_lemma. Qed.
Print Assumptions C55_assertion_failed.

(** On a device the callAbort flag is ignored. *)
Theorem C55_callAbort_respected_refuted :
  exists t, shivaAssertionFailed t false = Aborted.
Proof. exact callAbort_ignored. Qed.
Print Assumptions C55_callAbort_respected_refuted.

(** C63.  Read-only arrays: no access path of an array of const elements, or of an
    array reached through a const reference, can be assigned to. *)
Theorem C63_const_correctness : forall (T : Type) c a p idx (x : T) mem,
  (elt_const a = true \/ obj_const a = true) ->
  (forall mem', put c a p idx x mem <> Ok mem') /\
  (view_ok (buflen mem) a -> InRange (dims a) idx -> path_ok p a ->
     put c a p idx x mem = IllFormed).
Proof. exact @const_lemma. Qed.
Print Assumptions C63_const_correctness.

Example C63_witness :
  put (host_runtime true) {| base := 0; dims := [2; 2]; elt_const := false; obj_const := true |}
    {| brackets := 1; last := Paren |} [1; 1] 5 [1; 2; 3; 4] = IllFormed.
Proof. reflexivity. Qed.
