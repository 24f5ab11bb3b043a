(** Properties C04 and C05 for every access path: some brackets, then run-time or compile-time
    parentheses.  C21 and C63 for small arrays and views.  With the check, access succeeds, aborts or does not compile exactly as the indices
    are in range; without it, it is undefined or reaches the element at the flat offset. *)
From Verif Require Import Base SpecIndex Num ModelAssert ModelCArray ModelMath SpecCArray ProofAccess.

(** C04.  [k] is the number of indices given at run time.  (The model meets the indices from left to
    right; a program whose compile-time indices are out of range is rejected whatever the others are.) *)
Theorem C04_any_path : forall c n a p idx,
  runtime_checked c -> view_ok n a -> length idx = length (dims a) -> path_ok p a ->
  let r := access c n a p idx in
  let k := match last p with Paren => length idx | ParenCT => brackets p end in
  ((exists lv, r = Ok lv) <-> InRange (dims a) idx) /\
  (r = Aborted <-> ~ InRange (firstn k (dims a)) (firstn k idx)) /\
  (r = IllFormed <-> InRange (firstn k (dims a)) (firstn k idx) /\ ~ InRange (skipn k (dims a)) (skipn k idx)).
Proof. exact any_path_checked. Qed.
Print Assumptions C04_any_path.

Example C04_any_path_witness :
  access (host_runtime true) 24 (owning [2; 3; 4]) {| brackets := 1; last := ParenCT |} [1; 2; 4] = IllFormed /\
  access (host_runtime true) 24 (owning [2; 3; 4]) {| brackets := 2; last := ParenCT |} [1; 3; 0] = Aborted /\
  access (host_runtime true) 24 (owning [2; 3; 4]) {| brackets := 2; last := ParenCT |} [1; 2; 3] =
    Ok {| addr := 23; writable := true |}.
Proof. repeat split. Qed.

(** C05. *)
Theorem C05_any_path : forall c n a p idx,
  unchecked c -> view_ok n a -> length idx = length (dims a) -> path_ok p a ->
  let r := access c n a p idx in
  (exists lv, r = Ok lv /\ addr lv = base a + flat_offset (dims a) idx /\ 0 <= addr lv < n) \/
  (exists f, r = UB f) \/
  (r = IllFormed /\ last p = ParenCT /\ ~ InRange (skipn (brackets p) (dims a)) (skipn (brackets p) idx)).
Proof. exact any_path_unchecked. Qed.
Print Assumptions C05_any_path.

Example C05_any_path_witness :
  access (host_runtime false) 24 (owning [2; 3; 4]) {| brackets := 2; last := Paren |} [0; 4; 1] =
    Ok {| addr := 17; writable := true |} /\
  access (host_runtime false) 24 (owning [2; 3; 4]) {| brackets := 1; last := Paren |} [2; -1; 1] = UB OutOfBounds.
Proof. split; reflexivity. Qed.

(** C21.  Without bounds checks the inverse of a 2x2 array that is part of a larger buffer returns
    normally after overwriting elements of the buffer outside the array. *)
Theorem C21_small_overwrites_neighbours_refuted : exists c a mem mem' d,
  unchecked c /\ dims a = [2; 2] /\ is_writable a = true /\ view_ok (buflen mem) a /\
  inverse_a QNum c a mem = Ok (mem', d) /\ ~ SameOutside a mem mem'.
Proof. exact small_inverse_overwrites. Qed.
Print Assumptions C21_small_overwrites_neighbours_refuted.

(** C63.  A view of a buffer: the element at the flat offset of the indices is read; it is assigned
    if the elements are not const, and the program does not compile if they are. *)
Theorem C63_views : forall (T : Type) c ds cst p idx (x : T) mem,
  pos_dims ds -> buflen mem = prodZ ds -> InRange ds idx -> (brackets p <= length ds)%nat ->
  (cst = true -> put c (view_of ds cst) p idx x mem = IllFormed) /\
  (cst = false -> put c (view_of ds cst) p idx x mem = Ok (upd mem (Z.to_nat (flat_offset ds idx)) x)) /\
  (exists y, fetch c (view_of ds cst) p idx mem = Ok y /\ nth_error mem (Z.to_nat (flat_offset ds idx)) = Some y).
Proof. exact @view_lemma. Qed.
Print Assumptions C63_views.

Example C63_views_witness :
  put (host_runtime true) (view_of [2; 2] true) {| brackets := 1; last := Paren |} [1; 0] 5 [1; 2; 3; 4] = IllFormed /\
  put (host_runtime true) (view_of [2; 2] false) {| brackets := 1; last := Paren |} [1; 0] 5 [1; 2; 3; 4] = Ok [1; 2; 5; 4].
Proof. split; reflexivity. Qed.
