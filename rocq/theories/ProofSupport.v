(** Proofs about the loop over the support points of a tensor-product basis. *)
From Verif Require Import Base Num SpecIndex ModelSequence ModelLagrange ModelBasisProduct SpecNumeric SpecBasis
  ProofBase ProofBox ProofIndex ProofTensor.
From Coq Require Import Reals.
Open Scope Z_scope.

Lemma counts_of (F : Num) (bases : list (basis F)) ns : Forall2 (fun b n => numSupportPoints b = Ok n /\ 0 <= n) bases ns ->
  supportCounts F bases = Ok ns /\ Forall (fun n => 0 <= n) ns.
Proof.
  unfold supportCounts. induction 1 as [|b n bs ns (E & H) _ (IH & IP)]; cbn; [auto|].
  rewrite E. cbn [bind]. rewrite IH. cbn [bind]. auto.
Qed.
Lemma loop_lemma (F : Num) S (bases : list (basis F)) ns (f : list Z -> S -> outcome S) s E :
  bases <> [] -> Forall2 (fun b n => numSupportPoints b = Ok n /\ 0 <= n) bases ns ->
  LexEnum (repeat 0 (length ns)) ns E ->
  supportLoop F bases f s = foldM f E s /\
  (forall geomDims, shape_supportLoop F geomDims bases f s =
     if Z.of_nat (length bases) =? geomDims then foldM f E s else IllFormed).
Proof.
  intros Hb H HE. destruct (counts_of F _ _ H) as (C & P).
  assert (A : supportLoop F bases f s = foldM f E s).
  { unfold supportLoop. rewrite C. cbn [bind]. apply forNestedSequence_lemma; [|assumption..].
    intros ->. inversion H; subst; congruence. }
  split; [exact A|]. intros D. unfold shape_supportLoop, shape_ok, numDims. destruct (_ =? D); [exact A|reflexivity].
Qed.
Lemma sum_lemma ds xi : Forall Nodal ds -> (length ds <= length xi)%nat ->
  BoxSum (counts ds) (fun t => tensor ds t xi) = 1%R.
Proof. intros HN Hl. now apply tensor_unity. Qed.
