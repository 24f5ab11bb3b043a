(** C97: what is computed does not depend on where it is compiled and evaluated, nor on the
    bounds checks, as long as the buffers have the sizes of their types. *)
From Verif Require Import Base Num ModelAssert ModelCArray ModelIndex ModelSequence ModelLagrange ModelSpacing
  ModelBasisProduct ModelMath ModelTransforms SpecIndex SpecCArray ProofBase ProofBox ProofIndex ProofCArray ProofRep ProofTensor ProofTransform.
Open Scope Z_scope.

(** Two computations with the same outcome, whose normal results satisfy [P]. *)
Definition Same {A} (P : A -> Prop) (o o' : outcome A) : Prop := o = o' /\ forall a, o = Ok a -> P a.

Lemma Same_refl {A} (o : outcome A) : Same (fun a => o = Ok a) o o.
Proof. split; auto. Qed.
Lemma Same_bind {A B} (P : A -> Prop) (Q : B -> Prop) o o' (k k' : A -> outcome B) :
  Same P o o' -> (forall a, P a -> Same Q (k a) (k' a)) -> Same Q (bind o k) (bind o' k').
Proof.
  intros (<- & H) HK. destruct o as [a| | | |]; cbn [bind]; try (split; [reflexivity|discriminate]).
  apply HK. now apply H.
Qed.
Lemma Same_bind1 {A B} (Q : B -> Prop) (o : outcome A) (k k' : A -> outcome B) :
  (forall a, o = Ok a -> Same Q (k a) (k' a)) -> Same Q (bind o k) (bind o k').
Proof. intros H. eapply Same_bind; [apply Same_refl|exact H]. Qed.
Lemma Same_fold {B S} (P : S -> Prop) (f g : B -> S -> outcome S) l : forall s, P s ->
  (forall x s, In x l -> P s -> Same P (f x s) (g x s)) -> Same P (foldM f l s) (foldM g l s).
Proof.
  induction l as [|x l IH]; intros s Hs H; cbn [foldM].
  - split; [reflexivity|]. intros a E. injection E as <-. exact Hs.
  - eapply Same_bind; [apply H; [left; reflexivity|exact Hs]|]. intros s' Hs'. apply IH; [exact Hs'|].
    intros; apply H; [right; assumption|assumption].
Qed.
Lemma Same_nested {S} (P : S -> Prop) ns (f g : list Z -> S -> outcome S) s :
  ns <> [] -> Forall (fun n => 0 < n) ns -> P s ->
  (forall t s, InRange ns t -> P s -> Same P (f t s) (g t s)) ->
  Same P (forNestedSequence ns f s) (forNestedSequence ns g s).
Proof.
  intros Hne Hp Hs H.
  assert (Hp' : Forall (fun e => 0 <= e) ns) by (eapply Forall_impl; [|exact Hp]; intros a; simpl; lia).
  rewrite !(forNestedSequence_lemma ns _ s (zbox ns)) by (first [assumption|apply box_LexEnum]).
  apply Same_fold; [exact Hs|]. intros t s' Ht. apply in_zbox in Ht. now apply H.
Qed.
Lemma Same_sequence {S} (P : S -> Prop) n (f g : Z -> S -> outcome S) s : 0 <= n -> P s ->
  (forall i s, 0 <= i < n -> P s -> Same P (f i s) (g i s)) ->
  Same P (forSequence n f s) (forSequence n g s).
Proof.
  intros Hn Hs H. rewrite !forSequence_lemma by lia. apply Same_fold; [exact Hs|].
  intros i s1 Hi Hs1. apply in_zseq in Hi. apply H; [lia|exact Hs1].
Qed.

Section Ctx.
Context (N : Num) (c c' : ctx).
Notation A := (T N).
Notation sized n := (fun m : list A => buflen m = n).

Lemma Same_fetch a p t (mem : list A) : view_ok (buflen mem) a -> InRange (dims a) t -> path_ok p a ->
  Same (fun _ => True) (fetch c a p t mem) (fetch c' a p t mem).
Proof.
  intros Hv Ht Hp. destruct (fetch_ok c a p t mem Hv Ht Hp) as (x & -> & E).
  destruct (fetch_ok c' a p t mem Hv Ht Hp) as (y & -> & E'). split; [congruence|auto].
Qed.
Lemma Same_put a p t (x : A) mem : view_ok (buflen mem) a -> InRange (dims a) t -> path_ok p a -> is_writable a = true ->
  Same (sized (buflen mem)) (put c a p t x mem) (put c' a p t x mem).
Proof.
  intros Hv Ht Hp Hw. rewrite !put_ok by assumption. split; [reflexivity|]. intros m E. injection E as <-.
  unfold buflen. rewrite ProofBase.upd_length. reflexivity.
Qed.

Lemma Same_putn n a p t (x : A) mem : buflen mem = n -> view_ok (buflen mem) a -> InRange (dims a) t -> path_ok p a ->
  is_writable a = true -> Same (sized n) (put c a p t x mem) (put c' a p t x mem).
Proof. intros <-. apply Same_put. Qed.

(** The reference-argument inverse, for every view of at least 3x3 elements. *)
Lemma inverse_same a n1 n2 (mem : list A) : view_ok (buflen mem) a -> dims a = [n1; n2] -> 3 <= n1 -> 3 <= n2 ->
  is_writable a = true -> Same (fun r => buflen (fst r) = buflen mem) (inverse_a N c a mem) (inverse_a N c' a mem).
Proof.
  intros Hv Hd H1 H2 Hw.
  assert (HR : forall i j, 0 <= i < 3 -> 0 <= j < 3 -> InRange (dims a) [i; j])
    by (intros i j Hi Hj; rewrite Hd; apply InRange2; exists i, j; repeat split; lia).
  assert (Hp : path_ok by_paren a) by apply Nat.le_0_l.
  assert (RF : forall i j (m : list A), 0 <= i < 3 -> 0 <= j < 3 -> buflen m = buflen mem ->
     Same (fun _ => True) (fetch c a by_paren [i; j] m) (fetch c' a by_paren [i; j] m)).
  { intros i j m Hi Hj Hm. apply Same_fetch; [rewrite Hm; exact Hv|now apply HR|exact Hp]. }
  assert (RP : forall i j (x : A) m, 0 <= i < 3 -> 0 <= j < 3 -> buflen m = buflen mem ->
     Same (sized (buflen mem)) (put c a by_paren [i; j] x m) (put c' a by_paren [i; j] x m)).
  { intros i j x m Hi Hj Hm. apply Same_putn; [exact Hm|rewrite Hm; exact Hv|now apply HR|exact Hp|exact Hw]. }
  unfold inverse_a, inverse_body.
  repeat first
    [ eapply Same_bind; [apply RF; [lia|lia|first [reflexivity|eassumption]]|intros ? _]
    | eapply Same_bind; [apply RP; [lia|lia|first [reflexivity|eassumption]]|intros ? ?]
    | apply Same_bind1; intros ? _
    | progress cbv beta zeta ].
  split; [reflexivity|]. intros r E. injection E as <-. cbn [fst]. assumption.
Qed.

Section Linear.
Context (gd : Z) (bases : list (basis N)) (ns : list Z) (mem : list A).
Notation dim := (numDims N bases).
Context (Hne : bases <> []) (Hs : supportCounts N bases = Ok ns).
Context (Hv : view_ok (buflen mem) (owning (ns ++ [dim]))) (Hdd : pos_dims [dim; dim]).

Lemma ns_pos : ns <> [] /\ Forall (fun n => 0 < n) ns.
Proof.
  split.
  - intros ->. destruct bases as [|b bs]; [congruence|]. unfold supportCounts in Hs. cbn [map sequenceM] in Hs.
    apply bind_Ok in Hs. destruct Hs as (x & _ & E). apply bind_Ok in E. destruct E as (y & _ & E). discriminate.
  - destruct Hv as ((_ & Hp & _) & _). cbn [dims owning] in Hp. apply Forall_app in Hp. tauto.
Qed.
Lemma dim_pos : 0 < dim. Proof. destruct Hdd as (_ & H & _). now inversion H. Qed.
Lemma dim_int : dim <= INT_MAX.
Proof. pose proof dim_pos. destruct Hdd as (_ & _ & H0). unfold prodZ in H0. cbn [fold_right] in H0. nia. Qed.

Lemma gradient_len indices xi g : product_gradient N bases indices xi = Ok g -> buflen g = dim.
Proof.
  pose proof dim_pos. pose proof dim_int.
  unfold product_gradient. destruct (Nat.eqb _ _); [|discriminate]. unfold executeSequence. intros H1.
  apply bind_Ok in H1. destruct H1 as (idx & _ & H1). unfold execute, lambda_pack in H1.
  cbn [accepts call has_tmpl call_tmpl] in H1.
  assert (K : forall o, bind o (fun cs => list_init (nofZ N 0) [dim] cs) = Ok g -> buflen g = dim).
  { intros o E. apply bind_Ok in E. destruct E as (cs & _ & E). unfold list_init in E.
    rewrite CArrayNd_size_ok in E by (split; [discriminate|]; split; [repeat constructor; lia|unfold prodZ; cbn [fold_right]; lia]).
    cbn [bind] in E. destruct (Z.of_nat (length cs) <=? prodZ [dim]) eqn:El; [|discriminate]. injection E as <-.
    unfold buflen, prodZ in *. cbn [fold_right] in *. rewrite app_length, repeat_length. apply Z.leb_le in El. lia. }
  repeat match type of H1 with (if ?b then _ else _) = _ => destruct b; try discriminate end; exact (K _ H1).
Qed.
Lemma view_sq (J : list A) : buflen J = dim * dim -> view_ok (buflen J) (owning [dim; dim]).
Proof. intros E. rewrite E. split; [exact Hdd|]. cbn [base dims owning]. unfold prodZ; cbn [fold_right]. lia. Qed.
Lemma view_g (g : list A) : buflen g = dim -> view_ok (buflen g) (const_array [dim]).
Proof.
  intros E. pose proof dim_pos. pose proof dim_int. rewrite E.
  split; [split; [discriminate|]; split; [repeat constructor; lia|unfold prodZ; cbn [fold_right dims const_array]; lia]|].
  cbn [base dims const_array]. unfold prodZ; cbn [fold_right]. lia.
Qed.

(** The two loop bodies differ in [sw] only. *)
Lemma loop_same (sw : bool) sp g J : InRange ns sp -> buflen g = dim -> buflen J = dim * dim ->
  Same (sized (dim * dim))
    (forNestedSequence [dim; dim] (fun ij J =>
      i <- rd ij 0 ;; j <- rd ij 1 ;;
      old <- fetch c (owning [dim; dim]) pp (if sw then [j; i] else [i; j]) J ;;
      d <- fetch c (const_array [dim]) pp [if sw then i else j] g ;;
      x <- fetch c (const_array (ns ++ [dim])) pp (sp ++ [if sw then j else i]) mem ;;
      put c (owning [dim; dim]) pp (if sw then [j; i] else [i; j]) (nadd N old (nmul N d x)) J) J)
    (forNestedSequence [dim; dim] (fun ij J =>
      i <- rd ij 0 ;; j <- rd ij 1 ;;
      old <- fetch c' (owning [dim; dim]) pp (if sw then [j; i] else [i; j]) J ;;
      d <- fetch c' (const_array [dim]) pp [if sw then i else j] g ;;
      x <- fetch c' (const_array (ns ++ [dim])) pp (sp ++ [if sw then j else i]) mem ;;
      put c' (owning [dim; dim]) pp (if sw then [j; i] else [i; j]) (nadd N old (nmul N d x)) J) J).
Proof.
  intros Hsp Hg HJ. pose proof dim_pos.
  apply Same_nested; [discriminate|repeat constructor; lia|exact HJ|]. clear J HJ. intros ij J Hij HJ.
  apply InRange2 in Hij. destruct Hij as (i & j & -> & Hi & Hj).
  assert (R0 : rd [i; j] 0 = Ok i) by reflexivity. assert (R1 : rd [i; j] 1 = Ok j) by reflexivity.
  rewrite R0, R1. cbn [bind].
  assert (RT : InRange [dim; dim] (if sw then [j; i] else [i; j])).
  { apply InRange2. destruct sw; [exists j, i|exists i, j]; auto. }
  eapply Same_bind; [apply Same_fetch; [now apply view_sq|exact RT|apply Nat.le_0_l]|]. intros old _.
  eapply Same_bind; [apply Same_fetch; [now apply view_g|cbn [dims const_array]; apply InRange1; destruct sw; eauto|apply Nat.le_0_l]|].
  intros d _.
  eapply Same_bind; [apply Same_fetch; [exact Hv|cbn [dims const_array]; apply InRange_app; [exact Hsp|destruct sw; assumption]|apply Nat.le_0_l]|].
  intros x _. apply Same_putn; [exact HJ|now apply view_sq|exact RT|apply Nat.le_0_l|reflexivity].
Qed.

Lemma point_same xi J : buflen J = dim * dim ->
  Same (sized (dim * dim)) (jacobian_point N c gd bases mem xi J) (jacobian_point N c' gd bases mem xi J).
Proof.
  intros HJ. unfold jacobian_point. rewrite Hs. cbn [bind]. unfold shape_supportLoop, supportLoop.
  apply Same_bind1. intros u _. rewrite Hs. cbn [bind]. destruct ns_pos as (Hn & Hp).
  apply Same_nested; [exact Hn|exact Hp|exact HJ|]. intros sp J1 Hsp HJ1.
  apply Same_bind1. intros g Hg. unfold shape_gradient in Hg. apply bind_Ok in Hg. destruct Hg as (u' & _ & Hg).
  exact (loop_same false sp g J1 Hsp (gradient_len _ _ _ Hg) HJ1).
Qed.
Lemma quadrature_same qcoord QA J : buflen J = dim * dim ->
  Same (sized (dim * dim)) (jacobian_quadrature N c gd bases qcoord QA mem J) (jacobian_quadrature N c' gd bases qcoord QA mem J).
Proof.
  intros HJ. unfold jacobian_quadrature. rewrite Hs. cbn [bind]. apply Same_bind1. intros qs _.
  apply Same_bind1. intros qc _. unfold shape_supportLoop, supportLoop.
  apply Same_bind1. intros u _. rewrite Hs. cbn [bind]. destruct ns_pos as (Hn & Hp).
  apply Same_nested; [exact Hn|exact Hp|exact HJ|]. intros sp J1 Hsp HJ1.
  apply Same_bind1. intros g Hg.
  assert (Hg' : shape_gradient N gd bases sp qc = Ok g) by (destruct (shape_gradient N gd bases sp qc); try discriminate; exact Hg).
  unfold shape_gradient in Hg'. apply bind_Ok in Hg'. destruct Hg' as (u' & _ & Hg').
  exact (loop_same true sp g J1 Hsp (gradient_len _ _ _ Hg') HJ1).
Qed.
Lemma inverse_point_same xi J : dim = 3 -> buflen J = dim * dim ->
  Same (fun r => buflen (fst r) = dim * dim) (inverseJacobian_point N c gd bases mem xi J) (inverseJacobian_point N c' gd bases mem xi J).
Proof.
  intros H3 HJ. unfold inverseJacobian_point. eapply Same_bind; [now apply point_same|]. intros J1 HJ1.
  rewrite <- HJ1. apply (inverse_same _ dim dim); [now apply view_sq|reflexivity|lia|lia|reflexivity].
Qed.
Lemma zero_len J : list_init (nofZ N 0) [dim; dim] [nofZ N 0] = Ok J -> buflen J = dim * dim.
Proof.
  intros E. pose proof dim_pos. rewrite list_init_ok in E by
    (first [exact Hdd|unfold prodZ; cbn [fold_right length]; nia]). injection E as <-.
  unfold buflen. unfold prodZ. cbn [fold_right app length]. rewrite repeat_length. nia.
Qed.
Lemma wrapper_same xi : jacobian_wrapper N c gd bases mem xi = jacobian_wrapper N c' gd bases mem xi.
Proof.
  unfold jacobian_wrapper. destruct (Nat.eqb _ _); [|reflexivity].
  apply (Same_bind1 (fun _ => True)). intros J HJ. destruct (point_same xi J (zero_len J HJ)) as (E & _). split; auto.
Qed.
Lemma inverse_wrapper_same xi : dim = 3 ->
  inverseJacobian_wrapper N c gd bases mem xi = inverseJacobian_wrapper N c' gd bases mem xi.
Proof.
  intros H3. unfold inverseJacobian_wrapper. destruct (Nat.eqb _ _); [|reflexivity].
  apply (Same_bind1 (fun _ => True)). intros J HJ. destruct (inverse_point_same xi J H3 (zero_len J HJ)) as (-> & _). split; auto.
Qed.
End Linear.

(** Gradient of an interpolated variable. *)
Lemma parent_gradient_same gd (bases : list (basis N)) ns var xi :
  bases <> [] -> supportCounts N bases = Ok ns -> Forall (fun n => 0 < n) ns -> numDims N bases <= 3 ->
  parent_gradient N c gd bases var xi = parent_gradient N c' gd bases var xi.
Proof.
  intros Hne Hs Hp H3. set (dim := numDims N bases) in *.
  assert (Hd : 0 < dim) by (unfold dim, numDims; destruct bases; [congruence|cbn [length]; lia]).
  assert (Hdd : pos_dims [dim; dim]).
  { split; [discriminate|]. split; [repeat constructor; lia|]. unfold prodZ; cbn [fold_right]. unfold INT_MAX. nia. }
  assert (Hd1 : pos_dims [dim]).
  { split; [discriminate|]. split; [repeat constructor; lia|]. unfold prodZ; cbn [fold_right]. unfold INT_MAX. lia. }
  assert (Hn : ns <> []).
  { intros ->. destruct bases as [|b bs]; [congruence|]. unfold supportCounts in Hs. cbn [map sequenceM] in Hs.
    apply bind_Ok in Hs. destruct Hs as (x & _ & E). apply bind_Ok in E. destruct E as (y & _ & E). discriminate. }
  unfold parent_gradient. fold dim. apply (Same_bind1 (sized dim)). intros u _. rewrite Hs. cbn [bind].
  apply Same_bind1. intros r0 E0.
  assert (L0 : buflen r0 = dim).
  { rewrite list_init_ok in E0 by (first [exact Hd1|unfold prodZ; cbn [fold_right length]; lia]). injection E0 as <-.
    unfold buflen, prodZ. cbn [fold_right app length]. rewrite repeat_length. lia. }
  apply Same_nested; [exact Hn|exact Hp|exact L0|]. intros sp r Hsp Hr.
  apply Same_bind1. intros g Hg. unfold parent_gradient_at in Hg. apply bind_Ok in Hg. destruct Hg as (u' & _ & Hg).
  pose proof (gradient_len bases Hdd sp xi g Hg) as Lg. fold dim in Lg.
  apply Same_sequence; [lia|exact Hr|]. intros a r1 Ha Hr1.
  assert (V : forall m : list A, buflen m = dim -> view_ok (buflen m) (owning [dim])).
  { intros m E. rewrite E. split; [exact Hd1|]. cbn [base dims owning]. unfold prodZ; cbn [fold_right]. lia. }
  assert (Ra : InRange [dim] [a]) by (apply InRange1; exists a; auto).
  eapply Same_bind; [apply Same_fetch; [now apply V|exact Ra|apply Nat.le_0_l]|]. intros x _.
  eapply Same_bind; [apply Same_fetch; [exact (view_g bases Hdd g Lg)|exact Ra|apply Nat.le_0_l]|]. intros y _.
  apply Same_bind1. intros w _. apply Same_putn; [exact Hr1|now apply V|exact Ra|apply Nat.le_0_l|reflexivity].
Qed.

(** Setting the vertices. *)
Lemma setData_same bases n0 n1 n2 coords mem :
  length bases = 3%nat -> supportCounts N bases = Ok [n0; n1; n2] -> view_ok (buflen mem) (owning [n0; n1; n2; 3]) ->
  exists M, forall fuel, (M <= fuel)%nat -> setData N c bases coords fuel mem = setData N c' bases coords fuel mem.
Proof.
  intros Hl Hns Hv. pose proof Hv as (Hpd & _). destruct Hpd as (_ & Hpos & Hprod).
  cbn [dims owning] in Hpos, Hprod.
  assert (Hn : 0 < n0 /\ 0 < n1 /\ 0 < n2).
  { inversion Hpos as [|? ? P0 Q0]; subst. inversion Q0 as [|? ? P1 Q1]; subst. inversion Q1; subst. auto. }
  destruct Hn as (P0 & P1 & P2).
  assert (Hbd : n0 <= INT_MAX /\ n1 <= INT_MAX /\ n2 <= INT_MAX).
  { unfold prodZ in Hprod. cbn [fold_right] in Hprod. rewrite Z.mul_1_r in Hprod.
    assert (1 <= n2 * 3) by lia. assert (1 <= n1 * (n2 * 3)) by nia. assert (n2 <= n1 * (n2 * 3)) by nia.
    assert (n1 <= n1 * (n2 * 3)) by nia. repeat split; nia. }
  assert (HD : numDims N bases = 3) by (unfold numDims; rewrite Hl; reflexivity).
  assert (L : forall d, exists M, forall fuel, (M <= fuel)%nat ->
    setData N d bases coords fuel mem =
     foldM (fun aa m => a <- rd aa 0 ;; b <- rd aa 1 ;; c2 <- rd aa 2 ;;
        forSequence 3 (fun i m =>
          x <- imul 2 b ;; y <- iadd a x ;; z <- imul 4 c2 ;; k <- iadd y z ;;
          v <- coords k i ;; put d (owning [n0; n1; n2; 3]) pp [a; b; c2; i] v m) m) (zbox [n0; n1; n2]) mem).
  { intros d. unfold setData. rewrite Hl. cbn [Nat.eqb]. rewrite Hns. cbn [bind]. rewrite HD. cbn [app].
    match goal with |- context [reading ?g] => set (body := g) end.
    destruct (forRange_lemma body [n0; n1; n2] [0; 0; 0] (zbox [n0; n1; n2])) as (M & HM).
    { discriminate. } { reflexivity. }
    { repeat constructor; tauto. } { repeat constructor; unfold INT_MIN; lia. } { apply box_LexEnum. }
    exists M. intros fuel Hf. rewrite (HM fuel mem Hf). destruct (foldM body (zbox [n0; n1; n2]) mem); reflexivity. }
  destruct (L c) as (M1 & E1). destruct (L c') as (M2 & E2). exists (Nat.max M1 M2). intros fuel Hf.
  rewrite E1, E2 by lia. apply (Same_fold (sized (buflen mem))); [reflexivity|]. intros t m Ht Hm.
  apply in_zbox, InRange3 in Ht. destruct Ht as (a & b & e & -> & Ha & Hb & He).
  assert (R0 : rd [a; b; e] 0 = Ok a) by reflexivity. assert (R1 : rd [a; b; e] 1 = Ok b) by reflexivity.
  assert (R2 : rd [a; b; e] 2 = Ok e) by reflexivity. rewrite R0, R1, R2. cbn [bind].
  apply Same_sequence; [lia|exact Hm|]. intros i m1 Hi Hm1.
  do 5 (apply Same_bind1; intros ? _). apply Same_putn; [exact Hm1|rewrite Hm1; exact Hv| |apply Nat.le_0_l|reflexivity].
  cbn [dims owning]. repeat (constructor; [lia|]). constructor.
Qed.

(** The scalings. *)
Lemma scaling_same (h J : list A) : buflen J = 3 ->
  scaling_jacobian N c h J = scaling_jacobian N c' h J /\
  scaling_inverseJacobian N c h J = scaling_inverseJacobian N c' h J.
Proof.
  intros HJ.
  assert (V : forall m : list A, buflen m = 3 -> view_ok (buflen m) (owning [3])).
  { intros m ->. split; [|cbn [base dims owning]; unfold prodZ; cbn [fold_right]; lia].
    split; [discriminate|]. split; [repeat constructor|]. unfold prodZ, INT_MAX; cbn [fold_right dims owning]. lia. }
  assert (RP : forall i (x : A) m, 0 <= i < 3 -> buflen m = 3 ->
     Same (sized 3) (put c scaling_jacobian_array pp [i] x m) (put c' scaling_jacobian_array pp [i] x m)).
  { intros i x m Hi Hm. apply Same_putn; [exact Hm|now apply V| |apply Nat.le_0_l|reflexivity].
    cbn [dims owning scaling_jacobian_array]. apply InRange1. exists i. auto. }
  split.
  - enough (E : Same (fun _ => True) (scaling_jacobian N c h J) (scaling_jacobian N c' h J)) by apply E. unfold scaling_jacobian.
    repeat first [ eapply Same_bind; [apply RP; [lia|eassumption]|intros ? ?] | apply Same_bind1; intros ? _ | progress cbv zeta ].
    split; [|auto]. apply RP; [lia|assumption].
  - enough (E : Same (fun _ => True) (scaling_inverseJacobian N c h J) (scaling_inverseJacobian N c' h J)) by apply E.
    unfold scaling_inverseJacobian.
    repeat first [ eapply Same_bind; [apply RP; [lia|eassumption]|intros ? ?] | apply Same_bind1; intros ? _ | progress cbv zeta ].
    split; auto.
Qed.
Lemma uniform_same (h : A) (J : list A) : buflen J = 1 ->
  uniform_jacobian N c h J = uniform_jacobian N c' h J /\
  uniform_inverseJacobian N c h J = uniform_inverseJacobian N c' h J.
Proof.
  intros HJ.
  assert (V : view_ok (buflen J) (owning [1])).
  { rewrite HJ. split; [|cbn [base dims owning]; unfold prodZ; cbn [fold_right]; lia].
    split; [discriminate|]. split; [repeat constructor|]. unfold prodZ, INT_MAX; cbn [fold_right dims owning]. lia. }
  assert (RP : forall x, put c uniform_jacobian_array pp [0] x J = put c' uniform_jacobian_array pp [0] x J).
  { intros x. apply Same_put; [exact V| |apply Nat.le_0_l|reflexivity].
    cbn [dims owning uniform_jacobian_array]. apply InRange1. exists 0. split; [reflexivity|lia]. }
  split.
  - unfold uniform_jacobian. apply RP.
  - unfold uniform_inverseJacobian. destruct (ndiv N _ _); try reflexivity. cbn [bind]. rewrite RP. reflexivity.
Qed.
End Ctx.

Lemma inverse_jacobian_same (N : Num) c c' gd (bases : list (basis N)) ns mem xi J :
  length bases = 3%nat -> supportCounts N bases = Ok ns -> view_ok (buflen mem) (owning (ns ++ [3])) -> buflen J = 9 ->
  inverseJacobian_point N c gd bases mem xi J = inverseJacobian_point N c' gd bases mem xi J /\
  inverseJacobian_wrapper N c gd bases mem xi = inverseJacobian_wrapper N c' gd bases mem xi.
Proof.
  intros Hl Hs Hv HJ. assert (HD : numDims N bases = 3) by (unfold numDims; rewrite Hl; reflexivity).
  assert (Hne : bases <> []) by (intros ->; discriminate Hl).
  assert (Hdd : pos_dims [numDims N bases; numDims N bases]).
  { rewrite HD. split; [discriminate|]. split; [repeat constructor|]. cbn. discriminate. }
  rewrite <- HD in Hv. split.
  - apply (inverse_point_same N c c' gd bases ns mem Hne Hs Hv Hdd xi J HD). rewrite HD. exact HJ.
  - exact (inverse_wrapper_same N c c' gd bases ns mem Hne Hs Hv Hdd xi HD).
Qed.
Lemma sizes_matter : exists a (mem : list Z) c c', view_ok (buflen mem) a /\ dims a = [2; 2] /\
  (length mem = 4)%nat /\ fetch c a by_paren [2; 0] mem = Aborted /\ fetch c' a by_paren [2; 0] mem = UB OutOfBounds.
Proof.
  exists (owning [2; 2]), [1; 2; 3; 4], (host_runtime true), (host_runtime false).
  split; [split; [split; [discriminate|]; split; [repeat constructor|cbn; discriminate]|split; cbn; discriminate]|].
  repeat split; reflexivity.
Qed.
