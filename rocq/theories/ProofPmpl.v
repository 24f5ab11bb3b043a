(** pmpl: check, kernel wrappers, deallocateData. *)
From Verif Require Import Base Num ModelAssert ModelPmpl SpecPmpl.
From Coq Require Import Reals Lra.
Open Scope Z_scope.

Lemma Rsqr_lt (x y : R) : (x * x < y * y)%R <-> (Rabs x < Rabs y)%R.
Proof.
  change (x * x)%R with (Rsqr x). change (y * y)%R with (Rsqr y). split; intros H.
  - now apply Rsqr_lt_abs_0.
  - now apply Rsqr_lt_abs_1.
Qed.
Lemma check_lemma (a b tol : R) : check RNum a b tol = true <-> (Rabs (a - b) < Rabs tol)%R.
Proof.
  unfold check. cbn [nlt nmul nsub RNum]. rewrite <- Rsqr_lt.
  destruct (Rlt_dec ((a - b) * (a - b)) (tol * tol)) as [H|H]; split; intros; try discriminate; try contradiction; auto.
Qed.
Lemma check_sym_lemma (a b tol : R) : check RNum a b tol = check RNum b a tol /\ check RNum a b (- tol)%R = check RNum a b tol.
Proof.
  split; apply eq_true_iff_eq; rewrite !check_lemma.
  - now rewrite Rabs_minus_sym.
  - now rewrite Rabs_Ropp.
Qed.
Lemma check_zero_lemma (a b : R) : check RNum a b 0%R = false.
Proof.
  apply not_true_iff_false. rewrite check_lemma, Rabs_R0. pose proof (Rabs_pos (a - b)). lra.
Qed.

Section W.
Context {A : Type}.
Notation world := (@world A).
Notation oracle := (@oracle A).
Notation wrapper := (@genericKernelWrapper_data A).

Lemma host_lemma o N kernel a (w : world) h : kernel (host w) = Ok h ->
  exists w', wrapper NoDevice o N kernel a w = Ok (Returned, w') /\ host w' = h /\ blocks w' = blocks w /\
    log w' = log w ++ [ELaunch].
Proof. intros H. unfold genericKernelWrapper_data. rewrite H. eexists. split; [reflexivity|]. repeat split. Qed.

Lemma firstn_full {B} n (l : list B) : length l = n -> firstn n l = l.
Proof. intros <-. apply firstn_all. Qed.

Lemma skipn_skipn' (d : list A) : forall a b, skipn a (skipn b d) = skipn (a + b) d.
Proof.
  induction d as [|x d IH]; intros a b; [now rewrite !skipn_nil|].
  destruct b as [|b]; [now rewrite Nat.add_0_r|]. rewrite Nat.add_succ_r. cbn [skipn]. apply IH.
Qed.
Lemma skipn_blit n (s d : list A) : (n <= length d)%nat -> skipn n (blit n s d) = skipn n d.
Proof.
  intros H. unfold blit. rewrite skipn_app. rewrite (skipn_all2 (firstn n s)) by (rewrite firstn_length; lia).
  cbn [app]. rewrite skipn_skipn'. f_equal. rewrite firstn_length. lia.
Qed.
Lemma blit_length n (s d : list A) : (n <= length d)%nat -> length (blit n s d) = length d.
Proof. intros H. unfold blit. rewrite app_length, skipn_length, firstn_length. lia. Qed.

Lemma world_eq (v w : world) : host v = host w -> blocks v = blocks w -> fresh v = fresh w -> log v = log w -> v = w.
Proof. destruct v, w; cbn. intros -> -> -> ->. reflexivity. Qed.

Lemma device_lemma o N kernel a (w : world) : malloc_ok o = true -> 0 <= N <= Z.of_nat (length (host w)) ->
  (exists l', kernel (delivered o N w) = Ok l') \/ kernel (delivered o N w) = Aborted ->
  exists (e : ending) (w' : world) (err : bool),
    wrapper Cuda o N kernel a w = Ok (e, w') /\
    log w' = log w ++ [EMalloc (fresh w); ECopyIn (fresh w)] ++ (if launched o then [ELaunch] else []) ++
               [ESync; ECopyOut (fresh w); EFree (fresh w)] ++ (if err then [EPrint] else []) /\
    (err = true <-> sync_err o = true \/ (launched o = true /\ kernel (delivered o N w) = Aborted)) /\
    (e = ProcessAborted <-> err = true /\ a = true) /\
    (free_ok o = true -> blocks w' = blocks w) /\
    skipn (Z.to_nat N) (host w') = skipn (Z.to_nat N) (host w) /\ length (host w') = length (host w) /\
    fresh w' = S (fresh w) /\
    (no_failure o -> forall l', kernel (firstn (Z.to_nat N) (host w)) = Ok l' -> length l' = Z.to_nat N ->
       host w' = l' ++ skipn (Z.to_nat N) (host w)).
Proof.
  intros Hm HN Hk. unfold genericKernelWrapper_data, device_malloc. rewrite Hm.
  assert (E1 : (0 <=? N) = true) by lia. rewrite E1. cbn [andb].
  unfold copy_to_device. cbn [tick host]. assert (E2 : (Z.of_nat (length (host w)) <? N) = false) by lia. rewrite E2.
  unfold block. cbn [tick blocks lookup]. rewrite Nat.eqb_refl. cbn [bind].
  fold (delivered o N w). cbn [set_blocks tick blocks store host fresh log]. rewrite Nat.eqb_refl.
  unfold launch_and_sync, block. cbn [tick blocks lookup set_blocks]. rewrite Nat.eqb_refl. cbn [bind].
  set (err := sync_err o || (launched o && negb (is_ok (kernel (delivered o N w))))).
  set (l1 := if launched o then match kernel (delivered o N w) with Ok l' => l' | _ => trapped o end else delivered o N w).
  match goal with |- context [bind ?x _] => assert (E3 : x = Ok (err, l1)) end.
  { unfold err, l1. destruct (launched o); cbn [andb].
    - destruct Hk as [(l' & ->)| ->]; cbn [is_ok negb]; [now rewrite orb_false_r|now rewrite orb_true_r].
    - now rewrite orb_false_r. }
  rewrite E3. cbn [bind]. unfold copy_to_host, device_free, report, block.
  set (h := match copy_out o with None => blit (Z.to_nat N) l1 (host w) | Some junk => blit (Z.to_nat N) junk (host w) end).
  exists (if err && a then ProcessAborted else Returned).
  exists {| host := h; blocks := if free_ok o then blocks w else (fresh w, l1) :: blocks w; fresh := S (fresh w);
      log := log w ++ [EMalloc (fresh w); ECopyIn (fresh w)] ++ (if launched o then [ELaunch] else []) ++
               [ESync; ECopyOut (fresh w); EFree (fresh w)] ++ (if err then [EPrint] else []) |}.
  exists err.
  split.
  { clearbody l1 err. destruct (launched o); cbn -[blit Nat.eqb]; rewrite !Nat.eqb_refl; cbn -[blit Nat.eqb];
    rewrite !Nat.eqb_refl; cbn -[blit Nat.eqb]; rewrite !Nat.eqb_refl; unfold h; clear E3;
    destruct (free_ok o), err, a; cbn -[blit Nat.eqb]; rewrite ?Nat.eqb_refl; apply f_equal; apply f_equal;
    (apply world_eq; [reflexivity|reflexivity|reflexivity|cbn [log tick set_blocks set_host]; rewrite <- ?app_assoc; reflexivity]). }
  cbn [host blocks fresh log].
  split; [reflexivity|]. split; [|split; [|split; [|split; [|split; [|split]]]]].
  - unfold err. destruct (sync_err o), (launched o); cbn [andb orb]; (split; [intros H|intros [H|(H & H')]]); try discriminate; auto.
    + right. split; [reflexivity|]. destruct Hk as [(l' & E)|E]; rewrite E in H |- *; [discriminate|reflexivity].
    + rewrite H'. reflexivity.
  - destruct err, a; cbn; split; try discriminate; try tauto; intros (H1 & H2); discriminate.
  - intros ->. reflexivity.
  - unfold h. destruct (copy_out o); apply skipn_blit; lia.
  - unfold h. destruct (copy_out o); apply blit_length; lia.
  - reflexivity.
  - intros (F1 & F2 & F3 & F4 & F5 & F6) l' Hl' Hlen.
    unfold h. rewrite F5. unfold l1. rewrite F3. unfold delivered. rewrite F2, Hl'. unfold blit.
    rewrite (firstn_full _ _ Hlen), Hlen. reflexivity.
Qed.

Lemma device_success_lemma o N kernel a (w : world) l' : no_failure o -> 0 <= N <= Z.of_nat (length (host w)) ->
  kernel (firstn (Z.to_nat N) (host w)) = Ok l' -> length l' = Z.to_nat N ->
  exists w', wrapper Cuda o N kernel a w = Ok (Returned, w') /\
    host w' = l' ++ skipn (Z.to_nat N) (host w) /\ blocks w' = blocks w /\
    log w' = log w ++ [EMalloc (fresh w); ECopyIn (fresh w); ELaunch; ESync; ECopyOut (fresh w); EFree (fresh w)].
Proof.
  intros Hf HN Hk Hl. pose proof Hf as (F1 & F2 & F3 & F4 & F5 & F6).
  assert (Hd : delivered o N w = firstn (Z.to_nat N) (host w)) by (unfold delivered; now rewrite F2).
  destruct (device_lemma o N kernel a w F1 HN) as (e & w' & err & E & Hlog & Herr & He & Hb & _ & _ & _ & Hh).
  { left. rewrite Hd. eauto. }
  assert (err = false) as ->.
  { destruct err; [|reflexivity]. destruct Herr as (Herr & _). destruct (Herr eq_refl) as [H|(_ & H)]; [congruence|].
    rewrite Hd, Hk in H. discriminate. }
  assert (e = Returned) as -> by (destruct e; [reflexivity|]; destruct (proj1 He eq_refl); discriminate).
  exists w'. split; [exact E|]. split; [now apply Hh|]. split; [now apply Hb|]. rewrite Hlog, F3. reflexivity.
Qed.

Lemma history_lemma (calls : list (oracle * Z * (list A -> outcome (list A)) * bool)) : forall w,
  Forall (fun '(o, N, kernel, _) => no_failure o /\ 0 <= N <= Z.of_nat (length (host w)) /\ Within N kernel) calls ->
  exists wd wh, run_all Cuda calls w = Ok (Returned, wd) /\ run_all NoDevice calls w = Ok (Returned, wh) /\
    host wd = host wh /\ blocks wd = blocks w.
Proof.
  assert (G : forall w1 w2 : world, host w1 = host w2 ->
    Forall (fun '(o, N, kernel, _) => no_failure o /\ 0 <= N <= Z.of_nat (length (host w1)) /\ Within N kernel) calls ->
    exists wd wh, run_all Cuda calls w1 = Ok (Returned, wd) /\ run_all NoDevice calls w2 = Ok (Returned, wh) /\
    host wd = host wh /\ blocks wd = blocks w1).
  { induction calls as [|[[[o N] kernel] a] calls IH]; intros w1 w2 Hw H.
    - exists w1, w2. auto.
    - inversion H as [|? ? HH H']; subst. cbv beta iota in HH. destruct HH as (Hf & HN & Hk).
      destruct (Hk (host w1)) as (f & K1 & K2 & K3); [lia|].
      destruct (device_success_lemma o N kernel a w1 f Hf HN K1 K2) as (wd & E & Hd & Hb & _).
      assert (EH : wrapper NoDevice o N kernel a w2 = Ok (Returned, tick ELaunch (set_host (f ++ skipn (Z.to_nat N) (host w1)) w2))).
      { unfold genericKernelWrapper_data. rewrite <- Hw, K3. reflexivity. }
      cbn [run_all]. rewrite E, EH. cbn [bind].
      destruct (IH wd (tick ELaunch (set_host (f ++ skipn (Z.to_nat N) (host w1)) w2))) as (xd & xh & X1 & X2 & X3 & X4).
      + rewrite Hd. reflexivity.
      + assert (length (host wd) = length (host w1)) as -> by (rewrite Hd, app_length, skipn_length; lia). exact H'.
      + exists xd, xh. repeat split; [exact X1|exact X2|exact X3|congruence]. }
  intros w. now apply G.
Qed.

Lemma mallocs_app a b : mallocs (a ++ b) = mallocs a ++ mallocs b.
Proof. induction a as [|[] a IH]; cbn; congruence. Qed.
Lemma frees_app a b : frees (a ++ b) = frees a ++ frees b.
Proof. induction a as [|[] a IH]; cbn; congruence. Qed.

Lemma balanced_lemma (calls : list (oracle * Z * (list A -> outcome (list A)) * bool)) : forall (w : world) e w',
  run_all Cuda calls w = Ok (e, w') ->
  exists tr ps, log w' = log w ++ tr /\ mallocs tr = ps /\ frees tr = ps /\ NoDup ps /\
    (forall p, In p ps -> (fresh w <= p)%nat) /\
    (Forall (fun '(o, _, _, _) => free_ok o = true) calls -> blocks w' = blocks w).
Proof.
  assert (G : forall (w : world) e w', run_all Cuda calls w = Ok (e, w') ->
    exists tr n, log w' = log w ++ tr /\ mallocs tr = seq (fresh w) n /\ frees tr = seq (fresh w) n /\
      (Forall (fun '(o, _, _, _) => free_ok o = true) calls -> blocks w' = blocks w)).
  { induction calls as [|[[[o N] kernel] a] calls IH]; intros w e w' H.
    - injection H as _ <-. exists [], 0%nat. rewrite app_nil_r. auto.
    - cbn [run_all] in H. destruct (genericKernelWrapper_data Cuda o N kernel a w) as [[e1 w1]|? | | |] eqn:E; try discriminate.
      cbn [bind] in H.
      assert (D : exists err, log w1 = log w ++ [EMalloc (fresh w); ECopyIn (fresh w)] ++ (if launched o then [ELaunch] else []) ++
               [ESync; ECopyOut (fresh w); EFree (fresh w)] ++ (if err : bool then [EPrint] else []) /\ fresh w1 = S (fresh w) /\
               (free_ok o = true -> blocks w1 = blocks w)).
      { destruct (malloc_ok o && (0 <=? N)) eqn:Em.
        - destruct (Z.of_nat (length (host w)) <? N) eqn:El.
          + exfalso. unfold genericKernelWrapper_data, device_malloc, copy_to_device in E. rewrite Em in E.
            cbn [tick host] in E. rewrite El in E. discriminate.
          + apply andb_true_iff in Em. destruct Em as (Em & EN).
            destruct (launched o) eqn:ELA.
            * destruct (kernel (delivered o N w)) as [l'|f| | |] eqn:Ek.
              1,3: destruct (device_lemma o N kernel a w Em ltac:(lia)) as (e2 & w2 & err & E2 & Hlog & _ & _ & Hb & _ & _ & Hfr & _);
                [rewrite Ek; eauto|]; rewrite E in E2; injection E2 as <- <-; exists err; rewrite ELA in Hlog; auto.
              all: exfalso; unfold genericKernelWrapper_data, device_malloc, copy_to_device in E; rewrite Em, EN in E;
                cbn [andb tick host] in E; rewrite El in E; unfold block in E; cbn [tick blocks lookup] in E;
                rewrite Nat.eqb_refl in E; cbn [bind] in E; fold (delivered o N w) in E;
                unfold launch_and_sync, block in E; cbn [set_blocks tick blocks store lookup] in E;
                rewrite Nat.eqb_refl in E; cbn [lookup] in E; rewrite Nat.eqb_refl in E; cbn [bind] in E;
                rewrite ELA, Ek in E; discriminate.
            * assert (Hsame : genericKernelWrapper_data Cuda o N kernel a w = genericKernelWrapper_data Cuda o N (fun l => Ok l) a w).
              { unfold genericKernelWrapper_data, launch_and_sync. rewrite ELA. reflexivity. }
              destruct (device_lemma o N (fun l => Ok l) a w Em ltac:(lia)) as (e2 & w2 & err & E2 & Hlog & _ & _ & Hb & _ & _ & Hfr & _);
                [eauto|]. rewrite Hsame, E2 in E. injection E as <- <-. exists err. rewrite ELA in Hlog. auto.
        - exfalso. unfold genericKernelWrapper_data, device_malloc in E. rewrite Em in E. discriminate. }
      destruct D as (err & D1 & D2 & D3).
      set (tr1 := [EMalloc (fresh w); ECopyIn (fresh w)] ++ (if launched o then [ELaunch] else []) ++
               [ESync; ECopyOut (fresh w); EFree (fresh w)] ++ (if err then [EPrint] else [])) in *.
      assert (M1 : mallocs tr1 = [fresh w]) by (unfold tr1; destruct (launched o), err; reflexivity).
      assert (M2 : frees tr1 = [fresh w]) by (unfold tr1; destruct (launched o), err; reflexivity).
      destruct e1.
      + destruct (IH w1 e w' H) as (tr & n & L & T1 & T2 & T3). exists (tr1 ++ tr), (S n).
        rewrite L, D1, mallocs_app, frees_app, M1, M2, T1, T2, D2, app_assoc. repeat split.
        intros Hfr. inversion Hfr as [|? ? Hfr1 Hfr2]; subst. rewrite T3 by assumption. now apply D3.
      + injection H as <- <-. exists tr1, 1%nat. repeat split; auto. intros Hfr. inversion Hfr; subst. now apply D3. }
  intros w e w' H. destruct (G w e w' H) as (tr & n & L & T1 & T2 & T3). exists tr, (seq (fresh w) n).
  repeat split; auto using seq_NoDup. intros p Hp. apply in_seq in Hp. lia.
Qed.

Lemma malloc_failure_lemma o N kernel a (w : world) : malloc_ok o = false \/ N < 0 ->
  wrapper Cuda o N kernel a w = UB BadMemory.
Proof.
  intros H. unfold genericKernelWrapper_data, device_malloc.
  assert (malloc_ok o && (0 <=? N) = false) as -> by (destruct H as [-> |H]; [reflexivity|]; destruct (malloc_ok o); cbn; lia).
  reflexivity.
Qed.
End W.

Lemma plain_lemma {S : Type} b la se (tr : S) kernel a s : b <> Hip ->
  (b = NoDevice -> forall s', kernel s = Ok s' ->
     genericKernelWrapper_plain b la se tr kernel a s = Ok (Returned, true, false, s')) /\
  (b = Cuda -> (exists s', kernel s = Ok s') \/ kernel s = Aborted ->
     exists e err s', genericKernelWrapper_plain b la se tr kernel a s = Ok (e, la, err, s') /\
       (err = true <-> se = true \/ la = true /\ kernel s = Aborted) /\
       (e = ProcessAborted <-> err = true /\ a = true) /\
       (la = true -> forall t, kernel s = Ok t -> s' = t)).
Proof.
  intros Hb. split.
  - intros -> s' H. unfold genericKernelWrapper_plain. rewrite H. reflexivity.
  - intros -> H. unfold genericKernelWrapper_plain. destruct la.
    + destruct H as [(s' & H)|H]; rewrite H; cbn [bind]; eexists _, _, _; split; try reflexivity; split.
      * split; [intros ->; auto|intros [->|(_ & H2)]; [reflexivity|discriminate]].
      * split; [destruct se, a; cbn; split; try discriminate; auto; intros (? & ?); discriminate|]. intros _ t Ht. congruence.
      * split; auto.
      * split; [destruct a; cbn; split; try discriminate; auto; intros (? & ?); discriminate|]. intros _ t Ht. congruence.
    + cbn [bind]. eexists _, _, _. split; [reflexivity|]. split.
      * split; [intros ->; auto|intros [->|(H1 & _)]; [reflexivity|discriminate]].
      * split; [destruct se, a; cbn; split; try discriminate; auto; intros (? & ?); discriminate|]. discriminate.
Qed.

Lemma deallocate_lemma p heap : NoDup heap -> In p heap ->
  (forall b, b <> Hip -> exists heap', deallocateData b (Some p) heap = Ok heap' /\ ~ In p heap' /\
     (forall q, q <> p -> (In q heap' <-> In q heap)) /\ deallocateData b None heap = Ok heap) /\
  (heap' <- deallocateData NoDevice (Some p) heap ;; deallocateData NoDevice (Some p) heap') = UB BadMemory /\
  (exists heap', (heap' <- deallocateData Cuda (Some p) heap ;; deallocateData Cuda (Some p) heap') = Ok heap' /\
     deallocateData Cuda (Some p) heap = Ok heap').
Proof.
  intros Hn Hp. split; [|split].
  - intros b Hb. exists (List.remove Nat.eq_dec p heap). split; [|split; [|split]].
    + destruct b; [|reflexivity|congruence]. cbn. destruct (in_dec Nat.eq_dec p heap); [reflexivity|contradiction].
    + apply remove_In.
    + intros q Hq. split; [intros H; eapply in_remove, H|intros H; now apply in_in_remove].
    + destruct b; [reflexivity|reflexivity|congruence].
  - cbn. destruct (in_dec Nat.eq_dec p heap); [|contradiction]. cbn [bind].
    destruct (in_dec Nat.eq_dec p (List.remove Nat.eq_dec p heap)) as [i'|]; [|reflexivity].
    exfalso. exact (remove_In _ _ _ i').
  - exists (List.remove Nat.eq_dec p heap). split; [|reflexivity]. cbn.
    now rewrite (notin_remove Nat.eq_dec (List.remove Nat.eq_dec p heap) p (remove_In _ _ _)).
Qed.

Lemma doubling_within : Within 2 doubling.
Proof. intros [|x [|y l]] H; try (cbn in H; lia). exists [2 * x; 2 * y]. repeat split. Qed.
Lemma silent_lemma o : In o [failing_copy_in; failing_launch; failing_copy_out] ->
  exists w', genericKernelWrapper_data Cuda o 2 doubling true start = Ok (Returned, w') /\
    ~ In EPrint (log w') /\ doubling (host start) = Ok [2; 4; 3; 4] /\ host w' <> [2; 4; 3; 4].
Proof.
  intros [<-|[<-|[<-|[]]]]; eexists; (split; [reflexivity|]); cbn; (split; [intros H; decompose [or] H; try discriminate; contradiction|]);
    split; reflexivity || discriminate.
Qed.
