(** The tabulated points and weights against the exact Gauss rules. *)
From Verif Require Import Base ProofBase Num ModelSpacing ModelQuadrature SpecNumeric SpecTables
  ProofHom ProofSpacing ProofPoly ProofQuadrature.
From Coq Require Import Reals QArith Qreals Qreduction Lra.
Open Scope Z_scope.

(** * Growth of Legendre polynomials *)
Lemma abs_div_le a b c : (0 < c -> Rabs a <= b * c -> Rabs (a / c) <= b)%R.
Proof.
  intros Hc H. unfold Rdiv. rewrite Rabs_mult, (Rabs_pos_eq (/ c)) by (left; now apply Rinv_0_lt_compat).
  apply Rmult_le_reg_r with c; [exact Hc|]. rewrite Rmult_assoc, Rinv_l by lra. lra.
Qed.
Lemma Rabs_sub_le a b : (Rabs (a - b) <= Rabs a + Rabs b)%R.
Proof. unfold Rminus. eapply Rle_trans; [apply Rabs_triang|]. rewrite Rabs_Ropp. lra. Qed.

Lemma abs_le_inv a b : (Rabs a <= b -> - b <= a <= b)%R.
Proof. intros H. unfold Rabs in H. destruct (Rcase_abs a); lra. Qed.

Lemma legendre_bound n x : (Rabs x <= 2 -> Rabs (legendre n x) <= 5 ^ n)%R.
Proof.
  intros Hx. induction n as [| |k IH0 IH1] using pair_ind.
  - simpl. rewrite Rabs_R1. lra.
  - simpl. lra.
  - rewrite legendre_SS. pose proof (pos_INR k) as Hk. apply abs_div_le; [lra|].
    eapply Rle_trans; [apply Rabs_sub_le|]. rewrite !Rabs_mult.
    rewrite (Rabs_pos_eq (2 * INR k + 3)), (Rabs_pos_eq (INR k + 1)) by lra.
    change (5 ^ S (S k))%R with (5 * (5 * 5 ^ k))%R. change (5 ^ S k)%R with (5 * 5 ^ k)%R in IH1.
    pose proof (pow_lt 5 k ltac:(lra)) as Hp. pose proof (Rabs_pos x). pose proof (Rabs_pos (legendre k x)).
    pose proof (Rabs_pos (legendre (S k) x)).
    set (p := (5 ^ k)%R) in *. set (a := Rabs (legendre k x)) in *. set (b := Rabs (legendre (S k) x)) in *.
    set (u := INR k) in *. set (v := Rabs x) in *. clearbody p a b u v.
    assert ((2 * u + 3) * v * b <= (2 * u + 3) * 2 * (5 * p))%R.
    { apply Rmult_le_compat; [nra|lra|nra|lra]. }
    assert ((u + 1) * a <= (u + 1) * p)%R by nra. nra.
Qed.
Lemma dlegendre_bound n x : (Rabs x <= 2 -> Rabs (dlegendre n x) <= 25 ^ n)%R.
Proof.
  intros Hx. induction n as [| |k IH0 IH1] using pair_ind.
  - simpl. rewrite Rabs_R0. lra.
  - simpl. rewrite Rabs_R1. lra.
  - rewrite dlegendre_SS. pose proof (pos_INR k) as Hk. apply abs_div_le; [lra|].
    eapply Rle_trans; [apply Rabs_sub_le|]. rewrite !Rabs_mult.
    rewrite (Rabs_pos_eq (2 * INR k + 3)), (Rabs_pos_eq (INR k + 1)) by lra.
    pose proof (Rabs_triang (legendre (S k) x) (x * dlegendre (S k) x)) as T. rewrite Rabs_mult in T.
    pose proof (legendre_bound (S k) x Hx) as L.
    assert (E : (5 ^ S k <= 25 ^ S k)%R) by (apply pow_incr; lra).
    change (25 ^ S (S k))%R with (25 * (25 * 25 ^ k))%R. change (25 ^ S k)%R with (25 * 25 ^ k)%R in *.
    pose proof (pow_lt 25 k ltac:(lra)) as Hp. pose proof (Rabs_pos x). pose proof (Rabs_pos (dlegendre k x)).
    pose proof (Rabs_pos (dlegendre (S k) x)).
    set (p := (25 ^ k)%R) in *. set (a := Rabs (dlegendre k x)) in *. set (b := Rabs (dlegendre (S k) x)) in *.
    set (c := Rabs (legendre (S k) x)) in *. set (d := Rabs (legendre (S k) x + x * dlegendre (S k) x)) in *.
    set (u := INR k) in *. set (v := Rabs x) in *. clearbody p a b c d u v.
    assert (v * b <= 2 * (25 * p))%R by (apply Rmult_le_compat; lra).
    assert ((2 * u + 3) * d <= (2 * u + 3) * (75 * p))%R by (apply Rmult_le_compat_l; lra).
    assert ((u + 1) * a <= (u + 1) * p)%R by nra. nra.
Qed.

(** Legendre polynomials move by at most 25^n times their argument. *)
Lemma legendre_lip n x y : (Rabs x <= 2 -> Rabs y <= 2 -> Rabs (legendre n x - legendre n y) <= 25 ^ n * Rabs (x - y))%R.
Proof.
  assert (W : forall a b, (a < b -> Rabs a <= 2 -> Rabs b <= 2 ->
                Rabs (legendre n b - legendre n a) <= 25 ^ n * Rabs (b - a))%R).
  { intros a b Hab Ha Hb.
    destruct (MVT_cor2 (legendre n) (dlegendre n) a b Hab (fun c _ => legendre_deriv n c)) as (c & E & Hc).
    rewrite E, Rabs_mult. apply Rmult_le_compat_r; [apply Rabs_pos|]. apply dlegendre_bound.
    apply Rabs_le. apply abs_le_inv in Ha. apply abs_le_inv in Hb. lra. }
  intros Hx Hy. destruct (Rtotal_order x y) as [H|[->|H]].
  - rewrite Rabs_minus_sym, (Rabs_minus_sym x y). apply W; assumption.
  - replace (legendre n y - legendre n y)%R with 0%R by ring. replace (y - y)%R with 0%R by ring. rewrite Rabs_R0. lra.
  - apply W; assumption.
Qed.

(** * Their coefficients, and how many roots there are *)
Fixpoint plegs (n : nat) : list R * list R :=
  match n with
  | O => ([1], [0; 1])
  | S k => let (a, b) := plegs k in
           (b, pscal (/ (INR k + 2)) (padd (plin 0 (2 * INR k + 3) b) (pscal (- (INR k + 1)) a)))
  end%R.
Lemma plegs_spec n : (forall x, peval (fst (plegs n)) x = legendre n x) /\
  (forall x, peval (snd (plegs n)) x = legendre (S n) x) /\
  length (fst (plegs n)) = S n /\ length (snd (plegs n)) = S (S n).
Proof.
  induction n as [|k (H0 & H1 & L0 & L1)].
  - simpl. repeat split; intros; ring.
  - cbn [plegs]. destruct (plegs k) as (a, b). cbn [fst snd] in *.
    split; [exact H1|]. split; [|split; [exact L1|]].
    + intros x. rewrite peval_pscal, peval_padd, peval_plin, peval_pscal, H0, H1, legendre_SS. unfold Rdiv. ring.
    + rewrite pscal_length, padd_length, plin_length, pscal_length, L0, L1. lia.
Qed.

(** The same for the derivatives. *)
Fixpoint pdlegs (n : nat) : list R * list R :=
  match n with
  | O => ([], [1])
  | S k => let (a, b) := pdlegs k in
           (b, pscal (/ (INR k + 2)) (padd (pscal (2 * INR k + 3) (padd (snd (plegs k)) (plin 0 1 b)))
                                           (pscal (- (INR k + 1)) a)))
  end%R.
Lemma pdlegs_spec n : (forall x, peval (fst (pdlegs n)) x = dlegendre n x) /\
  (forall x, peval (snd (pdlegs n)) x = dlegendre (S n) x) /\
  length (fst (pdlegs n)) = n /\ length (snd (pdlegs n)) = S n.
Proof.
  induction n as [|k (H0 & H1 & L0 & L1)].
  - simpl. repeat split; intros; ring.
  - cbn [pdlegs]. destruct (plegs_spec k) as (_ & P1 & _ & M1). destruct (pdlegs k) as (a, b). cbn [fst snd] in *.
    split; [exact H1|]. split; [|split; [exact L1|]].
    + intros x. rewrite peval_pscal, peval_padd, !peval_pscal, peval_padd, peval_plin, P1, H0, H1, dlegendre_SS.
      unfold Rdiv. ring.
    + rewrite pscal_length, padd_length, !pscal_length, padd_length, plin_length, M1, L0, L1. lia.
Qed.

Lemma legendre_one n : legendre n 1 = 1%R.
Proof.
  induction n as [| |k IH0 IH1] using pair_ind; [reflexivity..|].
  rewrite legendre_SS, IH0, IH1. pose proof (INR_pos2 k). field. assumption.
Qed.
Lemma dlegendre_one n : dlegendre n 1 = (INR n * (INR n + 1) / 2)%R.
Proof.
  induction n as [| |k IH0 IH1] using pair_ind.
  - simpl. lra.
  - simpl. lra.
  - rewrite dlegendre_SS, IH0, IH1, legendre_one, !S_INR. pose proof (INR_pos2 k). field. lra.
Qed.

Lemma map_NoDup {A B} (f : A -> B) l : NoDup l ->
  (forall a b, In a l -> In b l -> f a = f b -> a = b) -> NoDup (map f l).
Proof.
  induction 1 as [|a l Hn _ IH]; intros H; [constructor|]. cbn [map]. constructor.
  - intros I. apply in_map_iff in I as (b & E & I). apply Hn.
    rewrite (H a b (or_introl eq_refl) (or_intror I) (eq_sym E)). exact I.
  - apply IH. intros x y Hx Hy. apply H; right; assumption.
Qed.
Lemma seq_NoDup (r : Z -> R) lo n :
  (forall i j, lo <= i < j -> j < lo + Z.of_nat n -> (r i < r j)%R) ->
  NoDup (map (fun k => r (lo + k)) (zseq n)).
Proof.
  intros H. apply map_NoDup; [apply NoDup_zseq|].
  intros a b Ha Hb E. apply in_zseq in Ha, Hb.
  destruct (Z.lt_trichotomy a b) as [L|[L|L]]; [|exact L|]; exfalso;
    [pose proof (H (lo + a) (lo + b) ltac:(lia) ltac:(lia))|pose proof (H (lo + b) (lo + a) ltac:(lia) ltac:(lia))]; lra.
Qed.

(** A polynomial of degree n with n roots s has no others. *)
Lemma other_root (f : R -> R) p x0 n (s : Z -> R) lo r :
  (forall x, peval p x = f x) -> length p = S n -> f x0 <> 0%R ->
  (forall i j, lo <= i < j -> j < lo + Z.of_nat n -> (s i < s j)%R) ->
  (forall i, lo <= i < lo + Z.of_nat n -> f (s i) = 0%R) ->
  f r = 0%R -> exists i, lo <= i < lo + Z.of_nat n /\ r = s i.
Proof.
  intros Hp Lp Hx Hs Zs Zr.
  destruct (in_dec Req_EM_T r (map (fun k => s (lo + k)) (zseq n))) as [I|I].
  - apply in_map_iff in I as (k & <- & I). apply in_zseq in I. exists (lo + k). split; [lia|reflexivity].
  - exfalso. apply Hx. rewrite <- Hp. apply (roots_zero (r :: map (fun k => s (lo + k)) (zseq n))).
    + constructor; [exact I|]. now apply seq_NoDup.
    + cbn [length]. rewrite map_length. rewrite Lp. unfold zseq. rewrite map_length, seq_length. lia.
    + intros t [<-|Ht]; rewrite Hp; [exact Zr|]. apply in_map_iff in Ht as (k & <- & Hk). apply in_zseq in Hk.
      apply Zs. lia.
Qed.

(** Two increasing enumerations of the roots agree. *)
Lemma same_enumeration (r s : Z -> R) lo n :
  (forall i j, lo <= i < j -> j < lo + Z.of_nat n -> (r i < r j)%R) ->
  (forall i j, lo <= i < j -> j < lo + Z.of_nat n -> (s i < s j)%R) ->
  (forall i, lo <= i < lo + Z.of_nat n -> exists j, lo <= j < lo + Z.of_nat n /\ r i = s j) ->
  forall i, lo <= i < lo + Z.of_nat n -> r i = s i.
Proof.
  intros Hr Hs Hrs.
  assert (Mono : forall i i' j j', lo <= i < i' -> i' < lo + Z.of_nat n -> lo <= j < lo + Z.of_nat n ->
            lo <= j' < lo + Z.of_nat n -> r i = s j -> r i' = s j' -> j < j').
  { intros i i' j j' Hi Hi' Hj Hj' E E'. destruct (Z_lt_le_dec j j') as [C|C]; [exact C|exfalso].
    pose proof (Hr i i' Hi Hi') as L. rewrite E, E' in L.
    destruct (Z.eq_dec j j') as [->|Hn]; [lra|]. pose proof (Hs j' j ltac:(lia) ltac:(lia)). lra. }
  assert (Up : forall k, lo <= lo + Z.of_nat k < lo + Z.of_nat n -> forall j, lo <= j < lo + Z.of_nat n ->
            r (lo + Z.of_nat k) = s j -> lo + Z.of_nat k <= j).
  { induction k as [|k IH]; intros Hk j Hj E; [lia|].
    destruct (Hrs (lo + Z.of_nat k) ltac:(lia)) as (j' & Hj' & E').
    pose proof (IH ltac:(lia) j' Hj' E').
    pose proof (Mono (lo + Z.of_nat k) (lo + Z.of_nat (S k)) j' j ltac:(lia) ltac:(lia) Hj' Hj E' E). lia. }
  assert (Dn : forall k, lo <= lo + Z.of_nat n - 1 - Z.of_nat k -> forall j, lo <= j < lo + Z.of_nat n ->
            r (lo + Z.of_nat n - 1 - Z.of_nat k) = s j -> j <= lo + Z.of_nat n - 1 - Z.of_nat k).
  { induction k as [|k IH]; intros Hk j Hj E; [lia|].
    destruct (Hrs (lo + Z.of_nat n - 1 - Z.of_nat k) ltac:(lia)) as (j' & Hj' & E').
    pose proof (IH ltac:(lia) j' Hj' E').
    pose proof (Mono (lo + Z.of_nat n - 1 - Z.of_nat (S k)) (lo + Z.of_nat n - 1 - Z.of_nat k) _ _ ltac:(lia) ltac:(lia) Hj Hj' E E'). lia. }
  intros i Hi. destruct (Hrs i Hi) as (j & Hj & E). rewrite E. f_equal.
  pose proof (Up (Z.to_nat (i - lo)) ltac:(lia) j Hj) as U.
  replace (lo + Z.of_nat (Z.to_nat (i - lo))) with i in U by lia.
  pose proof (Dn (Z.to_nat (lo + Z.of_nat n - 1 - i)) ltac:(lia) j Hj) as D.
  replace (lo + Z.of_nat n - 1 - Z.of_nat (Z.to_nat (lo + Z.of_nat n - 1 - i))) with i in D by lia.
  specialize (U E). specialize (D E). lia.
Qed.

Lemma exact_unique q N r s : Tabulated q N -> ExactPoints q N r -> ExactPoints q N s ->
  forall i, 0 <= i < N -> r i = s i.
Proof.
  intros HT (Hr & Zr) (Hs & Zs). unfold Tabulated in HT; destruct q.
  - assert (EN : 0 + Z.of_nat (Z.to_nat N) = N) by lia.
    intros i Hi. apply (same_enumeration r s 0 (Z.to_nat N)); rewrite ?EN; [exact Hr|exact Hs| |exact Hi].
    clear i Hi. intros i Hi. destruct (plegs_spec (Z.to_nat N)) as (P0 & _ & L0 & _).
    destruct (other_root (legendre (Z.to_nat N)) _ 1%R (Z.to_nat N) s 0 (r i) P0 L0) as (j & Hj & E).
    + rewrite legendre_one. lra.
    + rewrite EN. exact Hs.
    + rewrite EN. exact Zs.
    + apply Zr. exact Hi.
    + rewrite EN in Hj. exists j. split; [exact Hj|exact E].
  - destruct Zr as (R0 & R1 & Zr), Zs as (S0 & S1 & Zs). intros i Hi.
    destruct (Z.eq_dec i 0) as [->|Hi0]; [congruence|].
    destruct (Z.eq_dec i (N - 1)) as [->|HiN]; [congruence|].
    assert (EN : 1 + Z.of_nat (Z.to_nat (N - 2)) = N - 1) by lia.
    apply (same_enumeration r s 1 (Z.to_nat (N - 2))); rewrite ?EN; [intros; apply Hr; lia|intros; apply Hs; lia| |lia].
    clear i Hi Hi0 HiN. intros i Hi.
    assert (D : forall t, derivable_pt_lim (legendre (Z.to_nat (N - 1))) t 0%R -> dlegendre (Z.to_nat (N - 1)) t = 0%R).
    { intros t Ht. exact (deriv_unique _ _ _ _ (legendre_deriv _ t) Ht). }
    destruct (pdlegs_spec (Z.to_nat (N - 1))) as (PD & _ & LD & _).
    replace (Z.to_nat (N - 1)) with (S (Z.to_nat (N - 2))) in LD at 2 by lia.
    destruct (other_root (dlegendre (Z.to_nat (N - 1))) _ 1%R (Z.to_nat (N - 2)) s 1 (r i) PD LD) as (j & Hj & E).
    + rewrite dlegendre_one. pose proof (lt_0_INR (Z.to_nat (N - 1)) ltac:(lia)) as P. intros C. nra.
    + rewrite EN. intros; apply Hs; lia.
    + rewrite EN. intros k Hk. apply D, Zs. lia.
    + apply D, Zr. lia.
    + rewrite EN in Hj. exists j. split; [lia|exact E].
Qed.

(** * The roots to many digits *)
(** In units of 10^-45, from 6 points on 10^-28. *)
Definition roots (q : rule) (N : Z) : list Z :=
  match q with
  | QuadratureGaussLegendre =>
      if N =? 2 then [(-577350269189625764509148780501957455647601751); 577350269189625764509148780501957455647601751] else
      if N =? 3 then [(-774596669241483377035853079956479922166584341); 0; 774596669241483377035853079956479922166584341] else
      [(-861136311594052575223946488892809505095725380); (-339981043584856264802665759103244687200575870); 339981043584856264802665759103244687200575870; 861136311594052575223946488892809505095725380]
  | QuadratureGaussLobatto =>
      if N =? 2 then [(-1000000000000000000000000000000000000000000000); 1000000000000000000000000000000000000000000000] else
      if N =? 3 then [(-1000000000000000000000000000000000000000000000); 0; 1000000000000000000000000000000000000000000000] else
      if N =? 4 then [(-1000000000000000000000000000000000000000000000); (-447213595499957939281834733746255247088123672); 447213595499957939281834733746255247088123672; 1000000000000000000000000000000000000000000000] else
      if N =? 5 then [(-1000000000000000000000000000000000000000000000); (-654653670707977143798292456246858355569208082); 0; 654653670707977143798292456246858355569208082; 1000000000000000000000000000000000000000000000] else
      if N =? 6 then [(-10000000000000000000000000000); (-7650553239294646928510029740); (-2852315164806450963141509940); 2852315164806450963141509940; 7650553239294646928510029740; 10000000000000000000000000000] else
      if N =? 7 then [(-10000000000000000000000000000); (-8302238962785669298720322140); (-4688487934707142138037718819); 0; 4688487934707142138037718819; 8302238962785669298720322140; 10000000000000000000000000000] else
      if N =? 8 then [(-10000000000000000000000000000); (-8717401485096066153374457612); (-5917001814331423021445107314); (-2092992179024788687686572603); 2092992179024788687686572603; 5917001814331423021445107314; 8717401485096066153374457612; 10000000000000000000000000000] else
      [(-10000000000000000000000000000); (-8997579954114601573123452444); (-6771862795107377534458854271); (-3631174638261781587107520687); 0; 3631174638261781587107520687; 6771862795107377534458854271; 8997579954114601573123452444; 10000000000000000000000000000]
  end.
Definition root_digits (N : Z) : nat := if N <=? 5 then 45 else 28.
Definition root_unit (N : Z) : Z := 10 ^ Z.of_nat (root_digits N).
Definition yz (q : rule) (N i : Z) : Z := nth (Z.to_nat i) (roots q N) 0.
Definition yq (q : rule) (N i : Z) : Q := yz q N i # Z.to_pos (root_unit N).

Definition root_fun (q : rule) (N : Z) : Z -> Z -> Z :=
  match q with
  | QuadratureGaussLegendre => zleg (Z.to_nat N)
  | QuadratureGaussLobatto => zdleg (Z.to_nat (N - 1))
  end.
Definition at_end (q : rule) (N i : Z) : bool :=
  match q with QuadratureGaussLegendre => false | QuadratureGaussLobatto => (i =? 0) || (i =? N - 1) end.
Definition end_point (i : Z) : Q := if i =? 0 then (-1) else 1.

(** A sign change between (Y - 1) / D and (Y + 1) / D. *)
Definition near_root_b (f : Z -> Z -> Z) (Y D : Z) : bool :=
  let l := f (Y - 1) D in let r := f (Y + 1) D in
  ((l <=? 0) && (0 <=? r)) || ((0 <=? l) && (r <=? 0)).
Lemma near_root_b_spec (f : R -> R) (sc : R -> R) (fz : Z -> Z -> Z) Y D : continuity f ->
  (forall d, (0 < d)%R -> (0 < sc d)%R) ->
  (forall X D, 0 < D -> IZR (fz X D) = (sc (IZR D) * f (IZR X / IZR D))%R) -> 0 < D ->
  near_root_b fz Y D = true -> exists r, f r = 0%R /\ (Rabs (IZR Y / IZR D - r) <= / IZR D)%R.
Proof.
  intros Hc Hsc Hf HD H. unfold near_root_b in H. cbv zeta in H.
  assert (HR : (0 < IZR D)%R) by (apply IZR_lt; exact HD).
  assert (Hi : (0 < / IZR D)%R) by (apply Rinv_0_lt_compat; exact HR).
  pose proof (Hf (Y - 1) D HD) as Fl. pose proof (Hf (Y + 1) D HD) as Fr.
  replace (IZR (Y - 1) / IZR D)%R with (IZR Y / IZR D - / IZR D)%R in Fl by (rewrite minus_IZR; field; lra).
  replace (IZR (Y + 1) / IZR D)%R with (IZR Y / IZR D + / IZR D)%R in Fr by (rewrite plus_IZR; field; lra).
  specialize (Hsc _ HR). set (c := sc (IZR D)) in *. set (y := (IZR Y / IZR D)%R) in *. set (h := (/ IZR D)%R) in *.
  assert (Hs : (f (y - h) * f (y + h) <= 0)%R).
  { apply orb_prop in H. destruct H as [H|H]; apply andb_prop in H; destruct H as (H1 & H2);
      apply Z.leb_le in H1, H2; apply IZR_le in H1, H2; rewrite Fl in *; rewrite Fr in *.
    - assert (f (y - h) <= 0)%R by (apply Rmult_le_reg_l with c; lra).
      assert (0 <= f (y + h))%R by (apply Rmult_le_reg_l with c; lra).
      rewrite Rmult_comm. apply mul_le0; assumption.
    - assert (0 <= f (y - h))%R by (apply Rmult_le_reg_l with c; lra).
      assert (f (y + h) <= 0)%R by (apply Rmult_le_reg_l with c; lra).
      apply mul_le0; assumption. }
  destruct (IVT_cor f (y - h) (y + h) Hc ltac:(lra) Hs) as (r & Hr & Hz).
  exists r. split; [exact Hz|]. apply Rabs_le. lra.
Qed.

Definition roots_check (q : rule) (N : Z) : bool :=
  inc_b N (yq q N) &&
  allz N (fun i => qabs_le (yq q N i) 1 &&
    if at_end q N i then Qeq_bool (yq q N i) (end_point i) else near_root_b (root_fun q N) (yz q N i) (root_unit N)).

(** P_n(Y/D) in units of 10^-k, rounded down. *)
Definition leg_unit (N : Z) : Z := if N <=? 5 then 10 ^ 42 else 10 ^ 20.
Definition zlegu (n : nat) (Y D u : Z) : Z := zleg n Y D * u / (Z.of_nat (fact n) * D ^ Z.of_nat n).
Lemma zlegu_R n Y D u : 0 < D -> 0 < u ->
  (Rabs (legendre n (IZR Y / IZR D) - IZR (zlegu n Y D u) / IZR u) <= / IZR u)%R.
Proof.
  intros HD Hu. unfold zlegu.
  assert (H : 0 < Z.of_nat (fact n) * D ^ Z.of_nat n).
  { apply Z.mul_pos_pos; [pose proof (lt_O_fact n); lia|apply Z.pow_pos_nonneg; lia]. }
  pose proof (zleg_R n Y D HD) as E.
  assert (El : IZR (Z.of_nat (fact n) * D ^ Z.of_nat n) = lscale n (IZR D)).
  { rewrite mult_IZR, <- INR_IZR_INZ, <- pow_IZR. reflexivity. }
  set (m := Z.of_nat (fact n) * D ^ Z.of_nat n) in *. set (z := zleg n Y D) in *. set (p := legendre n _) in *.
  pose proof (Z.mul_div_le (z * u) m H) as L. pose proof (Z.mul_succ_div_gt (z * u) m H) as G.
  set (k := z * u / m) in *. apply IZR_le in L. apply IZR_lt in G. rewrite succ_IZR in G || idtac.
  unfold Z.succ in G. rewrite !mult_IZR, ?plus_IZR, E in *. rewrite El in *.
  pose proof (lscale_pos n (IZR D) ltac:(apply IZR_lt; exact HD)) as Hl. set (l := lscale n (IZR D)) in *.
  assert (HuR : (0 < IZR u)%R) by (apply IZR_lt; exact Hu). clearbody l p. clear E El.
  assert (A : (IZR k <= p * IZR u)%R) by (apply Rmult_le_reg_l with l; lra).
  assert (B : (p * IZR u < IZR k + 1)%R) by (apply Rmult_lt_reg_l with l; lra).
  assert (C : (p - IZR k / IZR u = (p * IZR u - IZR k) * / IZR u)%R) by (field; lra).
  rewrite C, Rabs_mult, (Rabs_pos_eq (/ IZR u)) by (left; now apply Rinv_0_lt_compat).
  rewrite <- (Rmult_1_l (/ IZR u)) at 2. apply Rmult_le_compat_r; [left; now apply Rinv_0_lt_compat|].
  apply Rabs_le. lra.
Qed.
Definition qleg (q : rule) (N i : Z) : Q :=
  zlegu (Z.to_nat (N - 1)) (yz q N i) (root_unit N) (leg_unit N) # Z.to_pos (leg_unit N).

Definition qabs (a : Q) : Q := if Qle_bool 0 a then a else - a.
Lemma qabs_R a : Q2R (qabs a) = Rabs (Q2R a).
Proof.
  unfold qabs. destruct (Qle_bool 0 a) eqn:E.
  - apply Qleb_R in E. rewrite RMicromega.Q2R_0 in E. rewrite Rabs_pos_eq; auto.
  - rewrite Q2R_opp. rewrite Rabs_left1; [reflexivity|].
    destruct (Rle_lt_dec (Q2R a) 0) as [H|H]; [exact H|exfalso].
    rewrite <- RMicromega.Q2R_0 in H. apply Rlt_Qlt in H. apply Qlt_le_weak, Qle_bool_iff in H. congruence.
Qed.

Definition qpoint_error (N : Z) : Q :=
  if N <=? 5 then 5 * qtenth 39 else if N =? 6 then 5 * qtenth 16
  else if N =? 7 then 15 * qtenth 15 else 4 * qtenth 15.
Definition qweight_error (N : Z) : Q := if N <=? 5 then 5 * qtenth 35 else 7 * qtenth 15.
Lemma Q2R_int z : Q2R (z # 1) = IZR z.
Proof. unfold Q2R. cbn [Qnum Qden]. field. Qed.
Lemma qpoint_error_R N : Q2R (qpoint_error N) = PointError N.
Proof.
  unfold qpoint_error, PointError. destruct (N <=? 5); [|destruct (N =? 6); [|destruct (N =? 7)]];
    rewrite Q2R_mult, qtenth_R; f_equal; exact (Q2R_int _).
Qed.
Lemma qweight_error_R N : Q2R (qweight_error N) = WeightError N.
Proof.
  unfold qweight_error, WeightError. destruct (N <=? 5);
    rewrite Q2R_mult, qtenth_R; f_equal; exact (Q2R_int _).
Qed.

(** The weight is a / P^2. *)
Definition qnum (q : rule) (N : Z) (y : Q) : Q :=
  match q with
  | QuadratureGaussLegendre => (2 # Z.to_pos (N * N)) * (1 - y * y)
  | QuadratureGaussLobatto => 2 # Z.to_pos (N * (N - 1))
  end.
Definition qdelta (N : Z) : Q := if N <=? 5 then qtenth 38 else 2 * qtenth 17.
Definition qdnum (q : rule) (N : Z) : Q :=
  match q with QuadratureGaussLegendre => 4 * qtenth (root_digits N) | QuadratureGaussLobatto => 0 end.

Definition point_b (q : rule) (N i : Z) : bool :=
  Qle_bool (qabs (qnode q N i - yq q N i) + qtenth (root_digits N)) (qpoint_error N).
Definition weight_slack (q : rule) (N i : Z) : Q :=
  let p := qleg q N i in
  qabs (qweight q N i) * qdelta N * (2 * qabs p + qdelta N) + qdnum q N.
Definition weight_miss (q : rule) (N i : Z) : Q :=
  let p := qleg q N i in
  qabs (qweight q N i * (p * p) - qnum q N (yq q N i)).
Definition weight_b (q : rule) (N i : Z) : bool :=
  let p := qabs (qleg q N i) in
  let e := (p - qdelta N)%Q in
  Qltb 0 e && Qle_bool (weight_miss q N i + weight_slack q N i) (qweight_error N * (e * e)).
Definition far_weight_b (q : rule) (N i : Z) (eps : Q) : bool :=
  let p := qabs (qleg q N i) in
  let e := (p + qdelta N)%Q in
  Qltb 0 (p - qdelta N) && Qltb (eps * (e * e)) (weight_miss q N i - weight_slack q N i).
Definition far_point_b (q : rule) (N i : Z) (eps : Q) : bool :=
  Qltb eps (qabs (qnode q N i - yq q N i) - qtenth (root_digits N)).

Definition delta_b (N : Z) : bool :=
  Qle_bool ((25 ^ (N - 1) # 1) * qtenth (root_digits N) + (1 # Z.to_pos (leg_unit N))) (qdelta N).
Definition tables_check (q : rule) (N : Z) : bool :=
  roots_check q N && delta_b N && allz N (fun i => point_b q N i && weight_b q N i).
Lemma tables_legendre_2 : tables_check QuadratureGaussLegendre 2 = true.
Proof. vm_cast_no_check (eq_refl true). Qed.
Lemma tables_legendre_3 : tables_check QuadratureGaussLegendre 3 = true.
Proof. vm_cast_no_check (eq_refl true). Qed.
Lemma tables_legendre_4 : tables_check QuadratureGaussLegendre 4 = true.
Proof. vm_cast_no_check (eq_refl true). Qed.
Lemma tables_lobatto_2 : tables_check QuadratureGaussLobatto 2 = true.
Proof. vm_cast_no_check (eq_refl true). Qed.
Lemma tables_lobatto_3 : tables_check QuadratureGaussLobatto 3 = true.
Proof. vm_cast_no_check (eq_refl true). Qed.
Lemma tables_lobatto_4 : tables_check QuadratureGaussLobatto 4 = true.
Proof. vm_cast_no_check (eq_refl true). Qed.
Lemma tables_lobatto_5 : tables_check QuadratureGaussLobatto 5 = true.
Proof. vm_cast_no_check (eq_refl true). Qed.
Lemma tables_lobatto_6 : tables_check QuadratureGaussLobatto 6 = true.
Proof. vm_cast_no_check (eq_refl true). Qed.
Lemma tables_lobatto_7 : tables_check QuadratureGaussLobatto 7 = true.
Proof. vm_cast_no_check (eq_refl true). Qed.
Lemma tables_lobatto_8 : tables_check QuadratureGaussLobatto 8 = true.
Proof. vm_cast_no_check (eq_refl true). Qed.
Lemma tables_lobatto_9 : tables_check QuadratureGaussLobatto 9 = true.
Proof. vm_cast_no_check (eq_refl true). Qed.
Lemma tables_check_true q N : Tabulated q N -> tables_check q N = true.
Proof.
  intros H. unfold Tabulated in H. destruct q.
  - assert (C : N = 2 \/ N = 3 \/ N = 4) by lia. destruct C as [E|[E|E]]; rewrite E.
    + exact tables_legendre_2.
    + exact tables_legendre_3.
    + exact tables_legendre_4.
  - assert (C : N = 2 \/ N = 3 \/ N = 4 \/ N = 5 \/ N = 6 \/ N = 7 \/ N = 8 \/ N = 9) by lia.
    destruct C as [E|[E|[E|[E|[E|[E|[E|E]]]]]]]; rewrite E.
    + exact tables_lobatto_2.
    + exact tables_lobatto_3.
    + exact tables_lobatto_4.
    + exact tables_lobatto_5.
    + exact tables_lobatto_6.
    + exact tables_lobatto_7.
    + exact tables_lobatto_8.
    + exact tables_lobatto_9.
Qed.

(** * From the checks to the theorems *)
Lemma root_unit_pos N : 0 < root_unit N.
Proof. apply Z.pow_pos_nonneg; lia. Qed.
Lemma root_unit_tenth N : (/ IZR (root_unit N))%R = tenth (root_digits N).
Proof. unfold root_unit, tenth. rewrite <- pow_IZR. reflexivity. Qed.
Lemma yq_R q N i : Q2R (yq q N i) = (IZR (yz q N i) / IZR (root_unit N))%R.
Proof. unfold yq, Q2R. cbn [Qnum Qden]. rewrite Z2Pos.id by apply root_unit_pos. reflexivity. Qed.
Lemma leg_unit_pos N : 0 < leg_unit N.
Proof. unfold leg_unit. destruct (N <=? 5); reflexivity. Qed.
Lemma root_digits_3 N : (3 <= root_digits N)%nat.
Proof. unfold root_digits. destruct (N <=? 5); lia. Qed.

(** What the exact points satisfy. *)
Definition RootAt (q : rule) (N i : Z) (r : R) : Prop :=
  match q with
  | QuadratureGaussLegendre => legendre (Z.to_nat N) r = 0%R
  | QuadratureGaussLobatto =>
      if (i =? 0) || (i =? N - 1) then r = Q2R (end_point i)
      else derivable_pt_lim (legendre (Z.to_nat (N - 1))) r 0%R
  end.

Lemma roots_near q N : Tabulated q N -> exists s, Increasing N s /\
  (forall i, 0 <= i < N -> RootAt q N i (s i) /\ (Rabs (Q2R (yq q N i) - s i) <= tenth (root_digits N))%R).
Proof.
  intros HT. pose proof (tables_check_true q N HT) as H. unfold tables_check in H.
  apply andb_prop in H as (H & _). apply andb_prop in H as (H & _). unfold roots_check in H.
  apply andb_prop in H as (Hinc & H).
  assert (K : forall i, 0 <= i < N -> exists r, RootAt q N i r /\ (Rabs (Q2R (yq q N i) - r) <= tenth (root_digits N))%R).
  { intros i Hi. pose proof (allz_spec _ _ H i Hi) as B. cbv beta in B. apply andb_prop in B as (_ & B).
    assert (Zero : (Rabs (Q2R (yq q N i) - Q2R (yq q N i)) <= tenth (root_digits N))%R).
    { replace (Q2R (yq q N i) - Q2R (yq q N i))%R with 0%R by ring. rewrite Rabs_R0. rewrite <- root_unit_tenth.
      left. apply Rinv_0_lt_compat, IZR_lt, root_unit_pos. }
    destruct q; cbn [at_end root_fun RootAt] in *.
    - destruct (near_root_b_spec _ _ _ _ _ (legendre_cont (Z.to_nat N)) (fun d => lscale_pos _ d)
                  (fun X D => zleg_R _ X D) (root_unit_pos N) B) as (r & Hr & Hd).
      exists r. split; [exact Hr|]. rewrite yq_R, <- root_unit_tenth. exact Hd.
    - destruct ((i =? 0) || (i =? N - 1)).
      + exists (Q2R (yq QuadratureGaussLobatto N i)). split; [exact (Qeqb_R _ _ B)|exact Zero].
      + destruct (near_root_b_spec _ _ _ _ _ (dlegendre_cont (Z.to_nat (N - 1))) (fun d => lscale_pos _ d)
                  (fun X D => zdleg_R _ X D) (root_unit_pos N) B) as (r & Hr & Hd).
        exists r. split; [rewrite <- Hr; apply legendre_deriv|]. rewrite yq_R, <- root_unit_tenth. exact Hd. }
  destruct (choice_range _ 0%R 0 N K) as (s & Hs). exists s. split; [|exact Hs].
  intros i j Hij Hj. pose proof (inc_b_gap _ _ i j Hinc Hij Hj) as G.
  destruct (Hs i ltac:(lia)) as (_ & Ai). destruct (Hs j ltac:(lia)) as (_ & Aj).
  pose proof (tenth_small _ (root_digits_3 N)) as T. apply abs_le_inv in Ai, Aj. lra.
Qed.

Lemma RootAt_exact q N s : Tabulated q N -> Increasing N s ->
  (forall i, 0 <= i < N -> RootAt q N i (s i)) -> ExactPoints q N s.
Proof.
  intros HT Hs HR. split; [exact Hs|]. unfold Tabulated in HT. destruct q; cbn [RootAt] in HR; [exact HR|].
  split; [|split].
  - pose proof (HR 0 ltac:(lia)) as E. cbn [Z.eqb orb] in E. rewrite E. unfold Q2R; simpl; lra.
  - pose proof (HR (N - 1) ltac:(lia)) as E. rewrite Z.eqb_refl, orb_true_r in E. rewrite E. unfold end_point.
    destruct (Z.eqb_spec (N - 1) 0); [lia|]. unfold Q2R; simpl; lra.
  - intros i Hi. pose proof (HR i ltac:(lia)) as E.
    destruct (Z.eqb_spec i 0); [lia|]. destruct (Z.eqb_spec i (N - 1)); [lia|]. exact E.
Qed.

Lemma exact_exists q N : Tabulated q N -> exists r, ExactPoints q N r.
Proof.
  intros HT. destruct (roots_near q N HT) as (s & Hs & Hr). exists s.
  apply RootAt_exact; [exact HT|exact Hs|]. intros i Hi. apply Hr. exact Hi.
Qed.

Lemma exact_near q N r : Tabulated q N -> ExactPoints q N r ->
  forall i, 0 <= i < N -> (Rabs (Q2R (yq q N i) - r i) <= tenth (root_digits N))%R.
Proof.
  intros HT Hr i Hi. destruct (roots_near q N HT) as (s & Hs & Hn).
  rewrite (exact_unique q N r s HT Hr (RootAt_exact q N s HT Hs (fun j Hj => proj1 (Hn j Hj))) i Hi).
  apply Hn. exact Hi.
Qed.

Lemma exact_rule_lemma q N : Tabulated q N -> exists r, ExactPoints q N r /\
  forall r', ExactPoints q N r' -> forall i, 0 <= i < N -> r' i = r i.
Proof.
  intros HT. destruct (exact_exists q N HT) as (r & Hr). exists r. split; [exact Hr|].
  intros r' Hr' i Hi. exact (exact_unique q N r' r HT Hr' Hr i Hi).
Qed.

(** * Points *)
Lemma point_near q N r i : Tabulated q N -> ExactPoints q N r -> 0 <= i < N ->
  (Rabs (node q N i - r i) <= PointError N)%R.
Proof.
  intros HT Hr Hi. pose proof (exact_near q N r HT Hr i Hi) as Y.
  pose proof (tables_check_true q N HT) as H. unfold tables_check in H. apply andb_prop in H as (_ & H).
  pose proof (allz_spec _ _ H i Hi) as B. cbv beta in B. apply andb_prop in B as (B & _). unfold point_b in B.
  apply Qleb_R in B. rewrite Q2R_plus, qabs_R, Q2R_minus, qtenth_R, qpoint_error_R in B. fold (node q N i) in B.
  replace (node q N i - r i)%R with ((node q N i - Q2R (yq q N i)) + (Q2R (yq q N i) - r i))%R by ring.
  eapply Rle_trans; [apply Rabs_triang|]. lra.
Qed.
Lemma point_far q N r i eps : Tabulated q N -> ExactPoints q N r -> 0 <= i < N ->
  far_point_b q N i eps = true -> (Q2R eps < Rabs (node q N i - r i))%R.
Proof.
  intros HT Hr Hi B. pose proof (exact_near q N r HT Hr i Hi) as Y. unfold far_point_b in B.
  apply Qltb_R in B. rewrite Q2R_minus, qabs_R, Q2R_minus, qtenth_R in B. fold (node q N i) in B.
  pose proof (Rabs_triang (node q N i - r i) (r i - Q2R (yq q N i))) as T.
  replace (node q N i - r i + (r i - Q2R (yq q N i)))%R with (node q N i - Q2R (yq q N i))%R in T by ring.
  rewrite (Rabs_minus_sym (r i)) in T. lra.
Qed.

(** * Weights *)
Definition wnum (q : rule) (N : Z) (r : R) : R :=
  match q with
  | QuadratureGaussLegendre => 2 / IZR (N * N) * (1 - r * r)
  | QuadratureGaussLobatto => 2 / IZR (N * (N - 1))
  end%R.
Lemma qnum_R q N y : 2 <= N -> Q2R (qnum q N y) = wnum q N (Q2R y).
Proof.
  intros HN. destruct q; cbn [qnum wnum].
  - rewrite Q2R_mult, Q2R_minus, Q2R_mult, RMicromega.Q2R_1. f_equal. unfold Q2R. cbn [Qnum Qden].
    rewrite Z2Pos.id by nia. reflexivity.
  - unfold Q2R. cbn [Qnum Qden]. rewrite Z2Pos.id by nia. reflexivity.
Qed.
Lemma ExactWeight_num q N r : 2 <= N -> legendre (Z.to_nat (N - 1)) r <> 0%R ->
  ExactWeight q N r = (wnum q N r / (legendre (Z.to_nat (N - 1)) r * legendre (Z.to_nat (N - 1)) r))%R.
Proof.
  intros HN Hp. unfold ExactWeight. assert (HR : (2 <= IZR N)%R) by (apply IZR_le; exact HN).
  destruct q; cbn [wnum]; rewrite mult_IZR.
  - field. split; lra.
  - rewrite minus_IZR. field. repeat split; lra.
Qed.

Lemma square_close w p p0 a a0 d e : (Rabs (p - p0) <= d -> Rabs (a - a0) <= e -> 0 < Rabs p0 - d ->
  let m := Rabs (w * (p0 * p0) - a0) in let s := Rabs w * d * (2 * Rabs p0 + d) + e in
  (Rabs p0 - d) * (Rabs p0 - d) <= p * p <= (Rabs p0 + d) * (Rabs p0 + d) /\
  m - s <= Rabs (w * (p * p) - a) <= m + s)%R.
Proof.
  intros Hp Ha Hd. cbv zeta.
  assert (H0 : (Rabs p0 - d <= Rabs p)%R). { pose proof (Rabs_triang_inv p0 p). rewrite Rabs_minus_sym in Hp. lra. }
  assert (H1 : (Rabs p <= Rabs p0 + d)%R). { pose proof (Rabs_triang_inv p p0). lra. }
  assert (E : (p * p = Rabs p * Rabs p)%R). { rewrite <- Rabs_mult. symmetry. apply Rabs_pos_eq. nra. }
  split. { rewrite E. split; apply Rmult_le_compat; pose proof (Rabs_pos p0); pose proof (Rabs_pos p); lra. }
  assert (D : (Rabs ((w * (p * p) - a) - (w * (p0 * p0) - a0)) <= Rabs w * d * (2 * Rabs p0 + d) + e)%R).
  { replace ((w * (p * p) - a) - (w * (p0 * p0) - a0))%R with (w * ((p - p0) * (p + p0)) - (a - a0))%R by ring.
    eapply Rle_trans; [apply Rabs_sub_le|]. apply Rplus_le_compat; [|exact Ha].
    rewrite !Rabs_mult, Rmult_assoc. apply Rmult_le_compat_l; [apply Rabs_pos|].
    apply Rmult_le_compat; try apply Rabs_pos; [exact Hp|].
    eapply Rle_trans; [apply Rabs_triang|]. lra. }
  pose proof (Rabs_triang_inv (w * (p * p) - a) (w * (p0 * p0) - a0)) as T1.
  pose proof (Rabs_triang_inv (w * (p0 * p0) - a0) (w * (p * p) - a)) as T2.
  rewrite (Rabs_minus_sym (w * (p0 * p0) - a0) (w * (p * p) - a)) in T2. lra.
Qed.

Lemma div_dist w a s : (0 < s -> Rabs (w - a / s) * s = Rabs (w * s - a))%R.
Proof.
  intros Hs. rewrite <- (Rabs_pos_eq s) at 2 by lra. rewrite <- Rabs_mult. f_equal. field. lra.
Qed.

Lemma delta_R q N r i : Tabulated q N -> ExactPoints q N r -> 0 <= i < N ->
  (Rabs (legendre (Z.to_nat (N - 1)) (r i) - Q2R (qleg q N i)) <= Q2R (qdelta N) /\
   Rabs (wnum q N (r i) - Q2R (qnum q N (yq q N i))) <= Q2R (qdnum q N))%R.
Proof.
  intros HT Hr Hi. pose proof (exact_near q N r HT Hr i Hi) as Y.
  pose proof (tables_check_true q N HT) as H. unfold tables_check in H.
  apply andb_prop in H as (H & _). apply andb_prop in H as (H & Hd). unfold roots_check in H.
  apply andb_prop in H as (_ & H). pose proof (allz_spec _ _ H i Hi) as B. cbv beta in B.
  apply andb_prop in B as (B & _). apply qabs_le_spec in B. rewrite RMicromega.Q2R_1 in B.
  pose proof (tenth_small _ (root_digits_3 N)) as T.
  assert (HN : 2 <= N) by (unfold Tabulated in HT; destruct q; lia).
  set (y := Q2R (yq q N i)) in *. set (t := tenth (root_digits N)) in *.
  assert (Br : (Rabs (r i) <= 2)%R). { apply Rabs_le. apply abs_le_inv in Y, B. lra. }
  split.
  - unfold delta_b in Hd. apply Qleb_R in Hd. rewrite Q2R_plus, Q2R_mult, qtenth_R, Q2R_int in Hd. fold t in Hd.
    assert (El : Q2R (1 # Z.to_pos (leg_unit N)) = (/ IZR (leg_unit N))%R).
    { unfold Q2R. cbn [Qnum Qden]. rewrite Z2Pos.id by apply leg_unit_pos. lra. }
    rewrite El in Hd.
    pose proof (zlegu_R (Z.to_nat (N - 1)) (yz q N i) (root_unit N) (leg_unit N) (root_unit_pos N) (leg_unit_pos N)) as L.
    rewrite <- yq_R in L. fold y in L.
    assert (Eq : Q2R (qleg q N i) = (IZR (zlegu (Z.to_nat (N - 1)) (yz q N i) (root_unit N) (leg_unit N)) / IZR (leg_unit N))%R).
    { unfold qleg, Q2R. cbn [Qnum Qden]. rewrite Z2Pos.id by apply leg_unit_pos. reflexivity. }
    rewrite <- Eq in L.
    pose proof (legendre_lip (Z.to_nat (N - 1)) (r i) y Br ltac:(lra)) as Lp.
    rewrite (Rabs_minus_sym (r i)) in Lp.
    assert (E25 : (25 ^ Z.to_nat (N - 1))%R = IZR (25 ^ (N - 1))).
    { rewrite pow_IZR, Z2Nat.id by lia. reflexivity. }
    rewrite E25 in Lp.
    assert (P25 : (0 <= IZR (25 ^ (N - 1)))%R) by (apply IZR_le, Z.pow_nonneg; lia).
    pose proof (Rmult_le_compat_l _ _ _ P25 Y) as M.
    pose proof (Rabs_triang (legendre (Z.to_nat (N - 1)) (r i) - legendre (Z.to_nat (N - 1)) y)
                  (legendre (Z.to_nat (N - 1)) y - Q2R (qleg q N i))) as TR.
    replace (legendre (Z.to_nat (N - 1)) (r i) - legendre (Z.to_nat (N - 1)) y +
             (legendre (Z.to_nat (N - 1)) y - Q2R (qleg q N i)))%R
      with (legendre (Z.to_nat (N - 1)) (r i) - Q2R (qleg q N i))%R in TR by ring.
    lra.
  - rewrite qnum_R by exact HN. fold y. destruct q; cbn [wnum qdnum].
    + rewrite Q2R_mult, qtenth_R. fold t. replace (Q2R 4) with 4%R by (symmetry; exact (Q2R_int 4)).
      replace (2 / IZR (N * N) * (1 - r i * r i) - 2 / IZR (N * N) * (1 - y * y))%R
        with (2 / IZR (N * N) * ((y - r i) * (y + r i)))%R by ring.
      rewrite !Rabs_mult.
      assert (Q : (0 <= 2 / IZR (N * N) <= 1)%R).
      { assert (K : (2 <= IZR (N * N))%R) by (apply IZR_le; nia). split.
        - apply Rmult_le_pos; [lra|left; apply Rinv_0_lt_compat; lra].
        - apply Rmult_le_reg_r with (IZR (N * N)); [lra|]. unfold Rdiv. rewrite Rmult_assoc, Rinv_l by lra. lra. }
      rewrite (Rabs_pos_eq (2 / IZR (N * N))) by lra.
      pose proof (Rabs_triang y (r i)) as TR. pose proof (Rabs_pos (y - r i)). pose proof (Rabs_pos (y + r i)).
      assert (P : (Rabs (y - r i) * Rabs (y + r i) <= t * 4)%R) by (apply Rmult_le_compat; lra).
      assert (P0 : (0 <= Rabs (y - r i) * Rabs (y + r i))%R) by (apply Rmult_le_pos; assumption).
      set (z := (Rabs (y - r i) * Rabs (y + r i))%R) in *. clearbody z. nra.
    + rewrite RMicromega.Q2R_0. replace (2 / IZR (N * (N - 1)) - 2 / IZR (N * (N - 1)))%R with 0%R by ring.
      rewrite Rabs_R0. lra.
Qed.

Lemma weight_parts q N r i : Tabulated q N -> ExactPoints q N r -> 0 <= i < N ->
  let p := Rabs (Q2R (qleg q N i)) in let d := Q2R (qdelta N) in
  (0 < p - d)%R -> exists s, ((p - d) * (p - d) <= s <= (p + d) * (p + d) /\ 0 < s /\
    Q2R (weight_miss q N i) - Q2R (weight_slack q N i) <= Rabs (wgt q N i - ExactWeight q N (r i)) * s
      <= Q2R (weight_miss q N i) + Q2R (weight_slack q N i))%R.
Proof.
  intros HT Hr Hi. cbv zeta. intros Hp. destruct (delta_R q N r i HT Hr Hi) as (D1 & D2).
  pose proof (square_close (wgt q N i) _ _ _ _ _ _ D1 D2 Hp) as (S1 & S2). cbv zeta in S2.
  set (p := legendre (Z.to_nat (N - 1)) (r i)) in *.
  assert (Hs : (0 < p * p)%R). { eapply Rlt_le_trans; [|apply S1]. apply Rmult_lt_0_compat; exact Hp. }
  exists (p * p)%R. split; [exact S1|]. split; [exact Hs|].
  rewrite ExactWeight_num; [|unfold Tabulated in HT; destruct q; lia|intros C; fold p in C; rewrite C in Hs; lra].
  fold p. rewrite div_dist by exact Hs.
  assert (Em : Q2R (weight_miss q N i) =
    Rabs (wgt q N i * (Q2R (qleg q N i) * Q2R (qleg q N i)) - Q2R (qnum q N (yq q N i)))).
  { unfold weight_miss. rewrite qabs_R, Q2R_minus, !Q2R_mult. reflexivity. }
  assert (Es : Q2R (weight_slack q N i) =
    (Rabs (wgt q N i) * Q2R (qdelta N) * (2 * Rabs (Q2R (qleg q N i)) + Q2R (qdelta N)) + Q2R (qdnum q N))%R).
  { unfold weight_slack. rewrite Q2R_plus, !Q2R_mult, Q2R_plus, Q2R_mult, !qabs_R.
    replace (Q2R 2) with 2%R by (symmetry; exact (Q2R_int 2)). reflexivity. }
  rewrite Em, Es. exact S2.
Qed.

Lemma weight_near q N r i : Tabulated q N -> ExactPoints q N r -> 0 <= i < N ->
  (Rabs (wgt q N i - ExactWeight q N (r i)) <= WeightError N)%R.
Proof.
  intros HT Hr Hi. pose proof (tables_check_true q N HT) as H. unfold tables_check in H. apply andb_prop in H as (_ & H).
  pose proof (allz_spec _ _ H i Hi) as B. cbv beta in B. apply andb_prop in B as (_ & B). unfold weight_b in B.
  cbv zeta in B. apply andb_prop in B as (B1 & B2). apply Qltb_R in B1. apply Qleb_R in B2.
  rewrite Q2R_plus, Q2R_mult, Q2R_mult, qweight_error_R in B2. rewrite Q2R_minus, qabs_R in *. rewrite RMicromega.Q2R_0 in B1.
  destruct (weight_parts q N r i HT Hr Hi B1) as (s & S1 & Hs & S2).
  apply Rmult_le_reg_r with s; [exact Hs|]. eapply Rle_trans; [apply S2|]. eapply Rle_trans; [exact B2|].
  apply Rmult_le_compat_l; [|apply S1]. rewrite <- qweight_error_R.
  unfold qweight_error. destruct (N <=? 5); rewrite Q2R_mult, qtenth_R; apply Rmult_le_pos;
    first [left; unfold tenth; apply Rinv_0_lt_compat, pow_lt; lra|unfold Q2R; simpl; lra].
Qed.
Lemma weight_far q N r i eps : Tabulated q N -> ExactPoints q N r -> 0 <= i < N -> (0 <= Q2R eps)%R ->
  far_weight_b q N i eps = true -> (Q2R eps < Rabs (wgt q N i - ExactWeight q N (r i)))%R.
Proof.
  intros HT Hr Hi He B. unfold far_weight_b in B.
  cbv zeta in B. apply andb_prop in B as (B1 & B2). apply Qltb_R in B1, B2.
  rewrite Q2R_mult, Q2R_mult, Q2R_plus, Q2R_minus in B2. rewrite Q2R_minus, qabs_R in *. rewrite RMicromega.Q2R_0 in B1.
  rewrite ?qabs_R in B2.
  destruct (weight_parts q N r i HT Hr Hi B1) as (s & S1 & Hs & S2).
  apply Rmult_lt_reg_r with s; [exact Hs|]. eapply Rlt_le_trans; [|apply S2]. eapply Rle_lt_trans; [|exact B2].
  apply Rmult_le_compat_l; [exact He|apply S1].
Qed.

Lemma tables_lemma q N r : Tabulated q N -> ExactPoints q N r ->
  exists x w, Points (coord_ct RNum (rule_spacing q) N) N x /\ Points (weight_ct RNum q N) N w /\
    forall i, 0 <= i < N -> (Rabs (x i - r i) <= PointError N /\ Rabs (w i - ExactWeight q N (r i)) <= WeightError N)%R.
Proof.
  intros HT Hr. destruct (rule_points q N) as (Hw & Hx). { destruct q; exact HT. }
  exists (node q N), (wgt q N). split; [exact Hx|]. split; [exact Hw|]. intros i Hi.
  split; [now apply point_near|now apply weight_near].
Qed.

Lemma far_points : far_point_b QuadratureGaussLobatto 6 1 (qtenth 16) &&
  far_point_b QuadratureGaussLobatto 6 3 (4 * qtenth 16) = true.
Proof. vm_compute. reflexivity. Qed.
Lemma far_weights : far_weight_b QuadratureGaussLobatto 6 3 (5 * qtenth 15) &&
  far_weight_b QuadratureGaussLobatto 8 2 (5 * qtenth 15) = true.
Proof. vm_cast_no_check (eq_refl true). Qed.

Lemma last_digits_lemma :
  (forall r, ExactPoints QuadratureGaussLobatto 6 r ->
     exists x1 x3 w3, coord_ct RNum GaussLobattoSpacing 6 1 = Ok x1 /\ coord_ct RNum GaussLobattoSpacing 6 3 = Ok x3 /\
       weight_ct RNum QuadratureGaussLobatto 6 3 = Ok w3 /\
       (tenth 16 < Rabs (x1 - r 1%Z) /\ 4 * tenth 16 < Rabs (x3 - r 3%Z) /\
        5 * tenth 15 < Rabs (w3 - ExactWeight QuadratureGaussLobatto 6 (r 3%Z)))%R) /\
  (forall r, ExactPoints QuadratureGaussLobatto 8 r ->
     exists w2, weight_ct RNum QuadratureGaussLobatto 8 2 = Ok w2 /\
       (5 * tenth 15 < Rabs (w2 - ExactWeight QuadratureGaussLobatto 8 (r 2%Z)))%R).
Proof.
  pose proof far_points as P. apply andb_prop in P as (P1 & P2).
  pose proof far_weights as W. apply andb_prop in W as (W1 & W2).
  assert (E4 : Q2R (4 * qtenth 16) = (4 * tenth 16)%R) by (rewrite Q2R_mult, qtenth_R; f_equal; exact (Q2R_int 4)).
  assert (E5 : Q2R (5 * qtenth 15) = (5 * tenth 15)%R) by (rewrite Q2R_mult, qtenth_R; f_equal; exact (Q2R_int 5)).
  assert (H5 : (0 <= Q2R (5 * qtenth 15))%R).
  { rewrite E5. apply Rmult_le_pos; [lra|]. left. unfold tenth. apply Rinv_0_lt_compat, pow_lt. lra. }
  split; intros r Hr.
  - assert (HT : Tabulated QuadratureGaussLobatto 6) by (unfold Tabulated; lia).
    destruct (rule_points QuadratureGaussLobatto 6 HT) as (Hw & Hx).
    exists (node QuadratureGaussLobatto 6 1), (node QuadratureGaussLobatto 6 3), (wgt QuadratureGaussLobatto 6 3).
    split; [apply Hx; lia|]. split; [apply Hx; lia|]. split; [apply Hw; lia|]. split; [|split].
    + rewrite <- qtenth_R. apply point_far; [exact HT|exact Hr|lia|exact P1].
    + rewrite <- E4. apply point_far; [exact HT|exact Hr|lia|exact P2].
    + rewrite <- E5. apply weight_far; [exact HT|exact Hr|lia|exact H5|exact W1].
  - assert (HT : Tabulated QuadratureGaussLobatto 8) by (unfold Tabulated; lia).
    destruct (rule_points QuadratureGaussLobatto 8 HT) as (Hw & _).
    exists (wgt QuadratureGaussLobatto 8 2). split; [apply Hw; lia|].
    rewrite <- E5. apply weight_far; [exact HT|exact Hr|lia|exact H5|exact W2].
Qed.

Lemma simpson : Tabulated QuadratureGaussLobatto 3 /\
  ExactPoints QuadratureGaussLobatto 3 (fun i => IZR (i - 1)) /\
  ExactWeight QuadratureGaussLobatto 3 (-1) = (1 / 3)%R /\ ExactWeight QuadratureGaussLobatto 3 0 = (4 / 3)%R.
Proof.
  split; [unfold Tabulated; lia|]. split; [|split; unfold ExactWeight; simpl; field].
  split. { intros i j Hij _. apply IZR_lt. lia. }
  split; [reflexivity|]. split; [reflexivity|]. intros i Hi. replace i with 1 by lia.
  replace 0%R with (dlegendre (Z.to_nat (3 - 1)) (IZR (1 - 1))); [apply legendre_deriv|]. simpl. field.
Qed.
