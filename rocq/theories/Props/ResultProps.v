(** * C63: the post-processing of optimisation histories *)
From Coq Require Import Reals List Arith Bool Lia Lra Psatz.
From Verif.Base Require Import NpLite NpFacts.
From Verif.Spec Require Import ScriptSpec.
From Verif.Model Require Import Scripts.
Import ListNotations.
Local Open Scope R_scope.

Lemma last_number_spec n v : match last_number n v with
  | None => forall j, (j < n)%nat -> v j = None
  | Some k => (k < n)%nat /\ v k <> None /\ forall j, (k < j < n)%nat -> v j = None end.
Proof.
  induction n as [|n IH]; cbn [last_number]; [intros; lia|].
  destruct (v n) eqn:E.
  - split; [lia|]. split; [congruence|]. intros; lia.
  - destruct (last_number n v) as [k|].
    + destruct IH as (H1 & H2 & H3). split; [lia|]. split; [exact H2|]. intros j Hj. destruct (Nat.eq_dec j n); [subst; exact E|apply H3; lia].
    + intros j Hj. destruct (Nat.eq_dec j n); [subst; exact E|apply IH; lia].
Qed.
(** the running best of the entries 0..i *)
Fixpoint run_best (pick : R -> R -> R) (v : nat -> nf) (i : nat) : nf :=
  match i with O => v 0%nat | S k => nan_pick pick (run_best pick v k) (v (S k)) end.
Lemma loop_best pick v k a b : (1 <= a)%nat -> (forall j, b j = if (j <? a)%nat then run_best pick v j else None) ->
  exists b', for_steps k a (fun i b => Ok (fun j => if (j =? i)%nat then nan_pick pick (b (i - 1)%nat) (v i) else b j)) b = Ok b' /\
    forall j, b' j = if (j <? a + k)%nat then run_best pick v j else None.
Proof.
  revert a b. induction k as [|k IH]; intros a b Ha Hb.
  - exists b. split; [reflexivity|]. rewrite Nat.add_0_r. exact Hb.
  - cbn [for_steps bind]. destruct (IH (S a) (fun j => if (j =? a)%nat then nan_pick pick (b (a - 1)%nat) (v a) else b j)) as (b' & E & H).
    + lia.
    + intros j. destruct (Nat.eqb_spec j a).
      * subst j. destruct (Nat.ltb_spec a (S a)); [|lia]. destruct a as [|a']; [lia|]. cbn [run_best]. rewrite Hb. replace (S a' - 1)%nat with a' by lia.
        destruct (Nat.ltb_spec a' (S a')); [reflexivity|lia].
      * rewrite Hb. destruct (Nat.ltb_spec j a), (Nat.ltb_spec j (S a)); try lia; reflexivity.
    + exists b'. split; [exact E|]. intros j. rewrite H. replace (S a + k)%nat with (a + S k)%nat by lia. reflexivity.
Qed.
Definition ord (m : bmethod) : R -> R -> Prop := match m with Bmax => fun x y => y <= x | _ => Rle end.
Definition pickm (m : bmethod) : R -> R -> R := match m with Bmax => Rmax | _ => Rmin end.
Lemma run_best_spec m v i : match run_best (pickm m) v i with None => nothing_so_far v i | Some x => best_so_far (ord m) v i x end.
Proof.
  assert (R0 : forall x, ord m x x) by (intros x; destruct m; cbn [ord]; lra).
  assert (TR : forall x y z, ord m x y -> ord m y z -> ord m x z) by (intros x y z; destruct m; cbn [ord]; lra).
  assert (PK : forall x y, (pickm m x y = x \/ pickm m x y = y) /\ ord m (pickm m x y) x /\ ord m (pickm m x y) y).
  { intros x y. destruct m; cbn [ord pickm]; unfold Rmin, Rmax; destruct (Rle_dec x y); repeat split; auto; lra. }
  induction i as [|i IH]; cbn [run_best].
  - destruct (v 0%nat) eqn:E.
    + split; [exists 0%nat; split; [lia|exact E]|]. intros j x Hj Ej. replace j with 0%nat in Ej by lia. rewrite E in Ej. injection Ej as <-. apply R0.
    + intros j Hj. replace j with 0%nat by lia. exact E.
  - destruct (run_best (pickm m) v i) as [a|]; destruct (v (S i)) as [b|] eqn:E; cbn [nan_pick].
    + destruct IH as ((j0 & Hj0 & E0) & HB). destruct (PK a b) as (PE & P1 & P2). split.
      * destruct PE as [-> | ->]; [exists j0; split; [lia|exact E0]|exists (S i); split; [lia|exact E]].
      * intros j x Hj Ej. destruct (Nat.eq_dec j (S i)); [subst; rewrite E in Ej; injection Ej as <-; exact P2|]. apply (TR _ a); [exact P1|]. apply (HB j); [lia|exact Ej].
    + destruct IH as ((j0 & Hj0 & E0) & HB). split; [exists j0; split; [lia|exact E0]|]. intros j x Hj Ej. destruct (Nat.eq_dec j (S i)); [subst; congruence|]. apply (HB j); [lia|exact Ej].
    + split; [exists (S i); split; [lia|exact E]|]. intros j x Hj Ej. destruct (Nat.eq_dec j (S i)); [subst; rewrite E in Ej; injection Ej as <-; apply R0|]. rewrite IH in Ej by lia. discriminate.
    + intros j Hj. destruct (Nat.eq_dec j (S i)); [subst; exact E|apply IH; lia].
Qed.
Lemma best_ok n v m b : best_at_all_iter n v m = Ok b ->
  match last_number n v with None => forall j, (j < n)%nat -> b j = None
  | Some k => m <> Bother /\ forall j, b j = if (j <? S k)%nat then run_best (pickm m) v j else None end.
Proof.
  unfold best_at_all_iter. destruct (Nat.eqb_spec n 0); [discriminate|]. pose proof (last_number_spec n v) as L.
  destruct (last_number n v) as [k|].
  - destruct L as (Hk & Hv & _). rewrite Nat.min_r by lia. set (b0 := fun i => if (i =? 0)%nat then v 0%nat else None).
    assert (B0 : forall pick j, b0 j = if (j <? 1)%nat then run_best pick v j else None) by (intros pick [|j]; reflexivity).
    unfold for_range. destruct m; try discriminate; intros E; (split; [discriminate|]).
    + destruct (loop_best Rmin v (k + 1 - 1) 1 b0 (le_n 1) (B0 Rmin)) as (b' & E' & H). rewrite E' in E. injection E as <-. intros j. rewrite H. replace (1 + (k + 1 - 1))%nat with (S k) by lia. reflexivity.
    + destruct (loop_best Rmax v (k + 1 - 1) 1 b0 (le_n 1) (B0 Rmax)) as (b' & E' & H). rewrite E' in E. injection E as <-. intros j. rewrite H. replace (1 + (k + 1 - 1))%nat with (S k) by lia. reflexivity.
  - intros E. injection E as <-. intros j Hj. destruct (Nat.eqb_spec j 0); [subst; apply L; exact Hj|reflexivity].
Qed.

(** C63: at every entry of a run, the best value so far among the numbers; NaN before the first number and after the last *)
Theorem C63_best_at_all_iterations :
  forall (n : nat) (data best : nat -> nf) (m : bmethod), m <> Bother -> best_at_all_iter n data m = Ok best ->
  forall i, (i < n)%nat ->
    (within_run n data i -> match best i with Some x => best_so_far (match m with Bmax => Rge | _ => Rle end) data i x | None => nothing_so_far data i end) /\
    (~ within_run n data i -> best i = None).
Proof.
  intros n data best m Hm E i Hi. apply best_ok in E. pose proof (last_number_spec n data) as L. destruct (last_number n data) as [k|].
  - destruct E as (_ & E). destruct L as (Hk & Hv & L). split.
    + intros (j & x & Hj & Ej). assert (j <= k)%nat. { destruct (le_lt_dec j k); [assumption|]. rewrite L in Ej by lia. discriminate. }
      rewrite E. destruct (Nat.ltb_spec i (S k)); [|lia]. pose proof (run_best_spec m data i) as S. destruct (run_best (pickm m) data i); [|exact S].
      destruct S as (S1 & S2). split; [exact S1|]. intros j' x' Hj' Ej'. specialize (S2 j' x' Hj' Ej'). destruct m; cbn [ord] in S2; lra.
    + intros N. rewrite E. destruct (Nat.ltb_spec i (S k)); [|reflexivity]. exfalso. apply N. destruct (data k) as [x|] eqn:Ek; [|congruence]. exists k, x. split; [lia|exact Ek].
  - split; [|intros _; apply E; exact Hi]. intros (j & x & Hj & Ej). rewrite L in Ej by lia. discriminate.
Qed.
Print Assumptions C63_best_at_all_iterations.

(** when it raises: an empty history, or an unknown method and at least one number *)
Theorem C63_best_never_raises :
  forall (n : nat) (data : nat -> nf) (m : bmethod), (0 < n)%nat -> m <> Bother -> exists best, best_at_all_iter n data m = Ok best.
Proof.
  intros n data m Hn Hm. unfold best_at_all_iter. destruct (Nat.eqb_spec n 0); [lia|]. destruct (last_number n data) as [k|]; [|eexists; reflexivity].
  set (b0 := fun i => if (i =? 0)%nat then data 0%nat else None).
  assert (B0 : forall pick j, b0 j = if (j <? 1)%nat then run_best pick data j else None) by (intros pick [|j]; reflexivity).
  destruct m; try congruence; unfold for_range.
  - destruct (loop_best Rmin data (Nat.min n (k + 1) - 1) 1 b0 (le_n 1) (B0 Rmin)) as (b' & E' & _). exists b'. exact E'.
  - destruct (loop_best Rmax data (Nat.min n (k + 1) - 1) 1 b0 (le_n 1) (B0 Rmax)) as (b' & E' & _). exists b'. exact E'.
Qed.
Print Assumptions C63_best_never_raises.
Theorem C63_empty_history_raises : forall data m, best_at_all_iter 0 data m = Err EIndex.
Proof. reflexivity. Qed.
Print Assumptions C63_empty_history_raises.

(** applied twice it changes nothing *)
Theorem C63_best_idempotent :
  forall (n : nat) (data best best2 : nat -> nf) (m : bmethod), m <> Bother ->
  best_at_all_iter n data m = Ok best -> best_at_all_iter n best m = Ok best2 -> forall i, (i < n)%nat -> best2 i = best i.
Proof.
  intros n data best best2 m Hm E1 E2 i Hi.
  assert (W : within_run n best i <-> within_run n data i).
  { split.
    - intros (j & x & Hj & Ej). destruct (Classical_Prop.classic (within_run n data i)) as [Y|N]; [exact Y|]. exfalso.
      assert (N' : ~ within_run n data j) by (intros (j' & x' & Hj' & Ej'); apply N; exists j', x'; split; [lia|exact Ej']).
      destruct (C63_best_at_all_iterations n data best m Hm E1 j) as (_ & Q); [lia|]. rewrite (Q N') in Ej. discriminate.
    - intros (j & x & Hj & Ej). destruct (C63_best_at_all_iterations n data best m Hm E1 j) as (Q & _); [lia|].
      assert (Wj : within_run n data j) by (exists j, x; split; [lia|exact Ej]). specialize (Q Wj). destruct (best j) as [y|] eqn:Eb; [exists j, y; split; [lia|exact Eb]|].
      rewrite (Q j (le_n j)) in Ej. discriminate. }
  destruct (C63_best_at_all_iterations n data best m Hm E1 i Hi) as (A1 & A2). destruct (C63_best_at_all_iterations n best best2 m Hm E2 i Hi) as (B1 & B2).
  destruct (Classical_Prop.classic (within_run n data i)) as [Y|N].
  - specialize (A1 Y). specialize (B1 (proj2 W Y)).
    assert (BE : forall j x, (j <= i)%nat -> best j = Some x -> (exists j', (j' <= j)%nat /\ data j' = Some x) /\ forall j' y, (j' <= j)%nat -> data j' = Some y -> (match m with Bmax => Rge | _ => Rle end) x y).
    { intros j x Hj Ej. assert (Yj : within_run n data j) by (destruct Y as (q & z & Hq & Eq); exists q, z; split; [lia|exact Eq]).
      destruct (C63_best_at_all_iterations n data best m Hm E1 j) as (Q & _); [lia|]. specialize (Q Yj). rewrite Ej in Q. exact Q. }
    destruct (best i) as [x|] eqn:Ex.
    + destruct (best2 i) as [y|]; [|specialize (B1 i (le_n i)); congruence].
      destruct B1 as ((j & Hj & Ej) & B1). destruct (BE j y Hj Ej) as ((j' & Hj' & Ej') & _). destruct A1 as (_ & A1).
      assert (C1 := A1 j' y ltac:(lia) Ej'). assert (C2 := B1 i x (le_n i) Ex). f_equal. destruct m; lra.
    + destruct (best2 i) as [y|]; [|reflexivity]. destruct B1 as ((j & Hj & Ej) & _). destruct (BE j y Hj Ej) as ((j' & Hj' & Ej') & _). rewrite A1 in Ej' by lia. discriminate.
  - rewrite (A2 N). apply B2. intros C. apply N, W, C.
Qed.
Print Assumptions C63_best_idempotent.

Example C63_case : exists best, best_at_all_iter 4 (fun i => match i with 0%nat => None | 1%nat => Some 3 | 2%nat => Some 5 | _ => None end) Bmin = Ok best /\
  best 0%nat = None /\ best 1%nat = Some 3 /\ best 2%nat = Some 3 /\ best 3%nat = None.
Proof.
  eexists. split; [reflexivity|]. cbn. repeat split. f_equal. unfold Rmin. destruct (Rle_dec 3 5); lra.
Qed.

(** ** loading *)
Lemma for_steps_inv {S} (Inv : nat -> S -> Prop) body k a s : Inv a s ->
  (forall i s, (a <= i < a + k)%nat -> Inv i s -> exists s', body i s = Ok s' /\ Inv (Datatypes.S i) s') ->
  exists s', for_steps k a body s = Ok s' /\ Inv (a + k)%nat s'.
Proof.
  revert a s. induction k as [|k IH]; intros a s H0 Hs; cbn [for_steps].
  - exists s. rewrite Nat.add_0_r. split; [reflexivity|exact H0].
  - destruct (Hs a s) as (s1 & E & H1); [lia|exact H0|]. rewrite E. cbn [bind].
    destruct (IH (Datatypes.S a) s1 H1) as (s' & E' & H'). { intros i s2 Hi. apply Hs. lia. }
    exists s'. split; [exact E'|]. replace (a + Datatypes.S k)%nat with (Datatypes.S a + k)%nat by lia. exact H'.
Qed.
(** the three tables the caller asked for *)
Definition wanted (noise_free : bool) (z : npz) : ftab * ftab * ftab :=
  if noise_free then (merit_nf z, opt_nf z, fsb_nf z) else (merit_t z, opt_t z, fsb_t z).
Definition t1 (x : ftab * ftab * ftab) : ftab := fst (fst x).
Definition t2 (x : ftab * ftab * ftab) : ftab := snd (fst x).
Definition t3 (x : ftab * ftab * ftab) : ftab := snd x.
(** a readable file: the name is right, all tables have the shape of the merit table *)
Definition good_file (noise_free : bool) (z : npz) : Prop :=
  npz_ok z = true /\
  forall T, T = t1 (wanted noise_free z) \/ T = t2 (wanted noise_free z) \/ T = t3 (wanted noise_free z) -> ft_r T = ft_r (merit_t z) /\ ft_c T = ft_c (merit_t z).
(** the entries of an array of results: file a, run p, iteration q; NaN where the file has no entry or the iteration is beyond the limit *)
Definition holds (files : list npz) (pick : npz -> ftab) (limit : nat) (A : f3) : Prop :=
  f3_d A = List.length files /\
  forall a z p q, nth_error files a = Some z -> (p < f3_r A)%nat -> (q < f3_c A)%nat ->
    f3_at A a p q = if ((p <? ft_r (merit_t z)) && (q <? ft_c (merit_t z)) && (q <? limit))%nat then ft_at (pick z) p q else None.

Definition entry (files : list npz) (pick : npz -> ftab) (nit i a p q : nat) : nf :=
  match nth_error files a with
  | Some z => if (a <? i)%nat && ((p <? ft_r (merit_t z)) && (q <? Nat.min (ft_c (merit_t z)) nit))%nat then ft_at (pick z) p q else None
  | None => None
  end.
Definition ainv (files : list npz) (pick : npz -> ftab) (nx0 nit i : nat) (A : f3) : Prop :=
  f3_d A = List.length files /\ f3_r A = nx0 /\ f3_c A = nit /\ forall a p q, f3_at A a p q = entry files pick nit i a p q.
Lemma put3_inv files pick nx0 nit i A z : ainv files pick nx0 nit i A -> nth_error files i = Some z -> (ft_r (merit_t z) <= nx0)%nat ->
  ft_r (pick z) = ft_r (merit_t z) -> ft_c (pick z) = ft_c (merit_t z) ->
  exists A', put3 A i (ft_r (merit_t z)) (Nat.min (ft_c (merit_t z)) nit) (pick z) = Ok A' /\ ainv files pick nx0 nit (S i) A'.
Proof.
  intros (D & Rr & Cc & H) Ez Hr E1 E2. unfold put3. cbv zeta. rewrite Rr, Cc, E1, E2.
  set (r := ft_r (merit_t z)) in *. set (c := ft_c (merit_t z)) in *.
  rewrite (Nat.min_l r nx0) by exact Hr. rewrite (Nat.min_l (Nat.min c nit) nit) by lia. rewrite (Nat.min_l (Nat.min c nit) c) by lia. rewrite !Nat.eqb_refl. cbn [orb andb].
  eexists. split; [reflexivity|]. split; [exact D|]. split; [reflexivity|]. split; [reflexivity|]. cbn [f3_at]. intros a p q.
  rewrite H. unfold entry. destruct (Nat.eqb_spec a i).
  - subst a. rewrite Ez. fold r c. destruct (Nat.ltb_spec i i); [lia|]. destruct (Nat.ltb_spec i (S i)); [|lia]. cbn [andb].
    destruct (Nat.ltb_spec p r), (Nat.ltb_spec q (Nat.min c nit)); cbn [andb]; try reflexivity.
    f_equal; unfold bix; [destruct (Nat.eqb_spec r 1); lia|destruct (Nat.eqb_spec (Nat.min c nit) 1); lia].
  - cbn [andb]. destruct (nth_error files a); [|reflexivity]. destruct (Nat.ltb_spec a i), (Nat.ltb_spec a (S i)); try lia; reflexivity.
Qed.
Lemma largest_S n f m : largest n f m -> largest (S n) f (Nat.max m (f n)).
Proof.
  intros (H1 & H2). split.
  - intros i Hi. destruct (Nat.eq_dec i n); [subst; lia|]. specialize (H1 i). lia.
  - destruct (le_lt_dec (f n) m).
    + rewrite Nat.max_l by assumption. destruct H2 as [->|(i & Hi & E)]; [left; reflexivity|right; exists i; split; [lia|exact E]].
    + rewrite Nat.max_r by lia. right. exists n. split; [lia|reflexivity].
Qed.
Definition rows_in (files : list npz) (a : nat) : nat := match nth_error files a with Some z => ft_r (merit_t z) | None => 0 end.
Definition cols_in (files : list npz) (limit a : nat) : nat := match nth_error files a with Some z => Nat.min (ft_c (merit_t z)) limit | None => 0 end.

(** C63: every number of every file is in its place, everything else is NaN, and the arrays of merit and of optimality are as
    large as the longest files need; the third array has all its entries too, but (without clipping) not that shape *)
Theorem C63_loaded_results_partial :
  forall (files : list npz) (n_iter_max : option nat) (n_x0_init : nat) (noise_free : bool),
  (forall z, In z files -> good_file noise_free z /\ (ft_r (merit_t z) <= n_x0_init)%nat) ->
  let limit := match n_iter_max with Some n => n | None => 1000%nat end in
  exists M O F nx ni, load_npz_data files n_iter_max n_x0_init noise_free = Ok (M, O, F) /\
    largest (List.length files) (rows_in files) nx /\ largest (List.length files) (cols_in files limit) ni /\
    holds files (fun z => t1 (wanted noise_free z)) limit M /\ holds files (fun z => t2 (wanted noise_free z)) limit O /\ holds files (fun z => t3 (wanted noise_free z)) limit F /\
    (f3_r M = nx /\ f3_r O = nx) /\
    match n_iter_max with
    | None => f3_r F = nx /\ f3_c M = ni /\ f3_c O = ni /\ f3_c F = ni
    | Some n => f3_r F = n_x0_init /\ f3_c M = n /\ f3_c O = n /\ f3_c F = n
    end.
Proof.
  intros files nim nx0 nfr G limit. unfold load_npz_data. fold limit.
  set (full := mkf3 (List.length files) nx0 limit (fun _ _ _ => None)).
  pose (Inv := fun i (s : f3 * f3 * f3 * nat * nat) => let '(m, o, f, nx, ni) := s in
     ainv files (fun z => t1 (wanted nfr z)) nx0 limit i m /\ ainv files (fun z => t2 (wanted nfr z)) nx0 limit i o /\ ainv files (fun z => t3 (wanted nfr z)) nx0 limit i f /\
     largest i (rows_in files) nx /\ largest i (cols_in files limit) ni).
  match goal with |- context [for_range 0 _ ?b _] => set (body := b) end.
  destruct (for_steps_inv Inv body (List.length files) 0 (full, full, full, 0%nat, 0%nat)) as (s' & E & HI).
  - assert (A0 : forall pick, ainv files pick nx0 limit 0 full).
    { intros pick. repeat split. intros a p q. unfold entry, full. cbn [f3_at]. destruct (nth_error files a); reflexivity. }
    unfold Inv. repeat (split; [apply A0|]). split; (split; [intros; lia|left; reflexivity]).
  - intros i ((((m & o) & f) & nx) & ni) Hi (I1 & I2 & I3 & I4 & I5). unfold body.
    destruct (nth_error files i) as [z|] eqn:Ez; [|apply nth_error_None in Ez; lia].
    destruct (G z (nth_error_In _ _ Ez)) as ((Gok & GT) & Gr). rewrite Gok. cbv zeta.
    destruct (GT _ (or_introl eq_refl)) as (R1 & C1). destruct (GT _ (or_intror (or_introl eq_refl))) as (R2 & C2). destruct (GT _ (or_intror (or_intror eq_refl))) as (R3 & C3).
    destruct (put3_inv _ _ _ _ _ _ _ I1 Ez Gr R1 C1) as (m' & Em & I1'). destruct (put3_inv _ _ _ _ _ _ _ I2 Ez Gr R2 C2) as (o' & Eo & I2'). destruct (put3_inv _ _ _ _ _ _ _ I3 Ez Gr R3 C3) as (f' & Ef & I3').
    replace (if nfr then merit_nf z else merit_t z) with (t1 (wanted nfr z)) by (destruct nfr; reflexivity).
    replace (if nfr then opt_nf z else opt_t z) with (t2 (wanted nfr z)) by (destruct nfr; reflexivity).
    replace (if nfr then fsb_nf z else fsb_t z) with (t3 (wanted nfr z)) by (destruct nfr; reflexivity).
    rewrite Em. cbn [bind]. rewrite Eo. cbn [bind]. rewrite Ef. cbn [bind]. eexists. split; [reflexivity|].
    split; [exact I1'|]. split; [exact I2'|]. split; [exact I3'|]. apply largest_S in I4, I5. unfold rows_in at 2 in I4. unfold cols_in at 2 in I5. rewrite Ez in I4, I5. split; assumption.
  - unfold for_range. rewrite Nat.sub_0_r. rewrite E. cbn [bind]. destruct s' as ((((m & o) & f) & nx) & ni). cbn [Nat.add] in HI. destruct HI as (I1 & I2 & I3 & I4 & I5).
    assert (NX : (nx <= nx0)%nat). { destruct I4 as (_ & [->|(i & Hi & <-)]); [lia|]. unfold rows_in. destruct (nth_error files i) as [z|] eqn:Ez; [|lia]. apply (G z (nth_error_In _ _ Ez)). }
    assert (NI : (ni <= limit)%nat). { destruct I5 as (_ & [->|(i & Hi & <-)]); [lia|]. unfold cols_in. destruct (nth_error files i); lia. }
    assert (HH : forall pick A r c, ainv files pick nx0 limit (List.length files) A -> holds files pick limit (clip3 A r c)).
    { intros pick A r c (D & Rr & Cc & H). split; [exact D|]. intros a z p q Ez Hp Hq. cbn [clip3 f3_at]. rewrite H. unfold entry. rewrite Ez.
      assert (a < List.length files)%nat by (apply nth_error_Some; congruence). destruct (Nat.ltb_spec a (List.length files)); [|lia]. cbn [andb].
      destruct (Nat.ltb_spec p (ft_r (merit_t z))), (Nat.ltb_spec q (Nat.min (ft_c (merit_t z)) limit)), (Nat.ltb_spec q (ft_c (merit_t z))), (Nat.ltb_spec q limit); cbn [andb]; try reflexivity; lia. }
    assert (HF : forall pick A, ainv files pick nx0 limit (List.length files) A -> holds files pick limit A).
    { intros pick A HA. destruct (HH pick A (f3_r A) (f3_c A) HA) as (D & H). split; [exact D|]. intros a z p q Ez Hp Hq. apply (H a z p q Ez); cbn [clip3 f3_r f3_c]; lia. }
    assert (Q1 := I1). destruct Q1 as (D1 & R1 & C1 & H1). assert (Q2 := I2). destruct Q2 as (D2 & R2 & C2 & H2). assert (Q3 := I3). destruct Q3 as (D3 & R3 & C3 & H3).
    destruct nim as [n|]; cbv iota.
    + exists (clip3 m nx limit), (clip3 o nx limit), f, nx, ni. split; [reflexivity|]. split; [exact I4|]. split; [exact I5|].
      split; [exact (HH _ _ _ _ I1)|]. split; [exact (HH _ _ _ _ I2)|]. split; [exact (HF _ _ I3)|]. cbn [clip3 f3_r f3_c]. rewrite R1, C1, R2, C2. repeat split; try assumption; lia.
    + exists (clip3 m nx ni), (clip3 o nx ni), (clip3 f nx ni), nx, ni. split; [reflexivity|]. split; [exact I4|]. split; [exact I5|].
      split; [exact (HH _ _ _ _ I1)|]. split; [exact (HH _ _ _ _ I2)|]. split; [exact (HH _ _ _ _ I3)|]. cbn [clip3 f3_r f3_c]. rewrite R1, C1, R2, C2, R3, C3. repeat split; lia.
Qed.
Print Assumptions C63_loaded_results_partial.

(** the feasibility array does not have the shape of the other two when the number of iterations is given *)
Definition one_run : ftab := mkftab 1 2 (fun _ _ => Some 1).
Theorem C63_feasibility_shape_refuted :
  ~ (forall files n_iter_max n_x0_init noise_free M O F, (forall z, In z files -> good_file noise_free z /\ (ft_r (merit_t z) <= n_x0_init)%nat) ->
      load_npz_data files n_iter_max n_x0_init noise_free = Ok (M, O, F) -> f3_r F = f3_r M).
Proof.
  intros H. set (z := mknpz true one_run one_run one_run one_run one_run one_run).
  assert (G : forall y, In y [z] -> good_file true y /\ (ft_r (merit_t y) <= 20)%nat).
  { intros y [<-|[]]. split; [|cbn; lia]. split; [reflexivity|]. intros T HT. assert (T = one_run) by (destruct HT as [->|[->| ->]]; reflexivity). subst T. split; reflexivity. }
  destruct (C63_loaded_results_partial [z] (Some 5%nat) 20 true G) as (M & O & F & nx & ni & E & (L1 & L2) & _ & _ & _ & _ & (RM & _) & RF & _).
  specialize (H [z] (Some 5%nat) 20%nat true M O F G E). rewrite RM, RF in H. destruct L2 as [->|(i & Hi & E2)]; [discriminate|].
  cbn in Hi. replace i with 0%nat in E2 by lia. cbn in E2. lia.
Qed.
Print Assumptions C63_feasibility_shape_refuted.
(** more runs in a file than expected: the load raises *)
Theorem C63_too_many_runs_raises :
  forall z rest n_iter_max n_x0_init noise_free, npz_ok z = true -> good_file noise_free z -> (n_x0_init < ft_r (merit_t z))%nat -> (2 <= ft_r (merit_t z))%nat ->
  load_npz_data (z :: rest) n_iter_max n_x0_init noise_free = Err EShape.
Proof.
  intros z rest nim nx0 nfr Ok_ (_ & GT) Hr H2. unfold load_npz_data, for_range. cbn [List.length]. rewrite Nat.sub_0_r. cbn [for_steps nth_error]. rewrite Ok_. cbv zeta.
  destruct (GT _ (or_introl eq_refl)) as (R1 & C1).
  replace (if nfr then merit_nf z else merit_t z) with (t1 (wanted nfr z)) by (destruct nfr; reflexivity).
  unfold put3 at 1. cbn [f3_r f3_c]. rewrite R1, (Nat.min_r (ft_r (merit_t z)) nx0) by lia.
  destruct (Nat.eqb_spec (ft_r (merit_t z)) nx0); [lia|]. destruct (Nat.eqb_spec (ft_r (merit_t z)) 1); [lia|]. reflexivity.
Qed.
Print Assumptions C63_too_many_runs_raises.
