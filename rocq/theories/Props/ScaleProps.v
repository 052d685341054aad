(** * C65: the scaled curves and the mark of the largest likelihood *)
From Coq Require Import Reals List Arith Bool Lia Lra Psatz.
From Verif.Base Require Import NpLite NpFacts.
From Verif.Model Require Import Scripts.
Import ListNotations.
Local Open Scope R_scope.

Lemma nan_fold_spec (pick : R -> R -> R) (le : R -> R -> Prop) n data :
  (forall x, le x x) -> (forall x y z, le x y -> le y z -> le x z) -> (forall x y, (pick x y = x \/ pick x y = y) /\ le (pick x y) x /\ le (pick x y) y) ->
  match nan_fold pick n data with
  | None => forall i, (i < n)%nat -> data i = None
  | Some m => (exists i, (i < n)%nat /\ data i = Some m) /\ forall i x, (i < n)%nat -> data i = Some x -> le m x
  end.
Proof.
  intros R0 TR PK. induction n as [|n IH]; cbn [nan_fold]; [intros; lia|].
  destruct (nan_fold pick n data) as [a|]; destruct (data n) as [b|] eqn:E; cbn [nan_pick].
  - destruct IH as ((j0 & Hj0 & E0) & HB). destruct (PK a b) as (PE & P1 & P2). split.
    + destruct PE as [-> | ->]; [exists j0; split; [lia|exact E0]|exists n; split; [lia|exact E]].
    + intros j x Hj Ej. destruct (Nat.eq_dec j n); [subst; rewrite E in Ej; injection Ej as <-; exact P2|]. apply (TR _ a); [exact P1|]. apply (HB j); [lia|exact Ej].
  - destruct IH as ((j0 & Hj0 & E0) & HB). split; [exists j0; split; [lia|exact E0]|]. intros j x Hj Ej. destruct (Nat.eq_dec j n); [subst; congruence|]. apply (HB j); [lia|exact Ej].
  - split; [exists n; split; [lia|exact E]|]. intros j x Hj Ej. destruct (Nat.eq_dec j n); [subst; rewrite E in Ej; injection Ej as <-; apply R0|]. rewrite IH in Ej by lia. discriminate.
  - intros j Hj. destruct (Nat.eq_dec j n); [subst; exact E|apply IH; lia].
Qed.
Lemma nan_min n data : match nan_fold Rmin n data with None => forall i, (i < n)%nat -> data i = None
  | Some m => (exists i, (i < n)%nat /\ data i = Some m) /\ forall i x, (i < n)%nat -> data i = Some x -> m <= x end.
Proof. apply (nan_fold_spec Rmin Rle); [intros; lra|intros; lra|]. intros x y. unfold Rmin; destruct (Rle_dec x y); repeat split; auto; lra. Qed.
Lemma nan_max n data : match nan_fold Rmax n data with None => forall i, (i < n)%nat -> data i = None
  | Some m => (exists i, (i < n)%nat /\ data i = Some m) /\ forall i x, (i < n)%nat -> data i = Some x -> x <= m end.
Proof. apply (nan_fold_spec Rmax (fun x y => y <= x)); [intros; lra|intros; lra|]. intros x y. unfold Rmax; destruct (Rle_dec x y); repeat split; auto; lra. Qed.

(** C65: the scaled data: NaN stays NaN; the numbers go to [0, 1], the smallest to 0, the largest to 1, in the same order *)
Theorem C65_scaled_data_partial :
  forall (n : nat) (data : nat -> nf), (exists i j x y, (i < n)%nat /\ (j < n)%nat /\ data i = Some x /\ data j = Some y /\ x <> y) ->
  (forall i, (i < n)%nat -> data i = None -> calc_scl_data n data i = None) /\
  (forall i x, (i < n)%nat -> data i = Some x -> exists s, calc_scl_data n data i = Some s /\ 0 <= s <= 1 /\
     (s = 0 <-> forall j y, (j < n)%nat -> data j = Some y -> x <= y) /\ (s = 1 <-> forall j y, (j < n)%nat -> data j = Some y -> y <= x)) /\
  (forall i j x y s t, (i < n)%nat -> (j < n)%nat -> data i = Some x -> data j = Some y -> calc_scl_data n data i = Some s -> calc_scl_data n data j = Some t -> (x < y <-> s < t)).
Proof.
  intros n data (i0 & j0 & x0 & y0 & Hi0 & Hj0 & Ei0 & Ej0 & N).
  assert (LO := nan_min n data). assert (HI := nan_max n data). unfold calc_scl_data.
  destruct (nan_fold Rmin n data) as [lo|]; [|rewrite LO in Ei0 by assumption; discriminate].
  destruct (nan_fold Rmax n data) as [hi|]; [|rewrite HI in Ei0 by assumption; discriminate].
  destruct LO as ((il & Hil & Eil) & LO). destruct HI as ((ih & Hih & Eih) & HI).
  assert (D : 0 < hi - lo). { assert (A := LO _ _ Hi0 Ei0). assert (B := LO _ _ Hj0 Ej0). assert (C := HI _ _ Hi0 Ei0). assert (E := HI _ _ Hj0 Ej0). destruct (Rlt_dec x0 y0); lra. }
  destruct (Req_EM_T (hi - lo) 0); [lra|].
  assert (ID : 0 < / (hi - lo)) by (apply Rinv_0_lt_compat; exact D).
  split; [|split].
  - intros i Hi E. rewrite E. reflexivity.
  - intros i x Hi E. rewrite E. assert (A := LO _ _ Hi E). assert (B := HI _ _ Hi E). eexists. split; [reflexivity|].
    assert (S1 : (x - lo) / (hi - lo) = 1 - (hi - x) / (hi - lo)) by (field; lra).
    assert (P1 : 0 <= (x - lo) / (hi - lo)) by (apply Rmult_le_pos; lra). assert (P2 : 0 <= (hi - x) / (hi - lo)) by (apply Rmult_le_pos; lra).
    split; [lra|]. split; split.
    + intros Z j y Hj Ej. assert (x - lo = 0). { replace (x - lo) with ((x - lo) / (hi - lo) * (hi - lo)) by (field; lra). rewrite Z. ring. } assert (A2 := LO _ _ Hj Ej). lra.
    + intros H. assert (x <= lo) by (apply (H il); assumption). replace (x - lo) with 0 by lra. unfold Rdiv. ring.
    + intros Z j y Hj Ej. assert (x - lo = hi - lo). { replace (x - lo) with ((x - lo) / (hi - lo) * (hi - lo)) by (field; lra). rewrite Z. ring. } assert (A2 := HI _ _ Hj Ej). lra.
    + intros H. assert (hi <= x) by (apply (H ih); assumption). replace (x - lo) with (hi - lo) by lra. field. lra.
  - intros i j x y s t Hi Hj Ei Ej Es Et. rewrite Ei in Es. rewrite Ej in Et. injection Es as <-. injection Et as <-. split; intros H.
    + apply Rmult_lt_compat_r; [exact ID|lra].
    + apply Rmult_lt_reg_r in H; [lra|exact ID].
Qed.
Print Assumptions C65_scaled_data_partial.
(** data that do not vary: every scaled value is NaN *)
Theorem C65_constant_data_refuted :
  ~ (forall n data i x, (i < n)%nat -> data i = Some x -> exists s, calc_scl_data n data i = Some s).
Proof.
  intros H. destruct (H 1%nat (fun _ => Some 3) 0%nat 3) as (s & E); [lia|reflexivity|]. unfold calc_scl_data in E. cbn [nan_fold nan_pick] in E.
  destruct (Req_EM_T (3 - 3) 0); [discriminate|lra].
Qed.
Print Assumptions C65_constant_data_refuted.

Lemma rminn_le n f i : (i < n)%nat -> rminn n f <= f i.
Proof.
  induction n as [|n IH]; [lia|]. intros Hi. destruct n as [|n]; [replace i with 0%nat by lia; cbn [rminn]; lra|].
  change (rminn (S (S n)) f) with (Rmin (rminn (S n) f) (f (S n))). destruct (Nat.eq_dec i (S n)); [subst; apply Rmin_r|]. eapply Rle_trans; [apply Rmin_l|apply IH; lia].
Qed.
Lemma rminn_at n f : (0 < n)%nat -> exists i, (i < n)%nat /\ f i = rminn n f.
Proof.
  induction n as [|n IH]; [lia|]. intros _. destruct n as [|n]; [exists 0%nat; split; [lia|reflexivity]|].
  change (rminn (S (S n)) f) with (Rmin (rminn (S n) f) (f (S n))). unfold Rmin. destruct (Rle_dec _ _).
  - destruct IH as (k & Hk & E); [lia|]. exists k. split; [lia|exact E].
  - exists (S n). split; [lia|reflexivity].
Qed.
Lemma rmaxn_ge n f i : (i < n)%nat -> f i <= rmaxn n f.
Proof.
  induction n as [|n IH]; [lia|]. intros Hi. destruct n as [|n]; [replace i with 0%nat by lia; cbn [rmaxn]; lra|].
  change (rmaxn (S (S n)) f) with (Rmax (rmaxn (S n) f) (f (S n))). destruct (Nat.eq_dec i (S n)); [subst; apply Rmax_r|]. eapply Rle_trans; [apply IH; lia|apply Rmax_l].
Qed.
(** the acquisition curves: always defined, within [0, 1], in the same order (so the same minimiser), 0 at the minimum *)
Theorem C65_scaled_acquisition :
  forall (n : nat) (acq : nat -> R) (i j : nat), (i < n)%nat -> (j < n)%nat ->
  0 <= scl_acq n acq i <= 1 /\ (acq i < acq j <-> scl_acq n acq i < scl_acq n acq j) /\
  (scl_acq n acq i = 0 <-> forall k, (k < n)%nat -> acq i <= acq k).
Proof.
  intros n acq i j Hi Hj. unfold scl_acq. cbv zeta. set (D := Rmax 1e-8 (rmaxn n acq - rminn n acq)).
  assert (DP : 0 < D) by (eapply Rlt_le_trans; [|apply Rmax_l]; lra). assert (ID : 0 < / D) by (apply Rinv_0_lt_compat; exact DP).
  assert (A := rminn_le n acq i Hi). assert (B := rmaxn_ge n acq i Hi). assert (DG : rmaxn n acq - rminn n acq <= D) by apply Rmax_r.
  assert (SC : forall a, a / D * D = a) by (intros; field; lra).
  repeat split.
  - apply Rmult_le_pos; lra.
  - apply (Rmult_le_reg_r D); [exact DP|]. rewrite SC. lra.
  - intros H. apply Rmult_lt_compat_r; [exact ID|lra].
  - intros H. apply Rmult_lt_reg_r in H; [lra|exact ID].
  - intros Z k Hk. assert (acq i - rminn n acq = 0) by (rewrite <- (SC (acq i - rminn n acq)), Z; ring). assert (C := rminn_le n acq k Hk). lra.
  - intros H. destruct (rminn_at n acq) as (k & Hk & E); [lia|]. specialize (H k Hk). rewrite E in H. replace (acq i - rminn n acq) with 0 by lra. unfold Rdiv. ring.
Qed.
Print Assumptions C65_scaled_acquisition.

Lemma nan_argmax_spec n data : match nan_argmax n data with
  | None => forall i, (i < n)%nat -> data i = None
  | Some k => (k < n)%nat /\ exists m, data k = Some m /\ forall i x, (i < n)%nat -> data i = Some x -> x <= m /\ ((i < k)%nat -> x < m) end.
Proof.
  induction n as [|n IH]; cbn [nan_argmax]; [intros; lia|].
  destruct (data n) as [x|] eqn:E.
  - destruct (nan_argmax n data) as [j|].
    + destruct IH as (Hj & m & Ej & H). rewrite Ej. destruct (Rlt_dec m x).
      * split; [lia|]. exists x. split; [exact E|]. intros i y Hi Ey. destruct (Nat.eq_dec i n); [subst; rewrite E in Ey; injection Ey as <-; split; [lra|lia]|]. destruct (H i y) as (H1 & _); [lia|exact Ey|]. split; intros; lra.
      * split; [lia|]. exists m. split; [exact Ej|]. intros i y Hi Ey. destruct (Nat.eq_dec i n); [subst; rewrite E in Ey; injection Ey as <-; split; [lra|lia]|]. apply H; [lia|exact Ey].
    + split; [lia|]. exists x. split; [exact E|]. intros i y Hi Ey. destruct (Nat.eq_dec i n); [subst; rewrite E in Ey; injection Ey as <-; split; [lra|lia]|]. rewrite IH in Ey by lia. discriminate.
  - destruct (nan_argmax n data) as [j|].
    + destruct IH as (Hj & m & Ej & H). split; [lia|]. exists m. split; [exact Ej|]. intros i y Hi Ey. destruct (Nat.eq_dec i n); [subst; congruence|]. apply H; [lia|exact Ey].
    + intros i Hi. destruct (Nat.eq_dec i n); [subst; exact E|apply IH; lia].
Qed.

(** the mark stands where the largest value of the table is drawn *)
Theorem C65_mark_on_the_largest_partial :
  forall (n : nat) (lkd : nat -> nat -> nf) (gamma : nat -> R),
  match loc_max_lkd n lkd gamma with
  | None => forall i j, (i < n)%nat -> (j < n)%nat -> lkd i j = None
  | Some pt => exists i j m, (i < n)%nat /\ (j < n)%nat /\ lkd i j = Some m /\ pt = drawn_at gamma i j /\
      forall i' j' x, (i' < n)%nat -> (j' < n)%nat -> lkd i' j' = Some x -> x <= m
  end.
Proof.
  intros n lkd gamma. unfold loc_max_lkd. cbv zeta. assert (A := nan_argmax_spec n (fun i => nan_fold Rmax n (lkd i))).
  destruct (nan_argmax n (fun i => nan_fold Rmax n (lkd i))) as [i|].
  - destruct A as (Hi & m & Em & H). cbv beta in Em. assert (X := nan_max n (lkd i)). rewrite Em in X. destruct X as ((j0 & Hj0 & Ej0) & X).
    assert (B := nan_argmax_spec n (lkd i)). destruct (nan_argmax n (lkd i)) as [j|]; [|rewrite B in Ej0 by assumption; discriminate].
    destruct B as (Hj & m' & Em' & B). assert (m' = m). { apply Rle_antisym; [apply (X j m' Hj Em')|apply (B j0 m Hj0 Ej0)]. } subst m'.
    exists i, j, m. repeat split; try assumption. intros i' j' x Hi' Hj' Ex.
    assert (Y := nan_max n (lkd i')). destruct (nan_fold Rmax n (lkd i')) as [m'|] eqn:Em2; [|rewrite Y in Ex by assumption; discriminate].
    destruct Y as (_ & Y). assert (x <= m') by (apply (Y j' x Hj' Ex)). assert (m' <= m) by (apply (H i' m' Hi' Em2)). lra.
  - intros i j Hi Hj. specialize (A i Hi). cbv beta in A. assert (Y := nan_max n (lkd i)). rewrite A in Y. apply Y. exact Hj.
Qed.
Print Assumptions C65_mark_on_the_largest_partial.
(** ... but not at the hyperparameters which have that likelihood: the axes are exchanged *)
Theorem C65_mark_at_the_maximiser_refuted :
  ~ (forall n (q : R -> R -> nf) (theta gamma : nat -> R) g1 g2, (forall i j, gamma i = gamma j -> theta i = theta j) ->
     loc_max_lkd n (lkd_table q theta) gamma = Some (g1, g2) ->
     exists i j m, (i < n)%nat /\ (j < n)%nat /\ gamma i = g1 /\ gamma j = g2 /\ q (theta i) (theta j) = Some m /\
       forall i' j' x, (i' < n)%nat -> (j' < n)%nat -> q (theta i') (theta j') = Some x -> x <= m).
Proof.
  intros H. specialize (H 2%nat (fun a b => Some (a - b)) INR INR).
  assert (A0 : loc_max_lkd 2 (lkd_table (fun a b => Some (a - b)) INR) INR = Some (0, 1)).
  { unfold loc_max_lkd, lkd_table. cbn [nan_fold nan_pick nan_argmax INR]. unfold Rmax.
    destruct (Rle_dec (0 - 0) (0 - 1)); [lra|]. destruct (Rle_dec (1 - 0) (1 - 1)); [lra|].
    destruct (Rlt_dec (0 - 0) (1 - 0)); [|lra]. destruct (Rlt_dec (INR 1 - 0) (INR 1 - 1)) as [L|]; [cbn [INR] in L; lra|]. reflexivity. }
  destruct (H 0 1 (fun i j E => E) A0) as (i & j & m & Hi & Hj & Ei & Ej & Eq & HM).
  assert (i = 0)%nat by (apply INR_eq; exact Ei). assert (j = 1)%nat by (apply INR_eq; exact Ej). subst. cbn [INR] in Eq. injection Eq as <-.
  specialize (HM 1%nat 0%nat 1). assert (1 <= 0 - 1); [|lra]. apply HM; [lia|lia|]. cbn [INR]. f_equal. lra.
Qed.
Print Assumptions C65_mark_at_the_maximiser_refuted.
Example C65_case : exists n data, exists i j x y, (i < n)%nat /\ (j < n)%nat /\ data i = Some x /\ data j = (Some y : nf) /\ x <> y /\ data 2%nat = None.
Proof. exists 3%nat, (fun i => match i with 0%nat => Some 1 | 1%nat => Some 2 | _ => None end), 0%nat, 1%nat, 1, 2. repeat split; try lia. lra. Qed.
