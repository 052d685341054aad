(** * C22: the bounds of the hyperparameter optimisation and its start points *)
From Coq Require Import Reals List Arith Bool Permutation Sorted Lia Lra.
From Verif.Base Require Import NpLite NpFacts.
From Verif.Spec Require Import KernelSpec GpSpec HpSpec StartSpec.
From Verif.Model Require Import KernelSqExp KernelMatern KernelRatQuad KernelDispatch CommonFun WellCond Rescaling GpState Chol Cov MeanFun
  HpInfo HpGrad Lkd OptzLkd History StartPts.
From Verif.Proofs Require Import StateFacts HpInfoFacts ThetaRescale StartFacts.
From Verif.Props Require Import HpGradProps OptzProps.
Import ListNotations.
Local Open Scope R_scope.

(** [x] is a point of the box [lb, ub] (all of length [n]) *)
Definition in_box (n : nat) (lb ub x : fvec) : Prop :=
  fv_len x = n /\ forall r, (r < n)%nat -> exists a t b, fv_at lb r = Some a /\ fv_at x r = Some t /\ fv_at ub r = Some b /\ a <= t <= b.

(** With a finite history, positive ranges and factors 1 <= lhs factor <= box factor, the call succeeds.  The box of
    every hyperparameter is the interval around the median of its recent values, cut off at its range, in the
    coordinate in which it is optimised (lower bound at most the upper bound); there are as many start points as asked for, each in
    the box, and within the narrower interval given by the lhs factor. *)
Theorem C22_bounds_and_start_points :
  forall (o : gpopt) (d : gpdata) (lo : lkopt) (hk hv hf hg : bool) (info : hpinfo) (lhs : sampler) (xo : x0opt) (h : hist) (i n : nat),
  set_hp_optz_info o d lo true hk hv hf hg = Ok info -> samples_within lhs ->
  1 <= xo_lf xo <= xo_bf xo -> h_w h Ttheta = o_dim o ->
  (exists r, recent h (xo_n_idx xo) i r) ->
  (forall s r, position info s <> None -> recent h (xo_n_idx xo) i r -> exists x, past h s r = Some x) ->
  (forall s, position info s <> None -> exists a b, allowed xo s = (Some a, Some b) /\ 0 < a <= b) ->
  exists x0s lb ub, get_hp_x0_lhs_median lhs xo info h i n = Ok (x0s, (lb, ub)) /\
  List.length x0s = n /\ fv_len lb = hi_n info /\ fv_len ub = hi_n info /\
  (forall x, In x x0s -> in_box (hi_n info) lb ub x) /\
  forall s r, position info s = Some r ->
    exists rows l m a b, NoDup rows /\ (forall k, In k rows <-> recent h (xo_n_idx xo) i k) /\ map (past h s) rows = map Some l /\ is_median l m /\
      allowed xo s = (Some a, Some b) /\
      fv_at lb r = Some (coord lo s (fst (around m (xo_bf xo) a b))) /\ fv_at ub r = Some (coord lo s (snd (around m (xo_bf xo) a b))) /\
      coord lo s (fst (around m (xo_bf xo) a b)) <= coord lo s (snd (around m (xo_bf xo) a b)) /\
      forall x, In x x0s -> exists t, fv_at x r = Some t /\
        coord lo s (fst (around m (xo_lf xo) a b)) <= t <= coord lo s (snd (around m (xo_lf xo) a b)).
Proof.
  intros o d lo hk hv hf hg info lhs xo h i n HI HS HF HW (r0 & HR) HP HA.
  destruct (C21_index_sets_partition _ _ _ _ _ _ _ _ _ HI) as (_ & HL & PS & PL & PB & _).
  destruct (all_boxes_spec o d lo hk hv hf hg info xo h i HI HW) as (b & EB & (L1 & L2 & L3 & L4) & AT).
  set (rows := rows_used h (xo_n_idx xo) i) in *.
  assert (NE : rows <> []). { intros C. apply rows_used_spec in HR. fold rows in HR. rewrite C in HR. destruct HR. }
  (* what is known of one hyperparameter *)
  assert (ONE : forall s r, position info s = Some r -> exists l m a c, map (past h s) rows = map Some l /\ is_median l m /\
     allowed xo s = (Some a, Some c) /\ 0 < a <= c /\ nth r (hi_log info) false = log_flag lo s /\
     fv_at (b_ll b) r = Some (fst (around m (xo_lf xo) a c)) /\ fv_at (b_lu b) r = Some (snd (around m (xo_lf xo) a c)) /\
     fv_at (b_bl b) r = Some (fst (around m (xo_bf xo) a c)) /\ fv_at (b_bu b) r = Some (snd (around m (xo_bf xo) a c))).
  { intros s r P. assert (PN : position info s <> None) by congruence.
    destruct (median_of (past h s) rows NE) as (l & m & E1 & E2 & E3). { intros k Hk. apply rows_used_spec in Hk. apply HP; assumption. }
    destruct (HA s PN) as (a & c & EA & Hac). exists l, m, a, c. split; [exact E1|]. split; [exact E3|]. split; [exact EA|]. split; [exact Hac|]. split.
    { destruct (PL r (PB s r P)) as (s' & P' & U & N). rewrite (U s P). apply nth_error_nth with (d := false) in N. exact N. }
    assert (X := AT s r P). fold rows in X. rewrite (exp4_around xo s a c m EA h rows E2) in X. unfold box_at in X.
    injection X as X1 X2 X3 X4. auto. }
  assert (POS : forall r, (r < hi_n info)%nat -> exists s, position info s = Some r) by (intros r Hr; destruct (PL r Hr) as (s & P & _); exists s; exact P).
  assert (F1 : 1 <= xo_lf xo) by lra. assert (F2 : 1 <= xo_bf xo) by lra.
  (* the logarithms *)
  assert (LG : forall v f sel, fv_len v = hi_n info -> 1 <= f ->
     (forall s r, position info s = Some r -> forall l m a c, map (past h s) rows = map Some l -> is_median l m -> allowed xo s = (Some a, Some c) ->
        0 < a <= c -> True) -> (forall p, sel p = fst p \/ sel p = snd p) ->
     (forall s r, position info s = Some r -> exists m a c, 0 < a <= c /\ fv_at v r = Some (sel (around m f a c))) ->
     exists v', log_at (hi_log info) v = Ok v' /\ fv_len v' = hi_n info /\
       forall s r x, position info s = Some r -> fv_at v r = Some x -> nth r (hi_log info) false = log_flag lo s -> fv_at v' r = Some (coord lo s x)).
  { intros v f sel LV Hf _ Hsel Hv. destruct (log_at_spec (hi_log info) v) as (v' & E & LE & A).
    { rewrite HL, LV. reflexivity. }
    { intros r Hr. rewrite LV in Hr. destruct (POS r Hr) as (s & P). destruct (Hv s r P) as (m & a & c & Hac & Ex). eexists. split; [exact Ex|].
      destruct (around_facts m f a c Hac Hf) as (C1 & C2 & C3). destruct (Hsel (around m f a c)) as [-> | ->]; lra. }
    exists v'. split; [exact E|]. split; [congruence|]. intros s r x P Ex F. rewrite (A r x Ex), F. unfold coord. destruct (log_flag lo s); reflexivity. }
  destruct (LG (b_ll b) (xo_lf xo) fst L1 F1 (fun _ _ _ _ _ _ _ _ _ _ _ => I) (fun p => or_introl eq_refl)) as (ll & E1 & N1 & A1).
  { intros s r P. destruct (ONE s r P) as (l & m & a & c & _ & _ & _ & Hac & _ & X & _). exists m, a, c. auto. }
  destruct (LG (b_lu b) (xo_lf xo) snd L2 F1 (fun _ _ _ _ _ _ _ _ _ _ _ => I) (fun p => or_intror eq_refl)) as (lu & E2 & N2 & A2).
  { intros s r P. destruct (ONE s r P) as (l & m & a & c & _ & _ & _ & Hac & _ & _ & X & _). exists m, a, c. auto. }
  destruct (LG (b_bl b) (xo_bf xo) fst L3 F2 (fun _ _ _ _ _ _ _ _ _ _ _ => I) (fun p => or_introl eq_refl)) as (bl & E3 & N3 & A3).
  { intros s r P. destruct (ONE s r P) as (l & m & a & c & _ & _ & _ & Hac & _ & _ & _ & X & _). exists m, a, c. auto. }
  destruct (LG (b_bu b) (xo_bf xo) snd L4 F2 (fun _ _ _ _ _ _ _ _ _ _ _ => I) (fun p => or_intror eq_refl)) as (bu & E4 & N4 & A4).
  { intros s r P. destruct (ONE s r P) as (l & m & a & c & _ & _ & _ & Hac & _ & _ & _ & _ & X). exists m, a, c. auto. }
  clear LG.
  assert (ALL : forall s r, position info s = Some r -> exists l m a c, map (past h s) rows = map Some l /\ is_median l m /\ allowed xo s = (Some a, Some c) /\
     fv_at ll r = Some (coord lo s (fst (around m (xo_lf xo) a c))) /\ fv_at lu r = Some (coord lo s (snd (around m (xo_lf xo) a c))) /\
     fv_at bl r = Some (coord lo s (fst (around m (xo_bf xo) a c))) /\ fv_at bu r = Some (coord lo s (snd (around m (xo_bf xo) a c))) /\
     coord lo s (fst (around m (xo_bf xo) a c)) <= coord lo s (fst (around m (xo_lf xo) a c)) /\
     coord lo s (fst (around m (xo_lf xo) a c)) <= coord lo s (snd (around m (xo_lf xo) a c)) /\
     coord lo s (snd (around m (xo_lf xo) a c)) <= coord lo s (snd (around m (xo_bf xo) a c))).
  { intros s r P. destruct (ONE s r P) as (l & m & a & c & Q1 & Q2 & Q3 & Q4 & Q5 & X1 & X2 & X3 & X4). exists l, m, a, c.
    destruct (around_facts m (xo_lf xo) a c Q4 F1) as (C1 & C2 & C3). destruct (around_facts m (xo_bf xo) a c Q4 F2) as (_ & C4 & C5).
    destruct (around_nested m (xo_lf xo) (xo_bf xo) a c Q4 HF) as (C6 & C7).
    split; [exact Q1|]. split; [exact Q2|]. split; [exact Q3|].
    split; [eapply A1; eassumption|]. split; [eapply A2; eassumption|]. split; [eapply A3; eassumption|]. split; [eapply A4; eassumption|].
    split; [|split]; apply coord_le; lra. }
  assert (G1 : any_gt ll lu = false).
  { apply any_gt_false. rewrite N1. intros r Hr. destruct (POS r Hr) as (s & P). destruct (ALL s r P) as (l & m & a & c & _ & _ & _ & X1 & X2 & _ & _ & _ & Y & _). do 2 eexists. eauto. }
  assert (G2 : any_gt bl bu = false).
  { apply any_gt_false. rewrite N3. intros r Hr. destruct (POS r Hr) as (s & P). destruct (ALL s r P) as (l & m & a & c & _ & _ & _ & _ & _ & X1 & X2 & Y1 & Y2 & Y3). do 2 eexists. split; [exact X1|]. split; [exact X2|lra]. }
  unfold get_hp_x0_lhs_median. rewrite EB. cbn [bind]. rewrite E1, E2, E3, E4. cbn [bind]. rewrite G1, G2. cbn [bind]. rewrite N1.
  set (x0s := if (hi_n info =? 1)%nat then _ else _). exists x0s, bl, bu. split; [reflexivity|].
  (* the start points *)
  assert (ST : List.length x0s = n /\ forall x, In x x0s -> fv_len x = hi_n info /\
     forall r p q, (r < hi_n info)%nat -> fv_at ll r = Some p -> fv_at lu r = Some q -> exists t, fv_at x r = Some t /\ p <= t <= q).
  { unfold x0s. destruct (Nat.eqb_spec (hi_n info) 1) as [N|N].
    - rewrite map_length, seq_length. split; [reflexivity|]. intros x Hx. apply in_map_iff in Hx. destruct Hx as (k & <- & Hk). apply in_seq in Hk. cbn.
      split; [auto|]. intros r p q Hr Ep Eq. assert (r = 0)%nat by lia. subst r. rewrite Ep, Eq. destruct (POS 0%nat ltac:(lia)) as (s & P).
      destruct (ALL s 0%nat P) as (l & m & a & c & _ & _ & _ & X1 & X2 & _ & _ & _ & Y & _). apply flin_between; [|lia].
      rewrite Ep in X1. rewrite Eq in X2. injection X1 as ->. injection X2 as ->. exact Y.
    - destruct (HS (map (fun j => (fv_at ll j, fv_at lu j)) (seq 0 (hi_n info))) n) as (S1 & S2).
      { intros p Hp. apply in_map_iff in Hp. destruct Hp as (j & <- & Hj). apply in_seq in Hj. destruct (POS j ltac:(lia)) as (s & P).
        destruct (ALL s j P) as (l & m & a & c & _ & _ & _ & X1 & X2 & _ & _ & _ & Y & _). rewrite X1, X2. eauto. }
      split; [exact S1|]. intros x Hx. destruct (S2 x Hx) as (S3 & S4). rewrite map_length, seq_length in S3. split; [exact S3|].
      intros r p q Hr Ep Eq. apply S4. rewrite nth_error_map. rewrite (nth_error_nth' _ 0%nat) by (rewrite seq_length; exact Hr). rewrite seq_nth by exact Hr.
      cbn. rewrite Ep, Eq. reflexivity. }
  destruct ST as (ST1 & ST2). split; [exact ST1|]. split; [exact N3|]. split; [exact N4|]. split.
  { intros x Hx. destruct (ST2 x Hx) as (S1 & S2). split; [exact S1|]. intros r Hr. destruct (POS r Hr) as (s & P).
    destruct (ALL s r P) as (l & m & a & c & _ & _ & _ & X1 & X2 & X3 & X4 & Y1 & Y2 & Y3). destruct (S2 r _ _ Hr X1 X2) as (t & Et & Ht).
    do 3 eexists. split; [exact X3|]. split; [exact Et|]. split; [exact X4|]. lra. }
  intros s r P. destruct (ALL s r P) as (l & m & a & c & Q1 & Q2 & Q3 & X1 & X2 & X3 & X4 & Y1 & Y2 & Y3).
  exists rows, l, m, a, c. split; [apply rows_used_nodup|]. split; [intros k; apply rows_used_spec|]. 
  split; [exact Q1|]. split; [exact Q2|]. split; [exact Q3|]. split; [exact X3|]. split; [exact X4|]. split; [lra|].
  intros x Hx. destruct (ST2 x Hx) as (_ & S2). destruct (S2 r _ _ (PB s r P) X1 X2) as (t & Et & Ht). exists t. auto.
Qed.
Print Assumptions C22_bounds_and_start_points.

(** With the options of a new object: the ranges are 1e-18 .. 1e24 for theta, 1e-3 .. 10 for the kernel hyperparameter
    (rational quadratic kernel), 1e-24 .. 1e14 for varK, 1e-8 .. 1e8 for both noise variances; the last five iterations
    are looked at, the start points are within a factor 1e3 of the median and the box within 1e5.  Only the history
    has to be finite. *)
Definition default_range (s : hslot) : R * R :=
  match s with
  | HTheta _ => (/ 10 ^ 18, 10 ^ 24)
  | HKernel => (/ 10 ^ 3, 10)
  | HVarK => (/ 10 ^ 24, 10 ^ 14)
  | HVarF | HVarG => (/ 10 ^ 8, 10 ^ 8)
  end.
Lemma default_range_order s : 0 < fst (default_range s) /\ fst (default_range s) < 1 /\ 1 < snd (default_range s).
Proof.
  assert (I : forall n, 0 < / 10 ^ S n < 1).
  { intros n. assert (1 < 10 ^ S n). { apply Rlt_pow_R1; [lra|lia]. } split; [apply Rinv_0_lt_compat; lra|]. rewrite <- Rinv_1. apply Rinv_lt_contravar; lra. }
  assert (J : forall n, 1 < 10 ^ S n) by (intros n; apply Rlt_pow_R1; [lra|lia]).
  destruct s; unfold default_range, fst, snd.
  - split; [apply (I 17%nat)|split; [apply (I 17%nat)|apply (J 23%nat)]].
  - split; [apply (I 2%nat)|split; [apply (I 2%nat)|lra]].
  - split; [apply (I 23%nat)|split; [apply (I 23%nat)|apply (J 13%nat)]].
  - split; [apply (I 7%nat)|split; [apply (I 7%nat)|apply (J 7%nat)]].
  - split; [apply (I 7%nat)|split; [apply (I 7%nat)|apply (J 7%nat)]].
Qed.
Theorem C22_default_options :
  forall (o : gpopt) (d : gpdata) (lo : lkopt) (hk hv hf hg : bool) (info : hpinfo) (lhs : sampler) (h : hist) (i n : nat),
  set_hp_optz_info o d lo true hk hv hf hg = Ok info -> samples_within lhs -> h_w h Ttheta = o_dim o ->
  (exists r, recent h 5 i r) ->
  (forall s r, position info s <> None -> recent h 5 i r -> exists x, past h s r = Some x) ->
  exists x0s lb ub, get_hp_x0_lhs_median lhs (xo_default (o_kernel o)) info h i n = Ok (x0s, (lb, ub)) /\
  List.length x0s = n /\ (forall x, In x x0s -> in_box (hi_n info) lb ub x) /\
  forall s r, position info s = Some r ->
    exists rows l m, NoDup rows /\ (forall k, In k rows <-> recent h 5 i k) /\ map (past h s) rows = map Some l /\ is_median l m /\
      let box f := around m f (fst (default_range s)) (snd (default_range s)) in
      fv_at lb r = Some (coord lo s (fst (box (10 ^ 5)))) /\ fv_at ub r = Some (coord lo s (snd (box (10 ^ 5)))) /\
      forall x, In x x0s -> exists t, fv_at x r = Some t /\
        coord lo s (fst (box (10 ^ 3))) <= t <= coord lo s (snd (box (10 ^ 3))).
Proof.
  intros o d lo hk hv hf hg info lhs h i n HI HS HW HR HP.
  assert (K : position info HKernel <> None -> o_kernel o = RatQu).
  { intros P. destruct hk.
    - unfold set_hp_optz_info in HI. destruct (kernel_has_hp (o_kernel o)) eqn:E; [|cbn in HI; discriminate HI]. destruct (o_kernel o); (reflexivity || discriminate E).
    - exfalso. apply P. unfold set_hp_optz_info in HI. destruct hv, hf, hg, (d_known_fval d), (d_known_fgrad d); cbn in HI; try discriminate HI; injection HI as <-; reflexivity. }
  assert (A : forall s, position info s <> None -> allowed (xo_default (o_kernel o)) s = (Some (fst (default_range s)), Some (snd (default_range s)))).
  { intros s P. destruct s; try reflexivity. unfold allowed, xo_default, xo_kernel. rewrite (K P). reflexivity. }
  destruct (C22_bounds_and_start_points o d lo hk hv hf hg info lhs (xo_default (o_kernel o)) h i n HI HS) as (x0s & lb & ub & E & L & _ & _ & B & AT).
  - unfold xo_default, xo_lf, xo_bf. lra.
  - exact HW.
  - exact HR.
  - exact HP.
  - intros s P. do 2 eexists. split; [exact (A s P)|]. destruct (default_range_order s) as (q1 & q2 & q3). lra.
  - exists x0s, lb, ub. split; [exact E|]. split; [exact L|]. split; [exact B|]. intros s r P.
    destruct (AT s r P) as (rows & l & m & a & b & N & R1 & M & MD & AL & F1 & F2 & _ & F3).
    rewrite (A s) in AL by congruence. injection AL as <- <-. exists rows, l, m. repeat (split; [assumption|]). exact F3.
Qed.
Print Assumptions C22_default_options.

(** The point or points handed to the optimisation (the first iteration aside): generated ones, so in the box. *)
Theorem C22_selected_start_points_in_box :
  forall (la : npla) (lhs : sampler) (o : gpopt) (d : gpdata) (lo : lkopt) (xo : x0opt) (hk hv hf hg : bool) (info : hpinfo) (h : hist) (i : nat)
    (x0s : list fvec) (lb ub : fvec),
  set_hp_optz_info o d lo true hk hv hf hg = Ok info -> samples_within lhs ->
  1 <= xo_lf xo <= xo_bf xo -> h_w h Ttheta = o_dim o ->
  (exists r, recent h (xo_n_idx xo) i r) ->
  (forall s r, position info s <> None -> recent h (xo_n_idx xo) i r -> exists x, past h s r = Some x) ->
  (forall s, position info s <> None -> exists a b, allowed xo s = (Some a, Some b) /\ 0 < a <= b) ->
  select_hp_optz_x0 la lhs o d lo xo info h i = Ok (x0s, (lb, ub)) ->
  (forall x, In x x0s -> in_box (hi_n info) lb ub x) /\
  match xo_start xo with Slhs => List.length x0s = xo_n_x0 xo | _ => List.length x0s = 1%nat end.
Proof.
  intros la lhs o d lo xo hk hv hf hg info h i x0s lb ub HI HS HF HW HR HP HA H. unfold select_hp_optz_x0 in H.
  assert (G := fun n => C22_bounds_and_start_points o d lo hk hv hf hg info lhs xo h i n HI HS HF HW HR HP HA).
  destruct (xo_start xo).
  - destruct (G (xo_n_x0 xo)) as (y & l & u & E & LE & _ & _ & B & _). rewrite E in H. injection H as <- <- <-. split; assumption.
  - destruct (G (xo_n_best xo)) as (y & l & u & E & LE & _ & _ & B & _). rewrite E in H. cbn [bind] in H. binv H vals Ev. binv H k Ek.
    cbn [fst snd] in H. destruct (nth_error y k) as [x|] eqn:Ex; [|discriminate]. injection H as <- <- <-. split; [|reflexivity].
    intros x' [<-|[]]. apply B. eapply nth_error_In. exact Ex.
  - discriminate.
Qed.
Print Assumptions C22_selected_start_points_in_box.

(** The first iteration (index 0: no history) is accepted, with NaN for every bound. *)
Theorem C22_first_iteration_refuted :
  forall (o : gpopt) (d : gpdata) (lo : lkopt) (hk hv hf hg : bool) (info : hpinfo) (lhs : sampler) (xo : x0opt) (h : hist) (n : nat),
  set_hp_optz_info o d lo true hk hv hf hg = Ok info -> h_w h Ttheta = o_dim o ->
  exists x0s lb ub, get_hp_x0_lhs_median lhs xo info h 0 n = Ok (x0s, (lb, ub)) /\
    forall r, (r < hi_n info)%nat -> fv_at lb r = None /\ fv_at ub r = None.
Proof.
  intros o d lo hk hv hf hg info lhs xo h n HI HW.
  destruct (C21_index_sets_partition _ _ _ _ _ _ _ _ _ HI) as (_ & HL & PS & PL & PB & _).
  destruct (all_boxes_spec o d lo hk hv hf hg info xo h 0 HI HW) as (b & EB & (L1 & L2 & L3 & L4) & AT).
  assert (N : forall r, (r < hi_n info)%nat -> box_at b r = (None, None, (None, None))).
  { intros r Hr. destruct (PL r Hr) as (s & P & _). rewrite (AT s r P). unfold rows_used. cbn [Nat.sub Nat.min seq].
    assert (M : med' xo h [] s = None) by (unfold med', med; cbn; destruct s; try reflexivity; unfold fmaxf; destruct (fst _); reflexivity).
    rewrite M. reflexivity. }
  unfold box_at in N.
  assert (LG : forall v, fv_len v = hi_n info -> (forall r, (r < hi_n info)%nat -> fv_at v r = None) ->
    exists v', log_at (hi_log info) v = Ok v' /\ fv_len v' = hi_n info /\ forall r, (r < hi_n info)%nat -> fv_at v' r = None).
  { intros v LV HV. unfold log_at. rewrite HL, LV, Nat.eqb_refl.
    assert (X : forallb (fun j => negb (nth j (hi_log info) false) || log_ok (fv_at v j)) (seq 0 (hi_n info)) = true).
    { apply forallb_forall. intros j Hj. apply in_seq in Hj. rewrite HV by lia. apply orb_true_r. }
    rewrite X. eexists. split; [reflexivity|]. split; [reflexivity|]. intros r Hr. cbn. rewrite HV by exact Hr. destruct (nth r (hi_log info) false); reflexivity. }
  destruct (LG (b_ll b) L1) as (ll & E1 & N1 & A1). { intros r Hr. assert (X := N r Hr). congruence. }
  destruct (LG (b_lu b) L2) as (lu & E2 & N2 & A2). { intros r Hr. assert (X := N r Hr). congruence. }
  destruct (LG (b_bl b) L3) as (bl & E3 & N3 & A3). { intros r Hr. assert (X := N r Hr). congruence. }
  destruct (LG (b_bu b) L4) as (bu & E4 & N4 & A4). { intros r Hr. assert (X := N r Hr). congruence. }
  assert (G : forall u v, fv_len u = hi_n info -> (forall r, (r < hi_n info)%nat -> fv_at u r = None) -> any_gt u v = false).
  { intros u v LU HU. unfold any_gt. destruct (existsb _ _) eqn:E; [|reflexivity]. apply existsb_exists in E. destruct E as (j & Hj & E). apply in_seq in Hj.
    rewrite HU in E by lia. discriminate. }
  unfold get_hp_x0_lhs_median. rewrite EB. cbn [bind]. rewrite E1, E2, E3, E4. cbn [bind]. rewrite (G ll lu N1 A1), (G bl bu N3 A3). cbn [bind].
  do 3 eexists. split; [reflexivity|]. auto.
Qed.
Print Assumptions C22_first_iteration_refuted.

(** ** C39.  The start point chosen by 'hp_best' *)
Lemma nam_some l k : nanargmin l = Ok k -> exists b, nth_error l k = Some (Some b) /\ forall k' a, nth_error l k' = Some (Some a) -> b <= a.
Proof.
  unfold nanargmin. destruct (nanargmin_from 0 None l) as [[j b]|] eqn:E; [|discriminate]. intros H. injection H as ->.
  destruct (naf_spec l 0 None) as [N|(k' & a & E1 & E2)]; [congruence|]. rewrite E in E2. injection E2 as -> ->. cbn. exists a. split; [exact E1|].
  intros k2 a2 E3. exact (proj2 (naf_min _ _ _ _ _ E) k2 a2 E3).
Qed.
Lemma nam_none l e : nanargmin l = Err e -> forall k a, nth_error l k <> Some (Some a).
Proof. unfold nanargmin. destruct (nanargmin_from 0 None l) as [[j b]|] eqn:E; [discriminate|]. intros _. exact (proj2 (naf_none _ _ _ E)). Qed.
Lemma nam_err l : (forall k a, nth_error l k <> Some (Some a)) -> nanargmin l = Err EExc.
Proof.
  intros H. unfold nanargmin. destruct (nanargmin_from 0 None l) as [[j b]|] eqn:E; [|reflexivity].
  destruct (naf_spec l 0 None) as [N|(k' & a & E1 & E2)]; [congruence|]. destruct (H _ _ E1).
Qed.
Lemma too_big_iff cm c : too_big cm c = true <-> over_limit cm c.
Proof.
  unfold too_big, over_limit, rltb. destruct c as [x|]; [|split; [discriminate|intros (x & E & _); discriminate]].
  destruct (Rlt_dec (12 / 10 * cm) x) as [l|n]; split; try discriminate; intros; eauto. destruct H as (y & E & L). injection E as ->. contradiction.
Qed.
Lemma nth_err_lt {A} (l : list A) k x : nth_error l k = Some x -> (k < List.length l)%nat.
Proof. intros H. apply nth_error_Some. congruence. Qed.
Lemma nth_error_seq n k : (k < n)%nat -> nth_error (seq 0 n) k = Some k.
Proof. intros H. rewrite (nth_error_nth' _ 0%nat) by (rewrite seq_length; exact H). rewrite seq_nth by exact H. reflexivity. Qed.
Lemma masked_at (vals : list (fl * fl)) (f : nat -> bool) k p : nth_error vals k = Some p ->
  nth_error (map (option_map Ropp) (map (fun k => if f k then None else fst (nth k vals (None, None))) (seq 0 (List.length vals)))) k
  = Some (if f k then None else option_map Ropp (fst p)).
Proof.
  intros H. assert (L := nth_err_lt _ _ _ H). rewrite !nth_error_map, (nth_error_seq _ _ L). cbn. apply nth_error_nth with (d := (None, None)) in H. rewrite H.
  destruct (f k); reflexivity.
Qed.
Lemma bad_at cm (vals : list (fl * fl)) k p : nth_error vals k = Some p -> nth k (map (fun p => too_big cm (snd p)) vals) false = too_big cm (snd p).
Proof. intros H. apply nth_error_nth. rewrite nth_error_map, H. reflexivity. Qed.

Lemma pick_start_best cc cm vals k : pick_start cc cm vals = Ok k -> best_start cc cm vals k.
Proof.
  unfold pick_start. intros H. binv H lns EL. apply nam_some in H. destruct H as (b & Hb & Hmin).
  destruct cc.
  2:{ injection EL as <-. rewrite !nth_error_map in Hb. destruct (nth_error vals k) as [[[y|] c]|] eqn:Ek; try discriminate. cbn in Hb. injection Hb as <-.
      exists y, c. split; [exact Ek|]. left. split; [intros (C & _); discriminate|]. intros k' y' c' E' _. specialize (Hmin k' (- y')).
      rewrite !nth_error_map, E' in Hmin. cbn in Hmin. specialize (Hmin eq_refl). lra. }
  binv EL bad EB. injection EL as <-. set (bad0 := map (fun p => too_big cm (snd p)) vals) in *.
  assert (LN : (k < List.length vals)%nat). { apply nth_err_lt in Hb. rewrite !map_length, seq_length in Hb. exact Hb. }
  destruct (nth_error vals k) as [p|] eqn:Ek; [|apply nth_error_None in Ek; lia].
  rewrite (masked_at vals (fun k => nth k bad false) k p Ek) in Hb.
  destruct (nth k bad false) eqn:BK; [discriminate|]. destruct p as [[y|] c]; [|discriminate]. cbn in Hb. injection Hb as <-.
  exists y, c. split; [exact Ek|]. destruct (forallb (fun x => x) bad0) eqn:ALL.
  - right. assert (AT : forall k' p, nth_error vals k' = Some p -> over_limit cm (snd p)).
    { intros k' p E. apply too_big_iff. rewrite forallb_forall in ALL. apply ALL. unfold bad0. apply in_map_iff. exists p. split; [reflexivity|]. eapply nth_error_In. exact E. }
    split. { intros k' p E. split; [reflexivity|]. eapply AT. exact E. }
    destruct (AT k _ Ek) as (x & Ec & _). cbn in Ec. exists x. split; [exact Ec|]. intros k' p x' E' Ex. binv EB i Ei. injection EB as <-.
    apply nam_some in Ei. destruct Ei as (b' & Hb' & Hm').
    assert (K : k = i).
    { destruct (Nat.eqb_spec k i) as [|N]; [assumption|]. exfalso. erewrite nth_indep in BK by (rewrite map_length, seq_length; unfold bad0; rewrite map_length; exact LN).
      assert (X : nth k (map (fun k => negb (k =? i) && nth k bad0 false) (seq 0 (List.length bad0))) false = true).
      { apply nth_error_nth. rewrite nth_error_map. rewrite (nth_error_seq) by (unfold bad0; rewrite map_length; exact LN). cbn. f_equal.
        apply Nat.eqb_neq in N. rewrite N. cbn. unfold bad0. rewrite (bad_at cm vals k _ Ek). apply too_big_iff. apply (AT k _ Ek). }
      rewrite X in BK. discriminate. }
    subst i. rewrite nth_error_map, Ek in Hb'. cbn in Hb'. rewrite Ec in Hb'. injection Hb' as <-. apply (Hm' k' x'). rewrite nth_error_map, E'. cbn. rewrite Ex. reflexivity.
  - injection EB as <-. left. unfold bad0 in BK. rewrite (bad_at cm vals k _ Ek) in BK. cbn [snd] in BK. split.
    + intros (_ & C). apply too_big_iff in C. congruence.
    + intros k' y' c' E' NO. specialize (Hmin k' (- y')). rewrite (masked_at vals (fun k => nth k bad0 false) k' _ E') in Hmin.
      unfold bad0 in Hmin. rewrite (bad_at cm vals k' _ E') in Hmin. cbn [snd fst] in Hmin. destruct (too_big cm c') eqn:T.
      * exfalso. apply NO. split; [reflexivity|]. apply too_big_iff, T.
      * specialize (Hmin eq_refl). lra.
Qed.

Lemma row_real_inv x v : row_real x = Ok v -> vlen v = fv_len x /\ forall j, (j < fv_len x)%nat -> fv_at x j = Some (vat v j).
Proof.
  unfold row_real. destruct (all_real _) as [l|] eqn:E; [|discriminate]. intros H. injection H as <-. cbn. split; [reflexivity|].
  assert (A : forall (l' : list fl) l, all_real l' = Some l -> forall j y, nth_error l' j = Some y -> y = Some (nth j l 0)).
  { induction l' as [|[a|] t IH]; cbn; intros r Hr j y Hj; [destruct j; discriminate| |discriminate].
    destruct (all_real t) as [r'|] eqn:Et; [|discriminate]. injection Hr as <-. destruct j as [|j]; cbn in *; [congruence|]. apply (IH r' eq_refl j y Hj). }
  intros j Hj. apply (A _ _ E). rewrite nth_error_map, (nth_error_seq _ _ Hj). reflexivity.
Qed.
Lemma rmap_inv {A B} (f : A -> res B) l : forall r, rmap f l = Ok r -> List.length r = List.length l /\ forall k a, nth_error l k = Some a -> exists b, nth_error r k = Some b /\ f a = Ok b.
Proof.
  induction l as [|x t IH]; cbn [rmap]; intros r H; [injection H as <-; split; [reflexivity|intros [|k] a; discriminate]|].
  binv H b Eb. binv H r' Er. injection H as <-. destruct (IH _ Er) as (I1 & I2). split; [cbn; congruence|]. intros [|k] a E; cbn in *; [injection E as ->; eauto|apply I2, E].
Qed.

(** When 'hp_best' returns, it returns the best of the generated points: the most likely one among those whose
    condition number is at most 1.2 times the limit (without preconditioning) or, when there are none, one of least condition number. *)
Theorem C39_best_start_point :
  forall (la : npla) (lhs : sampler) (o : gpopt) (d : gpdata) (lo : lkopt) (xo : x0opt) (info : hpinfo) (h : hist) (i : nat) (x0s : list fvec) (bnd : fvec * fvec),
  xo_start xo = Sbest -> select_hp_optz_x0 la lhs o d lo xo info h i = Ok (x0s, bnd) ->
  exists pts vals k x, get_hp_x0_lhs_median lhs xo info h i (xo_n_best xo) = Ok (pts, bnd) /\ x0s = [x] /\ nth_error pts k = Some x /\
    List.length vals = xo_n_best xo /\
    let cc := match o_well o with Wprecon => false | _ => true end in
    (forall j ln c, nth_error vals j = Some (ln, c) -> exists y, nth_error pts j = Some y /\ evaluated la o d lo info cc y ln c) /\
    best_start cc (o_cond_max o) vals k.
Proof.
  intros la lhs o d lo xo info h i x0s bnd HS H. unfold select_hp_optz_x0 in H. rewrite HS in H. binv H p Ep. cbv zeta in H. binv H vals Ev. binv H k Ek.
  destruct (nth_error (fst p) k) as [x|] eqn:Ex; [|discriminate]. injection H as <- <-. destruct p as [pts bnd]. cbn [fst snd] in *.
  destruct (rmap_inv _ _ _ Ev) as (R1 & R2). rewrite seq_length in R1.
  exists pts, vals, k, x. split; [exact Ep|]. split; [reflexivity|]. split; [exact Ex|]. split; [exact R1|]. cbv zeta. split; [|apply pick_start_best; exact Ek].
  intros j ln c Ej. assert (Lj := nth_err_lt _ _ _ Ej). rewrite R1 in Lj. destruct (R2 j j (nth_error_seq _ _ Lj)) as (b & Eb & F). rewrite Ej in Eb. injection Eb as <-.
  destruct (nth_error pts j) as [y|] eqn:Ey; [|discriminate]. exists y. split; [reflexivity|]. unfold start_value in F. binv F v F1. binv F hp F2. binv F r F3. injection F as F.
  exists v, hp, r. split; [apply row_real_inv, F1|]. split; [exact F2|]. split; [exact F3|]. symmetry; exact F.
Qed.
Print Assumptions C39_best_start_point.

(** It does return when some point has a likelihood and an acceptable condition number, or when every point has a
    likelihood. *)
Theorem C39_selection_succeeds :
  forall (cc : bool) (cm : R) (vals : list (fl * fl)),
  (exists k y c, nth_error vals k = Some (Some y, c) /\ ~ (cc = true /\ over_limit cm c)) \/
  (vals <> [] /\ forall k p, nth_error vals k = Some p -> fst p <> None) ->
  exists k, pick_start cc cm vals = Ok k.
Proof.
  intros cc cm vals H.
  assert (U : forall lns, (exists k y, nth_error lns k = Some (Some y)) -> exists k, nanargmin (map (option_map Ropp) lns) = Ok k).
  { intros lns (k & y & E). destruct (nanargmin (map (option_map Ropp) lns)) as [j|e] eqn:N; [eauto|]. exfalso. apply (nam_none _ _ N k (- y)). rewrite nth_error_map, E. reflexivity. }
  assert (M : forall f k y c, nth_error vals k = Some (Some y, c) -> f k = false ->
     exists k' y', nth_error (map (fun k => if f k then None else fst (nth k vals (None, None))) (seq 0 (List.length vals))) k' = Some (Some y')).
  { intros f k y c E F. exists k, y. rewrite nth_error_map, (nth_error_seq _ _ (nth_err_lt _ _ _ E)). cbn. rewrite F. apply nth_error_nth with (d := (None, None)) in E. apply (f_equal fst) in E. exact (f_equal Some E). }
  unfold pick_start. destruct cc; cbn [bind].
  2:{ apply U. destruct H as [(k & y & c & E & _)|(NE & A)]; [exists k, y; rewrite nth_error_map, E; reflexivity|].
      destruct vals as [|p t]; [congruence|]. specialize (A 0%nat p eq_refl). destruct p as [[y|] c]; [|cbn in A; congruence]. exists 0%nat, y. reflexivity. }
  set (bad := map (fun p => too_big cm (snd p)) vals). destruct (forallb (fun x => x) bad) eqn:ALL.
  - assert (AT : forall k p, nth_error vals k = Some p -> over_limit cm (snd p)).
    { intros k' p E. apply too_big_iff. rewrite forallb_forall in ALL. apply ALL. unfold bad. apply in_map_iff. exists p. split; [reflexivity|]. eapply nth_error_In. exact E. }
    destruct H as [(k & y & c & E & N)|(NE & A)]; [exfalso; apply N; split; [reflexivity|apply (AT _ _ E)]|].
    destruct (nanargmin (map snd vals)) as [i|e] eqn:N.
    + cbn [bind]. apply U. destruct (nam_some _ _ N) as (b & Hb & _). rewrite nth_error_map in Hb. destruct (nth_error vals i) as [[ln c]|] eqn:Ei; [|discriminate].
      assert (X := A _ _ Ei). destruct ln as [y|]; [|cbn in X; congruence].
      apply (M (fun k => nth k (map (fun k => negb (k =? i) && nth k bad false) (seq 0 (List.length bad))) false) i y c Ei).
      apply nth_error_nth. rewrite nth_error_map, nth_error_seq by (unfold bad; rewrite map_length; exact (nth_err_lt _ _ _ Ei)). cbn. rewrite Nat.eqb_refl. reflexivity.
    + exfalso. destruct vals as [|p t]; [congruence|]. destruct (AT 0%nat p eq_refl) as (x & Ex & _). apply (nam_none _ _ N 0%nat x). cbn. rewrite Ex. reflexivity.
  - cbn [bind]. apply U. destruct H as [(k & y & c & E & N)|(NE & A)].
    + apply (M (fun k => nth k bad false) k y c E). unfold bad. rewrite (bad_at cm vals k _ E). cbn. destruct (too_big cm c) eqn:T; [|reflexivity]. exfalso. apply N. split; [reflexivity|apply too_big_iff, T].
    + assert (X : exists p, In p vals /\ too_big cm (snd p) = false).
      { destruct (existsb (fun p => negb (too_big cm (snd p))) vals) eqn:EX.
        - apply existsb_exists in EX. destruct EX as (p & I1 & I2). exists p. split; [exact I1|]. destruct (too_big cm (snd p)); [discriminate|reflexivity].
        - exfalso. assert (forallb (fun x => x) bad = true); [|congruence]. apply forallb_forall. intros b Hb. unfold bad in Hb. apply in_map_iff in Hb. destruct Hb as (p & <- & I1).
          destruct (too_big cm (snd p)) eqn:T; [reflexivity|]. assert (existsb (fun p => negb (too_big cm (snd p))) vals = true); [|congruence]. apply existsb_exists. exists p. rewrite T. auto. }
      destruct X as (p & I1 & T). apply In_nth_error in I1. destruct I1 as (k & E). assert (Y := A _ _ E). destruct p as [[y|] c]; [|cbn in Y; congruence].
      apply (M (fun k => nth k bad false) k y c E). unfold bad. rewrite (bad_at cm vals k _ E). exact T.
Qed.
Print Assumptions C39_selection_succeeds.

(** But one point whose factorisation failed defeats the fallback: if all the points that do have a likelihood are
    over the limit, the call raises instead of taking the one of least condition number. *)
Theorem C39_one_failed_point_refuted :
  forall (cm : R) (vals : list (fl * fl)),
  (exists k, nth_error vals k = Some (None, None)) ->
  (forall k y c, nth_error vals k = Some (Some y, c) -> over_limit cm c) ->
  pick_start true cm vals = Err EExc.
Proof.
  intros cm vals (k0 & E0) H. unfold pick_start. set (bad := map (fun p => too_big cm (snd p)) vals).
  assert (F : forallb (fun x => x) bad = false).
  { destruct (forallb (fun x => x) bad) eqn:F; [|reflexivity]. rewrite forallb_forall in F. assert (X := F false). rewrite <- X; [reflexivity|].
    unfold bad. apply in_map_iff. exists (None, None). split; [reflexivity|]. eapply nth_error_In. exact E0. }
  rewrite F. cbn [bind]. apply nam_err. intros k a C. assert (L := nth_err_lt _ _ _ C). rewrite !map_length, seq_length in L.
  destruct (nth_error vals k) as [p|] eqn:Ek; [|apply nth_error_None in Ek; lia]. rewrite (masked_at vals (fun k => nth k bad false) k p Ek) in C.
  unfold bad in C. rewrite (bad_at cm vals k p Ek) in C. destruct p as [[y|] c]; cbn [fst snd] in C; [|destruct (too_big cm c); discriminate].
  assert (X := H k y c Ek). apply too_big_iff in X. rewrite X in C. discriminate.
Qed.
Print Assumptions C39_one_failed_point_refuted.
Example C39_refuted_case : pick_start true 10 [(Some 1, Some 100); (None, None); (Some 2, Some 50)] = Err EExc.
Proof. apply C39_one_failed_point_refuted; [exists 1%nat; reflexivity|]. intros [|[|[|[|k]]]] y c E; cbn in E; try discriminate; injection E as <- <-; eexists; (split; [reflexivity|lra]). Qed.

(** ** A concrete case for C22: rational quadratic kernel, unknown noise, six hyperparameters, three past iterations,
    the default options *)
Definition mid_sampler : sampler := fun lim n =>
  repeat (mkfv (List.length lim) (fun j => match nth j lim (None, None) with (Some a, Some b) => Some ((a + b) / 2) | _ => None end)) n.
Lemma mid_sampler_ok : samples_within mid_sampler.
Proof.
  intros lim n H. unfold mid_sampler. split; [apply repeat_length|]. intros x Hx. apply repeat_spec in Hx. subst x. cbn. split; [reflexivity|].
  intros j a b E. assert (I : In (Some a, Some b) lim) by (eapply nth_error_In; exact E). apply (nth_error_nth lim j (None, None)) in E. rewrite E.
  destruct (H _ I) as (a' & b' & E' & L). injection E' as -> ->. exists ((a' + b') / 2). split; [reflexivity|lra].
Qed.
Definition past3 : hist := mkhist 10 (fun t => match t with Tbeta => 1%nat | _ => 2%nat end) (fun _ r e => if (r <? 3)%nat then Some (1 + INR r + INR e) else None)
  (fun _ r => if (r <? 3)%nat then Some (2 + INR r) else None) (fun _ => false).
Example C22_hypotheses_met : exists d info x0s lb ub, set_hp_optz_info hx_opt d lk_default true true true true true = Ok info /\
  samples_within mid_sampler /\ 1 <= xo_lf (xo_default RatQu) <= xo_bf (xo_default RatQu) /\ h_w past3 Ttheta = o_dim hx_opt /\
  (exists r, recent past3 (xo_n_idx (xo_default RatQu)) 3 r) /\
  (forall s r, position info s <> None -> recent past3 (xo_n_idx (xo_default RatQu)) 3 r -> exists x, past past3 s r = Some x) /\
  (forall s, position info s <> None -> exists a b, allowed (xo_default RatQu) s = (Some a, Some b) /\ 0 < a <= b) /\
  get_hp_x0_lhs_median mid_sampler (xo_default RatQu) info past3 3 40 = Ok (x0s, (lb, ub)) /\ hi_n info = 6%nat /\ List.length x0s = 40%nat.
Proof.
  destruct C21_C26_hypotheses_met as (d & info & _ & _ & _ & _ & _ & _ & _ & _ & _ & _ & EI & N).
  assert (F : 1 <= xo_lf (xo_default RatQu) <= xo_bf (xo_default RatQu)) by (cbn; lra).
  assert (R : exists r, recent past3 (xo_n_idx (xo_default RatQu)) 3 r) by (exists 1%nat; unfold recent; cbn; lia).
  assert (P : forall s r, position info s <> None -> recent past3 (xo_n_idx (xo_default RatQu)) 3 r -> exists x, past past3 s r = Some x).
  { intros s r _ (_ & H & _). apply Nat.ltb_lt in H. destruct s; unfold past, past3; cbn [h_tab h_col]; rewrite H; eauto. }
  assert (A : forall s, position info s <> None -> exists a b, allowed (xo_default RatQu) s = (Some a, Some b) /\ 0 < a <= b).
  { intros s _. destruct s; cbn [allowed xo_default xo_theta xo_kernel xo_varK xo_vf xo_vg kernel_range]; do 2 eexists; (split; [reflexivity|]);
      (split; [apply Rinv_0_lt_compat; lra|]); apply Rle_trans with 1; try lra; apply Rmult_le_reg_l with (10 ^ 24); lra || (try lra). }
  destruct (C22_bounds_and_start_points hx_opt d lk_default true true true true info mid_sampler (xo_default RatQu) past3 3 40 EI mid_sampler_ok F eq_refl R P A)
    as (x0s & lb & ub & E & L & _).
  exists d, info, x0s, lb, ub. repeat (split; [first [exact EI | exact mid_sampler_ok | exact F | reflexivity | exact R | exact P | exact A | exact E | exact N]|]). exact L.
Qed.
Example C22_median_case : is_median [3; 1; 2] 2 /\ around 2 10 1 5 = (1, 5).
Proof.
  split.
  - split; [discriminate|]. exists [1; 2; 3]. split; [|split; [|cbn; lra]].
    + apply Permutation_sym, Permutation_trans with [1; 3; 2]; [apply perm_skip, perm_swap|apply perm_swap].
    + repeat constructor; lra.
  - unfold around. rewrite (Rmax_left 2 1), (Rmin_left 2 5), Rmax_right, Rmin_right by lra. reflexivity.
Qed.
