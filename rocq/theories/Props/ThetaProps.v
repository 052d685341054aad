(** * Property C19: rescaling with the optimised theta.
    Vocabulary: [Spec/ThetaSpec.v], [Spec/RescaleSpec.v], [Spec/DataSpec.v].  The kernel k (one of the three,
    with hyperparameter a) of the parameters th, in a scaling (sh, s), is the function
    (x, y) |-> kfun k d th a (scaled sh s x) (scaled sh s y) of the original points. *)
From Coq Require Import Reals List Arith Bool Lia Lra Psatz.
From Coquelicot Require Import Coquelicot.
From Verif.Base Require Import NpLite NpFacts Deriv.
From Verif.Spec Require Import KernelSpec LinAlgSpec.
From Verif.Model Require Import KernelSqExp CommonFun WellCond Rescaling RescaleLoop.
From Verif.Spec Require Import DataSpec RescaleSpec ThetaSpec.
From Verif.Proofs Require Import CovStruct StateFacts MinMax DataFacts RescaleFacts ThetaRescale NuggetMain.
Import ListNotations.
Local Open Scope R_scope.

(** points at least [tau] apart when coordinate i is multiplied by s i *)
Definition separated (X : mat) (s : nat -> R) (tau : R) : Prop :=
  forall p q, (p < nr X)%nat -> (q < nr X)%nat -> p <> q ->
    tau <= dist (nc X) (fun i => mat_at X p i * s i) (fun i => mat_at X q i * s i).
(** [Y] holds the points of [X] in the scaling (sh, s) *)
Definition points_in (sh s : vec) (X Y : mat) : Prop :=
  nr Y = nr X /\ nc Y = nc X /\ forall p i, (p < nr X)%nat -> (i < nc X)%nat -> mat_at Y p i = scaled sh s (rows_of X p) i.

(** rescaling_data_w_theta_sol succeeds on any two or more points; it returns an isotropic theta and a
    scaling that describe the same kernel as the given theta in the given scaling, at every pair of
    points, and how far (squared) log10(theta) is from the line of equal entries *)
Theorem C19_new_scaling_describes_the_same_kernel :
  forall (dim : nat) (log_hp : bool) (X1 : mat) (sc1 th : vec) (tol : R),
  (0 < dim)%nat -> (1 < nr X1)%nat -> nc X1 = dim -> vlen sc1 = dim -> vlen th = dim -> 0 < tol ->
  (forall i, (i < dim)%nat -> 0 < theta_of log_hp th i) ->
  exists th' d2 sc', rescaling_data_w_theta_sol dim log_hp X1 sc1 th tol = Ok (th', d2, sc') /\
    vlen th' = dim /\ vlen sc' = dim /\ (exists t, 0 < t /\ forall i, (i < dim)%nat -> theta_of log_hp th' i = t) /\
    ((forall i, (i < dim)%nat -> 0 < vat sc1 i) -> forall i, (i < dim)%nat -> 0 < vat sc' i) /\
    d2 = dist2_line dim (theta_of log_hp th) /\
    forall (k : kernel) (a : R) (sh : vec) (x y : pt),
      kfun k dim (theta_of log_hp th') a (scaled sh sc' x) (scaled sh sc' y) = kfun k dim (theta_of log_hp th) a (scaled sh sc1 x) (scaled sh sc1 y).
Proof.
  intros dim lg X1 sc1 th tol Hd Hn L1 L2 L3 Ht P.
  destruct (resc_theta_spec dim lg X1 sc1 th tol Hd Hn L1 L2 L3 Ht P) as (th' & d2 & sc' & X2 & m & E & _ & _ & G0 & C0 & A1 & A2 & A3 & A4 & A5).
  exists th', d2, sc'. split; [exact E|]. split; [exact A1|]. split; [exact A3|].
  set (g := geo_mean dim (theta_of lg th)) in *. set (c := calc_vreq (nr X1) dim / Rmax m tol) in *.
  split; [exists (g / c ^ 2); split; [apply Rdiv_lt_0_compat; [exact G0|apply pow_lt; exact C0]|exact A2]|].
  split. { intros S1 i Hi. rewrite A4 by exact Hi. apply Rmult_lt_0_compat; [|exact C0]. apply Rmult_lt_0_compat; [auto|]. apply sqrt_lt_R0, Rdiv_lt_0_compat; [auto|exact G0]. }
  split; [exact A5|]. intros k a sh x y. apply kfun_sqd.
  rewrite (sqd_agree dim (theta_of lg th) sc1 (theta_of lg th') sc' sh sh x y 1); [ring|]. intros i Hi. rewrite A2, A4 by exact Hi.
  assert (Z : sqrt (theta_of lg th i / g) ^ 2 = theta_of lg th i / g) by (apply pow2_sqrt; left; apply Rdiv_lt_0_compat; auto).
  replace ((vat sc1 i * sqrt (theta_of lg th i / g) * c) ^ 2) with (vat sc1 i ^ 2 * sqrt (theta_of lg th i / g) ^ 2 * c ^ 2) by ring. rewrite Z. field. lra.
Qed.
Print Assumptions C19_new_scaling_describes_the_same_kernel.

(** and the smallest distance between the points in the new scaling is the required one (less if the
    points, scaled by sqrt(theta_i / geometric mean), are closer than tol_min_dist_x) *)
Lemma points_in_shift sh s X Y p q : points_in sh s X Y -> (p < nr X)%nat -> (q < nr X)%nat ->
  dist (nc Y) (rows_of Y p) (rows_of Y q) = dist (nc X) (fun i => mat_at X p i * vat s i) (fun i => mat_at X q i * vat s i).
Proof.
  intros (H1 & H2 & H3) Hp Hq. unfold dist. rewrite H2. f_equal. apply rsum_ext. intros i Hi. unfold rows_of. rewrite !H3 by assumption. unfold scaled, rows_of. ring.
Qed.
Theorem C19_minimum_distance_in_the_new_scaling :
  forall (dim : nat) (log_hp : bool) (X X1 Y : mat) (sh sh' sc1 th th' sc' : vec) (tol d2 m : R),
  (0 < dim)%nat -> nc X = dim -> vlen sc1 = dim -> vlen th = dim -> 0 < tol ->
  (forall i, (i < dim)%nat -> 0 < theta_of log_hp th i) ->
  points_in sh sc1 X X1 -> rescaling_data_w_theta_sol dim log_hp X1 sc1 th tol = Ok (th', d2, sc') ->
  points_in sh' sc' X Y -> is_dist_min Y m ->
  m <= calc_vreq (nr X) dim /\
  (separated X (fun i => vat sc1 i * sqrt (theta_of log_hp th i / geo_mean dim (theta_of log_hp th))) tol -> m = calc_vreq (nr X) dim).
Proof.
  intros dim lg X X1 Y sh sh' sc1 th th' sc' tol d2 m Hd LX L2 L3 Ht P PX1 E PY M.
  assert (N := PX1). destruct N as (N1 & N2 & N3).
  assert (Hn : (1 < nr X1)%nat). { unfold rescaling_data_w_theta_sol in E. binv_assert E. apply Nat.ltb_lt in HA. exact HA. }
  destruct (resc_theta_spec dim lg X1 sc1 th tol Hd Hn ltac:(congruence) L2 L3 Ht P) as (th1 & e2 & sc1' & X2 & m2 & E' & X2s & M2 & G0 & C0 & A1 & A2 & A3 & A4 & A5).
  rewrite E in E'. injection E' as <- <- <-. set (g := geo_mean dim (theta_of lg th)) in *. set (c := calc_vreq (nr X1) dim / Rmax m2 tol) in *.
  destruct X2s as (R1 & R2 & R3).
  assert (MS : is_dist_min Y (c * m2)).
  { apply (dist_min_scale X2); [rewrite R1, N1; apply PY|lra| |exact M2]. intros p q Hp Hq. rewrite R1, N1 in Hp, Hq.
    apply cdist_scale; [rewrite R2, <- LX; apply PY|lra|]. rewrite R2. intros i Hi. rewrite !R3 by (try rewrite N1; assumption). destruct PY as (Y1 & Y2 & Y3). rewrite !Y3, !N3 by congruence.
    unfold scaled, rows_of. rewrite A4 by exact Hi. ring. }
  rewrite (is_dist_min_unique _ _ _ M MS). assert (Z := Rmax_l m2 tol). assert (Z' := Rmax_r m2 tol). assert (V := vreq_pos (nr X1) dim Hn Hd).
  rewrite <- N1. split.
  - apply Rle_trans with (c * Rmax m2 tol); [apply Rmult_le_compat_l; lra|]. right. unfold c. field. lra.
  - intros Sep. assert (tol <= m2) as T.
    { destruct M2 as ((p & q & Hp & Hq & Hpq & ->) & _). rewrite R1, N1 in Hp, Hq. eapply Rle_trans; [apply (Sep p q Hp Hq Hpq)|]. right. unfold dist. rewrite R2, LX. f_equal. apply rsum_ext.
      intros i Hi. unfold rows_of. rewrite !R3 by (try rewrite N1; assumption). rewrite !N3 by congruence. unfold scaled, rows_of. fold g. ring. }
    unfold c. rewrite Rmax_left by exact T. field. lra.
Qed.
(** requested distance *)
Definition requested (dst : option R) : R := match dst with Some v => v | None => 1 end.
Print Assumptions C19_minimum_distance_in_the_new_scaling.

(** ** The iteration of the hyperparameter optimisation.
    [r] is the scaling object after any history that began with 'set_vmin' and the distance [v];
    [best] is the vector returned by the first optimisation, [opt] any behaviour of the later ones. *)
Lemma inv10_le n : / 10 ^ n <= 1.
Proof. apply Rle_trans with (/ 1); [apply Rinv_le_contravar; [lra|apply pow_R1_Rle; lra]|lra]. Qed.
Lemma final_scale r r' sc' : set_xscale_data r None (Some sc') = Ok r' -> r_mtd r = Xvmin -> (2 <= nr (r_x r))%nat ->
  exists Y m0, points_in (r_shift r') sc' (r_x r) Y /\ is_dist_min Y m0 /\ points_in (r_shift r') (r_scale r') (r_x r) (r_xscl r') /\
    forall i, (i < nc (r_x r))%nat -> vat (r_scale r') i = vat sc' i * (requested (r_dist r) / Rmax (/ 10 ^ 14) m0).
Proof.
  intros H Em Hn. destruct (set_xscale_inv _ _ _ _ H) as (((_ & _ & _ & XS & _) & _) & E1 & _ & _ & _ & _ & _ & K). rewrite E1 in XS.
  apply calc_scale_inv in K. destruct K as (_ & P & _ & L1 & L2 & SH & _ & X1 & c & HX1 & Hsc & Hc). rewrite Em in Hc.
  destruct (Nat.eqb_spec (nr (r_x r)) 1); [lia|]. destruct Hc as (m0 & M & ->).
  exists X1, m0. split; [exact HX1|]. split; [exact M|]. split; [exact XS|]. intros i Hi. rewrite Hsc by exact Hi. reflexivity.
Qed.
Lemma hist_facts X us v r0 calls r dim : rescaling_init X None us Xvmin (Some v) = Ok r0 -> do_calls r0 calls = Ok r -> 0 < v -> nc X = dim ->
  r_x r = X /\ r_mtd r = Xvmin /\ r_dist r = Some v /\ vlen (r_scale r) = dim /\ (forall i, (i < dim)%nat -> 0 < vat (r_scale r) i) /\ points_in (r_shift r) (r_scale r) X (r_xscl r).
Proof.
  intros H1 H2 Hv <-. destruct (history_inv _ _ _ _ _ _ _ _ H1 H2) as ((I1 & I2 & _) & E1 & E2 & E3). rewrite E1, E2, E3 in *.
  destruct I1 as (_ & L1 & L2 & XS & _). repeat split; auto; try apply XS. apply I2. split; [intros w E; injection E as <-; exact Hv|discriminate].
Qed.

(** When the optimised log10(theta) is within the tolerance of the line of equal entries (so that the loop
    stops at once), and for 'rescale_origin' (v = required distance), the final theta and scaling describe
    the kernel of the optimised hyperparameters and the points are at the required distance.
    Missing: the runs that iterate, and 'rescale_eta_vary', for which this is false (next two theorems). *)
Theorem C19_rescaling_loop_partial :
  forall (X : mat) (use_shift : bool) (r0 r r' : resc) (calls : list call) (dim max_iter : nat) (log_hp : bool) (tol : R) (opt : nat -> vec -> res vec) (best best' : vec),
  rescaling_init X None use_shift Xvmin (Some (calc_vreq (nr X) dim)) = Ok r0 -> do_calls r0 calls = Ok r ->
  (0 < dim)%nat -> nc X = dim -> (1 < nr X)%nat ->
  let th := theta_of log_hp best in
  (forall i, (i < dim)%nat -> 0 < th i) -> (dim <= vlen best)%nat ->
  separated X (fun i => vat (r_scale r) i * sqrt (th i / geo_mean dim th)) (/ 10 ^ 15) ->
  optz_rescale dim (nr X) max_iter log_hp tol opt r best = Ok (best', r') ->
  dist2_line dim th < tol ->
  vlen best' = vlen best /\ (forall i, (dim <= i < vlen best)%nat -> vat best' i = vat best i) /\
  is_dist_min (r_xscl r') (calc_vreq (nr X) dim) /\
  forall (k : kernel) (a : R) (x y : pt),
    kfun k dim (theta_of log_hp best') a (scaled (r_shift r') (r_scale r') x) (scaled (r_shift r') (r_scale r') y) =
    kfun k dim th a (scaled (r_shift r) (r_scale r) x) (scaled (r_shift r) (r_scale r) y).
Proof.
  intros X us r0 r r' calls dim mi lg tol opt best best' H1 H2 Hd LX Hn th P Lb Sep H D.
  assert (V := vreq_pos (nr X) dim Hn Hd).
  destruct (hist_facts _ _ _ _ _ _ _ H1 H2 V LX) as (F1 & F2 & F3 & F4 & F5 & F6). assert (N := F6). destruct N as (N1 & N2 & N3).
  assert (T0 : 0 < / 10 ^ 15) by (apply Rinv_0_lt_compat, pow_lt; lra).
  destruct (C19_new_scaling_describes_the_same_kernel dim lg (r_xscl r) (r_scale r) (get_theta dim best) (/ 10 ^ 15) Hd ltac:(congruence) ltac:(congruence) F4 eq_refl T0 P)
    as (th' & d2 & sc' & E & A1 & A2 & _ & A4 & A5 & A6).
  unfold optz_rescale in H. destruct (Nat.ltb_spec 1 (nr X)); [|lia]. binv H l El. binv H t Et. binv H r1 Er. injection H as <- <-.
  destruct mi as [|mi]; [discriminate|]. cbn [resc_loop] in El. rewrite E in El. rewrite bind_Ok in El. cbn [tr_dist fst snd] in El.
  change (theta_of lg (get_theta dim best)) with th in A5. destruct (Rlt_dec d2 tol) as [_|]; [|lra]. rewrite orb_true_r in El. injection El as <-.
  cbn in Et. injection Et as <-. cbn [tr_scale tr_theta fst snd] in *.
  split; [reflexivity|]. split. { intros i Hi. unfold put_theta; cbn [vat]. destruct (Nat.ltb_spec i dim); [lia|reflexivity]. }
  rewrite <- F1 in Hn. destruct (final_scale r r1 sc' Er F2 ltac:(lia)) as (Y & m0 & PY & M & PX & SC). rewrite F1 in *. rewrite F3 in SC. cbn [requested] in SC.
  assert (M0 : m0 = calc_vreq (nr X) dim).
  { apply (C19_minimum_distance_in_the_new_scaling dim lg X (r_xscl r) Y (r_shift r) (r_shift r1) (r_scale r) (get_theta dim best) th' sc' (/ 10 ^ 15) d2 m0 Hd LX F4 eq_refl T0 P F6 E PY M). exact Sep. }
  assert (C1 : calc_vreq (nr X) dim / Rmax (/ 10 ^ 14) m0 = 1).
  { rewrite M0, Rmax_right; [field; lra|]. apply Rle_trans with (sqrt 2); [|apply vreq_ge; assumption]. apply Rle_trans with 1; [apply inv10_le|rewrite <- sqrt_1 at 1; apply sqrt_le_1_alt; lra]. }
  assert (SE : forall i, (i < dim)%nat -> vat (r_scale r1) i = vat sc' i) by (intros i Hi; rewrite SC, C1 by congruence; ring).
  split.
  - rewrite <- M0. destruct PY as (Y1 & Y2 & Y3). destruct PX as (Z1 & Z2 & Z3). replace m0 with (1 * m0) by ring.
    apply (dist_min_scale Y); [congruence|lra| |exact M]. intros p q Hp Hq. apply cdist_scale; [congruence|lra|]. intros i Hi. rewrite !Z3, !Y3 by congruence. unfold scaled. rewrite SE by congruence. ring.
  - intros k a x y. rewrite <- (A6 k a (r_shift r)). apply kfun_sqd.
    rewrite (sqd_agree dim (theta_of lg th') sc' _ (r_scale r1) (r_shift r) (r_shift r1) x y 1); [ring|].
    intros i Hi. rewrite SE by exact Hi. unfold theta_of, put_theta. cbn [vat]. destruct (Nat.ltb_spec i dim); [destruct lg; ring|lia].
Qed.
Print Assumptions C19_rescaling_loop_partial.

Lemma geo_const d th t : (0 < d)%nat -> 0 < t -> (forall i, (i < d)%nat -> th i = t) -> geo_mean d th = t.
Proof.
  intros Hd Ht H. unfold geo_mean. rewrite (rsum_ext _ _ (fun _ => ln t)) by (intros i Hi; rewrite H by exact Hi; reflexivity). rewrite rsum_const.
  replace (INR d * ln t / INR d) with (ln t) by (field; apply not_0_INR; lia). apply exp_ln; exact Ht.
Qed.
Lemma line_const d th t : (0 < d)%nat -> (forall i, (i < d)%nat -> th i = t) -> dist2_line d th = 0.
Proof.
  intros Hd H. unfold dist2_line. apply rsum_0. intros i Hi. rewrite (rsum_ext _ _ (fun _ => ln t / ln 10)) by (intros j Hj; rewrite H by exact Hj; reflexivity). rewrite rsum_const, H by exact Hi.
  assert (Z : ln t / ln 10 - INR d * (ln t / ln 10) / INR d = 0) by (field; split; [generalize ln10_pos; lra|apply not_0_INR; lia]). rewrite Z. ring.
Qed.
(** kernels that agree everywhere, in scalings with the same scales, have the same theta *)
Lemma kernels_agree_theta k d th th' a sh sh' s s' : hp_ok k (Some a) -> (forall i, (i < d)%nat -> 0 < th i /\ 0 < th' i /\ 0 < vat s i /\ 0 < vat s' i) ->
  (forall x y, kfun k d th' a (scaled sh' s' x) (scaled sh' s' y) = kfun k d th a (scaled sh s x) (scaled sh s y)) ->
  forall i, (i < d)%nat -> th' i * vat s' i ^ 2 = th i * vat s i ^ 2.
Proof.
  intros Ha P H i Hi. specialize (H (fun j => if (j =? i)%nat then 1 else 0) (fun _ => 0)).
  assert (SQ : forall t w z, sqd d t (scaled w z (fun j => if (j =? i)%nat then 1 else 0)) (scaled w z (fun _ => 0)) = t i * vat z i ^ 2).
  { intros t w z. rewrite sqd_pullback. rewrite (rsum_single d i); [rewrite Nat.eqb_refl; ring|exact Hi|]. intros j Hj Hne. destruct (Nat.eqb_spec j i); [contradiction|ring]. }
  apply kfun_inj in H; [|exact Ha| |]; rewrite ?SQ in *; [exact H| |]; destruct (P i Hi) as (A & B & C & D); apply Rmult_le_pos; try lra; apply pow2_ge_0.
Qed.

(** When the optimised log10(theta) is not within the tolerance, the loop (with at least two iterations
    allowed) throws the optimised anisotropic scaling away: it returns the scaling it started from, and an
    isotropic theta.  So for every kernel the result does not describe the optimised kernel. *)
Theorem C19_rescaling_loop_discards_the_anisotropy_refuted :
  forall (X : mat) (use_shift : bool) (r0 r r' : resc) (calls : list call) (dim max_iter : nat) (log_hp : bool) (tol : R) (opt : nat -> vec -> res vec) (best best' : vec),
  rescaling_init X None use_shift Xvmin (Some (calc_vreq (nr X) dim)) = Ok r0 -> do_calls r0 calls = Ok r ->
  (0 < dim)%nat -> nc X = dim -> (1 < nr X)%nat ->
  let th := theta_of log_hp best in
  (forall i, (i < dim)%nat -> 0 < th i) -> (dim <= vlen best)%nat ->
  is_dist_min (r_xscl r) (calc_vreq (nr X) dim) ->
  optz_rescale dim (nr X) max_iter log_hp tol opt r best = Ok (best', r') ->
  (2 <= max_iter)%nat -> 0 < tol -> tol <= dist2_line dim th ->
  (forall i, (i < dim)%nat -> vat (r_scale r') i = vat (r_scale r) i) /\
  (exists t, 0 < t /\ forall i, (i < dim)%nat -> theta_of log_hp best' i = t) /\
  forall (k : kernel) (a : R), hp_ok k (Some a) -> exists x y,
    kfun k dim (theta_of log_hp best') a (scaled (r_shift r') (r_scale r') x) (scaled (r_shift r') (r_scale r') y) <>
    kfun k dim th a (scaled (r_shift r) (r_scale r) x) (scaled (r_shift r) (r_scale r) y).
Proof.
  intros X us r0 r r' calls dim mi lg tol opt best best' H1 H2 Hd LX Hn th P Lb MD H Hmi Ht D.
  assert (V := vreq_pos (nr X) dim Hn Hd). assert (V2 := vreq_ge (nr X) dim Hn Hd).
  assert (S2 : 1 <= sqrt 2) by (rewrite <- sqrt_1 at 1; apply sqrt_le_1_alt; lra).
  destruct (hist_facts _ _ _ _ _ _ _ H1 H2 V LX) as (F1 & F2 & F3 & F4 & F5 & F6). assert (N := F6). destruct N as (N1 & N2 & N3).
  assert (T0 : 0 < / 10 ^ 15) by (apply Rinv_0_lt_compat, pow_lt; lra).
  assert (T1 : forall n, / 10 ^ n <= 1) by apply inv10_le.
  destruct (C19_new_scaling_describes_the_same_kernel dim lg (r_xscl r) (r_scale r) (get_theta dim best) (/ 10 ^ 15) Hd ltac:(congruence) ltac:(congruence) F4 eq_refl T0 P)
    as (th1 & d1 & sc1 & E & A1 & A2 & (t1 & A31 & A32) & A4 & A5 & A6). change (theta_of lg (get_theta dim best)) with th in A5.
  destruct (resc_theta_spec dim lg (r_xscl r) (r_scale r) th1 (/ 10 ^ 15) Hd ltac:(congruence) ltac:(congruence) F4 A1 T0 ltac:(intros; rewrite A32; assumption))
    as (th2 & d2 & sc2 & X2 & m2 & E2 & X2s & M2 & G0 & C0 & B1 & B2 & B3 & B4 & B5).
  assert (GE := geo_const dim _ t1 Hd A31 A32). rewrite GE in *. rewrite (line_const dim _ t1 Hd A32) in B5.
  assert (SQ : forall i, (i < dim)%nat -> sqrt (theta_of lg th1 i / t1) = 1) by (intros i Hi; rewrite A32 by exact Hi; unfold Rdiv; rewrite Rinv_r by lra; apply sqrt_1).
  assert (m2 = calc_vreq (nr X) dim) as ->.
  { apply (is_dist_min_unique X2); [exact M2|]. destruct X2s as (R1 & R2 & R3). replace (calc_vreq (nr X) dim) with (1 * calc_vreq (nr X) dim) by ring.
    apply (dist_min_scale (r_xscl r)); [exact R1|lra| |exact MD]. intros p q Hp Hq. apply cdist_scale; [congruence|lra|]. intros i Hi. rewrite !R3, SQ by congruence. ring. }
  rewrite N1 in *. rewrite Rmax_left in * by (apply Rle_trans with 1; [apply T1|lra]). replace (calc_vreq (nr X) dim / calc_vreq (nr X) dim) with 1 in * by (field; lra).
  unfold optz_rescale in H. destruct (Nat.ltb_spec 1 (nr X)); [|lia]. binv H l El. binv H t Et. binv H r1 Er. injection H as <- <-.
  destruct mi as [|[|mi]]; try lia. cbn [resc_loop] in El. rewrite E in El. rewrite bind_Ok in El. cbn [tr_dist tr_theta fst snd] in El.
  destruct (Rlt_dec d1 tol) as [|_]; [lra|]. cbn [orb Nat.eqb] in El. binv El b1 Eb. binv El l2 El2. injection El as <-. rewrite E2, bind_Ok in El2. cbn [tr_dist fst snd] in El2.
  destruct (Rlt_dec d2 tol) as [_|]; [|lra]. rewrite orb_true_r in El2. injection El2 as <-.
  cbn in Et. destruct (Rlt_dec d2 d1) as [_|]; [|lra]. injection Et as <-. cbn [tr_scale tr_theta fst snd] in *.
  assert (SS : forall i, (i < dim)%nat -> vat sc2 i = vat (r_scale r) i) by (intros i Hi; rewrite B4, SQ by exact Hi; ring).
  rewrite <- F1 in Hn. destruct (final_scale r r1 sc2 Er F2 ltac:(lia)) as (Y & m0 & PY & M & PX & SC). rewrite F1 in *. rewrite F3 in SC. cbn [requested] in SC.
  assert (m0 = calc_vreq (nr X) dim) as ->.
  { apply (is_dist_min_unique Y); [exact M|]. destruct PY as (Y1 & Y2 & Y3). replace (calc_vreq (nr X) dim) with (1 * calc_vreq (nr X) dim) by ring.
    apply (dist_min_scale (r_xscl r)); [congruence|lra| |exact MD]. intros p q Hp Hq. rewrite N1 in Hp, Hq. apply cdist_scale; [congruence|lra|]. intros i Hi. rewrite !Y3, !N3 by congruence. unfold scaled. rewrite SS by congruence. ring. }
  assert (RS : forall i, (i < dim)%nat -> vat (r_scale r1) i = vat (r_scale r) i).
  { intros i Hi. rewrite SC by congruence. rewrite Rmax_right by (apply Rle_trans with 1; [apply T1|lra]). rewrite SS by exact Hi. field. lra. }
  assert (TH : forall i, (i < dim)%nat -> theta_of lg (put_theta dim b1 th2) i = t1).
  { intros i Hi. transitivity (theta_of lg th2 i); [|rewrite B2 by exact Hi; field]. unfold theta_of, put_theta. cbn [vat]. destruct (Nat.ltb_spec i dim); [reflexivity|lia]. }
  split; [exact RS|]. split; [exists t1; split; [exact A31|exact TH]|].
  intros k a Ha.
  destruct (Classical_Prop.classic (exists x y, kfun k dim (theta_of lg (put_theta dim b1 th2)) a (scaled (r_shift r1) (r_scale r1) x) (scaled (r_shift r1) (r_scale r1) y) <>
    kfun k dim th a (scaled (r_shift r) (r_scale r) x) (scaled (r_shift r) (r_scale r) y))) as [|NE]; [assumption|exfalso].
  assert (AG : forall i, (i < dim)%nat -> theta_of lg (put_theta dim b1 th2) i * vat (r_scale r1) i ^ 2 = th i * vat (r_scale r) i ^ 2).
  { apply (kernels_agree_theta k dim th _ a (r_shift r) (r_shift r1)); [exact Ha| |].
    - intros i Hi. rewrite TH, RS by exact Hi. auto.
    - intros x y. apply Classical_Prop.NNPP. intros NN. apply NE. exists x, y. exact NN. }
  assert (dist2_line dim th = 0); [|lra]. apply (line_const dim th t1 Hd). intros i Hi. specialize (AG i Hi). rewrite TH, RS in AG by exact Hi. assert (Z := F5 i Hi).
  assert (0 < vat (r_scale r) i ^ 2) by (apply pow_lt; exact Z). symmetry. eapply Rmult_eq_reg_r; [exact AG|lra].
Qed.
Print Assumptions C19_rescaling_loop_discards_the_anisotropy_refuted.

(** 'rescale_eta_vary' asks for another distance v than the required one (by default v = 1; the required
    distance is at least sqrt 2): even when the loop stops at once, the points are scaled back by
    v / required distance after theta has been set, and the result does not describe the optimised kernel. *)
Theorem C19_rescale_eta_vary_refuted :
  forall (X : mat) (use_shift : bool) (r0 r r' : resc) (calls : list call) (dim max_iter : nat) (log_hp : bool) (tol v : R) (opt : nat -> vec -> res vec) (best best' : vec),
  rescaling_init X None use_shift Xvmin (Some v) = Ok r0 -> do_calls r0 calls = Ok r -> 0 < v -> v <> calc_vreq (nr X) dim ->
  (0 < dim)%nat -> nc X = dim -> (1 < nr X)%nat ->
  let th := theta_of log_hp best in
  (forall i, (i < dim)%nat -> 0 < th i) -> (dim <= vlen best)%nat ->
  separated X (fun i => vat (r_scale r) i * sqrt (th i / geo_mean dim th)) (/ 10 ^ 15) ->
  optz_rescale dim (nr X) max_iter log_hp tol opt r best = Ok (best', r') ->
  dist2_line dim th < tol ->
  forall (k : kernel) (a : R), hp_ok k (Some a) -> exists x y,
    kfun k dim (theta_of log_hp best') a (scaled (r_shift r') (r_scale r') x) (scaled (r_shift r') (r_scale r') y) <>
    kfun k dim th a (scaled (r_shift r) (r_scale r) x) (scaled (r_shift r) (r_scale r) y).
Proof.
  intros X us r0 r r' calls dim mi lg tol v opt best best' H1 H2 V Nv Hd LX Hn th P Lb Sep H D k a Ha.
  assert (VR := vreq_pos (nr X) dim Hn Hd). assert (VR2 := vreq_ge (nr X) dim Hn Hd).
  assert (S2 : 1 <= sqrt 2) by (rewrite <- sqrt_1 at 1; apply sqrt_le_1_alt; lra).
  destruct (hist_facts _ _ _ _ _ _ _ H1 H2 V LX) as (F1 & F2 & F3 & F4 & F5 & F6). assert (N := F6). destruct N as (N1 & N2 & N3).
  assert (T0 : 0 < / 10 ^ 15) by (apply Rinv_0_lt_compat, pow_lt; lra).
  assert (T1 : forall n, / 10 ^ n <= 1) by apply inv10_le.
  destruct (resc_theta_spec dim lg (r_xscl r) (r_scale r) (get_theta dim best) (/ 10 ^ 15) Hd ltac:(congruence) ltac:(congruence) F4 eq_refl T0 P)
    as (th' & d2 & sc' & X2 & m2 & E & X2s & M2 & G0 & C0 & B1 & B2 & B3 & B4 & B5). change (theta_of lg (get_theta dim best)) with th in *.
  set (g := geo_mean dim th) in *. set (c := calc_vreq (nr (r_xscl r)) dim / Rmax m2 (/ 10 ^ 15)) in *.
  unfold optz_rescale in H. destruct (Nat.ltb_spec 1 (nr X)); [|lia]. binv H l El. binv H t Et. binv H r1 Er. injection H as <- <-.
  destruct mi as [|mi]; [discriminate|]. cbn [resc_loop] in El. rewrite E in El. rewrite bind_Ok in El. cbn [tr_dist fst snd] in El.
  destruct (Rlt_dec d2 tol) as [_|]; [|lra]. rewrite orb_true_r in El. injection El as <-.
  cbn in Et. injection Et as <-. cbn [tr_scale tr_theta fst snd] in *.
  rewrite <- F1 in Hn. destruct (final_scale r r1 sc' Er F2 ltac:(lia)) as (Y & m0 & PY & M & PX & SC). rewrite F1 in *. rewrite F3 in SC. cbn [requested] in SC.
  assert (M0 : m0 = calc_vreq (nr X) dim).
  { apply (C19_minimum_distance_in_the_new_scaling dim lg X (r_xscl r) Y (r_shift r) (r_shift r1) (r_scale r) (get_theta dim best) th' sc' (/ 10 ^ 15) d2 m0 Hd LX F4 eq_refl T0 P F6 E PY M). exact Sep. }
  rewrite M0, Rmax_right in SC by (apply Rle_trans with 1; [apply T1|lra]). set (vr := calc_vreq (nr X) dim) in *. clear M0.
  assert (Q : 0 < v / vr) by (apply Rdiv_lt_0_compat; assumption).
  assert (TH : forall i, (i < dim)%nat -> theta_of lg (put_theta dim best th') i = g / c ^ 2).
  { intros i Hi. transitivity (theta_of lg th' i); [|apply B2; exact Hi]. unfold theta_of, put_theta. cbn [vat]. destruct (Nat.ltb_spec i dim); [reflexivity|lia]. }
  assert (SP : forall i, (i < dim)%nat -> 0 < vat sc' i).
  { intros i Hi. rewrite B4 by exact Hi. apply Rmult_lt_0_compat; [|exact C0]. apply Rmult_lt_0_compat; [auto|]. apply sqrt_lt_R0, Rdiv_lt_0_compat; auto. }
  destruct (Classical_Prop.classic (exists x y, kfun k dim (theta_of lg (put_theta dim best th')) a (scaled (r_shift r1) (r_scale r1) x) (scaled (r_shift r1) (r_scale r1) y) <>
    kfun k dim th a (scaled (r_shift r) (r_scale r) x) (scaled (r_shift r) (r_scale r) y))) as [|NE]; [assumption|exfalso].
  assert (AG : forall i, (i < dim)%nat -> theta_of lg (put_theta dim best th') i * vat (r_scale r1) i ^ 2 = th i * vat (r_scale r) i ^ 2).
  { apply (kernels_agree_theta k dim th _ a (r_shift r) (r_shift r1)); [exact Ha| |].
    - intros i Hi. rewrite TH, SC by congruence. split; [auto|]. split; [apply Rdiv_lt_0_compat; [exact G0|apply pow_lt; exact C0]|]. split; [auto|]. apply Rmult_lt_0_compat; auto.
    - intros x y. apply Classical_Prop.NNPP. intros NN. apply NE. exists x, y. exact NN. }
  specialize (AG 0%nat Hd). rewrite TH, SC in AG by congruence. rewrite B4 in AG by exact Hd.
  assert (Z : sqrt (th 0%nat / g) ^ 2 = th 0%nat / g) by (apply pow2_sqrt; left; apply Rdiv_lt_0_compat; auto).
  replace ((vat (r_scale r) 0 * sqrt (th 0%nat / g) * c * (v / vr)) ^ 2) with (vat (r_scale r) 0 ^ 2 * sqrt (th 0%nat / g) ^ 2 * c ^ 2 * (v / vr) ^ 2) in AG by ring. rewrite Z in AG.
  replace (g / c ^ 2 * (vat (r_scale r) 0 ^ 2 * (th 0%nat / g) * c ^ 2 * (v / vr) ^ 2)) with (th 0%nat * vat (r_scale r) 0 ^ 2 * (v / vr) ^ 2) in AG by (field; lra).
  assert (W : 0 < th 0%nat * vat (r_scale r) 0 ^ 2) by (apply Rmult_lt_0_compat; [auto|apply pow_lt; auto]).
  assert (V1 : (v / vr) ^ 2 = 1) by (apply (Rmult_eq_reg_l (th 0%nat * vat (r_scale r) 0 ^ 2)); lra).
  assert (VV : v / vr = 1) by (assert (K : (v / vr - 1) * (v / vr + 1) = 0) by (ring_simplify; lra); apply Rmult_integral in K; lra).
  apply Nv. apply (f_equal (fun z => z * vr)) in VV. unfold Rdiv in VV. rewrite Rmult_assoc, Rinv_l in VV by lra. lra.
Qed.
Print Assumptions C19_rescale_eta_vary_refuted.

(** ** The hypotheses of the loop theorems are met: two points, distance (0,0)-(3,4), with an isotropic and
    an anisotropic optimum, and an optimiser that returns its start *)
Definition lx_X : mat := mkmat 2 2 (fun p i => match p, i with 1%nat, 0%nat => 3 | 1%nat, _ => 4 | _, _ => 0 end).
Definition lx_opt : nat -> vec -> res vec := fun _ v => Ok v.
Lemma set_xscale_total r sc : r_obj r = None -> r_nlc r = false -> r_box r = None -> r_lin r = None -> (r_best r < nr (r_x r))%nat ->
  vlen sc = nc (r_x r) -> (forall i, (i < nc (r_x r))%nat -> 0 < vat sc i) -> exists r', set_xscale_data r None (Some sc) = Ok r'.
Proof.
  intros A B C D Hb L P. unfold set_xscale_data. rewrite A, B, C, D.
  destruct (calc_x_shift_n_scale_total (r_x r) (r_best r) (r_use_shift r) (r_mtd r) (r_dist r) (Some sc) Hb) as (sh & s & E).
  { intros v Ev. injection Ev as <-. split; [exact L|]. rewrite L. exact P. }
  rewrite E. bok. apply calc_x_shift_n_scale_inv in E. destruct E as (L1 & L2).
  destruct (rok_ex _ _ (x_init_2_scl_ok (r_x r) sh s L1 L2)) as (X1 & -> & _). bok.
  destruct (calc_Rtensor_total X1) as (T & ->). simpl. eauto.
Qed.
Lemma lx_total r best mi v : rescaling_init lx_X None true Xvmin (Some v) = Ok r -> 0 < v -> (2 <= vlen best)%nat ->
  exists best' r', optz_rescale 2 2 (S mi) true (1 / 10) lx_opt r best = Ok (best', r').
Proof.
  intros H1 Hv Lb. destruct (hist_facts _ _ _ _ [] _ 2 H1 eq_refl Hv eq_refl) as (F1 & F2 & F3 & F4 & F5 & F6). assert (N := F6). destruct N as (N1 & N2 & N3).
  assert (T0 : 0 < / 10 ^ 15) by (apply Rinv_0_lt_compat, pow_lt; lra).
  assert (TP : forall th i, 0 < theta_of true th i) by (intros; apply exp_pos).
  assert (LP : forall k cnt th b, vlen th = 2%nat -> (2 <= vlen b)%nat -> exists l, resc_loop (S k) cnt 2 true (1 / 10) (r_xscl r) (r_scale r) lx_opt th b = Ok l /\
     fst l <> [] /\ forall t, In t (fst l) -> vlen (tr_scale t) = 2%nat /\ forall i, (i < 2)%nat -> 0 < vat (tr_scale t) i).
  { intros k. induction k as [|k IH]; intros cnt th b L L2;
      destruct (C19_new_scaling_describes_the_same_kernel 2 true (r_xscl r) (r_scale r) th (/ 10 ^ 15) ltac:(lia) ltac:(rewrite N1; cbn; lia) ltac:(rewrite N2; reflexivity) F4 L T0 ltac:(auto))
        as (th' & d2 & sc' & E & A1 & A2 & _ & A4 & _); cbn [resc_loop]; rewrite E, bind_Ok; cbn [orb Nat.eqb].
    - eexists. split; [reflexivity|]. split; [discriminate|]. intros t [<-|[]]. split; [exact A2|]. cbn [tr_scale snd]. apply A4, F5.
    - destruct (Rlt_dec _ _).
      + eexists. split; [reflexivity|]. split; [discriminate|]. intros t [<-|[]]. split; [exact A2|]. cbn [tr_scale snd]. apply A4, F5.
      + unfold lx_opt at 1. rewrite bind_Ok. destruct (IH (S cnt) th' (put_theta 2 b th') A1 L2) as (l & El & Nl & Hl). cbn [tr_theta fst snd]. cbn [resc_loop] in El. rewrite El, bind_Ok.
        eexists. split; [reflexivity|]. cbn [fst]. split; [discriminate|]. intros t [<-|I]; [|auto]. split; [exact A2|]. cbn [tr_scale snd]. apply A4, F5. }
  unfold optz_rescale. cbn [Nat.ltb Nat.leb]. destruct (LP mi 1%nat (get_theta 2 best) best eq_refl Lb) as (l & -> & Nl & Hl). bok.
  destruct (fst l) as [|t0 l0] eqn:El; [contradiction|]. cbn [pick_min]. bok.
  assert (IN : forall l1 b, In (argmin_from b l1) (b :: l1)).
  { induction l1 as [|t l1 IHl]; intros b; cbn [argmin_from]; [left; reflexivity|]. destruct (Rlt_dec _ _); [right; apply IHl|]. destruct (IHl b) as [<-|]; [left; reflexivity|right; right; assumption]. }
  destruct (Hl _ (IN l0 t0)) as (Q1 & Q2).
  unfold rescaling_init, set_xscale_data in H1. binv H1 ss E1. destruct ss as (sh, sc). binv H1 xs E2. binv H1 Rt E3. binv H1 os E4.
  binv H1 u E5. binv H1 bs E6. binv H1 ls E7. injection H1 as <-.
  match goal with |- context [set_xscale_data ?r None (Some ?s)] => destruct (set_xscale_total r s eq_refl eq_refl) as (r' & ->) end;
    [cbn in E6; injection E6 as <-; reflexivity|cbn in E7; injection E7 as <-; reflexivity|cbn; lia|exact Q1|exact Q2|]. bok. eauto.
Qed.
Example C19_loop_reachable : exists r0 best best' r',
  rescaling_init lx_X None true Xvmin (Some (calc_vreq 2 2)) = Ok r0 /\ is_dist_min (r_xscl r0) (calc_vreq 2 2) /\
  optz_rescale 2 2 vreq_max_iter_dflt true vreq_iter_tol_dflt lx_opt r0 best = Ok (best', r') /\ vreq_iter_tol_dflt <= dist2_line 2 (theta_of true best).
Proof.
  destruct (rescaling_init_total lx_X true Xvmin (Some (calc_vreq 2 2)) ltac:(cbn; lia)) as (r0 & E).
  assert (V := vreq_pos 2 2 ltac:(lia) ltac:(lia)).
  exists r0, (mkvec 2 (fun i => if (i =? 0)%nat then 1 else -1)).
  destruct (lx_total r0 (mkvec 2 (fun i => if (i =? 0)%nat then 1 else -1)) 2 (calc_vreq 2 2) E V ltac:(cbn; lia)) as (b' & r' & E').
  exists b', r'. split; [exact E|]. split; [|split; [exact E'|]].
  - destruct (hist_facts _ _ _ _ [] _ 2 E eq_refl V eq_refl) as (F1 & F2 & F3 & F4 & F5 & F6).
    unfold rescaling_init in E. apply set_xscale_inv in E. destruct E as (_ & _ & _ & _ & _ & _ & _ & K). cbn [r_x r_best r_use_shift r_mtd r_dist] in K.
    apply calc_scale_inv in K. destruct K as (_ & _ & _ & _ & _ & SH & _ & X1 & c & HX1 & Hsc & Hc). cbn [Nat.eqb nr lx_X] in Hc. destruct Hc as (m0 & M & ->).
    assert (Z := M). destruct Z as ((p & q & Hp & Hq & Hpq & Em) & _). destruct HX1 as (R1 & R2 & R3).
    assert (m0 = 5) as ->.
    { rewrite Em. unfold dist. rewrite R1 in Hp, Hq. rewrite R2. cbn in Hp, Hq. cbn [nc lx_X rsum]. unfold rows_of. rewrite !R3 by (cbn; lia). cbn [base_scale].
      replace 5 with (sqrt (5 * 5)) by (apply sqrt_square; lra). f_equal. destruct p as [|[|p]]; destruct q as [|[|q]]; try lia; cbn; ring. }
    assert (B : Rmax tol_min_dist_x 5 = 5) by (apply Rmax_right; unfold tol_min_dist_x; apply Rle_trans with 1; [apply inv10_le|lra]).
    replace (calc_vreq 2 2) with (calc_vreq 2 2 / 5 * 5) by field. apply (dist_min_scale X1); [rewrite R1; apply F6|left; apply Rdiv_lt_0_compat; lra| |exact M].
    intros a b Ha Hb. rewrite R1 in Ha, Hb. destruct F6 as (G1 & G2 & G3). apply cdist_scale; [congruence|left; apply Rdiv_lt_0_compat; lra|]. rewrite R2. intros i Hi. rewrite !R3, !G3 by assumption. unfold scaled, rows_of. rewrite Hsc, B by exact Hi. cbn [req_dist base_scale]. field.
  - unfold dist2_line, theta_of, vreq_iter_tol_dflt. cbn [vat rsum Nat.eqb]. unfold Rpower. rewrite !ln_exp. assert (L := ln10_pos).
    replace (1 * ln 10 / ln 10) with 1 by (field; lra). replace (-1 * ln 10 / ln 10) with (-1) by (field; lra). replace ((0 + 1 + -1) / INR 2) with 0 by (cbn; field). lra.
Qed.
Example C19_loop_partial_reachable : exists r0 best' r', rescaling_init lx_X None true Xvmin (Some (calc_vreq 2 2)) = Ok r0 /\
  optz_rescale 2 2 vreq_max_iter_dflt true vreq_iter_tol_dflt lx_opt r0 (vconst 2 0) = Ok (best', r') /\ dist2_line 2 (theta_of true (vconst 2 0)) < vreq_iter_tol_dflt.
Proof.
  destruct (rescaling_init_total lx_X true Xvmin (Some (calc_vreq 2 2)) ltac:(cbn; lia)) as (r0 & E).
  destruct (lx_total r0 (vconst 2 0) 2 (calc_vreq 2 2) E (vreq_pos 2 2 ltac:(lia) ltac:(lia)) ltac:(cbn; lia)) as (b' & r' & E').
  exists r0, b', r'. split; [exact E|]. split; [exact E'|]. rewrite (line_const 2 _ (theta_of true (vconst 2 0) 0)); [unfold vreq_iter_tol_dflt; lra|lia|reflexivity].
Qed.
