(** Facts about rescaling_data_w_theta_sol and the loop around it. *)
From Coq Require Import Reals List Arith Bool Lia Lra Psatz.
From Coquelicot Require Import Coquelicot.
From Verif.Base Require Import NpLite NpFacts Deriv.
From Verif.Spec Require Import KernelSpec LinAlgSpec.
From Verif.Model Require Import KernelSqExp KernelMatern KernelRatQuad KernelDispatch CommonFun WellCond Rescaling GpState RescaleLoop.
From Verif.Spec Require Import GpSpec DataSpec RescaleSpec ThetaSpec.
From Verif.Proofs Require Import KernTac KernGradBlocks RadialCalculus KernelExact CovStruct StateFacts MinMax DataFacts RescaleFacts NuggetMain.
Import ListNotations.
Local Open Scope R_scope.

Lemma ln10_pos : 0 < ln 10. Proof. rewrite <- ln_1. apply ln_increasing; lra. Qed.
Lemma pow10_log10 x : 0 < x -> pow10 (log10 x) = x.
Proof. intros H. unfold pow10, log10. replace (ln x / ln 10 * ln 10) with (ln x) by (field; generalize ln10_pos; lra). apply exp_ln; exact H. Qed.
Lemma log10_pow10 x : log10 (pow10 x) = x.
Proof. unfold pow10, log10. rewrite ln_exp. field. generalize ln10_pos; lra. Qed.
Lemma kfun_sqd k d th th' a x y x' y' : sqd d th x y = sqd d th' x' y' -> kfun k d th a x y = kfun k d th' a x' y'.
Proof. intros H. destruct k; cbn; unfold k_sqexp, k_matern, k_ratqu; rewrite H; reflexivity. Qed.
Lemma vreq_pos n d : (1 < n)%nat -> (0 < d)%nat -> 0 < calc_vreq n d.
Proof. intros A B. eapply Rlt_le_trans; [|apply vreq_ge; assumption]. apply sqrt_lt_R0; lra. Qed.

Lemma resc_theta_spec dim log_hp X1 sc1 th tol : (0 < dim)%nat -> (1 < nr X1)%nat -> nc X1 = dim -> vlen sc1 = dim -> vlen th = dim ->
  0 < tol -> (forall i, (i < dim)%nat -> 0 < theta_of log_hp th i) ->
  exists th' d2 sc' X2 m, rescaling_data_w_theta_sol dim log_hp X1 sc1 th tol = Ok (th', d2, sc') /\
    let t := theta_of log_hp th in let g := geo_mean dim t in let c := calc_vreq (nr X1) dim / Rmax m tol in
    mspec (nr X1) dim X2 (fun p i => mat_at X1 p i * sqrt (t i / g)) /\ is_dist_min X2 m /\ 0 < g /\ 0 < c /\
    vlen th' = dim /\ (forall i, (i < dim)%nat -> theta_of log_hp th' i = g / c ^ 2) /\
    vlen sc' = dim /\ (forall i, (i < dim)%nat -> vat sc' i = vat sc1 i * sqrt (t i / g) * c) /\
    d2 = dist2_line dim t.
Proof.
  intros Hd Hn L1 L2 L3 Ht P. unfold rescaling_data_w_theta_sol. destruct (Nat.ltb_spec 1 (nr X1)); [|lia]. bok.
  set (ts := if log_hp then vmap pow10 th else th). set (ls := if log_hp then th else vmap log10 th).
  assert (T1 : vlen ts = dim) by (unfold ts; destruct log_hp; exact L3).
  assert (T2 : forall i, vat ts i = theta_of log_hp th i) by (intros i; unfold ts, theta_of; destruct log_hp; reflexivity).
  assert (S1 : vlen ls = dim) by (unfold ls; destruct log_hp; exact L3).
  assert (S2 : forall i, (i < dim)%nat -> vat ls i = ln (theta_of log_hp th i) / ln 10).
  { intros i Hi. unfold ls, theta_of. destruct log_hp; [|reflexivity]. exact (eq_sym (log10_pow10 (vat th i))). }
  set (t := theta_of log_hp th) in *.
  assert (GE : pow10 (vmean ls) = geo_mean dim t).
  { unfold pow10, vmean, geo_mean, vsum. rewrite S1. f_equal. rewrite (rsum_ext _ (vat ls) (fun i => / ln 10 * ln (t i))).
    - rewrite rsum_scal. field. split; [apply not_0_INR; lia|generalize ln10_pos; lra].
    - intros i Hi. rewrite S2 by exact Hi. unfold Rdiv. ring. }
  rewrite GE. set (g := geo_mean dim t) in *. assert (G0 : 0 < g) by (unfold g, geo_mean; apply exp_pos).
  set (sc2 := vmap (fun t0 => sqrt (t0 / g)) ts).
  destruct (rok_ex _ _ (mrow_ok Rmult (nr X1) (nc X1) X1 (mat_at X1) sc2 (vat sc2) (mspec_refl X1) (conj (eq_trans T1 (eq_sym L1)) (fun i _ => eq_refl)))) as (X2 & EX2 & X21 & X22 & X23).
  change (mmul X1 {| nr := 1; nc := vlen sc2; mat_at := fun _ j => vat sc2 j |} = Ok X2) in EX2. rewrite EX2. bok.
  destruct (dist_min_ok X2 ltac:(lia)) as (m & -> & M). bok.
  destruct (rok_ex _ _ (vzip_ok Rmult dim sc1 sc2 (vat sc1) (vat sc2) (conj L2 (fun i _ => eq_refl)) (conj T1 (fun i _ => eq_refl)))) as (s12 & -> & Q1 & Q2). bok.
  unfold vdot. cbn [vlen vconst]. rewrite S1, !Nat.eqb_refl. bok.
  assert (V := vreq_pos (nr X1) dim Hn Hd).
  set (c := calc_vreq (nr X1) dim / Rmax m tol). assert (C0 : 0 < c).
  { apply Rdiv_lt_0_compat; [exact V|]. eapply Rlt_le_trans; [exact Ht|apply Rmax_r]. }
  assert (CC : 0 < g / c ^ 2) by (apply Rdiv_lt_0_compat; [exact G0|apply pow_lt; exact C0]).
  eexists. eexists. eexists. exists X2, m. split; [reflexivity|]. cbv zeta. fold c.
  split. { split; [exact X21|]. split; [congruence|]. intros p i Hp Hi. rewrite X23 by congruence. unfold sc2. cbn [vat vmap]. rewrite T2. reflexivity. }
  split; [exact M|]. split; [exact G0|]. split; [exact C0|]. split; [destruct log_hp; reflexivity|].
  split. { intros i Hi. unfold theta_of. destruct log_hp; cbn; [|reflexivity]. change (pow10 (log10 (g / c ^ 2)) = g / c ^ 2). apply pow10_log10; exact CC. }
  split; [exact Q1|]. split. { intros i Hi. cbn [vat vmap]. rewrite Q2 by exact Hi. unfold sc2. cbn [vat vmap]. rewrite T2. reflexivity. }
  unfold dist2_line.
  rewrite (rsum_ext _ (fun i => vat ls i * vat ls i) (fun i => (ln (t i) / ln 10) * (ln (t i) / ln 10))) by (intros i Hi; rewrite S2 by exact Hi; reflexivity).
  rewrite (rsum_ext _ (fun i => vat ls i * vat (vconst dim 1) i) (fun i => ln (t i) / ln 10)) by (intros i Hi; cbn; rewrite S2 by exact Hi; ring).
  assert (Z : forall u : nat -> R, rsum dim (fun i => u i * u i) - rsum dim u ^ 2 / INR dim = rsum dim (fun i => (u i - rsum dim u / INR dim) ^ 2)).
  { intros u. rewrite (rsum_ext dim (fun i => (u i - rsum dim u / INR dim) ^ 2) (fun i => u i * u i - (2 * (rsum dim u / INR dim)) * u i + (rsum dim u / INR dim) ^ 2)) by (intros; ring).
    rewrite rsum_plus, rsum_minus, rsum_scal, rsum_const. field. apply not_0_INR; lia. }
  exact (Z (fun i => ln (t i) / ln 10)).
Qed.

Lemma sqd_pullback d th sc sh x y : sqd d th (scaled sh sc x) (scaled sh sc y) = rsum d (fun i => th i * vat sc i ^ 2 * (x i - y i) ^ 2).
Proof. unfold sqd, scaled. apply rsum_ext. intros i _. ring. Qed.
Lemma sqd_agree d th sc th' sc' sh sh' x y c : (forall i, (i < d)%nat -> th' i * vat sc' i ^ 2 = c * (th i * vat sc i ^ 2)) ->
  sqd d th' (scaled sh' sc' x) (scaled sh' sc' y) = c * sqd d th (scaled sh sc x) (scaled sh sc y).
Proof. intros H. rewrite !sqd_pullback, <- rsum_scal. apply rsum_ext. intros i Hi. rewrite H by exact Hi. ring. Qed.

(** the kernel profile is injective *)
Lemma matern52_derive x : is_derive matern52 x (- (5 / 3) * x * (1 + sqrt 5 * x) * exp (- (sqrt 5 * x))).
Proof.
  unfold matern52. assert (S5 : sqrt 5 * sqrt 5 = 5) by (apply sqrt_sqrt; lra). eapply dR_val.
  - apply dR_mult.
    + apply dR_plus; [apply dR_plus; [apply dR_const|apply dR_scal, dR_id]|]. apply dR_scal. apply (dR_ext (fun t => t * t)); [intros; ring|]. apply dR_mult; apply dR_id.
    + apply (dR_comp exp (fun t => - (sqrt 5 * t))); [apply dR_opp, dR_scal, dR_id|apply dR_exp].
  - cbv beta. set (E := exp (- (sqrt 5 * x))). replace (- (5 / 3) * x * (1 + sqrt 5 * x) * E) with ((5 - 5 / 3 - 5) * x * E - 5 / 3 * sqrt 5 * x ^ 2 * E) by field.
    replace ((0 + sqrt 5 * 1 + 5 / 3 * (1 * x + x * 1)) * E + (1 + sqrt 5 * x + 5 / 3 * x ^ 2) * (- (sqrt 5 * 1) * E))
      with ((10 / 3 - sqrt 5 * sqrt 5) * x * E - 5 / 3 * sqrt 5 * x ^ 2 * E) by field. rewrite S5. field.
Qed.
Lemma matern52_decr u v : 0 <= u -> u < v -> matern52 v < matern52 u.
Proof.
  intros Hu Huv. destruct (MVT_cor2 matern52 (fun x => - (5 / 3) * x * (1 + sqrt 5 * x) * exp (- (sqrt 5 * x))) u v Huv) as (c & E & Hc).
  - intros x _. apply is_derive_Reals, matern52_derive.
  - assert (S0 := sqrt_pos 5). assert (0 <= sqrt 5 * c) by (apply Rmult_le_pos; lra).
    assert (0 < 5 / 3 * c * (1 + sqrt 5 * c) * exp (- (sqrt 5 * c)) * (v - u)) by (repeat apply Rmult_lt_0_compat; try apply exp_pos; lra). lra.
Qed.
Lemma kfun_inj k d th th' a x y x' y' : hp_ok k (Some a) -> 0 <= sqd d th x y -> 0 <= sqd d th' x' y' ->
  kfun k d th a x y = kfun k d th' a x' y' -> sqd d th x y = sqd d th' x' y'.
Proof.
  intros Ha P P' H. set (s := sqd d th x y) in *. set (s' := sqd d th' x' y') in *. destruct k; cbn in H.
  - unfold k_sqexp in H. fold s s' in H. apply exp_inv in H. lra.
  - unfold k_matern in H. fold s s' in H. assert (sqrt s = sqrt s') as E.
    { destruct (Rtotal_order (sqrt s) (sqrt s')) as [L|[E|L]]; [|exact E|]; apply matern52_decr in L; try apply sqrt_pos; lra. }
    rewrite <- (sqrt_sqrt s), <- (sqrt_sqrt s') by assumption. rewrite E. reflexivity.
  - destruct Ha as (a' & Ea & Pa). injection Ea as <-. unfold k_ratqu in H. fold s s' in H. unfold Rpower in H. apply exp_inv in H.
    assert (0 <= s / a) by (apply Rmult_le_pos; [lra|left; apply Rinv_0_lt_compat; lra]). assert (0 <= s' / a) by (apply Rmult_le_pos; [lra|left; apply Rinv_0_lt_compat; lra]).
    apply Rmult_eq_reg_l in H; [|lra]. apply ln_inv in H; [|lra|lra]. assert (s / a = s' / a) as E by lra. apply (f_equal (fun z => z * a)) in E. unfold Rdiv in E. rewrite !Rmult_assoc, Rinv_l in E by lra. lra.
Qed.
