(** * C69: predictions in floating-point arithmetic

    Vocabulary: [Spec/FloatSpec.v] (rounding errors), [Spec/EvalSpec.v] (posterior mean and variance). *)
From Coq Require Import Reals List Arith ZArith Bool Lia Lra Psatz.
From Verif.Base Require Import NpLite NpFacts.
From Verif.Spec Require Import KernelSpec LinAlgSpec GpSpec DataSpec LkdSpec EvalSpec FloatSpec.
From Verif.Model Require Import KernelSqExp KernelMatern KernelRatQuad KernelDispatch CommonFun WellCond Rescaling GpState Chol CholFl Cov EvalModel EvalFl.
From Verif.Proofs Require Import CovStruct StateFacts NoiseFacts LinAlg CholCorrect FlChol FlMargin FlSolve FlSol FlTarget FlEval NuggetCond NuggetMain CondMain LkdCore EvalKern EvalFacts.
From Verif.Props Require Import CondProps DataProps LkdProps EvalProps EvalProps2 FloatProps FloatProps2 FloatProps3.
Import ListNotations.
Local Open Scope R_scope.

(** The factor [c], used with arithmetic [ar], gives predictions at every point [x] of the model: [kx] are the covariances of
    the observations with the function at x, [kh] their computed values, [m] and [v] the exact mean and variance (in relation
    to varK).  [n] is the number of data, [k] the limit of the condition number, [A] the covariance matrix. *)
Definition predicts (o : gpopt) (d : gpdata) (hp : hpv) (vK b0 : R) (A : mat) (u e : R) (ar : arith) (c : mat * bool) : Prop :=
  let n := d_n_data d in let k := o_target o in let r := sol_err u e k n in
  forall (x : pt) (kx kh : nat -> R) (m v : R),
  cross_cov (gp_kernel o hp) (gp_observations o d) x kx -> within A e (fun i => kh i - kx i) ->
  posterior_mean (gp_kernel o hp) (gp_observations o d) A (gp_residual o d b0) b0 x m ->
  posterior_var (gp_kernel o hp) (gp_observations o d) A x v ->
  (* the check of the variance never fails, and the standard deviation is accurate *)
  (k * var_err u e n <= 1 -> exists s, sig_fl ar c kh vK = Ok s /\
     (r < 1 -> deviation_within u (var_acc u e r k n) v vK s)) /\
  (* the mean is accurate: w are the exact weights *)
  (r < 1 -> forall w, solves A w (gp_residual o d b0) ->
     let D := mean_err u e r k n * sqrt (dotp n (gp_residual o d b0) w) in
     Rabs (mu_fl ar c b0 kh (gp_residual o d b0) - m) <= D + u * (Rabs m + D)).

Lemma factor_predicts o d hp vK b0 A D u e ar c : eval_input o d hp vK b0 ->
  plus_diag (d_n_data d) A (fun i j => 1 * ckf o d hp (fst (get_scl_x_w_dist d)) i j) D -> pd A -> (forall i, (i < d_n_data d)%nat -> mat_at A i i <= o_target o * D i) ->
  rounds u ar -> 0 <= e -> gam u (d_n_data d + 7) < 1 -> nr (fst c) = d_n_data d ->
  good_factor A (sol_err u e (o_target o) (nr A)) (sys_err u e (nr A)) ar c ->
  predicts o d hp vK b0 A u e ar c.
Proof.
  intros HI HA HP HD RO He HG EN (G1 & _ & G3 & _). unfold predicts. cbv zeta. set (n := d_n_data d) in *. set (k := o_target o) in *. set (r := sol_err u e k n) in *.
  assert (ENA : nr A = n) by apply HA. rewrite ENA in G1, G3. fold r in G1. assert (Hu := ro_u _ _ RO).
  assert (OK : opts_ok o) by apply HI. assert (Ht : 1 < k) by (unfold k; destruct OK as (_ & T & _); lra).
  assert (CN : n = cN o d) by (apply (li_N o d hp (ei_lkd o d hp vK b0 HI))).
  assert (OL := obs_len o d hp vK b0 HI). rewrite <- CN in OL.
  assert (U1 : u <= 1). { assert (X := gam_mono u 1 (n + 7) Hu ltac:(lia)). unfold gam in X at 1. cbn [pow] in X. lra. }
  assert (SE : 0 <= sys_err u e n). { unfold sys_err. assert (0 <= solve_err u n) by (apply solve_err_nonneg; assumption). assert (0 <= (1 + e) * solve_err u n) by (apply Rmult_le_pos; lra). lra. }
  assert (R0 : 0 <= r) by (unfold r, sol_err; change (e + (1 + e) * solve_err u n) with (sys_err u e n); apply Rmult_le_pos; [lra|]; apply Rmult_le_pos; [apply pos_INR|exact SE]).
  assert (PS : forall v, 0 <= bform n (fun i j => 1 * ckf o d hp (fst (get_scl_x_w_dist d)) i j) v v).
  { intros v. rewrite bform_mscal, Rmult_1_l, CN. apply ckf_psd. apply HI. }
  assert (SC : scaled_cond_le A k) by (apply (share_scaled n A _ D k HA HP); auto; lra).
  intros x kx kh m v CX HK PM PV.
  assert (CU := cross_unique o d hp vK b0 HI x kx CX). rewrite <- CN in CU.
  assert (CO : covariances A (/ k) kx).
  { apply (share_cov n A _ D k kx HA); auto; [lra|]. intros w. rewrite bform_mscal, Rmult_1_l.
    assert (Z := joint_psd (o_kernel o) (hp_kernel hp) (o_dim o) (vat (hp_theta hp)) n (cobs d (fst (get_scl_x_w_dist d))) x w (ei_hp o d hp vK b0 HI) (ei_th o d hp vK b0 HI)). cbv zeta in Z.
    rewrite (kjet_diag _ _ _ _ (Val x)) in Z. rewrite (dotp_ext n kx w (kxf o d hp x) w) by auto. exact Z. }
  assert (IK : 0 <= / k) by (left; apply Rinv_0_lt_compat; lra).
  assert (K0 : 0 <= k) by lra. assert (VP : 0 < vK) by apply HI.
  split.
  - intros HE.
    assert (NN : 0 <= var_fl ar c kh).
    { apply (var_fl_nonneg u e (/ k) (sys_err u e n) ar A c kx kh); auto; [congruence|rewrite ENA; apply G3|].
      rewrite ENA. apply Rmult_le_reg_l with k; [lra|]. rewrite Rinv_r by lra. exact HE. }
    destruct (sig_ok u ar c kh vK RO U1 ltac:(lra) NN) as (s & ES & S0 & S1). exists s. split; [exact ES|]. intros R1.
    exists (var_fl ar c kh). split; [exact NN|]. split; [|split; [exact S0|exact S1]].
    destruct PV as (kx' & z & CX' & SZ & EV). rewrite (kxx o d hp vK b0 HI), OL in EV. assert (CU' := cross_unique o d hp vK b0 HI x kx' CX'). rewrite <- CN in CU'.
    assert (SX : solves A z kx) by (intros i Hi; rewrite (SZ i Hi); rewrite ENA in Hi; rewrite CU', CU by exact Hi; reflexivity).
    assert (exists xh, solves A xh kh) as (xh & SH).
    { destruct (cho_factor_pd A true HP) as (c' & _ & _ & C). eexists. apply (cho_solve_solves _ _ kh C). }
    destruct (var_fl_err u e (/ k) r k ar A c kx kh z xh RO HP SC K0 ltac:(congruence) He IK (conj R0 R1) CO HK SX SH (G1 _ _ SH)) as (_ & H).
    rewrite ENA in H. rewrite (dotp_ext n kx' z kx z) in EV by (auto; intros i Hi; rewrite CU', CU by exact Hi; reflexivity). rewrite EV. exact H.
  - intros R1 w SW. cbv zeta. destruct PM as (kx' & w' & CX' & SW' & EM). rewrite OL in EM. assert (CU' := cross_unique o d hp vK b0 HI x kx' CX'). rewrite <- CN in CU'.
    assert (WW : forall i, (i < n)%nat -> w' i = w i).
    { intros i Hi. apply (pd_unique A w' w (gp_residual o d b0) HP SW' SW). congruence. }
    assert (EW : energy A w = sqrt (dotp n (gp_residual o d b0) w)).
    { unfold energy. rewrite qform_bform by (apply pd_square; exact HP). rewrite (bform_solves A w w _ HP SW), ENA. reflexivity. }
    assert (H := mu_fl_err u e (/ k) r k ar A c kx kh (gp_residual o d b0) w b0 RO HP SC K0 ltac:(congruence) He IK (conj R0 R1) CO HK (G1 _ _ SW)). cbv zeta in H.
    rewrite ENA, EW in H. rewrite (dotp_ext n kx' w' kx w) in EM; [rewrite EM; exact H| |exact WW]. intros i Hi. rewrite CU', CU by exact Hi. reflexivity.
Qed.

Lemma cho_fl_shape ar A lower c : cho_factor_fl ar A lower = Ok c -> nr (fst c) = nr A.
Proof. unfold cho_factor_fl. destruct (nr A =? nc A)%nat; [|discriminate]. cbv zeta. intros H. apply bind_inv in H. destruct H as (L & _ & H). injection H as <-. reflexivity. Qed.
Lemma setup_K o d hp vK b0 condf cc su : eval_input o d hp vK b0 -> setup_eval_model o d condf hp cc = Ok su ->
  calc_all_K_w_chofac o d condf (d_Rt d) hp None true cc None true = Ok (su_K su).
Proof.
  intros HI H. assert (ERt := ev_Rt o d (ei_ev o d hp vK b0 HI)). unfold setup_eval_model in H. destruct (get_scl_x_w_dist d) as (X0, Rt). cbn [snd] in ERt. subst Rt.
  apply bind_inv in H. destruct H as ((((fv & sf) & g) & sg) & _ & H). apply bind_inv in H. destruct H as (beta & _ & H). apply bind_inv in H. destruct H as (((mv & mg) & mh) & _ & H). cbv zeta in H.
  apply bind_inv in H. destruct H as (k & E & H). apply bind_inv in H. destruct H as (f & _ & H). apply bind_inv in H. destruct H as (i & _ & H). injection H as <-. exact E.
Qed.

(** ** C69.  With 'precon' (computed nugget): [Kp] is the preconditioned matrix that is factorised, [p] the preconditioner;
    computed versions of both, and of the covariances with the evaluation point, may carry rounding errors. *)
Theorem C69_precon_predictions :
  forall (o : gpopt) (d : gpdata) (condf : mat -> R) (hp : hpv) (vK b0 : R) (cc : bool) (su : surr),
  o_well o = Wprecon -> (o_eta_const o = true -> o_eta_mtd o <> Edflt) ->
  eval_input o d hp vK b0 -> setup_eval_model o d condf hp cc = Ok su ->
  exists Kp p, k_Kprec (su_K su) = Some Kp /\ (forall i, (i < d_n_data d)%nat -> 0 < p i) /\
    (forall i j, (i < d_n_data d)%nat -> (j < d_n_data d)%nat -> mat_at (k_Kcov (su_K su)) i j = p i * p j * mat_at Kp i j) /\
    forall u e ar Kh ph, rounds u ar -> computed e Kp Kh -> precise u e (o_target o) (d_n_data d) ->
    (forall i, (i < d_n_data d)%nat -> near (gam u 2) (p i) (ph i)) ->
    exists c, cho_factor_fl ar Kh true = Ok c /\ predicts o d hp vK b0 (k_Kcov (su_K su)) u e ar (scale_rows_fl ar ph c).
Proof.
  intros o d condf hp vK b0 cc su Hw Hm HI SU. assert (EK := setup_K o d hp vK b0 condf cc su HI SU). assert (HI' := HI). destruct HI' as (H1 & H2 & H3 & H4 & H5 & H6 & H7 & H8 & _).
  assert (EVK : eff_varK hp None true = Some 1) by (unfold eff_varK; rewrite H7; reflexivity).
  assert (CN : d_n_data d = cN o d) by (apply (li_N o d hp (ei_lkd o d hp vK b0 HI))).
  destruct (rok_inv _ _ _ (precon_shares o d hp (ready o d H1 H2) H4 condf None true cc None true 1 (ei_noise o d hp vK b0 HI) EVK Rlt_0_1 Hw (H3 Hw) Hm) EK)
    as (Kp & p & D & P1 & P2 & P3 & P4 & P5 & P6 & P7 & P8 & P9). rewrite <- CN in *.
  exists Kp, p. split; [exact P1|]. split; [exact P5|]. split; [exact P6|]. intros u e ar Kh ph RO CE PR HN.
  assert (EA : nr (k_Kcov (su_K su)) = d_n_data d) by apply P7.
  destruct (precon_factor u e (o_target o) ar (k_Kcov (su_K su)) Kp Kh p ph RO P8 P3) as (c & EC & GF); try (rewrite EA); auto.
  exists c. split; [exact EC|]. apply (factor_predicts o d hp vK b0 _ D u e ar _ HI P7 P8 P9 RO); [apply PR|apply PR| |exact GF].
  assert (E1 := cho_fl_shape ar Kh true c EC). cbn [scale_rows_fl fst nr]. rewrite E1. destruct CE as (E2 & _). congruence.
Qed.
Print Assumptions C69_precon_predictions.

(** ** Without preconditioning, when the nugget is computed from the row sums or the model is gradient-free. *)
Theorem C69_plain_predictions :
  forall (o : gpopt) (d : gpdata) (condf : mat -> R) (hp : hpv) (vK b0 : R) (cc : bool) (su : surr),
  o_well o <> Wprecon -> (o_eta_const o = false \/ (o_use_grad o = false /\ o_eta_mtd o <> Edflt)) ->
  eval_input o d hp vK b0 -> setup_eval_model o d condf hp cc = Ok su ->
  forall u e ar Kh lower, rounds u ar -> computed e (k_Kcov (su_K su)) Kh -> precise u e (o_target o) (d_n_data d) ->
  exists c, cho_factor_fl ar Kh lower = Ok c /\ predicts o d hp vK b0 (k_Kcov (su_K su)) u e ar c.
Proof.
  intros o d condf hp vK b0 cc su Hw Hm HI SU u e ar Kh lower RO CE PR. assert (EK := setup_K o d hp vK b0 condf cc su HI SU). assert (HI' := HI). destruct HI' as (H1 & H2 & H3 & H4 & H5 & H6 & H7 & H8 & _).
  assert (EVK : eff_varK hp None true = Some 1) by (unfold eff_varK; rewrite H7; reflexivity).
  assert (CN : d_n_data d = cN o d) by (apply (li_N o d hp (ei_lkd o d hp vK b0 HI))).
  destruct (rok_inv _ _ _ (plain_shares o d hp (ready o d H1 H2) H4 condf None true cc None true 1 (ei_noise o d hp vK b0 HI) EVK Rlt_0_1 Hw Hm) EK) as (D & P7 & P8 & P9).
  destruct (rok_inv _ _ _ (plain_scaled o d hp (ready o d H1 H2) H4 condf None true cc None true 1 (ei_noise o d hp vK b0 HI) EVK Rlt_0_1 Hw Hm) EK) as (EA & _ & SC). rewrite <- CN in *.
  destruct (plain_factor u e (o_target o) ar (k_Kcov (su_K su)) Kh lower RO P8 (or_intror SC) CE) as (c & EC & GF); [rewrite EA; exact PR|].
  exists c. split; [exact EC|]. apply (factor_predicts o d hp vK b0 _ D u e ar _ HI P7 P8 P9 RO); [apply PR|apply PR| |exact GF].
  assert (E1 := cho_fl_shape ar Kh lower c EC). rewrite E1. destruct CE as (E2 & _). congruence.
Qed.
Print Assumptions C69_plain_predictions.

(** ** Double precision *)
Lemma gam64 n : (n <= 100)%nat -> 0 <= gam u64 (n + 7) <= 1190 / 10 ^ 17.
Proof.
  intros Hn. assert (U : 0 <= u64 <= 1111 / 10 ^ 19) by (unfold u64; lra).
  assert (I9 : INR 100 = 100) by (rewrite INR_IZR_INZ; reflexivity). assert (IN : INR n <= 100) by (rewrite <- I9; apply le_INR, Hn). assert (I0 := pos_INR n).
  split; [apply gam_nonneg; lra|].
  assert (B := gam_bound u64 (n + 7) ltac:(lra)). rewrite plus_INR in B. replace (INR 7) with 7 in B by (rewrite INR_IZR_INZ; reflexivity). set (x := (INR n + 7) * u64) in *.
  assert (X : 0 <= x <= 1189 / 10 ^ 17).
  { unfold x. split; [apply Rmult_le_pos; lra|]. apply Rle_trans with (107 * (1111 / 10 ^ 19)); [apply Rmult_le_compat; lra|lra]. }
  eapply Rle_trans; [apply B; lra|]. assert (x * x <= (1189 / 10 ^ 17) * (1189 / 10 ^ 17)) by (apply Rmult_le_compat; lra). cbn [pow] in *. lra.
Qed.
Lemma sys64 n : (n <= 100)%nat -> 0 <= sys_err u64 (/ 10 ^ 14) n <= 4600 / 10 ^ 17.
Proof.
  intros Hn. destruct (gam64 n Hn) as (G0 & G). assert (S0 : 0 <= solve_err u64 n) by (apply solve_err_nonneg; [unfold u64|]; lra).
  assert (S1 : solve_err u64 n <= 3580 / 10 ^ 17).
  { unfold solve_err. set (g := gam u64 (n + 7)) in *. apply Rmult_le_reg_r with (1 - g); [lra|]. unfold Rdiv at 1. rewrite Rmult_assoc, Rinv_l by lra. assert (g * g <= (1190 / 10 ^ 17) * (1190 / 10 ^ 17)) by (apply Rmult_le_compat; lra). cbn [pow] in *. lra. }
  unfold sys_err. split; [nra|]. nra.
Qed.
Lemma var64 n : (n <= 100)%nat -> 0 <= var_err u64 (/ 10 ^ 14) n <= / 10 ^ 11.
Proof.
  intros Hn. assert (I9 : INR 100 = 100) by (rewrite INR_IZR_INZ; reflexivity). assert (IN : INR n <= 100) by (rewrite <- I9; apply le_INR, Hn). assert (I0 := pos_INR n).
  destruct (gam64 n Hn) as (_ & G7). assert (G := gam_mono u64 (n + 1) (n + 7) ltac:(unfold u64; lra) ltac:(lia)). assert (G0 : 0 <= gam u64 (n + 1)) by (apply gam_nonneg; unfold u64; lra).
  assert (S := sys64 n Hn). unfold var_err. set (g := gam u64 (n + 1)) in *. set (s := sys_err u64 (/ 10 ^ 14) n) in *. set (e := / 10 ^ 14). assert (E : e = / 10 ^ 14) by reflexivity.
  assert (B1 : 0 <= 2 * e + g * (1 + e) <= 4000 / 10 ^ 17) by (rewrite E; nra).
  assert (B2 : 0 <= (1 + g) * (1 + e) <= 101 / 100) by (rewrite E; nra).
  assert (B3 : 0 <= (1 + g) * (1 + e) * (2 * e + g * (1 + e)) <= 101 / 100 * (4000 / 10 ^ 17)) by (split; [apply Rmult_le_pos; lra|apply Rmult_le_compat; lra]).
  split; [apply Rmult_le_pos; lra|]. apply Rle_trans with (100 * (4600 / 10 ^ 17 + 101 / 100 * (4000 / 10 ^ 17))); [apply Rmult_le_compat; lra|]. lra.
Qed.
Lemma root_nk n k : (n <= 100)%nat -> 1 <= k <= 10 ^ 10 -> 0 <= sqrt (INR n * k) <= 10 * k /\ sqrt (INR n * k) <= 10 ^ 6.
Proof.
  intros Hn Hk. assert (I9 : INR 100 = 100) by (rewrite INR_IZR_INZ; reflexivity). assert (IN : INR n <= 100) by (rewrite <- I9; apply le_INR, Hn). assert (I0 := pos_INR n).
  split; [split; [apply sqrt_pos|]|].
  - rewrite <- (sqrt_square (10 * k)) by lra. apply sqrt_le_1_alt. nra.
  - rewrite <- (sqrt_square (10 ^ 6)) by lra. apply sqrt_le_1_alt. apply Rle_trans with (100 * 10 ^ 10); [apply Rmult_le_compat; lra|lra].
Qed.
Lemma mean64 n k : (n <= 100)%nat -> 1 <= k <= 10 ^ 10 -> 0 <= mean_err u64 (/ 10 ^ 14) (sol_err u64 (/ 10 ^ 14) k n) k n <= k * (6 / 10 ^ 12).
Proof.
  intros Hn Hk. destruct (root_nk n k Hn Hk) as (A1 & A2). assert (R1 := sol_err64 n k Hn ltac:(lra)). destruct (gam64 n Hn) as (_ & G7).
  assert (G := gam_mono u64 (n + 1) (n + 7) ltac:(unfold u64; lra) ltac:(lia)). assert (G0 : 0 <= gam u64 (n + 1)) by (apply gam_nonneg; unfold u64; lra). assert (S := sys64 n Hn).
  assert (R0 : 0 <= sol_err u64 (/ 10 ^ 14) k n) by (unfold sol_err; apply Rmult_le_pos; [lra|]; apply Rmult_le_pos; [apply pos_INR|]; apply S).
  unfold mean_err. set (r := sol_err _ _ _ _) in *. set (g := gam u64 (n + 1)) in *. set (a := sqrt (INR n * k)) in *.
  assert (B1 : 0 <= / 10 ^ 14 + g * (1 + / 10 ^ 14) <= 2300 / 10 ^ 17) by nra.
  assert (B2 : 0 <= a * (/ 10 ^ 14 + g * (1 + / 10 ^ 14)) <= 10 * k * (2300 / 10 ^ 17)) by (split; [apply Rmult_le_pos; lra|apply Rmult_le_compat; lra]).
  set (t := a * (/ 10 ^ 14 + g * (1 + / 10 ^ 14))) in *. split; [apply Rmult_le_pos; [lra|]; left; apply Rinv_0_lt_compat; lra|].
  apply Rmult_le_reg_r with (1 - r); [lra|]. unfold Rdiv at 1. rewrite Rmult_assoc, Rinv_l by lra. nra.
Qed.
Lemma varacc64 n k : (n <= 100)%nat -> 1 <= k <= 10 ^ 10 -> 0 <= var_acc u64 (/ 10 ^ 14) (sol_err u64 (/ 10 ^ 14) k n) k n <= k * (6 / 10 ^ 12).
Proof.
  intros Hn Hk. destruct (root_nk n k Hn Hk) as (A1 & A2). assert (R1 := sol_err64 n k Hn ltac:(lra)). destruct (gam64 n Hn) as (_ & G7).
  assert (G := gam_mono u64 (n + 1) (n + 7) ltac:(unfold u64; lra) ltac:(lia)). assert (G0 : 0 <= gam u64 (n + 1)) by (apply gam_nonneg; unfold u64; lra). assert (S := sys64 n Hn).
  assert (R0 : 0 <= sol_err u64 (/ 10 ^ 14) k n) by (unfold sol_err; apply Rmult_le_pos; [lra|]; apply Rmult_le_pos; [apply pos_INR|]; apply S).
  unfold var_acc. cbv zeta. set (r := sol_err _ _ _ _) in *. set (g := gam u64 (n + 1)) in *. set (a := sqrt (INR n * k)) in *.
  assert (AE : 0 <= a * / 10 ^ 14 <= / 10 ^ 8) by nra. assert (AK : a * / 10 ^ 14 <= k / 10 ^ 13) by nra. set (h := a * / 10 ^ 14) in *. set (b := 1 + h).
  assert (B : 1 <= b <= 1 + / 10 ^ 8) by (unfold b; lra). assert (BB : 1 <= b * b <= 1 + 3 / 10 ^ 8) by nra.
  assert (T1 : 0 <= r * (b * b) <= k * (5 / 10 ^ 12) * (1 + 3 / 10 ^ 8)) by (split; [apply Rmult_le_pos; lra|apply Rmult_le_compat; lra]).
  assert (G1 : 0 <= g * (1 + / 10 ^ 14) <= 1200 / 10 ^ 17) by nra.
  assert (AB : 0 <= a * b <= 11 * k) by nra.
  assert (T2 : 0 <= g * (1 + / 10 ^ 14) * (a * b) <= 1200 / 10 ^ 17 * (11 * k)) by (split; [apply Rmult_le_pos; lra|apply Rmult_le_compat; lra]).
  assert (T3 : 0 <= h * (1 + b) <= k / 10 ^ 13 * (21 / 10)) by (split; [apply Rmult_le_pos; lra|apply Rmult_le_compat; lra]).
  set (t := r * (b * b) + g * (1 + / 10 ^ 14) * (a * b)) in *.
  assert (T4 : 0 <= t / (1 - r) <= k * (56 / 10 ^ 13)).
  { split; [apply Rmult_le_pos; [unfold t; lra|]; left; apply Rinv_0_lt_compat; lra|].
    apply Rmult_le_reg_r with (1 - r); [lra|]. unfold Rdiv at 1. rewrite Rmult_assoc, Rinv_l by lra. unfold t. nra. }
  lra.
Qed.
Lemma deviation_mono u D D' v varK s : 0 <= u -> D <= D' -> deviation_within u D v varK s -> deviation_within u D' v varK s.
Proof. intros Hu H (vh & A & B & C). exists vh. split; [exact A|]. split; [|exact C]. assert (u * D <= u * D') by (apply Rmult_le_compat_l; assumption). lra. Qed.

(** up to 100 data, limits of the condition number up to 1e10 (the default), entries right to 14 digits: the check of the
    variance never fails; variance and mean are right up to 6e-12 times the limit, in relation to the prior variance and the
    length of the data. *)
Definition predicts64 (o : gpopt) (d : gpdata) (hp : hpv) (vK b0 : R) (A : mat) (ar : arith) (c : mat * bool) : Prop :=
  forall (x : pt) (kx kh : nat -> R) (m v : R),
  cross_cov (gp_kernel o hp) (gp_observations o d) x kx -> within A (/ 10 ^ 14) (fun i => kh i - kx i) ->
  posterior_mean (gp_kernel o hp) (gp_observations o d) A (gp_residual o d b0) b0 x m ->
  posterior_var (gp_kernel o hp) (gp_observations o d) A x v ->
  let D := o_target o * (6 / 10 ^ 12) in
  (exists s, sig_fl ar c kh vK = Ok s /\ deviation_within u64 D v vK s) /\
  forall w, solves A w (gp_residual o d b0) ->
    let l := sqrt (dotp (d_n_data d) (gp_residual o d b0) w) in
    Rabs (mu_fl ar c b0 kh (gp_residual o d b0) - m) <= D * l + u64 * (Rabs m + D * l).
Lemma predicts_64 o d hp vK b0 A ar c : 1 <= o_target o <= 10 ^ 10 -> (d_n_data d <= 100)%nat -> predicts o d hp vK b0 A u64 (/ 10 ^ 14) ar c -> predicts64 o d hp vK b0 A ar c.
Proof.
  intros Ht Hn H x kx kh m v C W PM PV. cbv zeta. destruct (H x kx kh m v C W PM PV) as (H1 & H2). assert (U0 : 0 <= u64) by (unfold u64; lra).
  assert (R1 := sol_err64 (d_n_data d) (o_target o) Hn ltac:(lra)). assert (R2 : sol_err u64 (/ 10 ^ 14) (o_target o) (d_n_data d) < 1) by lra. split.
  - destruct (var64 (d_n_data d) Hn) as (V0 & V1). destruct H1 as (s & E & HS). { apply Rle_trans with (10 ^ 10 * / 10 ^ 11); [apply Rmult_le_compat; lra|lra]. }
    exists s. split; [exact E|]. eapply deviation_mono; [exact U0| |exact (HS R2)]. apply varacc64; assumption.
  - intros w SW. cbv zeta. specialize (H2 R2 w SW). cbv zeta in H2. destruct (mean64 (d_n_data d) (o_target o) Hn Ht) as (M0 & M1). set (l := sqrt _) in *. assert (L0 : 0 <= l) by apply sqrt_pos.
    assert (X : mean_err u64 (/ 10 ^ 14) (sol_err u64 (/ 10 ^ 14) (o_target o) (d_n_data d)) (o_target o) (d_n_data d) * l <= o_target o * (6 / 10 ^ 12) * l) by (apply Rmult_le_compat_r; assumption).
    eapply Rle_trans; [exact H2|]. set (y := _ * l) in *. set (z := o_target o * (6 / 10 ^ 12) * l) in *. assert (u64 * y <= u64 * z) by (apply Rmult_le_compat_l; assumption). lra.
Qed.
Theorem C69_precon_double_precision :
  forall (o : gpopt) (d : gpdata) (condf : mat -> R) (hp : hpv) (vK b0 : R) (cc : bool) (su : surr),
  o_well o = Wprecon -> (o_eta_const o = true -> o_eta_mtd o <> Edflt) -> o_target o <= 10 ^ 10 -> (d_n_data d <= 100)%nat ->
  eval_input o d hp vK b0 -> setup_eval_model o d condf hp cc = Ok su ->
  exists Kp p, k_Kprec (su_K su) = Some Kp /\ (forall i, (i < d_n_data d)%nat -> 0 < p i) /\
    (forall i j, (i < d_n_data d)%nat -> (j < d_n_data d)%nat -> mat_at (k_Kcov (su_K su)) i j = p i * p j * mat_at Kp i j) /\
    forall ar Kh ph, double_arith ar -> computed (/ 10 ^ 14) Kp Kh -> (forall i, (i < d_n_data d)%nat -> near (gam u64 2) (p i) (ph i)) ->
    exists c, cho_factor_fl ar Kh true = Ok c /\
      predicts64 o d hp vK b0 (k_Kcov (su_K su)) ar (scale_rows_fl ar ph c).
Proof.
  intros o d condf hp vK b0 cc su Hw Hm Ht Hn HI SU. destruct (C69_precon_predictions o d condf hp vK b0 cc su Hw Hm HI SU) as (Kp & p & E1 & E2 & E3 & H).
  assert (T : 1 <= o_target o) by (destruct HI as ((_ & T & _) & _); lra).
  exists Kp, p. repeat (split; [assumption|]). intros ar Kh ph HD HC HN.
  destruct (H u64 (/ 10 ^ 14) ar Kh ph (double_arith_rounds ar HD) HC) as (c & E & HS); [apply precise64; [lia|lra]|exact HN|].
  exists c. split; [exact E|]. apply predicts_64; auto.
Qed.
Print Assumptions C69_precon_double_precision.
Theorem C69_plain_double_precision :
  forall (o : gpopt) (d : gpdata) (condf : mat -> R) (hp : hpv) (vK b0 : R) (cc : bool) (su : surr),
  o_well o <> Wprecon -> (o_eta_const o = false \/ (o_use_grad o = false /\ o_eta_mtd o <> Edflt)) -> o_target o <= 10 ^ 10 -> (d_n_data d <= 100)%nat ->
  eval_input o d hp vK b0 -> setup_eval_model o d condf hp cc = Ok su ->
  forall ar Kh lower, double_arith ar -> computed (/ 10 ^ 14) (k_Kcov (su_K su)) Kh ->
  exists c, cho_factor_fl ar Kh lower = Ok c /\ predicts64 o d hp vK b0 (k_Kcov (su_K su)) ar c.
Proof.
  intros o d condf hp vK b0 cc su Hw Hm Ht Hn HI SU ar Kh lower HD HC.
  assert (T : 1 <= o_target o) by (destruct HI as ((_ & T & _) & _); lra).
  destruct (C69_plain_predictions o d condf hp vK b0 cc su Hw Hm HI SU u64 (/ 10 ^ 14) ar Kh lower (double_arith_rounds ar HD) HC) as (c & E & HS); [apply precise64; [lia|lra]|].
  exists c. split; [exact E|]. apply predicts_64; auto.
Qed.
Print Assumptions C69_plain_double_precision.

(** ** The hypotheses are met *)
Lemma some_computed e A : 0 <= e -> pd A -> exists Ah, computed e A Ah.
Proof.
  intros He HP. set (Ah := mkmat (nr A) (nc A) (fun i j => if ((i <? nr A) && (j <? nr A))%nat then mat_at A i j else 0)). exists Ah. split; [reflexivity|]. split; [reflexivity|]. split.
  - intros i j. cbn [Ah mat_at]. rewrite andb_comm. destruct (Nat.ltb_spec j (nr A)); cbn [andb]; [|reflexivity]. destruct (Nat.ltb_spec i (nr A)); [|reflexivity]. apply HP; assumption.
  - intros i j Hi Hj. cbn [Ah mat_at]. destruct (Nat.ltb_spec i (nr A)); [|lia]. destruct (Nat.ltb_spec j (nr A)); [|lia]. cbn [andb]. rewrite Rminus_eq_0, Rabs_R0.
    apply Rmult_le_pos; [exact He|]. unfold size_ij. apply Rmult_le_pos; apply sqrt_pos.
Qed.
(** at every point there are covariances, a mean, a variance and weights *)
Lemma some_point o d hp vK b0 A x : eval_input o d hp vK b0 -> pd A -> nr A = d_n_data d -> exists kx m v w,
  cross_cov (gp_kernel o hp) (gp_observations o d) x kx /\ within A (/ 10 ^ 14) (fun i => kx i - kx i) /\
  posterior_mean (gp_kernel o hp) (gp_observations o d) A (gp_residual o d b0) b0 x m /\
  posterior_var (gp_kernel o hp) (gp_observations o d) A x v /\ solves A w (gp_residual o d b0).
Proof.
  intros HI HP EN. destruct (cho_factor_pd A true HP) as (c & _ & _ & C). assert (S1 := cho_solve_solves _ _ (gp_residual o d b0) C). assert (S2 := cho_solve_solves _ _ (kxf o d hp x) C).
  assert (CX := cross_ok o d hp vK b0 HI x). do 4 eexists. split; [exact CX|]. split; [intros i Hi; rewrite Rminus_eq_0, Rabs_R0; apply Rmult_le_pos; [lra|apply sqrt_pos]|].
  split; [do 2 eexists; split; [exact CX|]; split; [exact S1|reflexivity]|]. split; [do 2 eexists; split; [exact CX|]; split; [exact S2|reflexivity]|]. exact S1.
Qed.
(** the example of C29-C34: 3 noisy points in 2 dimensions, gradients at two of them, Matern kernel, 'precon' *)
Example C69_hypotheses_met : exists d su Kp Kh, eval_input ex_opt d ev_hp 2 (1 / 3) /\ o_well ex_opt = Wprecon /\ o_eta_mtd ex_opt <> Edflt /\ o_target ex_opt <= 10 ^ 10 /\
  (d_n_data d <= 100)%nat /\ setup_eval_model ex_opt d (fun _ => 1) ev_hp true = Ok su /\ k_Kprec (su_K su) = Some Kp /\ computed (/ 10 ^ 14) Kp Kh /\
  forall x, exists kx m v w, cross_cov (gp_kernel ex_opt ev_hp) (gp_observations ex_opt d) x kx /\ within (k_Kcov (su_K su)) (/ 10 ^ 14) (fun i => kx i - kx i) /\
    posterior_mean (gp_kernel ex_opt ev_hp) (gp_observations ex_opt d) (k_Kcov (su_K su)) (gp_residual ex_opt d (1 / 3)) (1 / 3) x m /\
    posterior_var (gp_kernel ex_opt ev_hp) (gp_observations ex_opt d) (k_Kcov (su_K su)) x v /\ solves (k_Kcov (su_K su)) w (gp_residual ex_opt d (1 / 3)).
Proof.
  destruct (ev_data Ma5f2 Wprecon (or_intror eq_refl)) as (d & HI & Hb & Hn & Hg & _). destruct (C30_setup_succeeds ex_opt d (fun _ => 1) ev_hp 2 (1 / 3) true HI) as (su & SU & _).
  assert (EK := setup_K _ _ _ _ _ _ _ _ HI SU). assert (HI' := HI). destruct HI' as (H1 & H2 & H3 & H4 & H5 & H6 & H7 & H8 & _).
  assert (EVK : eff_varK ev_hp None true = Some 1) by (unfold eff_varK; rewrite H7; reflexivity).
  assert (CN : d_n_data d = cN ex_opt d) by (apply (li_N _ _ _ (ei_lkd _ _ _ _ _ HI))).
  destruct (rok_inv _ _ _ (precon_shares ex_opt d ev_hp (ready _ _ H1 H2) H4 (fun _ => 1) None true true None true 1 (ei_noise _ _ _ _ _ HI) EVK Rlt_0_1 eq_refl eq_refl ltac:(discriminate)) EK)
    as (Kp & p & D & P1 & P2 & P3 & P4 & P5 & P6 & P7 & P8 & P9).
  destruct (some_computed (/ 10 ^ 14) Kp ltac:(lra) P3) as (Kh & CK).
  exists d, su, Kp, Kh. split; [exact HI|]. split; [reflexivity|]. split; [discriminate|]. split; [unfold ex_opt; cbn; lra|]. split.
  { rewrite CN. unfold cN. rewrite Hn, Hg. cbn. lia. }
  split; [exact SU|]. split; [exact P1|]. split; [exact CK|]. intros x. apply (some_point _ _ _ 2); [exact HI|exact P8|]. rewrite CN. apply P7.
Qed.

(** ** Why the nugget is needed: one datum without nugget and noise (covariance matrix (1)), evaluated at the datum, where the
    covariance is 1 and the exact variance 0; the covariance is right to 14 digits, but the check of the variance fails. *)
Lemma near_lower u x y : near u x y -> 0 <= x -> (1 - u) * x <= y.
Proof. intros (H & _) Hx. rewrite (Rabs_pos_eq x Hx) in H. assert (X := Rle_abs (- (y - x))). rewrite Rabs_Ropp in X. lra. Qed.
Lemma near_upper u x y : near u x y -> 0 <= x -> y <= (1 + u) * x.
Proof. intros (H & _) Hx. rewrite (Rabs_pos_eq x Hx) in H. assert (X := Rle_abs (y - x)). lra. Qed.
Example C69_without_nugget : forall tie lower, let A := mkmat 1 1 (fun _ _ => 1) in let kx := fun _ : nat => 1 in let kh := fun _ : nat => 1 + / 2 ^ 47 in
  pd A /\ cond2_le A 1 /\ covariances A 0 kx /\ within A (/ 10 ^ 14) (fun i => kh i - kx i) /\
  exists c, cho_factor_fl (double tie) A lower = Ok c /\ forall varK, sig_fl (double tie) c kh varK = Err EAssert.
Proof.
  intros tie lower A kx kh.
  assert (QF : forall v, qform A v = v 0%nat * v 0%nat) by (intros v; unfold qform, A; cbn [nr nc mat_at rsum]; ring).
  split; [|split; [|split; [|split]]].
  - split; [split; reflexivity|]. intros v (i & Hi & Hv). rewrite QF. cbn [A nr] in Hi. replace i with 0%nat in Hv by lia. nra.
  - assert (N : forall x, nrm 1 (mv A x) = nrm 1 x). { intros x. unfold nrm. f_equal. unfold dotp, mv, A. cbn [nc mat_at rsum]. ring. }
    split; [reflexivity|]. cbn [A nr]. split; [intros y Hy; rewrite N; apply nrm_pos, Hy|]. intros x y. rewrite !N. lra.
  - intros w. rewrite QF. unfold dotp, A, kx. cbn [nr mat_at rsum]. assert (0 <= (1 - w 0%nat) * (1 - w 0%nat)) by apply Rle_0_sqr. lra.
  - intros i Hi. unfold kh, kx, A. cbn [mat_at]. rewrite sqrt_1. replace (1 + / 2 ^ 47 - 1) with (/ 2 ^ 47) by ring. rewrite Rabs_pos_eq; lra.
  - assert (RO := double_rounds tie). assert (RES : forall i j c, f_res (double tie) i j c [] = c) by reflexivity.
    assert (QUO : forall a b, b <> 0 -> near u64 (a / b) (f_quo (double tie) a b)) by (intros; apply near64). assert (DOT : forall a b, f_dot (double tie) [(a, b)] = f_mul (double tie) a b) by reflexivity. set (ar := double tie) in *. set (u := u64) in *. assert (U : 0 <= u <= / 2 ^ 52) by (unfold u, u64; lra).
    set (r := f_sqrt ar 1). assert (R := ro_sqrt _ _ RO 1 ltac:(lra)). rewrite sqrt_1 in R. fold r in R. assert (R1 := near_lower _ _ _ R ltac:(lra)). assert (R2 := near_upper _ _ _ R ltac:(lra)).
    assert (FA : cho_factor_fl ar A lower = Ok (mkmat 1 1 (fun i j => if lower then (if (j <=? i)%nat then (if (j =? 0)%nat then (if (i =? 0)%nat then r else f_quo ar 1 r) else 0) else 1) else (if (i <=? j)%nat then (if (i =? 0)%nat then (if (j =? 0)%nat then r else f_quo ar 1 r) else 0) else 1)), lower)).
    { unfold cho_factor_fl, A. cbn [nr nc mat_at Nat.eqb chol_steps_fl]. cbv zeta. unfold pairs. cbn [seq map]. rewrite !RES.
      assert (C1 : forall (b1 b2 : bool), (if b1 then (if b2 then 1 else 1) else (if b2 then 1 else 1)) = 1) by (intros [] []; reflexivity).
      replace (if lower then if (0 <=? 0)%nat then 1 else 1 else if (0 <=? 0)%nat then 1 else 1) with 1 by (destruct lower; reflexivity).
      destruct (Rlt_dec 0 1) as [_|Z]; [|exfalso; apply Z; lra]. rewrite bind_Ok. f_equal. f_equal. f_equal.
      apply FunctionalExtensionality.functional_extensionality; intros i. apply FunctionalExtensionality.functional_extensionality; intros j.
      destruct lower; [destruct (j <=? i)%nat; [|reflexivity]|destruct (i <=? j)%nat; [|reflexivity]].
      - destruct (j =? 0)%nat; [|reflexivity]. destruct (i =? 0)%nat; [reflexivity|]. fold r. rewrite RES. destruct (0 <=? i)%nat; reflexivity.
      - destruct (i =? 0)%nat; [|reflexivity]. destruct (j =? 0)%nat; [reflexivity|]. fold r. rewrite RES. destruct (j <=? 0)%nat; reflexivity. }
    eexists. split; [exact FA|]. intros varK. unfold sig_fl. cbv zeta. destruct (Rle_dec 0 _) as [P|_]; [exfalso|reflexivity]. revert P. apply Rlt_not_le.
    unfold var_fl, dot_fl. cbn [fst nr]. unfold cho_solve_fl. cbn [fst nr fsub_fl bsub_fl fupd Nat.sub]. unfold pairs. cbn [seq map]. rewrite DOT, !RES.
    set (L := chol_read _). assert (EL : L 0%nat 0%nat = r) by (unfold L, chol_read; cbn [fst snd mat_at]; destruct lower; reflexivity). unfold fupd. rewrite !Nat.eqb_refl, EL.
    set (k1 := kh 0%nat). assert (K1 : k1 = 1 + / 2 ^ 47) by reflexivity. set (y := f_quo ar k1 r). set (x := f_quo ar y r). set (q := f_mul ar k1 x).
    assert (RP : 0 < r) by lra. assert (IR : 1 - u <= / r). { apply Rmult_le_reg_r with r; [exact RP|]. rewrite Rinv_l by lra. nra. }
    assert (Y := QUO k1 r ltac:(lra)). fold y in Y. assert (Y1 := near_lower _ _ _ Y ltac:(unfold Rdiv; nra)).
    assert (Y2 : 1 + / 2 ^ 48 <= y). { eapply Rle_trans; [|exact Y1]. unfold Rdiv. assert ((1 - u) * k1 <= k1 * / r) by nra. nra. }
    assert (X := QUO y r ltac:(lra)). fold x in X. assert (X1 := near_lower _ _ _ X ltac:(unfold Rdiv; nra)).
    assert (X2 : 1 <= x). { eapply Rle_trans; [|exact X1]. unfold Rdiv. assert ((1 - u) * y <= y * / r) by nra. nra. }
    assert (Q := ro_mul _ _ RO k1 x). fold q in Q. assert (Q1 := near_lower _ _ _ Q ltac:(nra)). assert (Q2 : 1 + / 2 ^ 48 <= q) by nra.
    destruct (ro_sub _ _ RO 1 q) as (V & _). assert (V1 := Rle_abs (f_sub ar 1 q - (1 - q))). rewrite (Rabs_left (1 - q)) in V by lra. nra.
Qed.
