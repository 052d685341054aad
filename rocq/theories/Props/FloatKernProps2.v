(** * C70, continued: from the scaled points to the Cholesky factor, the likelihood and the predictions, with a rounding
    error in every operation.

    Vocabulary: [Spec/FloatSpec.v], [Spec/FloatKernSpec.v] (rounding errors), [Spec/EvalSpec.v] (posterior mean and variance). *)
From Coq Require Import Reals List Arith Bool Lia Lra Psatz.
From Verif.Base Require Import NpLite NpFacts.
From Verif.Spec Require Import KernelSpec LinAlgSpec GpSpec DataSpec LkdSpec EvalSpec FloatSpec FloatKernSpec.
From Verif.Model Require Import KernelSqExp KernelMatern KernelRatQuad KernelDispatch CommonFun WellCond Rescaling GpState Chol CholFl Cov EvalModel EvalFl Lkd KernFl.
From Verif.Proofs Require Import CondBound CovStruct StateFacts NoiseFacts LinAlg CholCorrect FlChol FlMargin FlSolve FlSol FlTarget FlEval FlFac FlKern FlCov FlCovMain FlPred Det NuggetCond NuggetMain CondMain LkdCore EvalKern EvalFacts.
From Verif.Props Require Import CondProps DataProps LkdProps EvalProps EvalProps2 FloatProps FloatProps3 FloatProps4 FloatProps5 FloatKernProps.
Import ListNotations.
Local Open Scope R_scope.

(** the error of the factored matrix in relation to its diagonal, for n data: with 'precon' (the computed preconditioner included) and
    without *)
Definition precon_err (u : R) (o : gpopt) (n : nat) : R :=
  total_err u (o_dim o) (if o_eta_const o then 0 else eta_err u (o_dim o) n * (INR n / (o_target o - 1))).
Definition plain_err (u : R) (o : gpopt) (n : nat) : R :=
  cov_err u (o_dim o) (if o_eta_const o then 0 else eta_err u (o_dim o) n).

(** ** tools *)
Lemma same_scaled ar p c c' : snd c = true -> same_triangle c c' -> same_triangle (scale_rows_fl ar p c) (scale_rows_fl ar p c').
Proof.
  intros S (E1 & E2 & E3 & E4). split; [exact E1|]. split; [exact E2|]. split; [exact E3|]. intros i j Hij. assert (E := E4 i j Hij).
  unfold chol_read, scale_rows_fl in *. cbn [fst snd mat_at]. rewrite <- E3, S in *. rewrite E. reflexivity.
Qed.
Lemma same_good A r t ar c c' : same_triangle c c' -> good_factor A r t ar c' -> good_factor A r t ar c.
Proof.
  intros S (G1 & G2 & G3 & G4). assert (ED : forall i, mat_at (fst c) i i = mat_at (fst c') i i).
  { intros i. destruct S as (_ & _ & E3 & E4). assert (E := E4 i i ltac:(lia)). unfold chol_read in E. rewrite E3 in E. destruct (snd c'); exact E. }
  assert (ES : forall b, cho_solve_fl ar c b = cho_solve_fl ar c' b) by (intros; apply same_solve, S). split; [|split; [|split]].
  - intros b x H. rewrite ES. apply G1, H.
  - intros H. destruct S as (_ & _ & E3 & E4). replace (log_det (nr A) c) with (log_det (nr A) c'); [apply G2, H|]. unfold log_det. f_equal. apply rsum_ext. intros i _. assert (E := E4 i i ltac:(lia)). unfold chol_read in E. rewrite E3 in E. destruct (snd c'); rewrite E; reflexivity.
  - intros b i Hi. rewrite ES. apply G3, Hi.
  - intros H. destruct (G4 H) as (L & CL & HL). exists L. split; [exact CL|]. intros i Hi. rewrite ED. apply HL, Hi.
Qed.
Lemma cho_fl_props ar A lower c : cho_factor_fl ar A lower = Ok c -> nr (fst c) = nr A /\ nc (fst c) = nr A /\ snd c = lower.
Proof. unfold cho_factor_fl. destruct (nr A =? nc A)%nat; [|discriminate]. cbv zeta. intros H. apply bind_inv in H. destruct H as (L & _ & H). injection H as <-. repeat split. Qed.
Lemma computed_mono e e' A B : e <= e' -> computed e A B -> computed e' A B.
Proof.
  intros H (C1 & C2 & C3 & C4). repeat (split; [assumption|]). intros i j Hi Hj. eapply Rle_trans; [apply C4; assumption|]. apply Rmult_le_compat_r; [|exact H].
  unfold size_ij. apply Rmult_le_pos; apply sqrt_pos.
Qed.

Section W.
Variables (o : gpopt) (d : gpdata) (condf : mat -> R) (hp : hpv) (noise : option vec) (varK : option R) (bn : bool) (vK : R) (cc cnd : bool) (u : R) (m : machine) (out : kout) (nv : vec) (nz : nat -> R).
Hypothesis H1 : opts_ok o.
Hypothesis H2 : data_set o d.
Hypothesis H3 : hyper_ok o hp.
Hypothesis H4 : noise_arg_ok o d hp noise.
Hypothesis H5 : eff_varK hp varK bn = Some vK.
Hypothesis H6 : 0 < vK.
Hypothesis Hk : o_kernel o <> RatQu.
Hypothesis Hm : machine_rounds u m.
Hypothesis HG : (1 + u) ^ (o_dim o + 5) <= 11 / 10.
Hypothesis EO : calc_all_K_w_chofac o d condf (d_Rt d) hp noise cc cnd varK bn = Ok out.
Hypothesis EN : match noise with Some v => Ok v | None => calc_noise_vec o d hp end = Ok nv.
Hypothesis HZ : forall i, (i < d_n_data d)%nat -> near u (vat nv i) (nz i).
Notation n := (d_n_data d).
Let Hu : 0 <= u := ro_u _ _ (mr_ar _ _ Hm).
Let RD : gp_ready o d := ready o d H1 H2.
Let EC : n = cN o d := wf_n _ _ (gr_wf _ _ RD).
Lemma nz_near : forall i, (i < cN o d)%nat -> near u (noise_fn d hp noise i) (nz i).
Proof.
  destruct (noise_vector o d hp RD H3 noise H4) as (nv' & EN' & HN). rewrite EN in EN'. injection EN' as <-. intros i Hi. destruct (HN i Hi) as (<- & _). apply HZ. rewrite EC. exact Hi.
Qed.
Lemma precon_chofac : o_well o = Wprecon -> o_use_grad o = true -> (o_eta_const o = true -> o_eta_mtd o <> Edflt) ->
  let e := precon_err u o n in precise u e (o_target o) n ->
  exists c, chofac_fl m o d hp nz vK = Ok c /\ nr (fst c) = n /\ nc (fst c) = n /\ nr (k_Kcov out) = n /\ pd (k_Kcov out) /\
    good_factor (k_Kcov out) (sol_err u e (o_target o) n) (sys_err u e n) (m_ar m) c /\ exists D,
    plus_diag n (k_Kcov out) (fun i j => vK * ckf o d hp (fst (get_scl_x_w_dist d)) i j) D /\ forall i, (i < n)%nat -> mat_at (k_Kcov out) i i <= o_target o * D i.
Proof.
  intros Hw Hug Hm0 e PR.
  destruct (rok_inv _ _ _ (precon_shares o d hp RD H3 condf noise cc cnd varK bn vK H4 H5 H6 Hw Hug Hm0) EO) as (Kp & p & D & P1 & P2 & P3 & P4 & P5 & P6 & P7 & P8 & P9).
  destruct (rok_inv _ _ _ (precon_computed u m Hm o d hp RD H3 Hk HG condf noise cc cnd varK bn vK H4 H5 H6 nz Hw Hug nz_near) EO) as (Kp' & Kh & Q1 & Q2 & Q3 & Q4 & Q5 & Q6).
  rewrite P1 in Q1. injection Q1 as <-.
  assert (PV := rok_inv _ _ _ (precon_pvec u m Hm o d hp RD H3 Hk HG condf noise cc cnd varK bn vK H4 H5 H6 nz Hw Hug nz_near) EO Kp p P1 P5 ltac:(intros i Hi; apply P6; exact Hi)).
  rewrite <- EC in *. assert (EA : nr (k_Kcov out) = n) by apply P7.
  set (w := precon_w u o d) in *. assert (Ew : w = if o_eta_const o then 0 else eta_err u (o_dim o) n * (INR n / (o_target o - 1))) by (unfold w, precon_w; rewrite <- EC; reflexivity).
  assert (W0 : 0 <= w). { rewrite Ew. destruct (o_eta_const o); [lra|]. apply Rmult_le_pos; [apply (eta_err_nonneg u m Hm)|]. apply Rmult_le_pos; [apply pos_INR|left; apply Rinv_0_lt_compat; assert (T := gr_t _ _ RD); lra]. }
  assert (C0 := cov_err_nonneg u m Hm (o_dim o) w W0).
  destruct (rescaled_factor u (cov_err u (o_dim o) w) (o_target o) (m_ar m) (k_Kcov out) Kp (read_half true Kh) p (pvec_fl m (data_kern_fl m o d hp) nz vK) ((o_dim o + 16) / 2 + 1) Hu P8 P3) as (B' & B1 & B2 & B3 & B4 & B5 & B6); try (rewrite EA); auto.
  assert (LE : scl_err u (cov_err u (o_dim o) w) ((o_dim o + 16) / 2 + 1) <= e).
  { unfold scl_err, e, precon_err, total_err. rewrite <- Ew. assert (HH := hf_hi (o_dim o)). assert (GM : gam u (2 * ((o_dim o + 16) / 2 + 1)) <= gam u (o_dim o + 18)) by (apply gam_mono; [exact Hu|lia]).
    assert (0 <= (1 + cov_err u (o_dim o) w) * (gam u (o_dim o + 18) - gam u (2 * ((o_dim o + 16) / 2 + 1)))) by (apply Rmult_le_pos; lra). lra. }
  rewrite EA in *.
  destruct (precon_factor u e (o_target o) (m_ar m) (k_Kcov out) B' (read_half true Kh) (pvec_fl m (data_kern_fl m o d hp) nz vK) (pvec_fl m (data_kern_fl m o d hp) nz vK) (mr_ar _ _ Hm) P8 B1) as (c' & EF & GF); try (rewrite EA); auto.
  { apply (computed_mono _ _ _ _ LE B6). }
  { intros i Hi. unfold near. rewrite Rminus_eq_0, Rabs_R0. assert (G2 := gam_nonneg u 2 Hu). split; apply Rmult_le_pos; try apply Rabs_pos; exact G2. }
  destruct (read_half_factor (m_ar m) Kh true c') as (c & EF' & ST); [congruence|exact EF|].
  destruct (cho_fl_props _ _ _ _ EF') as (N1 & N2 & N3).
  eexists. split; [unfold chofac_fl; rewrite Q3; cbn [bind]; rewrite Hw, EF'; cbn [bind]; reflexivity|].
  split; [cbn [scale_rows_fl fst nr]; congruence|]. split; [cbn [scale_rows_fl fst nc]; congruence|]. split; [reflexivity|]. split; [exact P8|]. split; [|exists D; auto].
  eapply same_good; [apply same_scaled; [exact N3|exact ST]|]. rewrite EA in GF. exact GF.
Qed.
Lemma plain_chofac : o_well o <> Wprecon -> (o_eta_const o = false \/ (o_use_grad o = false /\ o_eta_mtd o <> Edflt)) ->
  let e := plain_err u o n in precise u e (o_target o) n ->
  exists c, chofac_fl m o d hp nz vK = Ok c /\ nr (fst c) = n /\ nc (fst c) = n /\ nr (k_Kcov out) = n /\ pd (k_Kcov out) /\
    good_factor (k_Kcov out) (sol_err u e (o_target o) n) (sys_err u e n) (m_ar m) c /\ exists D,
    plus_diag n (k_Kcov out) (fun i j => vK * ckf o d hp (fst (get_scl_x_w_dist d)) i j) D /\ forall i, (i < n)%nat -> mat_at (k_Kcov out) i i <= o_target o * D i.
Proof.
  intros Hw Hm0 e PR.
  destruct (rok_inv _ _ _ (plain_shares o d hp RD H3 condf noise cc cnd varK bn vK H4 H5 H6 Hw Hm0) EO) as (D & P7 & P8 & P9).
  destruct (rok_inv _ _ _ (plain_scaled o d hp RD H3 condf noise cc cnd varK bn vK H4 H5 H6 Hw Hm0) EO) as (EA & _ & SC).
  destruct (rok_inv _ _ _ (plain_computed u m Hm o d hp RD H3 Hk HG condf noise cc cnd varK bn vK H4 H5 H6 nz Hw nz_near) EO) as (Kh & Q2 & Q3 & Q4 & Q5 & Q6).
  unfold plain_w in Q6. rewrite <- EC in *.
  destruct (plain_factor u e (o_target o) (m_ar m) (k_Kcov out) (read_half false Kh) false (mr_ar _ _ Hm) P8 (or_intror SC) Q6) as (c' & EF & GF); [rewrite EA; exact PR|].
  destruct (read_half_factor (m_ar m) Kh false c') as (c & EF' & ST); [congruence|exact EF|].
  destruct (cho_fl_props _ _ _ _ EF') as (N1 & N2 & N3). rewrite EA in GF.
  exists c. split; [unfold chofac_fl; rewrite Q3; cbn [bind]; destruct (o_well o); try congruence; exact EF'|].
  split; [congruence|]. split; [congruence|]. split; [exact EA|]. split; [exact P8|]. split; [|exists D; auto].
  eapply same_good; [exact ST|exact GF].
Qed.
End W.

(** ** The Cholesky factor, the weights and the likelihood.  [nz] are the noise variances, right up to one rounding; the scaled
    points and the hyperparameters are exact.  Everything else is computed with a rounding error in every operation. *)
Theorem C70_precon_factor :
  forall (o : gpopt) (d : gpdata) (condf : mat -> R) (hp : hpv) (noise : option vec) (varK : option R) (bn : bool) (vK : R) (calc_chofac calc_cond : bool) (u : R) (m : machine),
  o_well o = Wprecon -> o_use_grad o = true -> (o_eta_const o = true -> o_eta_mtd o <> Edflt) -> o_kernel o <> RatQu ->
  opts_ok o -> data_set o d -> hyper_ok o hp -> noise_arg_ok o d hp noise -> eff_varK hp varK bn = Some vK -> 0 < vK ->
  machine_rounds u m -> (1 + u) ^ (o_dim o + 5) <= 11 / 10 ->
  let n := d_n_data d in let e := precon_err u o n in let r := sol_err u e (o_target o) n in precise u e (o_target o) n ->
  exists out nv, calc_all_K_w_chofac o d condf (d_Rt d) hp noise calc_chofac calc_cond varK bn = Ok out /\
    match noise with Some v => Ok v | None => calc_noise_vec o d hp end = Ok nv /\
    forall nz, (forall i, (i < n)%nat -> near u (vat nv i) (nz i)) ->
    exists c, chofac_fl m o d hp nz vK = Ok c /\
      (forall b x, solves (k_Kcov out) x b -> accurate (k_Kcov out) r (cho_solve_fl (m_ar m) c b) x) /\
      (r < 1 -> likelihood_accurate (k_Kcov out) r (lndet_of c) (cho_solve_fl (m_ar m) c)).
Proof.
  intros o d condf hp noise varK bn vK cc cnd u m Hw Hug Hm0 Hk H1 H2 H3 H4 H5 H6 Hm HG n e r PR. assert (RD := ready o d H1 H2).
  destruct (noise_vector o d hp RD H3 noise H4) as (nv & EN & _).
  destruct (rok_ex _ _ (call_precon o d condf hp noise cc cnd varK bn vK RD H3 H4 H5 H6 Hw Hug)) as (out & EO & _). exists out, nv. split; [exact EO|]. split; [exact EN|]. intros nz HZ.
  destruct (precon_chofac o d condf hp noise varK bn vK cc cnd u m out nv nz H1 H2 H3 H4 H5 H6 Hk Hm HG EO EN HZ Hw Hug Hm0 PR) as (c & C1 & C2 & C3 & C4 & C5 & C6 & _).
  exists c. split; [exact C1|]. split; [apply C6|]. intros R1. assert (T : 0 <= o_target o) by (destruct H1 as (_ & T & _); lra).
  apply (likelihood_of_factor _ r (sys_err u e n)); auto; try congruence. split; [|exact R1]. apply sol_err_nonneg; auto. apply (ro_u _ _ (mr_ar _ _ Hm)).
Qed.
Print Assumptions C70_precon_factor.
Theorem C70_plain_factor :
  forall (o : gpopt) (d : gpdata) (condf : mat -> R) (hp : hpv) (noise : option vec) (varK : option R) (bn : bool) (vK : R) (calc_chofac calc_cond : bool) (u : R) (m : machine),
  o_well o <> Wprecon -> (o_eta_const o = false \/ (o_use_grad o = false /\ o_eta_mtd o <> Edflt)) -> o_kernel o <> RatQu ->
  opts_ok o -> data_set o d -> hyper_ok o hp -> noise_arg_ok o d hp noise -> eff_varK hp varK bn = Some vK -> 0 < vK ->
  machine_rounds u m -> (1 + u) ^ (o_dim o + 5) <= 11 / 10 ->
  let n := d_n_data d in let e := plain_err u o n in let r := sol_err u e (o_target o) n in precise u e (o_target o) n ->
  exists out nv, calc_all_K_w_chofac o d condf (d_Rt d) hp noise calc_chofac calc_cond varK bn = Ok out /\
    match noise with Some v => Ok v | None => calc_noise_vec o d hp end = Ok nv /\
    forall nz, (forall i, (i < n)%nat -> near u (vat nv i) (nz i)) ->
    exists c, chofac_fl m o d hp nz vK = Ok c /\
      (forall b x, solves (k_Kcov out) x b -> accurate (k_Kcov out) r (cho_solve_fl (m_ar m) c b) x) /\
      (r < 1 -> likelihood_accurate (k_Kcov out) r (lndet_of c) (cho_solve_fl (m_ar m) c)).
Proof.
  intros o d condf hp noise varK bn vK cc cnd u m Hw Hm0 Hk H1 H2 H3 H4 H5 H6 Hm HG n e r PR. assert (RD := ready o d H1 H2).
  destruct (noise_vector o d hp RD H3 noise H4) as (nv & EN & _).
  destruct (rok_ex _ _ (call_plain o d condf hp noise cc cnd varK bn vK RD H3 H4 H5 H6 Hw)) as (out & EO & _). exists out, nv. split; [exact EO|]. split; [exact EN|]. intros nz HZ.
  destruct (plain_chofac o d condf hp noise varK bn vK cc cnd u m out nv nz H1 H2 H3 H4 H5 H6 Hk Hm HG EO EN HZ Hw Hm0 PR) as (c & C1 & C2 & C3 & C4 & C5 & C6 & _).
  exists c. split; [exact C1|]. split; [apply C6|]. intros R1. assert (T : 0 <= o_target o) by (destruct H1 as (_ & T & _); lra).
  apply (likelihood_of_factor _ r (sys_err u e n)); auto; try congruence. split; [|exact R1]. apply sol_err_nonneg; auto. apply (ro_u _ _ (mr_ar _ _ Hm)).
Qed.
Print Assumptions C70_plain_factor.

(** ** Predictions.  Every computed number at every point x of the model: [m] and [v] the exact mean and variance (in relation to
    varK), [e] the error of the covariance matrix, [c] the computed factor. *)
Definition predicts_computed (o : gpopt) (d : gpdata) (hp : hpv) (vK b0 : R) (A : mat) (u e : R) (M : machine) (c : mat * bool) : Prop :=
  let n := d_n_data d in let k := o_target o in let r := sol_err u e k n in
  forall (x : pt) (m v : R),
  posterior_mean (gp_kernel o hp) (gp_observations o d) A (gp_residual o d b0) b0 x m ->
  posterior_var (gp_kernel o hp) (gp_observations o d) A x v ->
  let kh := cross_fl M o d hp x in
  (k * var_err u e n <= 1 -> exists s, sig_fl (m_ar M) c kh vK = Ok s /\
     (r < 1 -> deviation_within u (var_acc u e r k n) v vK s)) /\
  (r < 1 -> forall w, solves A w (gp_residual o d b0) ->
     let D := mean_err u e r k n * sqrt (dotp n (gp_residual o d b0) w) in
     Rabs (mu_fl (m_ar M) c b0 kh (gp_residual o d b0) - m) <= D + u * (Rabs m + D)).
Lemma predicts_from o d hp vK b0 A D u e m c : eval_input o d hp vK b0 -> o_kernel o <> RatQu -> machine_rounds u m -> (1 + u) ^ (o_dim o + 5) <= 11 / 10 ->
  plus_diag (d_n_data d) A (fun i j => 1 * ckf o d hp (fst (get_scl_x_w_dist d)) i j) D -> pd A -> (forall i, (i < d_n_data d)%nat -> mat_at A i i <= o_target o * D i) ->
  kern_err u (o_dim o) <= e -> gam u (d_n_data d + 7) < 1 -> nr (fst c) = d_n_data d ->
  good_factor A (sol_err u e (o_target o) (nr A)) (sys_err u e (nr A)) (m_ar m) c ->
  predicts_computed o d hp vK b0 A u e m c.
Proof.
  intros HI Hk Hm HG HA HP HD HE HG7 EN GF. assert (HI' := HI). destruct HI' as (H1 & H2 & _ & H4 & _). assert (RD := ready o d H1 H2). assert (K0 := kern_err_nonneg u m Hm (o_dim o)).
  assert (CN : d_n_data d = cN o d) by (apply (li_N o d hp (ei_lkd o d hp vK b0 HI))). assert (T : 1 < o_target o) by (destruct H1 as (_ & T & _); lra).
  assert (P := factor_predicts o d hp vK b0 A D u e (m_ar m) c HI HA HP HD (mr_ar _ _ Hm) ltac:(lra) HG7 EN GF).
  intros x mm v PM PV kh. apply (P x (kxf o d hp x) kh mm v); auto; [apply (cross_ok o d hp vK b0 HI)|].
  intros i Hi. assert (EA : nr A = d_n_data d) by apply HA. rewrite EA in Hi.
  assert (Hi' := Hi). rewrite CN in Hi'. eapply Rle_trans; [apply (cross_err u m Hm o d hp H4 Hk HG x i Hi')|].
  assert (Q : mat_at A i i = 1 * ckf o d hp (fst (get_scl_x_w_dist d)) i i + D i). { destruct HA as (_ & _ & HA). rewrite HA by assumption. rewrite Nat.eqb_refl. reflexivity. }
  assert (AP : 0 < mat_at A i i) by (apply pd_diag; [exact HP|congruence]). assert (DP : 0 < D i). { assert (X := HD i Hi). apply (Rmult_lt_reg_l (o_target o)); lra. }
  apply Rmult_le_compat; [exact K0|apply sqrt_pos|exact HE|]. apply sqrt_le_1_alt. lra.
Qed.
Theorem C70_precon_predictions :
  forall (o : gpopt) (d : gpdata) (condf : mat -> R) (hp : hpv) (vK b0 : R) (cc : bool) (su : surr) (u : R) (M : machine),
  o_well o = Wprecon -> (o_eta_const o = true -> o_eta_mtd o <> Edflt) -> o_kernel o <> RatQu ->
  eval_input o d hp vK b0 -> setup_eval_model o d condf hp cc = Ok su ->
  machine_rounds u M -> (1 + u) ^ (o_dim o + 5) <= 11 / 10 ->
  let n := d_n_data d in let e := precon_err u o n in precise u e (o_target o) n ->
  exists nv, calc_noise_vec o d hp = Ok nv /\
    forall nz, (forall i, (i < n)%nat -> near u (vat nv i) (nz i)) ->
    exists c, chofac_fl M o d hp nz 1 = Ok c /\ predicts_computed o d hp vK b0 (k_Kcov (su_K su)) u e M c.
Proof.
  intros o d condf hp vK b0 cc su u M Hw Hm0 Hk HI SU Hm HG n e PR. assert (EK := setup_K o d hp vK b0 condf cc su HI SU). assert (HI' := HI). destruct HI' as (H1 & H2 & H3 & H4 & H5 & H6 & H7 & H8 & _).
  assert (EVK : eff_varK hp None true = Some 1) by (unfold eff_varK; rewrite H7; reflexivity). assert (RD := ready o d H1 H2).
  destruct (noise_vector o d hp RD H4 None (ei_noise o d hp vK b0 HI)) as (nv & EN & _). exists nv. split; [exact EN|]. intros nz HZ.
  destruct (precon_chofac o d condf hp None None true 1 true cc u M (su_K su) nv nz H1 H2 H4 (ei_noise o d hp vK b0 HI) EVK Rlt_0_1 Hk Hm HG EK EN HZ Hw (H3 Hw) Hm0 PR) as (c & C1 & C2 & C3 & C4 & C5 & C6 & D & C7 & C8).
  exists c. split; [exact C1|]. apply (predicts_from o d hp vK b0 _ D u e M c HI Hk Hm HG C7 C5 C8); [|apply PR|exact C2|rewrite C4; exact C6].
  unfold e, precon_err, total_err, cov_err. set (w := if o_eta_const o then _ else _).
  assert (W0 : 0 <= w). { unfold w. destruct (o_eta_const o); [lra|]. apply Rmult_le_pos; [apply (eta_err_nonneg u M Hm)|]. apply Rmult_le_pos; [apply pos_INR|left; apply Rinv_0_lt_compat; assert (T := gr_t _ _ RD); lra]. }
  assert (K0 := kern_err_nonneg u M Hm (o_dim o)). assert (Hu := ro_u _ _ (mr_ar _ _ Hm)). assert (G1 := gam_nonneg u (2 * o_dim o + 40) Hu). assert (G2 := gam_nonneg u (o_dim o + 18) Hu).
  set (a := kern_err u (o_dim o)) in *. set (g := gam u (2 * o_dim o + 40)) in *. set (h := gam u (o_dim o + 18)) in *. assert (0 <= (a + w) * g) by (apply Rmult_le_pos; lra). assert (0 <= (1 + ((1 + (a + w)) * (1 + g) - 1)) * h) by (apply Rmult_le_pos; lra). lra.
Qed.
Print Assumptions C70_precon_predictions.
Theorem C70_plain_predictions :
  forall (o : gpopt) (d : gpdata) (condf : mat -> R) (hp : hpv) (vK b0 : R) (cc : bool) (su : surr) (u : R) (M : machine),
  o_well o <> Wprecon -> (o_eta_const o = false \/ (o_use_grad o = false /\ o_eta_mtd o <> Edflt)) -> o_kernel o <> RatQu ->
  eval_input o d hp vK b0 -> setup_eval_model o d condf hp cc = Ok su ->
  machine_rounds u M -> (1 + u) ^ (o_dim o + 5) <= 11 / 10 ->
  let n := d_n_data d in let e := plain_err u o n in precise u e (o_target o) n ->
  exists nv, calc_noise_vec o d hp = Ok nv /\
    forall nz, (forall i, (i < n)%nat -> near u (vat nv i) (nz i)) ->
    exists c, chofac_fl M o d hp nz 1 = Ok c /\ predicts_computed o d hp vK b0 (k_Kcov (su_K su)) u e M c.
Proof.
  intros o d condf hp vK b0 cc su u M Hw Hm0 Hk HI SU Hm HG n e PR. assert (EK := setup_K o d hp vK b0 condf cc su HI SU). assert (HI' := HI). destruct HI' as (H1 & H2 & H3 & H4 & H5 & H6 & H7 & H8 & _).
  assert (EVK : eff_varK hp None true = Some 1) by (unfold eff_varK; rewrite H7; reflexivity). assert (RD := ready o d H1 H2).
  destruct (noise_vector o d hp RD H4 None (ei_noise o d hp vK b0 HI)) as (nv & EN & _). exists nv. split; [exact EN|]. intros nz HZ.
  destruct (plain_chofac o d condf hp None None true 1 true cc u M (su_K su) nv nz H1 H2 H4 (ei_noise o d hp vK b0 HI) EVK Rlt_0_1 Hk Hm HG EK EN HZ Hw Hm0 PR) as (c & C1 & C2 & C3 & C4 & C5 & C6 & D & C7 & C8).
  exists c. split; [exact C1|]. apply (predicts_from o d hp vK b0 _ D u e M c HI Hk Hm HG C7 C5 C8); [|apply PR|exact C2|rewrite C4; exact C6].
  unfold e, plain_err, cov_err. set (w := if o_eta_const o then _ else _).
  assert (W0 : 0 <= w) by (unfold w; destruct (o_eta_const o); [lra|apply (eta_err_nonneg u M Hm)]).
  assert (K0 := kern_err_nonneg u M Hm (o_dim o)). assert (Hu := ro_u _ _ (mr_ar _ _ Hm)). assert (G1 := gam_nonneg u (2 * o_dim o + 40) Hu).
  set (a := kern_err u (o_dim o)) in *. set (g := gam u (2 * o_dim o + 40)) in *. assert (0 <= (a + w) * g) by (apply Rmult_le_pos; lra). lra.
Qed.
Print Assumptions C70_plain_predictions.
