(** * C72: the gradient of the predicted mean in floating-point arithmetic

    Vocabulary: [Spec/FloatSpec.v], [Spec/FloatKernSpec.v] (rounding errors), [Spec/EvalSpec.v] (posterior mean). *)
From Coq Require Import Reals List Arith ZArith Bool Lia Lra Psatz.
From Coquelicot Require Import Coquelicot.
From Verif.Base Require Import NpLite NpFacts Deriv.
From Verif.Spec Require Import KernelSpec LinAlgSpec GpSpec DataSpec LkdSpec RescaleSpec EvalSpec FloatSpec FloatKernSpec.
From Verif.Model Require Import KernelSqExp KernelMatern KernelRatQuad KernelDispatch CommonFun WellCond Rescaling GpState Chol CholFl Cov EvalModel EvalFl EvalGradFl Lkd KernFl.
From Verif.Proofs Require Import CondBound KernTac KernelExact KernelExtra RadialCalculus Jets Psd LinDeriv CovStruct StateFacts NoiseFacts LinAlg CholCorrect FlChol FlMargin FlSolve FlSol FlTarget FlEval FlFac FlKern FlCov FlCovMain FlPred FlGrad Det NuggetCond NuggetMain CondMain LkdCore EvalKern EvalFacts EvalMain.
From Verif.Props Require Import CondProps DataProps LkdProps EvalProps EvalProps2 FloatProps FloatProps2 FloatProps3 FloatProps4 FloatProps5 FloatKernProps FloatKernProps2 FloatKernProps3.
Import ListNotations.
Local Open Scope R_scope.

(** At every point x and for every direction j, the computed derivative differs from the partial derivative [g] of the posterior mean
    [Mf] by at most [D] (and a rounding), in relation to the prior standard deviation of the derivative ([v] its prior
    variance in relation to varK) and the length of the data ([w] the exact weights). *)
Definition gradient_within (o : gpopt) (d : gpdata) (hp : hpv) (b0 : R) (A : mat) (u D : R) (M : machine) (c : mat * bool) : Prop :=
  forall (Mf : pt -> R), (forall y, posterior_mean (gp_kernel o hp) (gp_observations o d) A (gp_residual o d b0) b0 y (Mf y)) ->
  forall (x : pt) (j : nat) (g v : R) (w : nat -> R), (j < o_dim o)%nat -> is_partial Mf j x g ->
  is_cov (gp_kernel o hp) (Der j x) (Der j x) v -> solves A w (gp_residual o d b0) ->
  let l := sqrt v * sqrt (dotp (d_n_data d) (gp_residual o d b0) w) in
  Rabs (dmu_fl M c (cross_der_fl M o d hp x j) (gp_residual o d b0) - g) <= D * l + u * (Rabs g + D * l).

Lemma gradient_from o d hp vK b0 A D u e m c : eval_input o d hp vK b0 -> o_kernel o <> RatQu -> machine_rounds u m -> (1 + u) ^ (o_dim o + 5) <= 11 / 10 ->
  plus_diag (d_n_data d) A (fun i j => 1 * ckf o d hp (fst (get_scl_x_w_dist d)) i j) D -> pd A -> (forall i, (i < d_n_data d)%nat -> mat_at A i i <= o_target o * D i) ->
  kern_err u (o_dim o) <= e -> gam u (d_n_data d + 7) < 1 -> nr (fst c) = d_n_data d -> sol_err u e (o_target o) (d_n_data d) < 1 ->
  good_factor A (sol_err u e (o_target o) (nr A)) (sys_err u e (nr A)) (m_ar m) c ->
  gradient_within o d hp b0 A u (mean_err u e (sol_err u e (o_target o) (d_n_data d)) (o_target o) (d_n_data d)) m c.
Proof.
  intros HI Hk Hm HG HA HP HD HE HG7 EN R1 (G1 & _) Mf HMf x j g v w Hj HP1 HV SW. cbv zeta.
  assert (HI' := HI). destruct HI' as (H1 & H2 & _ & H4 & _). assert (RD := ready o d H1 H2). assert (K0 := kern_err_nonneg u m Hm (o_dim o)). assert (RO := mr_ar _ _ Hm). assert (Hu := ro_u _ _ RO).
  assert (CN : d_n_data d = cN o d) by (apply (li_N o d hp (ei_lkd o d hp vK b0 HI))). assert (Ht : 1 < o_target o) by (destruct H1 as (_ & T & _); lra).
  assert (OL := obs_len o d hp vK b0 HI). rewrite <- CN in OL. assert (ENA : nr A = d_n_data d) by apply HA. rewrite ENA in G1.
  set (n := d_n_data d) in *. set (k := o_target o) in *. set (r := sol_err u e k n) in *.
  assert (SE : 0 <= sys_err u e n). { unfold sys_err. assert (0 <= solve_err u n) by (apply solve_err_nonneg; assumption). assert (0 <= (1 + e) * solve_err u n) by (apply Rmult_le_pos; lra). lra. }
  assert (R0 : 0 <= r) by (unfold r, sol_err; change (e + (1 + e) * solve_err u n) with (sys_err u e n); apply Rmult_le_pos; [lra|]; apply Rmult_le_pos; [apply pos_INR|exact SE]).
  assert (PS : forall z, 0 <= bform n (fun i q => 1 * ckf o d hp (fst (get_scl_x_w_dist d)) i q) z z).
  { intros z. rewrite bform_mscal, Rmult_1_l, CN. apply ckf_psd. apply HI. }
  assert (SC : scaled_cond_le A k) by (apply (share_scaled n A _ D k HA HP); auto; lra).
  set (th := vat (hp_theta hp)) in *. assert (TJ : 0 < th j) by (apply H4; exact Hj).
  (* the prior variance of the derivative *)
  assert (EV : v = gamma2 (o_kernel o) (th j)).
  { assert (Q := kjet_is_cov (o_kernel o) (hp_kernel hp) (o_dim o) th (ei_hp o d hp vK b0 HI) (th_ok_nn _ _ _ (ei_th o d hp vK b0 HI)) (Der j x) (Der j x) Hj Hj).
    rewrite (is_cov_unique _ _ _ _ _ HV Q), kjet_diag, cut_lt by exact Hj. reflexivity. }
  assert (GP : 0 < gamma2 (o_kernel o) (th j)) by (destruct (o_kernel o); cbn; lra). rewrite EV. clear EV HV v.
  set (s := sqrt (gamma2 (o_kernel o) (th j))) in *. assert (SP : 0 < s) by (apply sqrt_lt_R0; exact GP). assert (SS : s * s = gamma2 (o_kernel o) (th j)) by (apply sqrt_sqrt; lra).
  (* the exact derivative *)
  assert (EM : forall y, Mf y = b0 + dotp n (kxf o d hp y) w).
  { intros y. destruct (HMf y) as (kx' & w' & CX' & SW' & ->). rewrite OL. assert (CU' := cross_unique o d hp vK b0 HI y kx' CX'). rewrite <- CN in CU'. f_equal. apply dotp_ext; [exact CU'|].
    intros i Hi. apply (pd_unique A w' w (gp_residual o d b0) HP SW' SW). congruence. }
  assert (EG : g = dotp n (dkf o d hp j x) w).
  { apply (dR_unique (fun t => Mf (upd x j t)) (x j)); [exact HP1|]. apply (dR_ext (fun t => b0 + dotp n (kxf o d hp (upd x j t)) w)); [intros t; symmetry; apply EM|].
    unfold dotp. refine (dR_val _ _ _ _ (dR_plus _ _ _ _ _ (dR_const b0 _) (dR_rsum n (fun q t => kxf o d hp (upd x j t) q * w q) (fun q => dkf o d hp j x q * w q) (x j) _)) _); [|ring].
    intros q Hq. refine (dR_val _ _ _ _ (dR_mult _ _ _ _ _ (kxf_d o d hp H4 (ei_noise o d hp vK b0 HI) x j q Hj ltac:(rewrite <- CN; exact Hq)) (dR_const (w q) _)) _). ring. }
  assert (CO : covariances A (/ k) (fun i => dkf o d hp j x i / s)).
  { apply (share_cov n A _ D k _ HA); auto; [lra|]. intros z. rewrite bform_mscal, Rmult_1_l.
    assert (Z := joint_psd_obs (o_kernel o) (hp_kernel hp) (o_dim o) th n (cobs d (fst (get_scl_x_w_dist d))) (Der j x) (/ s) z (ei_hp o d hp vK b0 HI) (ei_th o d hp vK b0 HI)). cbv zeta in Z.
    rewrite (kjet_diag _ _ _ _ (Der j x)), cut_lt in Z by exact Hj. rewrite <- SS in Z. replace (/ s * / s * (s * s)) with 1 in Z by (field; lra).
    replace (dotp n (fun i => dkf o d hp j x i / s) z) with (/ s * dotp n (dkf o d hp j x) z) by (unfold dotp; rewrite <- rsum_scal; apply rsum_ext; intros; unfold Rdiv; ring).
    rewrite <- Rmult_assoc. exact Z. }
  assert (HK : within A (e * s) (fun i => cross_der_fl m o d hp x j i - dkf o d hp j x i)).
  { intros i Hi. rewrite ENA in Hi. assert (Hi' := Hi). rewrite CN in Hi'. eapply Rle_trans; [apply (cross_der_err u m Hm o d hp H4 Hk HG x j i Hj Hi')|]. fold th s.
    assert (Q : mat_at A i i = 1 * ckf o d hp (fst (get_scl_x_w_dist d)) i i + D i). { destruct HA as (_ & _ & HA). rewrite HA by assumption. rewrite Nat.eqb_refl. reflexivity. }
    assert (AP : 0 < mat_at A i i) by (apply pd_diag; [exact HP|congruence]). assert (DP : 0 < D i). { assert (X := HD i Hi). apply (Rmult_lt_reg_l k); lra. }
    assert (SQ : sqrt (ckf o d hp (fst (get_scl_x_w_dist d)) i i) <= sqrt (mat_at A i i)) by (apply sqrt_le_1_alt; lra). assert (S0 := sqrt_pos (ckf o d hp (fst (get_scl_x_w_dist d)) i i)).
    replace (e * s * sqrt (mat_at A i i)) with (e * (sqrt (mat_at A i i) * s)) by ring. apply Rmult_le_compat; [exact K0|apply Rmult_le_pos; lra|exact HE|]. apply Rmult_le_compat_r; lra. }
  assert (IK : 0 <= / k) by (left; apply Rinv_0_lt_compat; lra).
  assert (H := dot_weights u e (/ k) s r k (m_ar m) A c (dkf o d hp j x) (cross_der_fl m o d hp x j) (gp_residual o d b0) w RO HP SC ltac:(lra) ltac:(lra) IK (conj R0 R1) SP CO HK (G1 _ _ SW)).
  assert (EW : energy A w = sqrt (dotp n (gp_residual o d b0) w)).
  { unfold energy. rewrite qform_bform by (apply pd_square; exact HP). rewrite (bform_solves A w w _ HP SW), ENA. reflexivity. }
  rewrite ENA, EW, <- EG in H. unfold dmu_fl. rewrite EN. set (q := dot_fl _ _ _ _) in *. set (B := mean_err u e r k n * (s * _)) in *.
  destruct (mr_add _ _ Hm q 0) as (NA & _). rewrite Rplus_0_r in NA. set (y := m_add m q 0) in *.
  assert (BQ : Rabs q <= Rabs g + B). { replace q with (g + (q - g)) by ring. eapply Rle_trans; [apply Rabs_triang|]. lra. }
  replace (y - g) with ((y - q) + (q - g)) by ring. eapply Rle_trans; [apply Rabs_triang|]. assert (X : u * Rabs q <= u * (Rabs g + B)) by (apply Rmult_le_compat_l; assumption). lra.
Qed.

(** ** Every rounding error from the scaled points to the gradient: kernel matrix, noise, preconditioner, nugget, factorisation, weights,
    covariances with the derivative at the point, their product with the weights.  With 'precon': *)
Theorem C72_precon_gradient :
  forall (o : gpopt) (d : gpdata) (condf : mat -> R) (hp : hpv) (vK b0 : R) (cc : bool) (su : surr) (u : R) (M : machine),
  o_well o = Wprecon -> (o_eta_const o = true -> o_eta_mtd o <> Edflt) -> o_kernel o <> RatQu ->
  eval_input o d hp vK b0 -> setup_eval_model o d condf hp cc = Ok su ->
  machine_rounds u M -> (1 + u) ^ (o_dim o + 5) <= 11 / 10 ->
  let n := d_n_data d in let e := precon_err u o n in let r := sol_err u e (o_target o) n in precise u e (o_target o) n -> r < 1 ->
  exists nv, calc_noise_vec o d hp = Ok nv /\
    forall nz, (forall i, (i < n)%nat -> near u (vat nv i) (nz i)) ->
    exists c, chofac_fl M o d hp nz 1 = Ok c /\ gradient_within o d hp b0 (k_Kcov (su_K su)) u (mean_err u e r (o_target o) n) M c.
Proof.
  intros o d condf hp vK b0 cc su u M Hw Hm0 Hk HI SU Hm HG n e r PR R1. assert (EK := setup_K o d hp vK b0 condf cc su HI SU). assert (HI' := HI). destruct HI' as (H1 & H2 & H3 & H4 & H5 & H6 & H7 & H8 & _).
  assert (EVK : eff_varK hp None true = Some 1) by (unfold eff_varK; rewrite H7; reflexivity). assert (RD := ready o d H1 H2).
  destruct (noise_vector o d hp RD H4 None (ei_noise o d hp vK b0 HI)) as (nv & EN & _). exists nv. split; [exact EN|]. intros nz HZ.
  destruct (precon_chofac o d condf hp None None true 1 true cc u M (su_K su) nv nz H1 H2 H4 (ei_noise o d hp vK b0 HI) EVK Rlt_0_1 Hk Hm HG EK EN HZ Hw (H3 Hw) Hm0 PR) as (c & C1 & C2 & C3 & C4 & C5 & C6 & D & C7 & C8).
  exists c. split; [exact C1|]. apply (gradient_from o d hp vK b0 _ D u e M c HI Hk Hm HG C7 C5 C8); [|apply PR|exact C2|exact R1|rewrite C4; exact C6].
  unfold e, precon_err, total_err, cov_err. set (w := if o_eta_const o then _ else _).
  assert (W0 : 0 <= w). { unfold w. destruct (o_eta_const o); [lra|]. apply Rmult_le_pos; [apply (eta_err_nonneg u M Hm)|]. apply Rmult_le_pos; [apply pos_INR|left; apply Rinv_0_lt_compat; assert (T := gr_t _ _ RD); lra]. }
  assert (K0 := kern_err_nonneg u M Hm (o_dim o)). assert (Hu := ro_u _ _ (mr_ar _ _ Hm)). assert (G1 := gam_nonneg u (2 * o_dim o + 40) Hu). assert (G2 := gam_nonneg u (o_dim o + 18) Hu).
  set (a := kern_err u (o_dim o)) in *. set (g := gam u (2 * o_dim o + 40)) in *. set (h := gam u (o_dim o + 18)) in *. assert (0 <= (a + w) * g) by (apply Rmult_le_pos; lra). assert (0 <= (1 + ((1 + (a + w)) * (1 + g) - 1)) * h) by (apply Rmult_le_pos; lra). lra.
Qed.
Print Assumptions C72_precon_gradient.
(** without preconditioning: the nugget from the row sums, or a gradient-free model with a constant nugget *)
Theorem C72_plain_gradient :
  forall (o : gpopt) (d : gpdata) (condf : mat -> R) (hp : hpv) (vK b0 : R) (cc : bool) (su : surr) (u : R) (M : machine),
  o_well o <> Wprecon -> (o_eta_const o = false \/ (o_use_grad o = false /\ o_eta_mtd o <> Edflt)) -> o_kernel o <> RatQu ->
  eval_input o d hp vK b0 -> setup_eval_model o d condf hp cc = Ok su ->
  machine_rounds u M -> (1 + u) ^ (o_dim o + 5) <= 11 / 10 ->
  let n := d_n_data d in let e := plain_err u o n in let r := sol_err u e (o_target o) n in precise u e (o_target o) n -> r < 1 ->
  exists nv, calc_noise_vec o d hp = Ok nv /\
    forall nz, (forall i, (i < n)%nat -> near u (vat nv i) (nz i)) ->
    exists c, chofac_fl M o d hp nz 1 = Ok c /\ gradient_within o d hp b0 (k_Kcov (su_K su)) u (mean_err u e r (o_target o) n) M c.
Proof.
  intros o d condf hp vK b0 cc su u M Hw Hm0 Hk HI SU Hm HG n e r PR R1. assert (EK := setup_K o d hp vK b0 condf cc su HI SU). assert (HI' := HI). destruct HI' as (H1 & H2 & H3 & H4 & H5 & H6 & H7 & H8 & _).
  assert (EVK : eff_varK hp None true = Some 1) by (unfold eff_varK; rewrite H7; reflexivity). assert (RD := ready o d H1 H2).
  destruct (noise_vector o d hp RD H4 None (ei_noise o d hp vK b0 HI)) as (nv & EN & _). exists nv. split; [exact EN|]. intros nz HZ.
  destruct (plain_chofac o d condf hp None None true 1 true cc u M (su_K su) nv nz H1 H2 H4 (ei_noise o d hp vK b0 HI) EVK Rlt_0_1 Hk Hm HG EK EN HZ Hw Hm0 PR) as (c & C1 & C2 & C3 & C4 & C5 & C6 & D & C7 & C8).
  exists c. split; [exact C1|]. apply (gradient_from o d hp vK b0 _ D u e M c HI Hk Hm HG C7 C5 C8); [|apply PR|exact C2|exact R1|rewrite C4; exact C6].
  unfold e, plain_err, cov_err. set (w := if o_eta_const o then _ else _).
  assert (W0 : 0 <= w) by (unfold w; destruct (o_eta_const o); [lra|apply (eta_err_nonneg u M Hm)]).
  assert (K0 := kern_err_nonneg u M Hm (o_dim o)). assert (Hu := ro_u _ _ (mr_ar _ _ Hm)). assert (G1 := gam_nonneg u (2 * o_dim o + 40) Hu).
  set (a := kern_err u (o_dim o)) in *. set (g := gam u (2 * o_dim o + 40)) in *. assert (0 <= (a + w) * g) by (apply Rmult_le_pos; lra). lra.
Qed.
Print Assumptions C72_plain_gradient.

(** ** Double precision, at most 100 data in at most 20 dimensions.  With 'precon' the error is at most 11e-12 cond_max_target in relation
    to the prior standard deviation of the derivative and the length of the data. *)
Lemma gradient_mono o d hp b0 A u D D' M c : 0 <= u -> D <= D' -> gradient_within o d hp b0 A u D M c -> gradient_within o d hp b0 A u D' M c.
Proof.
  intros Hu HD H Mf HM x j g v w Hj HP HV SW. cbv zeta. eapply Rle_trans; [apply (H Mf HM x j g v w Hj HP HV SW)|]. set (l := sqrt v * _).
  assert (L : 0 <= l) by (apply Rmult_le_pos; apply sqrt_pos). assert (X : D * l <= D' * l) by (apply Rmult_le_compat_r; assumption). assert (u * (D * l) <= u * (D' * l)) by (apply Rmult_le_compat_l; assumption). lra.
Qed.
Theorem C72_precon_double_gradient :
  forall (o : gpopt) (d : gpdata) (condf : mat -> R) (hp : hpv) (vK b0 : R) (cc : bool) (su : surr),
  o_well o = Wprecon -> (o_eta_const o = true -> o_eta_mtd o <> Edflt) -> o_kernel o <> RatQu ->
  10 ^ 5 <= o_target o <= 10 ^ 10 -> (o_dim o <= 20)%nat -> (d_n_data d <= 100)%nat ->
  eval_input o d hp vK b0 -> setup_eval_model o d condf hp cc = Ok su ->
  exists nv, calc_noise_vec o d hp = Ok nv /\
    forall m nz, double_machine m -> (forall i, (i < d_n_data d)%nat -> near u64 (vat nv i) (nz i)) ->
    exists c, chofac_fl m o d hp nz 1 = Ok c /\ gradient_within o d hp b0 (k_Kcov (su_K su)) u64 (o_target o * (11 / 10 ^ 12)) m c.
Proof.
  intros o d condf hp vK b0 cc su Hw Hm0 Hk Ht Hd Hn HI SU.
  assert (I1 : INR 100 = 100) by (rewrite INR_IZR_INZ; reflexivity). assert (IN : INR (d_n_data d) <= 100) by (rewrite <- I1; apply le_INR, Hn). assert (I0 := pos_INR (d_n_data d)).
  assert (E := precon_num o (d_n_data d) 100 Hd Hn ltac:(lia) (proj1 Ht)). rewrite I1 in E. set (e := precon_err u64 o (d_n_data d)) in *.
  assert (KE : o_target o * (e + 4 / 10 ^ 14) <= 10 ^ 10 * (75 / 10 ^ 15)) by (apply Rmult_le_compat; lra).
  assert (KE' : 140 * (o_target o * (e + 4 / 10 ^ 14)) <= o_target o * (11 / 10 ^ 12)).
  { replace (140 * (o_target o * (e + 4 / 10 ^ 14))) with (o_target o * (140 * (e + 4 / 10 ^ 14))) by ring. apply Rmult_le_compat_l; lra. }
  assert (PR : precise u64 e (o_target o) (d_n_data d)).
  { apply precise_num; [lia|lra|lra|]. apply Rle_lt_trans with (10 ^ 10 * (100 * (35 / 10 ^ 15 + 57 / 10 ^ 15))); [|lra]. apply Rmult_le_compat; [lra|apply Rmult_le_pos; lra|lra|]. apply Rmult_le_compat; lra. }
  assert (S := sol_num (d_n_data d) e (o_target o) Hn ltac:(lra) ltac:(lra)). assert (R1 : sol_err u64 e (o_target o) (d_n_data d) < 1) by lra.
  assert (Z := mean_num (d_n_data d) e (o_target o) Hn ltac:(lra) ltac:(lra) ltac:(lra)).
  assert (HI' := HI). destruct HI' as (H1 & H2 & H3 & H4 & _). assert (RD := ready o d H1 H2). destruct (noise_vector o d hp RD H4 None (ei_noise o d hp vK b0 HI)) as (nv & EN & _). exists nv. split; [exact EN|]. intros m nz HX HZ.
  destruct (C72_precon_gradient o d condf hp vK b0 cc su u64 m Hw Hm0 Hk HI SU (double_machine_rounds m HX) (small_dim _ Hd) PR R1) as (nv' & EN' & H).
  rewrite EN in EN'. injection EN' as <-. destruct (H nz HZ) as (c & EC & HC). exists c. split; [exact EC|]. eapply gradient_mono; [unfold u64; lra| |exact HC]. fold e. lra.
Qed.
Print Assumptions C72_precon_double_gradient.
(** the example of C29-C34, 3 noisy points in 2 dimensions, gradients at two of them: the posterior mean exists at every point and has partial
    derivatives there, the derivatives have a prior variance, the weights exist *)
Example C72_hypotheses_met : exists d su nv w Mf, eval_input ex_opt d ev_hp 2 (1 / 3) /\ o_well ex_opt = Wprecon /\ o_eta_mtd ex_opt <> Edflt /\ o_kernel ex_opt <> RatQu /\
  10 ^ 5 <= o_target ex_opt <= 10 ^ 10 /\ (o_dim ex_opt <= 20)%nat /\ (d_n_data d <= 100)%nat /\ setup_eval_model ex_opt d (fun _ => 1) ev_hp true = Ok su /\ calc_noise_vec ex_opt d ev_hp = Ok nv /\
  (forall i, (i < d_n_data d)%nat -> near u64 (vat nv i) (vat nv i)) /\ (forall tie, double_machine (a_machine tie)) /\
  (forall y, posterior_mean (gp_kernel ex_opt ev_hp) (gp_observations ex_opt d) (k_Kcov (su_K su)) (gp_residual ex_opt d (1 / 3)) (1 / 3) y (Mf y)) /\
  solves (k_Kcov (su_K su)) w (gp_residual ex_opt d (1 / 3)) /\
  forall x j, (j < o_dim ex_opt)%nat -> (exists g, is_partial Mf j x g) /\ exists v, is_cov (gp_kernel ex_opt ev_hp) (Der j x) (Der j x) v.
Proof.
  destruct C70_hypotheses_met as (d & su & nv & HI & Hw & _ & Hm & Hk & Ht & Hd & Hn & SU & EN & NR & PM & DM).
  destruct (PM (fun _ => 0)) as (_ & _ & w & _ & _ & SW).
  set (N := cN ex_opt d). set (Mf := fun y => 1 / 3 + dotp N (kxf ex_opt d ev_hp y) w).
  exists d, su, nv, w, Mf. repeat (split; [assumption|]). split; [intros tie; apply DM|]. split.
  - intros y. exists (kxf ex_opt d ev_hp y), w. split; [apply (cross_ok ex_opt d ev_hp 2 (1 / 3) HI)|]. split; [exact SW|]. rewrite (obs_len ex_opt d ev_hp 2 (1 / 3) HI). reflexivity.
  - split; [exact SW|]. intros x j Hj. split.
    + exists (dotp N (dkf ex_opt d ev_hp j x) w). unfold is_partial, Mf, dotp.
      refine (dR_val _ _ _ _ (dR_plus _ _ _ _ _ (dR_const (1 / 3) _) (dR_rsum N (fun q t => kxf ex_opt d ev_hp (upd x j t) q * w q) (fun q => dkf ex_opt d ev_hp j x q * w q) (x j) _)) _); [|ring].
      intros q Hq. refine (dR_val _ _ _ _ (dR_mult _ _ _ _ _ (kxf_d ex_opt d ev_hp ltac:(apply HI) (ei_noise ex_opt d ev_hp 2 (1 / 3) HI) x j q Hj Hq) (dR_const (w q) _)) _). ring.
    + eexists. apply (kjet_is_cov (o_kernel ex_opt) (hp_kernel ev_hp) (o_dim ex_opt) (vat (hp_theta ev_hp)) (ei_hp ex_opt d ev_hp 2 (1 / 3) HI) (th_ok_nn _ _ _ (ei_th ex_opt d ev_hp 2 (1 / 3) HI))); exact Hj.
Qed.
