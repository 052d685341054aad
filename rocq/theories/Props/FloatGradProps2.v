(** * C73: the gradient of the predicted standard deviation and variance in floating-point arithmetic

    Vocabulary: [Spec/FloatSpec.v], [Spec/FloatKernSpec.v], [Spec/FloatGradSpec.v] (rounding errors), [Spec/EvalSpec.v] (posterior variance). *)
From Coq Require Import Reals List Arith ZArith Bool Lia Lra Psatz.
From Coquelicot Require Import Coquelicot.
From Verif.Base Require Import NpLite NpFacts Deriv.
From Verif.Spec Require Import KernelSpec LinAlgSpec GpSpec DataSpec LkdSpec RescaleSpec EvalSpec FloatSpec FloatKernSpec FloatGradSpec.
From Verif.Model Require Import KernelSqExp KernelMatern KernelRatQuad KernelDispatch CommonFun WellCond Rescaling GpState Chol CholFl Cov EvalModel EvalFl EvalGradFl EvalStdGradFl Lkd KernFl.
From Verif.Proofs Require Import CondBound KernTac KernelExact KernelExtra RadialCalculus Jets Psd LinDeriv CovStruct StateFacts NoiseFacts LinAlg CholCorrect FlChol FlMargin FlSolve FlSol FlTarget FlEval FlFac FlKern FlCov FlCovMain FlPred FlGrad FlStd Det NuggetCond NuggetMain CondMain LkdCore LkdMain EvalKern EvalFacts EvalMain.
From Verif.Props Require Import CondProps DataProps LkdProps EvalProps EvalProps2 FloatProps FloatProps2 FloatProps3 FloatProps4 FloatProps5 FloatKernProps FloatKernProps2 FloatKernProps3 FloatGradProps.
Import ListNotations.
Local Open Scope R_scope.

(** At every point x and for every direction j, with [g] the partial derivative of the posterior variance [Vf] (in relation to varK) and
    [p] the prior variance of the derivative: the computed standard deviation [s] is positive, and its product with the computed derivative
    [t] differs from half the derivative of the variance (for the exact ones it is equal: (sigma^2)' = 2 sigma sigma') by at most [D]; the
    computed derivative of the variance (eval_model_var) by at most 2 D. *)
Definition std_gradient_within (o : gpopt) (d : gpdata) (hp : hpv) (vK : R) (A : mat) (u E : R) (M : machine) (c : mat * bool) : Prop :=
  forall (Vf : pt -> R), (forall y, posterior_var (gp_kernel o hp) (gp_observations o d) A y (Vf y)) ->
  forall (x : pt) (j : nat) (g p : R), (j < o_dim o)%nat -> is_partial Vf j x g -> is_cov (gp_kernel o hp) (Der j x) (Der j x) p ->
  let k := cross_fl M o d hp x in let dk := cross_der_fl M o d hp x j in
  let D := vK * (E * sqrt p + gam u 6 * (Rabs (g / 2) + E * sqrt p)) in
  (exists s t, sig_fl (m_ar M) c k vK = Ok s /\ dsig_fl (m_ar M) c dk k vK = Ok t /\ 0 < s /\ Rabs (t * s - vK * (g / 2)) <= D) /\
  (exists s t, sig2_fl (m_ar M) c k vK = Ok s /\ dsig2_fl (m_ar M) c dk k vK = Ok t /\ 0 < s /\ Rabs (t - vK * g) <= 2 * D).

Lemma std_gradient_from o d hp vK b0 A D u e m c : eval_input o d hp vK b0 -> o_kernel o <> RatQu -> machine_rounds u m -> (1 + u) ^ (o_dim o + 5) <= 11 / 10 ->
  plus_diag (d_n_data d) A (fun i j => 1 * ckf o d hp (fst (get_scl_x_w_dist d)) i j) D -> pd A -> (forall i, (i < d_n_data d)%nat -> mat_at A i i <= o_target o * D i) ->
  kern_err u (o_dim o) <= e -> gam u (d_n_data d + 7) < 1 -> nr (fst c) = d_n_data d -> sol_err u e (o_target o) (d_n_data d) < 1 -> o_target o * var_err u e (d_n_data d) < 1 ->
  good_factor A (sol_err u e (o_target o) (nr A)) (sys_err u e (nr A)) (m_ar m) c ->
  std_gradient_within o d hp vK A u (std_err u e (sol_err u e (o_target o) (d_n_data d)) (o_target o) (d_n_data d)) m c.
Proof.
  intros HI Hk Hm HG HA HP HD HE HG7 EN R1 VE (G1 & _ & G3 & _) Vf HVf x j g v Hj HP1 HV kh dh. cbv zeta.
  assert (HI' := HI). destruct HI' as (H1 & H2 & _ & H4 & _). assert (RD := ready o d H1 H2). assert (K0 := kern_err_nonneg u m Hm (o_dim o)). assert (RO := mr_ar _ _ Hm). assert (Hu := ro_u _ _ RO).
  assert (CN : d_n_data d = cN o d) by (apply (li_N o d hp (ei_lkd o d hp vK b0 HI))). assert (Ht : 1 < o_target o) by (destruct H1 as (_ & T & _); lra). assert (VP : 0 < vK) by apply HI.
  assert (OL := obs_len o d hp vK b0 HI). rewrite <- CN in OL. assert (ENA : nr A = d_n_data d) by apply HA. rewrite ENA in G1, G3.
  set (n := d_n_data d) in *. set (k := o_target o) in *. set (r := sol_err u e k n) in *.
  assert (U1 : u < 1). { assert (X := gam_mono u 1 (n + 7) Hu ltac:(lia)). unfold gam in X at 1. cbn [pow] in X. lra. }
  assert (SE : 0 <= sys_err u e n). { unfold sys_err. assert (0 <= solve_err u n) by (apply solve_err_nonneg; assumption). assert (0 <= (1 + e) * solve_err u n) by (apply Rmult_le_pos; lra). lra. }
  assert (R0 : 0 <= r) by (unfold r, sol_err; change (e + (1 + e) * solve_err u n) with (sys_err u e n); apply Rmult_le_pos; [lra|]; apply Rmult_le_pos; [apply pos_INR|exact SE]).
  assert (PS : forall z, 0 <= bform n (fun i q => 1 * ckf o d hp (fst (get_scl_x_w_dist d)) i q) z z).
  { intros z. rewrite bform_mscal, Rmult_1_l, CN. apply ckf_psd. apply HI. }
  assert (SC : scaled_cond_le A k) by (apply (share_scaled n A _ D k HA HP); auto; lra).
  set (th := vat (hp_theta hp)) in *. assert (TJ : 0 < th j) by (apply H4; exact Hj).
  (* the prior variance of the derivative *)
  assert (EV : v = gamma2 (o_kernel o) (th j)).
  { assert (Q := kjet_is_cov (o_kernel o) (hp_kernel hp) (o_dim o) th (ei_hp o d hp vK b0 HI) (th_ok_nn _ _ _ (ei_th o d hp vK b0 HI)) (Der j x) (Der j x) Hj Hj).
    rewrite (is_cov_unique _ _ _ _ _ HV Q), kjet_diag, cut_lt by exact Hj. reflexivity. }
  assert (GP : 0 < gamma2 (o_kernel o) (th j)) by (destruct (o_kernel o); cbn; lra). rewrite EV. clear EV HV v.
  set (s := sqrt (gamma2 (o_kernel o) (th j))) in *. assert (SP : 0 < s) by (apply sqrt_lt_R0; exact GP). assert (SS : s * s = gamma2 (o_kernel o) (th j)) by (apply sqrt_sqrt; lra).
  set (kx := kxf o d hp x). set (dx := dkf o d hp j x).
  (* the exact derivative *)
  assert (PF : pdf n (mat_at A)) by (apply (pd_pdf n A); [split; [exact ENA|split; [apply HA|reflexivity]]|exact HP]).
  set (z := pz n (mat_at A) (kxf o d hp) x).
  assert (SOL : forall y, solves A (pz n (mat_at A) (kxf o d hp) y) (kxf o d hp y)).
  { intros y i Hi. unfold mv. replace (nc A) with n by (symmetry; apply HA). rewrite ENA in Hi. apply (ksol_ok n (mat_at A) (kxf o d hp y) PF i Hi). }
  assert (EVf : forall y, Vf y = pv n (mat_at A) (kxf o d hp) y).
  { intros y. destruct (HVf y) as (kx' & z' & CX' & SZ & ->). rewrite (kxx o d hp vK b0 HI), OL. unfold pv. assert (CU' := cross_unique o d hp vK b0 HI y kx' CX'). rewrite <- CN in CU'. f_equal. apply dotp_ext; [exact CU'|].
    intros i Hi. assert (S' : solves A z' (kxf o d hp y)). { intros q Hq. rewrite (SZ q Hq). apply CU'. congruence. }
    apply (pd_unique A z' _ (kxf o d hp y) HP S' (SOL y)). congruence. }
  assert (EG : g = -2 * dotp n dx z).
  { apply (dR_unique (fun t => Vf (upd x j t)) (x j)); [exact HP1|]. apply (dR_ext (fun t => pv n (mat_at A) (kxf o d hp) (upd x j t))); [intros t; symmetry; apply EVf|].
    apply (pv_dx n (mat_at A) PF (o_dim o) (kxf o d hp) (dkf o d hp)); [|intros a b Eab q Hq; rewrite CN in Hq; exact (kxf_e o d hp a b Eab q Hq)|exact Hj].
    intros a i q Hi Hq. rewrite CN in Hq. apply (kxf_d o d hp H4 (ei_noise o d hp vK b0 HI) a i q Hi Hq). }
  (* covariances and rounded covariances *)
  assert (CD : covariances A (/ k) (fun i => dx i / s)).
  { apply (share_cov n A _ D k _ HA); auto; [lra|]. intros y. rewrite bform_mscal, Rmult_1_l.
    assert (Z := joint_psd_obs (o_kernel o) (hp_kernel hp) (o_dim o) th n (cobs d (fst (get_scl_x_w_dist d))) (Der j x) (/ s) y (ei_hp o d hp vK b0 HI) (ei_th o d hp vK b0 HI)). cbv zeta in Z.
    rewrite (kjet_diag _ _ _ _ (Der j x)), cut_lt in Z by exact Hj. rewrite <- SS in Z. replace (/ s * / s * (s * s)) with 1 in Z by (field; lra).
    replace (dotp n (fun i => dx i / s) y) with (/ s * dotp n dx y) by (unfold dotp; rewrite <- rsum_scal; apply rsum_ext; intros; unfold Rdiv; ring).
    rewrite <- Rmult_assoc. exact Z. }
  assert (CK : covariances A (/ k) kx).
  { apply (share_cov n A _ D k _ HA); auto; [lra|]. intros y. rewrite bform_mscal, Rmult_1_l.
    assert (Z := joint_psd_obs (o_kernel o) (hp_kernel hp) (o_dim o) th n (cobs d (fst (get_scl_x_w_dist d))) (Val x) 1 y (ei_hp o d hp vK b0 HI) (ei_th o d hp vK b0 HI)). cbv zeta in Z.
    rewrite (kjet_diag _ _ _ _ (Val x)), !Rmult_1_r in Z. exact Z. }
  assert (SQ : forall i, (i < n)%nat -> sqrt (ckf o d hp (fst (get_scl_x_w_dist d)) i i) <= sqrt (mat_at A i i)).
  { intros i Hi. assert (Q : mat_at A i i = 1 * ckf o d hp (fst (get_scl_x_w_dist d)) i i + D i). { destruct HA as (_ & _ & HA). rewrite HA by assumption. rewrite Nat.eqb_refl. reflexivity. }
    assert (AP : 0 < mat_at A i i) by (apply pd_diag; [exact HP|congruence]). assert (DP : 0 < D i). { assert (X := HD i Hi). apply (Rmult_lt_reg_l k); lra. }
    apply sqrt_le_1_alt; lra. }
  assert (HDd : within A (e * s) (fun i => dh i - dx i)).
  { intros i Hi. rewrite ENA in Hi. assert (Hi' := Hi). rewrite CN in Hi'. eapply Rle_trans; [apply (cross_der_err u m Hm o d hp H4 Hk HG x j i Hj Hi')|]. fold th s.
    assert (X := SQ i Hi). assert (S0 := sqrt_pos (ckf o d hp (fst (get_scl_x_w_dist d)) i i)).
    replace (e * s * sqrt (mat_at A i i)) with (e * (sqrt (mat_at A i i) * s)) by ring. apply Rmult_le_compat; [exact K0|apply Rmult_le_pos; lra|exact HE|]. apply Rmult_le_compat_r; lra. }
  assert (HK : within A e (fun i => kh i - kx i)).
  { intros i Hi. rewrite ENA in Hi. assert (Hi' := Hi). rewrite CN in Hi'. eapply Rle_trans; [apply (cross_err u m Hm o d hp H4 Hk HG x i Hi')|].
    apply Rmult_le_compat; [exact K0|apply sqrt_pos|exact HE|apply SQ, Hi]. }
  assert (IK : 0 <= / k) by (left; apply Rinv_0_lt_compat; lra).
  assert (exists xh, solves A xh kh) as (xh & SH).
  { destruct (cho_factor_pd A true HP) as (c' & _ & _ & C). eexists. apply (cho_solve_solves _ _ kh C). }
  assert (H := dcov_err u e (/ k) r k s (m_ar m) A c dx dh kx kh z xh RO HP SC ltac:(lra) ltac:(congruence) ltac:(lra) IK (conj R0 R1) SP CD CK HDd HK (SOL x) SH (G1 _ _ SH)).
  rewrite ENA in H. set (q := dcov_fl (m_ar m) c dh kh) in *. set (E := std_err u e r k n) in *.
  replace (dotp n dx z) with (- (g / 2)) in H by (rewrite EG; field).
  assert (QB : Rabs q <= Rabs (g / 2) + E * s). { replace q with (- (g / 2) + (q - - (g / 2))) by ring. eapply Rle_trans; [apply Rabs_triang|]. rewrite Rabs_Ropp. lra. }
  assert (G6 := gam_nonneg u 6 Hu). assert (VQ : Rabs q * vK <= vK * (Rabs (g / 2) + E * s)) by (rewrite Rmult_comm; apply Rmult_le_compat_l; lra).
  assert (VQ' := Rmult_le_compat_l _ _ _ G6 VQ).
  assert (HV : Rabs (- (q * vK) - vK * (g / 2)) <= vK * (E * s)).
  { replace (- (q * vK) - vK * (g / 2)) with (- (vK * (q - - (g / 2)))) by ring. rewrite Rabs_Ropp, Rabs_mult, (Rabs_pos_eq vK) by lra. apply Rmult_le_compat_l; lra. }
  assert (VF : 0 < var_fl (m_ar m) c kh).
  { apply (var_fl_pos u e (/ k) (sys_err u e n) (m_ar m) A c kx kh); auto; [congruence|lra|rewrite ENA; apply G3|].
    rewrite ENA. apply Rmult_lt_reg_l with k; [lra|]. rewrite Rinv_r by lra. exact VE. }
  split.
  - destruct (sig_pos u (m_ar m) c kh vK RO U1 VP VF) as (sg & ES & SG). destruct (dsig_last u (m_ar m) c dh kh vK sg RO U1 VP ES SG) as (t & ET & HT). fold q in HT.
    exists sg, t. repeat (split; [assumption|]). replace (t * sg - vK * (g / 2)) with ((t * sg - - (q * vK)) + (- (q * vK) - vK * (g / 2))) by ring. eapply Rle_trans; [apply Rabs_triang|]. lra.
  - destruct (sig2_pos u (m_ar m) c kh vK RO U1 VP VF) as (sg & ES & SG). destruct (dsig2_last u (m_ar m) c dh kh vK sg RO U1 VP ES) as (t & ET & HT). fold q in HT.
    exists sg, t. repeat (split; [assumption|]). replace (t - vK * g) with ((t - -2 * (q * vK)) + 2 * (- (q * vK) - vK * (g / 2))) by field. eapply Rle_trans; [apply Rabs_triang|]. rewrite (Rabs_mult 2), (Rabs_pos_eq 2) by lra. lra.
Qed.
(** ** Every rounding error from the scaled points to the gradient.  With 'precon': *)
Theorem C73_precon_std_gradient :
  forall (o : gpopt) (d : gpdata) (condf : mat -> R) (hp : hpv) (vK b0 : R) (cc : bool) (su : surr) (u : R) (M : machine),
  o_well o = Wprecon -> (o_eta_const o = true -> o_eta_mtd o <> Edflt) -> o_kernel o <> RatQu ->
  eval_input o d hp vK b0 -> setup_eval_model o d condf hp cc = Ok su ->
  machine_rounds u M -> (1 + u) ^ (o_dim o + 5) <= 11 / 10 ->
  let n := d_n_data d in let e := precon_err u o n in let r := sol_err u e (o_target o) n in precise u e (o_target o) n -> r < 1 -> o_target o * var_err u e n < 1 ->
  exists nv, calc_noise_vec o d hp = Ok nv /\
    forall nz, (forall i, (i < n)%nat -> near u (vat nv i) (nz i)) ->
    exists c, chofac_fl M o d hp nz 1 = Ok c /\ std_gradient_within o d hp vK (k_Kcov (su_K su)) u (std_err u e r (o_target o) n) M c.
Proof.
  intros o d condf hp vK b0 cc su u M Hw Hm0 Hk HI SU Hm HG n e r PR R1 VE. assert (EK := setup_K o d hp vK b0 condf cc su HI SU). assert (HI' := HI). destruct HI' as (H1 & H2 & H3 & H4 & H5 & H6 & H7 & H8 & _).
  assert (EVK : eff_varK hp None true = Some 1) by (unfold eff_varK; rewrite H7; reflexivity). assert (RD := ready o d H1 H2).
  destruct (noise_vector o d hp RD H4 None (ei_noise o d hp vK b0 HI)) as (nv & EN & _). exists nv. split; [exact EN|]. intros nz HZ.
  destruct (precon_chofac o d condf hp None None true 1 true cc u M (su_K su) nv nz H1 H2 H4 (ei_noise o d hp vK b0 HI) EVK Rlt_0_1 Hk Hm HG EK EN HZ Hw (H3 Hw) Hm0 PR) as (c & C1 & C2 & C3 & C4 & C5 & C6 & D & C7 & C8).
  exists c. split; [exact C1|]. apply (std_gradient_from o d hp vK b0 _ D u e M c HI Hk Hm HG C7 C5 C8); [|apply PR|exact C2|exact R1|exact VE|rewrite C4; exact C6].
  unfold e, precon_err, total_err, cov_err. set (w := if o_eta_const o then _ else _).
  assert (W0 : 0 <= w). { unfold w. destruct (o_eta_const o); [lra|]. apply Rmult_le_pos; [apply (eta_err_nonneg u M Hm)|]. apply Rmult_le_pos; [apply pos_INR|left; apply Rinv_0_lt_compat; assert (T := gr_t _ _ RD); lra]. }
  assert (K0 := kern_err_nonneg u M Hm (o_dim o)). assert (Hu := ro_u _ _ (mr_ar _ _ Hm)). assert (G1 := gam_nonneg u (2 * o_dim o + 40) Hu). assert (G2 := gam_nonneg u (o_dim o + 18) Hu).
  set (a := kern_err u (o_dim o)) in *. set (g := gam u (2 * o_dim o + 40)) in *. set (h := gam u (o_dim o + 18)) in *. assert (0 <= (a + w) * g) by (apply Rmult_le_pos; lra). assert (0 <= (1 + ((1 + (a + w)) * (1 + g) - 1)) * h) by (apply Rmult_le_pos; lra). lra.
Qed.
Print Assumptions C73_precon_std_gradient.
(** without preconditioning: the nugget from the row sums, or a gradient-free model with a constant nugget *)
Theorem C73_plain_std_gradient :
  forall (o : gpopt) (d : gpdata) (condf : mat -> R) (hp : hpv) (vK b0 : R) (cc : bool) (su : surr) (u : R) (M : machine),
  o_well o <> Wprecon -> (o_eta_const o = false \/ (o_use_grad o = false /\ o_eta_mtd o <> Edflt)) -> o_kernel o <> RatQu ->
  eval_input o d hp vK b0 -> setup_eval_model o d condf hp cc = Ok su ->
  machine_rounds u M -> (1 + u) ^ (o_dim o + 5) <= 11 / 10 ->
  let n := d_n_data d in let e := plain_err u o n in let r := sol_err u e (o_target o) n in precise u e (o_target o) n -> r < 1 -> o_target o * var_err u e n < 1 ->
  exists nv, calc_noise_vec o d hp = Ok nv /\
    forall nz, (forall i, (i < n)%nat -> near u (vat nv i) (nz i)) ->
    exists c, chofac_fl M o d hp nz 1 = Ok c /\ std_gradient_within o d hp vK (k_Kcov (su_K su)) u (std_err u e r (o_target o) n) M c.
Proof.
  intros o d condf hp vK b0 cc su u M Hw Hm0 Hk HI SU Hm HG n e r PR R1 VE. assert (EK := setup_K o d hp vK b0 condf cc su HI SU). assert (HI' := HI). destruct HI' as (H1 & H2 & H3 & H4 & H5 & H6 & H7 & H8 & _).
  assert (EVK : eff_varK hp None true = Some 1) by (unfold eff_varK; rewrite H7; reflexivity). assert (RD := ready o d H1 H2).
  destruct (noise_vector o d hp RD H4 None (ei_noise o d hp vK b0 HI)) as (nv & EN & _). exists nv. split; [exact EN|]. intros nz HZ.
  destruct (plain_chofac o d condf hp None None true 1 true cc u M (su_K su) nv nz H1 H2 H4 (ei_noise o d hp vK b0 HI) EVK Rlt_0_1 Hk Hm HG EK EN HZ Hw Hm0 PR) as (c & C1 & C2 & C3 & C4 & C5 & C6 & D & C7 & C8).
  exists c. split; [exact C1|]. apply (std_gradient_from o d hp vK b0 _ D u e M c HI Hk Hm HG C7 C5 C8); [|apply PR|exact C2|exact R1|exact VE|rewrite C4; exact C6].
  unfold e, plain_err, cov_err. set (w := if o_eta_const o then _ else _).
  assert (W0 : 0 <= w) by (unfold w; destruct (o_eta_const o); [lra|apply (eta_err_nonneg u M Hm)]).
  assert (K0 := kern_err_nonneg u M Hm (o_dim o)). assert (Hu := ro_u _ _ (mr_ar _ _ Hm)). assert (G1 := gam_nonneg u (2 * o_dim o + 40) Hu).
  set (a := kern_err u (o_dim o)) in *. set (g := gam u (2 * o_dim o + 40)) in *. assert (0 <= (a + w) * g) by (apply Rmult_le_pos; lra). lra.
Qed.
Print Assumptions C73_plain_std_gradient.

(** ** Double precision, at most 100 data in at most 20 dimensions.  With 'precon' E is at most 11e-12 cond_max_target *)
Lemma std_gradient_mono o d hp vK A u D D' M c : 0 <= u -> 0 <= vK -> D <= D' -> std_gradient_within o d hp vK A u D M c -> std_gradient_within o d hp vK A u D' M c.
Proof.
  intros Hu Hv HD H Vf HM x j g p Hj HP HV. cbv zeta. destruct (H Vf HM x j g p Hj HP HV) as ((s & t & A1 & A2 & A3 & A4) & (s' & t' & B1 & B2 & B3 & B4)).
  assert (L : 0 <= sqrt p) by apply sqrt_pos. assert (X : D * sqrt p <= D' * sqrt p) by (apply Rmult_le_compat_r; assumption). assert (G6 := gam_nonneg u 6 Hu).
  assert (Y : vK * (D * sqrt p + gam u 6 * (Rabs (g / 2) + D * sqrt p)) <= vK * (D' * sqrt p + gam u 6 * (Rabs (g / 2) + D' * sqrt p))).
  { apply Rmult_le_compat_l; [exact Hv|]. apply Rplus_le_compat; [exact X|]. apply Rmult_le_compat_l; lra. }
  split; [exists s, t|exists s', t']; repeat (split; [assumption|]); lra.
Qed.
Lemma std_num n e k : (n <= 100)%nat -> 0 <= e <= / 10 ^ 10 -> 1 <= k -> k * (e + 4 / 10 ^ 14) <= / 10 ^ 3 ->
  std_err u64 e (sol_err u64 e k n) k n <= 140 * (k * (e + 4 / 10 ^ 14)).
Proof.
  intros Hn He Hk HE. assert (S := sol_num n e k Hn He Hk). assert (I9 : INR 100 = 100) by (rewrite INR_IZR_INZ; reflexivity). assert (IN : INR n <= 100) by (rewrite <- I9; apply le_INR, Hn). assert (I0 := pos_INR n).
  destruct (gam64 n Hn) as (_ & G7). assert (GG := gam_mono u64 (n + 2) (n + 7) ltac:(unfold u64; lra) ltac:(lia)). assert (G0 := gam_nonneg u64 (n + 2) ltac:(unfold u64; lra)). unfold std_err. cbv zeta. set (g := gam u64 (n + 2)) in *. set (E := e + 4 / 10 ^ 14) in *.
  assert (GE : 0 <= g * (1 + e) <= 1200 / 10 ^ 17).
  { assert (0 <= g * e <= 1190 / 10 ^ 17 * / 10 ^ 10) by (split; [apply Rmult_le_pos; lra|apply Rmult_le_compat; lra]). lra. }
  set (a := sqrt (INR n * k)). assert (A : 0 <= a <= 10 * k).
  { unfold a. split; [apply sqrt_pos|]. rewrite <- (sqrt_square (10 * k)) by lra. apply sqrt_le_1_alt.
    apply Rle_trans with (100 * k); [apply Rmult_le_compat_r; lra|]. replace (10 * k * (10 * k)) with (100 * k * k) by ring. rewrite <- (Rmult_1_r (100 * k)) at 1. apply Rmult_le_compat_l; lra. }
  assert (AE : 0 <= a * e <= 10 * k * E) by (split; [apply Rmult_le_pos; lra|apply Rmult_le_compat; unfold E; lra]).
  assert (B1 : 0 <= a * (e + g * (1 + e)) <= 10 * k * E) by (split; [apply Rmult_le_pos; lra|apply Rmult_le_compat; unfold E; lra]).
  assert (F := frac_num n e k Hn He Hk HE (sol_err u64 e k n + a * (e + g * (1 + e))) (110 * (k * E)) ltac:(lra)). set (f := _ / (1 - sol_err u64 e k n)) in *.
  assert (KE : 0 <= k * E) by (apply Rmult_le_pos; unfold E; lra).
  assert (T : f * (1 + a * e) <= 10 / 9 * (110 * (k * E)) * (101 / 100)) by (apply Rmult_le_compat; lra). lra.
Qed.
Theorem C73_precon_double_std_gradient :
  forall (o : gpopt) (d : gpdata) (condf : mat -> R) (hp : hpv) (vK b0 : R) (cc : bool) (su : surr),
  o_well o = Wprecon -> (o_eta_const o = true -> o_eta_mtd o <> Edflt) -> o_kernel o <> RatQu ->
  10 ^ 5 <= o_target o <= 10 ^ 10 -> (o_dim o <= 20)%nat -> (d_n_data d <= 100)%nat ->
  eval_input o d hp vK b0 -> setup_eval_model o d condf hp cc = Ok su ->
  exists nv, calc_noise_vec o d hp = Ok nv /\
    forall m nz, double_machine m -> (forall i, (i < d_n_data d)%nat -> near u64 (vat nv i) (nz i)) ->
    exists c, chofac_fl m o d hp nz 1 = Ok c /\ std_gradient_within o d hp vK (k_Kcov (su_K su)) u64 (o_target o * (11 / 10 ^ 12)) m c.
Proof.
  intros o d condf hp vK b0 cc su Hw Hm0 Hk Ht Hd Hn HI SU.
  assert (I1 : INR 100 = 100) by (rewrite INR_IZR_INZ; reflexivity). assert (IN : INR (d_n_data d) <= 100) by (rewrite <- I1; apply le_INR, Hn). assert (I0 := pos_INR (d_n_data d)).
  assert (E := precon_num o (d_n_data d) 100 Hd Hn ltac:(lia) (proj1 Ht)). rewrite I1 in E. set (e := precon_err u64 o (d_n_data d)) in *.
  assert (KE : o_target o * (e + 4 / 10 ^ 14) <= 10 ^ 10 * (75 / 10 ^ 15)) by (apply Rmult_le_compat; lra).
  assert (KE' : 140 * (o_target o * (e + 4 / 10 ^ 14)) <= o_target o * (11 / 10 ^ 12)).
  { replace (140 * (o_target o * (e + 4 / 10 ^ 14))) with (o_target o * (140 * (e + 4 / 10 ^ 14))) by ring. apply Rmult_le_compat_l; lra. }
  assert (PR : precise u64 e (o_target o) (d_n_data d)).
  { apply precise_num; [lia|lra|lra|]. apply Rle_lt_trans with (10 ^ 10 * (100 * (35 / 10 ^ 15 + 57 / 10 ^ 15))); [|lra]. apply Rmult_le_compat; [lra|apply Rmult_le_pos; lra|lra|]. apply Rmult_le_compat; lra. }
  assert (S := sol_num (d_n_data d) e (o_target o) Hn ltac:(lra) ltac:(lra)). assert (R1 : sol_err u64 e (o_target o) (d_n_data d) < 1) by lra.
  assert (Z := std_num (d_n_data d) e (o_target o) Hn ltac:(lra) ltac:(lra) ltac:(lra)).
  assert (W := var_num (d_n_data d) e (13 / 10 * o_target o) Hn ltac:(lra) ltac:(lra) ltac:(lra)). assert (VE : o_target o * var_err u64 e (d_n_data d) < 1) by lra.
  assert (HI' := HI). destruct HI' as (H1 & H2 & H3 & H4 & _). assert (RD := ready o d H1 H2). destruct (noise_vector o d hp RD H4 None (ei_noise o d hp vK b0 HI)) as (nv & EN & _). exists nv. split; [exact EN|]. intros m nz HX HZ.
  destruct (C73_precon_std_gradient o d condf hp vK b0 cc su u64 m Hw Hm0 Hk HI SU (double_machine_rounds m HX) (small_dim _ Hd) PR R1 VE) as (nv' & EN' & H).
  rewrite EN in EN'. injection EN' as <-. destruct (H nz HZ) as (c & EC & HC). exists c. split; [exact EC|]. eapply std_gradient_mono; [unfold u64; lra|left; apply HI| |exact HC]. fold e. lra.
Qed.
Print Assumptions C73_precon_double_std_gradient.
(** the example of C29-C34, 3 noisy points in 2 dimensions, gradients at two of them: the posterior variance exists at every point and has
    partial derivatives there, the derivatives have a prior variance *)
Example C73_hypotheses_met : exists d su nv Vf, eval_input ex_opt d ev_hp 2 (1 / 3) /\ o_well ex_opt = Wprecon /\ o_eta_mtd ex_opt <> Edflt /\ o_kernel ex_opt <> RatQu /\
  10 ^ 5 <= o_target ex_opt <= 10 ^ 10 /\ (o_dim ex_opt <= 20)%nat /\ (d_n_data d <= 100)%nat /\ setup_eval_model ex_opt d (fun _ => 1) ev_hp true = Ok su /\ calc_noise_vec ex_opt d ev_hp = Ok nv /\
  (forall i, (i < d_n_data d)%nat -> near u64 (vat nv i) (vat nv i)) /\ (forall tie, double_machine (a_machine tie)) /\
  (forall y, posterior_var (gp_kernel ex_opt ev_hp) (gp_observations ex_opt d) (k_Kcov (su_K su)) y (Vf y)) /\
  forall x j, (j < o_dim ex_opt)%nat -> (exists g, is_partial Vf j x g) /\ exists v, is_cov (gp_kernel ex_opt ev_hp) (Der j x) (Der j x) v.
Proof.
  destruct C72_hypotheses_met as (d & su & nv & w & Mf & HI & Hw & Hm & Hk & Ht & Hd & Hn & SU & EN & NR & DM & _ & _ & HC).
  set (N := cN ex_opt d). assert (CN : d_n_data d = N) by (apply (li_N ex_opt d ev_hp (ei_lkd ex_opt d ev_hp 2 (1 / 3) HI))).
  assert (H1 : opts_ok ex_opt) by apply HI. assert (H2 : data_set ex_opt d) by apply HI. assert (H4 : hyper_ok ex_opt ev_hp) by apply HI.
  destruct (ei_setup ex_opt d ev_hp 2 (1 / 3) HI (fun _ => 1) true su SU) as (_ & _ & e & _ & _ & PE & MK & _).
  assert (EN1 : nr (k_Kcov (su_K su)) = N) by apply MK. assert (EN2 : nc (k_Kcov (su_K su)) = N) by apply MK.
  assert (PF : pdf N (mat_at (k_Kcov (su_K su)))) by (apply (pdf_ext N (smat ex_opt d ev_hp e)); [intros a b Ha Hb; symmetry; apply MK; assumption|exact PE]).
  exists d, su, nv, (pv N (mat_at (k_Kcov (su_K su))) (kxf ex_opt d ev_hp)). repeat (split; [assumption|]). split.
  - intros y. exists (kxf ex_opt d ev_hp y), (pz N (mat_at (k_Kcov (su_K su))) (kxf ex_opt d ev_hp) y). split; [apply (cross_ok ex_opt d ev_hp 2 (1 / 3) HI)|]. split.
    + intros i Hi. unfold mv. replace (nc (k_Kcov (su_K su))) with N by congruence. apply (ksol_ok N (mat_at (k_Kcov (su_K su))) (kxf ex_opt d ev_hp y) PF i). congruence.
    + rewrite (obs_len ex_opt d ev_hp 2 (1 / 3) HI), (kxx ex_opt d ev_hp 2 (1 / 3) HI). reflexivity.
  - intros x j Hj. split; [|apply (HC x j Hj)]. eexists. apply (pv_dx N (mat_at (k_Kcov (su_K su))) PF (o_dim ex_opt) (kxf ex_opt d ev_hp) (dkf ex_opt d ev_hp)); [|exact (kxf_e ex_opt d ev_hp)|exact Hj].
    intros a i q Hi Hq. apply (kxf_d ex_opt d ev_hp H4 (ei_noise ex_opt d ev_hp 2 (1 / 3) HI) a i q Hi Hq).
Qed.
