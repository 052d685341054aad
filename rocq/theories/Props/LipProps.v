(** * Property C74: predictions are bounded and change no faster than the kernel does. *)
From Coq Require Import Reals List Arith Bool Lia Lra Psatz.
From Coquelicot Require Import Coquelicot.
From Verif.Base Require Import NpLite NpFacts Deriv.
From Verif.Spec Require Import KernelSpec LinAlgSpec GpSpec HpSpec DataSpec LkdSpec RescaleSpec EvalSpec OrderSpec UnitSpec LinearSpec.
From Verif.Model Require Import KernelSqExp KernelMatern KernelRatQuad KernelDispatch CommonFun WellCond Rescaling GpState Chol Cov HpInfo HpGrad MeanFun Lkd EvalModel.
From Verif.Proofs Require Import KernTac KernGradBlocks RadialCalculus KernelExact KernelExtra LinAlg CholCorrect Jets Psd CovStruct StateFacts NoiseFacts DataFacts NuggetCond NuggetMain MinMax RescaleFacts
  LinDeriv LkdCore LkdFacts LkdMain EvalKern EvalFacts EvalMain EvalInterp LipFacts.
From Verif.Props Require Import CondProps DataProps LkdProps RescaleProps EvalProps OrderProps UnitProps UnitProps2 LinearProps.
Import ListNotations.
Local Open Scope R_scope.

(** the residuals of the observations in use have squared size [G] in the metric of the covariance matrix [S] *)
Definition data_size (S : mat) (y : nat -> R) (G : R) : Prop := exists w, solves S w y /\ G = dotp (nr S) y w.

(** ** C74: with G the size of the residuals (observations minus mean, in the metric of the covariance matrix),
    - the predicted mean is within sqrt(G) of the mean of the process, and within less where the uncertainty is small
      compared to the prior's: |mu - m| <= sqrt(G (1 - sig^2 / var));
    - two predictions differ by at most sqrt(G) times the distance of the two points in the metric of the kernel, two
      standard deviations by at most the prior standard deviation times that distance, and that distance is at most
      sqrt(2 sum theta_i s_i^2 (x_i - x'_i)^2);
    - the gradients of the mean and of the standard deviation are bounded in the same way. *)
Theorem C74_predictions_bounded_and_lipschitz :
  forall (o : gpopt) (d : gpdata) (condf : mat -> R) (hp : hpv) (vK b : R) (cc : bool) (su : surr),
  eval_input o d hp vK b -> mask_supported o d -> set_up o d condf hp cc su ->
  exists G, data_size (k_Kcov (su_K su)) (gp_residual o d b) G /\ 0 <= G /\
  let L2 := G / out_scale d ^ 2 in let k := gp_kernel o hp in let V := var_in_units d vK in
  forall x2 : mat, nc x2 = o_dim o -> (0 < nr x2)%nat ->
  exists ev D S, eval_model o d hp su x2 true false = Ok ev /\ e_dmu ev = Some D /\ e_dsig ev = Some S /\
    (forall p, (p < nr x2)%nat ->
       (vat (e_mu ev) p - mean_in_units d b) ^ 2 <= L2 * (1 - vat (e_sig ev) p ^ 2 / V) /\
       forall i, (i < o_dim o)%nat -> mat_at D p i ^ 2 <= L2 * (gamma2 (o_kernel o) (vat (hp_theta hp) i) * in_scale d i ^ 2) /\
                                     mat_at S p i ^ 2 <= V * (gamma2 (o_kernel o) (vat (hp_theta hp) i) * in_scale d i ^ 2)) /\
    forall p p', (p < nr x2)%nat -> (p' < nr x2)%nat ->
       let r2 := 2 - 2 * k (model_point d (rows_of x2 p)) (model_point d (rows_of x2 p')) in
       (vat (e_mu ev) p - vat (e_mu ev) p') ^ 2 <= L2 * r2 /\
       (vat (e_sig ev) p - vat (e_sig ev) p') ^ 2 <= V * r2 /\
       r2 <= 2 * rsum (o_dim o) (fun i => vat (hp_theta hp) i * in_scale d i ^ 2 * (rows_of x2 p i - rows_of x2 p' i) ^ 2).
Proof.
  intros o d condf hp vK b cc su HI MS SU.
  destruct (ei_main o d hp vK b HI condf cc su SU) as (e & f & inv & Q1 & Q2 & Q3 & Q4 & Q5 & Q6 & Q7 & Q8 & Q9).
  assert (HI' := HI). destruct HI' as (I1 & I2 & I3 & I4 & I5 & I6 & I7 & I8 & _ & IP). assert (NA := ei_noise o d hp vK b HI).
  assert (Hhp : hp_ok (o_kernel o) (hp_kernel hp)) by apply I4. assert (Hth : forall i, (i < o_dim o)%nat -> 0 < vat (hp_theta hp) i) by apply I4.
  assert (Hnn : forall i, (i < o_dim o)%nat -> 0 <= vat (hp_theta hp) i) by (intros i Hi; left; apply Hth, Hi).
  assert (OP : 0 < out_scale d) by (apply (out_scale_pos o), I2). assert (OP2 : 0 < out_scale d ^ 2) by (apply pow_lt, OP). assert (SV : 0 < sqrt vK) by (apply sqrt_lt_R0, I8). assert (SV2 : sqrt vK * sqrt vK = vK) by (apply sqrt_sqrt; lra).
  set (A := smat o d hp e) in *. set (n := cN o d) in *. set (y := sres d b). set (G := dotp n y (ksol n A y)).
  assert (G0 : 0 <= G) by (apply ksol_quad_nn, Q3).
  assert (RS : forall i, (i < n)%nat -> gp_residual o d b i = y i) by (intros i Hi; apply (li_res o d hp (ei_lkd o d hp vK b HI) b i Hi)).
  exists G. split.
  { exists (ksol n A y). assert (NS : nr (k_Kcov (su_K su)) = n) by apply Q4. split.
    - apply (solves_iff o d _ _ _ _ Q4). intros i Hi. rewrite RS by exact Hi. apply (ksol_ok _ _ _ Q3 i Hi).
    - rewrite NS. apply dotp_ext; [intros i Hi; symmetry; apply RS, Hi|reflexivity]. }
  split; [exact G0|]. cbv zeta. intros x2 Hx Hn.
  destruct (ei_eval o d hp vK b HI condf cc su e f inv x2 true false SU MS Q1 Q3 Q4 Q5 Q6 Q7 Q8 Q9 Hx Hn ltac:(discriminate)) as (ev & E1 & (A1 & A2) & (B1 & B2) & (D & S & A3 & (A4 & A5 & A6) & B3 & (B4 & B5 & B6)) & _).
  exists ev, D, S. do 3 (split; [assumption|]).
  set (kk := fun a => kc o d hp a). set (P := pc o d hp e). set (u := fun p => to_scl d (rows_of x2 p)).
  assert (CS := pc_cs o d hp e Hhp Hnn Q3 Q5). fold P in CS. assert (WS := q_cs n A Q3).
  assert (KD : forall a, kjet (o_kernel o) (hp_val (hp_kernel hp)) (o_dim o) (cut (o_dim o) (vat (hp_theta hp))) a a = match a with Val _ => 1 | Der i _ => gamma2 (o_kernel o) (cut (o_dim o) (vat (hp_theta hp)) i) end) by (intros; apply kjet_diag).
  assert (PV : forall z, Pv o d hp e z = P (Val z) (Val z)) by (intros z; unfold P, pc; rewrite KD; reflexivity).
  assert (GI : forall w, (dotp n w (ksol n A y)) ^ 2 <= dotp n w (ksol n A w) * G) by (intros w; rewrite <- Rsqr_pow2; apply WS).
  assert (SIG : forall p, (p < nr x2)%nat -> vat (e_sig ev) p = sqrt (P (Val (u p)) (Val (u p))) * sqrt vK / out_scale d) by (intros p Hp; rewrite B2 by exact Hp; unfold Si, Psig; rewrite PV; reflexivity).
  assert (MU : forall p, (p < nr x2)%nat -> vat (e_mu ev) p = (b + dotp n (kk (Val (u p))) (ksol n A y)) / out_scale d + out_shift d) by (intros p Hp; rewrite A2 by exact Hp; reflexivity).
  split.
  - intros p Hp. split.
    + rewrite MU, SIG by exact Hp. set (z := P (Val (u p)) (Val (u p))). assert (Z0 : 0 <= z) by apply (CS (Val (u p)) (Val (u p))). unfold var_in_units, mean_in_units.
      replace ((sqrt z * sqrt vK / out_scale d) ^ 2 / (vK / out_scale d ^ 2)) with z.
      2:{ replace ((sqrt z * sqrt vK / out_scale d) ^ 2) with (sqrt z * sqrt z * (sqrt vK * sqrt vK) / out_scale d ^ 2) by (field; lra). rewrite SV2, sqrt_sqrt by exact Z0. field. lra. }
      set (m := dotp n (kk (Val (u p))) (ksol n A y)). replace (((b + m) / out_scale d + out_shift d - (b / out_scale d + out_shift d)) ^ 2) with (m ^ 2 * / out_scale d ^ 2) by (field; lra).
      replace (G / out_scale d ^ 2 * (1 - z)) with ((1 - z) * G * / out_scale d ^ 2) by (field; lra). apply Rmult_le_compat_r; [left; apply Rinv_0_lt_compat, OP2|].
      assert (W := GI (kk (Val (u p)))). fold m in W. assert (ZE : dotp n (kk (Val (u p))) (ksol n A (kk (Val (u p)))) = 1 - z) by (unfold z, P, pc; rewrite KD; unfold kk, n, A; lra). rewrite ZE in W. exact W.
    + intros i Hi. rewrite A6, B6 by assumption. fold (u p). set (a := Der i (u p)). set (g := gamma2 (o_kernel o) (vat (hp_theta hp) i)).
      assert (KG : kjet (o_kernel o) (hp_val (hp_kernel hp)) (o_dim o) (cut (o_dim o) (vat (hp_theta hp))) a a = g) by (rewrite KD; unfold a, g; rewrite cut_lt by exact Hi; reflexivity).
      assert (LE := pc_le o d hp e Hhp Hnn Q3 Q5 a). rewrite KG in LE. fold n A in LE. split.
      * assert (W := GI (kc o d hp a)). change (Pdmu o d hp b e i (u p)) with (dotp n (kc o d hp a) (ksol n A y)). set (m := dotp n (kc o d hp a) (ksol n A y)) in *. unfold gscl.
        replace ((m * (in_scale d i / out_scale d)) ^ 2) with (m ^ 2 * (in_scale d i ^ 2 * / out_scale d ^ 2)) by (field; lra).
        replace (G / out_scale d ^ 2 * (g * in_scale d i ^ 2)) with (g * G * (in_scale d i ^ 2 * / out_scale d ^ 2)) by (field; lra).
        apply Rmult_le_compat_r; [apply Rmult_le_pos; [apply pow2_ge_0|left; apply Rinv_0_lt_compat, OP2]|]. eapply Rle_trans; [exact W|]. apply Rmult_le_compat_r; [exact G0|exact LE].
      * set (v := Val (u p)). destruct (CS v a) as (C1 & C2 & C3). assert (C4 : P a a <= g).
        { assert (Q := ksol_quad_nn n A (kc o d hp a) Q3). unfold P, pc. rewrite KG. fold n A. lra. }
        assert (GG : 0 <= g) by lra. unfold Pdsig, gscl. rewrite PV || idtac. assert (SG : Psig o d hp vK e (u p) = sqrt (P v v) * sqrt vK) by (unfold Psig; rewrite PV; reflexivity). rewrite SG. unfold var_in_units.
        assert (DP : Pdv o d hp e i (u p) = - P v a).
        { unfold Pdv, pdv, pz, P, pc. change (dkf o d hp i (u p)) with (kc o d hp a). change (kxf o d hp (u p)) with (kc o d hp v). rewrite (q_sym n A Q3). fold n A.
          assert (K0 : kjet (o_kernel o) (hp_val (hp_kernel hp)) (o_dim o) (cut (o_dim o) (vat (hp_theta hp))) v a = 0) by (unfold v, a, kjet; cbn [rjet]; ring). rewrite K0. ring. }
        rewrite DP. set (c := P v a) in *. set (q := P v v) in *.
        destruct (Req_EM_T (sqrt q * sqrt vK) 0) as [Z|Z].
        { replace ((- 0 * (- c * vK) * (in_scale d i / out_scale d)) ^ 2) with 0 by ring. apply Rmult_le_pos; [apply Rmult_le_pos; [lra|left; apply Rinv_0_lt_compat, OP2]|apply Rmult_le_pos; [exact GG|apply pow2_ge_0]]. }
        assert (SQ : 0 < sqrt q). { destruct (Rle_lt_or_eq_dec 0 (sqrt q) (sqrt_pos q)) as [L|L]; [exact L|]. exfalso. apply Z. rewrite <- L. ring. }
        assert (QQ : sqrt q * sqrt q = q) by (apply sqrt_sqrt; exact C1). assert (Q0 : 0 < q) by nra.
        replace ((- (1 / (sqrt q * sqrt vK)) * (- c * vK) * (in_scale d i / out_scale d)) ^ 2) with (c * c / (sqrt q * sqrt q) * (vK * vK / (sqrt vK * sqrt vK)) * (in_scale d i ^ 2 * / out_scale d ^ 2)) by (field; lra).
        rewrite QQ, SV2. replace (vK * vK / vK) with vK by (field; lra).
        replace (vK / out_scale d ^ 2 * (g * in_scale d i ^ 2)) with (g * vK * (in_scale d i ^ 2 * / out_scale d ^ 2)) by (field; lra).
        apply Rmult_le_compat_r; [apply Rmult_le_pos; [apply pow2_ge_0|left; apply Rinv_0_lt_compat, OP2]|]. apply Rmult_le_compat_r; [lra|].
        apply (Rmult_le_reg_r q); [exact Q0|]. unfold Rdiv. rewrite Rmult_assoc, Rinv_l, Rmult_1_r by lra. eapply Rle_trans; [exact C3|]. rewrite (Rmult_comm g). apply Rmult_le_compat_l; [exact C1|exact C4].
  - intros p p' Hp Hp'. set (a := Val (u p)). set (c := Val (u p')).
    assert (KE : gp_kernel o hp (model_point d (rows_of x2 p)) (model_point d (rows_of x2 p')) = kjet (o_kernel o) (hp_val (hp_kernel hp)) (o_dim o) (cut (o_dim o) (vat (hp_theta hp))) a c).
    { unfold gp_kernel, a, c. rewrite <- (kjet_val (o_kernel o) (hp_kernel hp) (o_dim o) (vat (hp_theta hp)) Hhp (th_ok_nn _ _ _ Hnn)).
      rewrite <- !phi0_kfun. f_equal. apply rsum_ext; intros i Hi. unfold u. rewrite !to_scl_point. reflexivity. }
    rewrite KE. set (k := kjet _ _ _ _ a c) in *. assert (DF := pc_diff o d hp e Hhp Hnn Q3 Q5 a c). rewrite !KD in DF. fold P n A k in DF. cbn [a c] in DF. destruct DF as (DF1 & DF2).
    split; [|split].
    + rewrite !MU by assumption. set (w := fun i => kc o d hp a i - kc o d hp c i).
      assert (W := GI w). assert (EW : dotp n w (ksol n A y) = dotp n (kk (Val (u p))) (ksol n A y) - dotp n (kk (Val (u p'))) (ksol n A y)) by (unfold w, dotp; rewrite <- rsum_minus; apply rsum_ext; intros i _; unfold kk, a, c; ring).
      rewrite EW in W. set (m1 := dotp n (kk (Val (u p))) _) in *. set (m2 := dotp n (kk (Val (u p'))) _) in *.
      replace (((b + m1) / out_scale d + out_shift d - ((b + m2) / out_scale d + out_shift d)) ^ 2) with ((m1 - m2) ^ 2 * / out_scale d ^ 2) by (field; lra).
      replace (G / out_scale d ^ 2 * (2 - 2 * k)) with ((2 - 2 * k) * G * / out_scale d ^ 2) by (field; lra). apply Rmult_le_compat_r; [left; apply Rinv_0_lt_compat, OP2|].
      eapply Rle_trans; [exact W|]. apply Rmult_le_compat_r; [exact G0|]. unfold w. lra.
    + rewrite !SIG by assumption. fold a c. destruct (CS a c) as (C1 & C2 & C3). unfold var_in_units.
      assert (S1 := sqrt_sqrt _ C1). assert (S2 := sqrt_sqrt _ C2). assert (S3 := sqrt_pos (P a a)). assert (S4 := sqrt_pos (P c c)).
      assert (C4 : P a c <= sqrt (P a a) * sqrt (P c c)).
      { apply Rle_trans with (Rabs (P a c)); [apply Rle_abs|]. rewrite <- sqrt_mult by assumption. rewrite <- (sqrt_Rsqr (Rabs (P a c))) by apply Rabs_pos. apply sqrt_le_1_alt. rewrite <- Rsqr_abs. exact C3. }
      set (s1 := sqrt (P a a)) in *. set (s2 := sqrt (P c c)) in *.
      replace ((s1 * sqrt vK / out_scale d - s2 * sqrt vK / out_scale d) ^ 2) with ((s1 - s2) ^ 2 * (sqrt vK * sqrt vK / out_scale d ^ 2)) by (field; lra). rewrite SV2. rewrite (Rmult_comm (vK / _)).
      apply Rmult_le_compat_r; [left; apply Rdiv_lt_0_compat; assumption|]. nra.
    + assert (K1 := phi0_lower (o_kernel o) (hp_kernel hp) (sqd (o_dim o) (cut (o_dim o) (vat (hp_theta hp))) (u p) (u p')) Hhp). change (phi0 (o_kernel o) (hp_val (hp_kernel hp)) (sqd (o_dim o) (cut (o_dim o) (vat (hp_theta hp))) (u p) (u p'))) with k in K1.
      rewrite sqd_cut in K1. specialize (K1 ltac:(apply rsum_nonneg; intros i Hi; apply Rmult_le_pos; [apply Hnn, Hi|apply pow2_ge_0])).
      assert (SE : sqd (o_dim o) (vat (hp_theta hp)) (u p) (u p') = rsum (o_dim o) (fun i => vat (hp_theta hp) i * in_scale d i ^ 2 * (rows_of x2 p i - rows_of x2 p' i) ^ 2)) by (apply rsum_ext; intros i Hi; unfold u, to_scl; ring).
      rewrite SE in K1. lra.
Qed.
Print Assumptions C74_predictions_bounded_and_lipschitz.

(** In particular there is one constant for all points: the mean and the standard deviation are Lipschitz. *)
Theorem C74_globally_lipschitz :
  forall (o : gpopt) (d : gpdata) (condf : mat -> R) (hp : hpv) (vK b : R) (cc : bool) (su : surr),
  eval_input o d hp vK b -> mask_supported o d -> set_up o d condf hp cc su ->
  exists L, 0 <= L /\
  forall x2 : mat, nc x2 = o_dim o -> (0 < nr x2)%nat ->
  exists ev, eval_model o d hp su x2 true false = Ok ev /\
    forall p p', (p < nr x2)%nat -> (p' < nr x2)%nat ->
      Rabs (vat (e_mu ev) p - vat (e_mu ev) p') <= L * dist (o_dim o) (rows_of x2 p) (rows_of x2 p') /\
      Rabs (vat (e_sig ev) p - vat (e_sig ev) p') <= L * dist (o_dim o) (rows_of x2 p) (rows_of x2 p').
Proof.
  intros o d condf hp vK b cc su HI MS SU. destruct (C74_predictions_bounded_and_lipschitz o d condf hp vK b cc su HI MS SU) as (G & _ & G0 & H). cbv zeta in H.
  assert (HI' := HI). destruct HI' as (I1 & I2 & I3 & I4 & I5 & I6 & I7 & I8 & _ & IP).
  assert (OP : 0 < out_scale d) by (apply (out_scale_pos o), I2). assert (OP2 : 0 < out_scale d ^ 2) by (apply pow_lt, OP).
  assert (Hth : forall i, (i < o_dim o)%nat -> 0 < vat (hp_theta hp) i) by apply I4.
  set (t := fun i => vat (hp_theta hp) i * in_scale d i ^ 2). assert (T0 : forall i, (i < o_dim o)%nat -> 0 <= t i) by (intros i Hi; apply Rmult_le_pos; [left; apply Hth, Hi|apply pow2_ge_0]).
  set (M := rsum (o_dim o) t). assert (M0 : 0 <= M) by (apply rsum_nonneg; exact T0).
  set (C := (G / out_scale d ^ 2 + var_in_units d vK) * (2 * M)). assert (L20 : 0 <= G / out_scale d ^ 2) by (apply Rmult_le_pos; [exact G0|left; apply Rinv_0_lt_compat, OP2]).
  assert (V0 : 0 <= var_in_units d vK) by (unfold var_in_units; apply Rmult_le_pos; [lra|left; apply Rinv_0_lt_compat, OP2]). assert (C0 : 0 <= C) by (unfold C; nra).
  exists (sqrt C). split; [apply sqrt_pos|]. intros x2 Hx Hn. destruct (H x2 Hx Hn) as (ev & D & S & E & _ & _ & _ & K). exists ev. split; [exact E|]. intros p p' Hp Hp'. destruct (K p p' Hp Hp') as (K1 & K2 & K3).
  set (r2 := 2 - 2 * gp_kernel o hp _ _) in *. set (s := rsum (o_dim o) (fun i => (rows_of x2 p i - rows_of x2 p' i) ^ 2)).
  assert (S0 : 0 <= s) by (apply rsum_nonneg; intros; apply pow2_ge_0).
  assert (B : r2 <= 2 * M * s).
  { eapply Rle_trans; [exact K3|]. rewrite Rmult_assoc. apply Rmult_le_compat_l; [lra|]. unfold s. rewrite <- rsum_scal. apply rsum_le; intros i Hi. apply Rmult_le_compat_r; [apply pow2_ge_0|]. apply (rsum_le_term (o_dim o) t i T0 Hi). }
  assert (AB : forall z, z ^ 2 <= C * s -> Rabs z <= sqrt C * dist (o_dim o) (rows_of x2 p) (rows_of x2 p')).
  { intros z Hz. unfold dist. fold s. rewrite <- sqrt_mult by assumption. rewrite <- (sqrt_Rsqr (Rabs z)) by apply Rabs_pos. apply sqrt_le_1_alt. rewrite <- Rsqr_abs, Rsqr_pow2. exact Hz. }
  split; apply AB; (eapply Rle_trans; [eassumption|]); unfold C.
  - apply Rle_trans with (G / out_scale d ^ 2 * (2 * M * s)); [apply Rmult_le_compat_l; assumption|]. assert (0 <= var_in_units d vK * (2 * M * s)) by (apply Rmult_le_pos; [exact V0|apply Rmult_le_pos; lra]). lra.
  - apply Rle_trans with (var_in_units d vK * (2 * M * s)); [apply Rmult_le_compat_l; assumption|]. assert (0 <= G / out_scale d ^ 2 * (2 * M * s)) by (apply Rmult_le_pos; [exact L20|apply Rmult_le_pos; lra]). lra.
Qed.
Print Assumptions C74_globally_lipschitz.

Example C74_hypotheses_met : exists d hp v b su, eval_input ue_opt d hp v b /\ mask_supported ue_opt d /\ set_up ue_opt d (fun _ => 1) hp true su /\ d_n_eval d = 3%nat /\ o_use_grad ue_opt = true /\ 0 < v.
Proof.
  destruct (ue_data ex_x ex_f ue_g (fun i => 1 / 2 + INR i) 2 (1 / 3) eq_refl eq_refl eq_refl eq_refl eq_refl ltac:(intros i _; assert (Z := pos_INR i); lra) ltac:(lra)) as (d & I1 & A1 & A2 & A3 & _).
  destruct (C30_setup_succeeds ue_opt d (fun _ => 1) _ _ _ true I1) as (su & _ & HS1). exists d. do 3 eexists. exists su. split; [exact I1|]. split; [intros _ C; discriminate|]. split; [apply HS1; left; reflexivity|].
  split; [exact A2|]. split; [reflexivity|apply I1].
Qed.
