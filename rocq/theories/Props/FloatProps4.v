(** * C68: the likelihood in floating-point arithmetic

    Vocabulary: [Spec/FloatSpec.v]. *)
From Coq Require Import Reals List Arith ZArith Bool Lia Lra Psatz.
From Verif.Base Require Import NpLite NpFacts.
From Verif.Spec Require Import KernelSpec LinAlgSpec GpSpec FloatSpec.
From Verif.Model Require Import KernelSqExp KernelMatern KernelRatQuad KernelDispatch CommonFun WellCond Rescaling GpState Chol CholFl Cov HpInfo HpGrad MeanFun Lkd.
From Verif.Proofs Require Import CovStruct StateFacts NoiseFacts LinAlg CholCorrect FlChol FlMargin FlSolve FlSol FlTarget Det NuggetCond NuggetMain CondMain.
From Verif.Props Require Import CondProps FloatProps FloatProps2 FloatProps3.
Import ListNotations.
Local Open Scope R_scope.

(** What is proved of a factor [c] for the matrix [A], for residuals [b] (data minus mean) with exact weights [x] and
    computed weights [xh]: the determinant, the quadratic form, the logarithm of the likelihood for known
    variances (noisy data) and with the optimal varK (data without noise), with the relative error [r]. *)
Definition likelihood_accurate (A : mat) (r lndet : R) (solve : (nat -> R) -> nat -> R) : Prop :=
  let n := nr A in let exact := ln (det n (mat_at A)) in
  Rabs (lndet - exact) <= - (INR n * ln (1 - r)) /\
  forall b x, solves A x b -> let q := dotp n b x in let qh := dotp n b (solve b) in
    0 <= q /\ Rabs (qh - q) <= r / (1 - r) * q /\
    Rabs (- (lndet + qh) / 2 - - (exact + q) / 2) <= (- (INR n * ln (1 - r)) + r / (1 - r) * q) / 2 /\
    (nonzero n b -> r < 1 / 2 ->
      0 < q /\ 0 < qh /\
      Rabs (- (INR n * ln (qh / INR n) + lndet) / 2 - - (INR n * ln (q / INR n) + exact) / 2) <= - (INR n * ln (1 - 2 * r)) / 2).

Lemma sol_err_nonneg u e k n : 0 <= u -> 0 <= k -> precise u e k n -> 0 <= sol_err u e k n.
Proof.
  intros Hu Hk (He & HG & _). unfold sol_err. assert (S0 := solve_err_nonneg u n Hu HG). apply Rmult_le_pos; [exact Hk|]. apply Rmult_le_pos; [apply pos_INR|]. nra.
Qed.
Lemma lnq x y : 0 < x -> 0 < y -> ln (x / y) = ln x - ln y.
Proof. intros H1 H2. unfold Rdiv. rewrite ln_mult by (try apply Rinv_0_lt_compat; assumption). rewrite ln_Rinv by assumption. ring. Qed.
Lemma likelihood_of_factor A r t ar c : pd A -> 0 <= r < 1 -> good_factor A r t ar c -> nr (fst c) = nr A -> nc (fst c) = nr A ->
  likelihood_accurate A r (lndet_of c) (cho_solve_fl ar c).
Proof.
  intros HP R1 (HS & HD & _) E1 E2. assert (Esq := pd_square A HP). unfold likelihood_accurate. cbv zeta. set (n := nr A) in *.
  assert (LD : lndet_of c = log_det n c).
  { unfold lndet_of, log_det, vsum. cbn [vlen vmap vat diagv]. rewrite E1, E2, Nat.min_id. reflexivity. }
  rewrite LD. assert (HD' := HD (proj2 R1)). split; [exact HD'|]. intros b x SX.
  assert (QE : dotp n b x = bform n (mat_at A) x x).
  { rewrite bform_dotp. rewrite dotp_sym. apply dotp_ext; [reflexivity|]. intros i Hi. rewrite <- (SX i Hi). unfold mv. rewrite <- Esq. reflexivity. }
  assert (Q0 : 0 <= dotp n b x) by (rewrite QE; apply psd_of; exact HP).
  assert (QQ := C67_linear_functionals A r b (cho_solve_fl ar c b) x b x HP SX (HS b x SX) (proj2 R1) SX). fold n in QQ. rewrite sqrt_sqrt in QQ by exact Q0.
  split; [exact Q0|]. split; [exact QQ|].
  set (q := dotp n b x) in *. set (qh := dotp n b (cho_solve_fl ar c b)) in *. set (ld := log_det n c) in *. set (ex := ln (det n (mat_at A))) in *. split.
  { replace (- (ld + qh) / 2 - - (ex + q) / 2) with (- (((ld - ex) + (qh - q)) / 2)) by field. rewrite Rabs_Ropp. unfold Rdiv at 1. rewrite Rabs_mult, (Rabs_pos_eq (/ 2)) by lra.
    assert (T := Rabs_triang (ld - ex) (qh - q)). lra. }
  intros NZ R2.
  assert (QP : 0 < q).
  { rewrite QE. destruct HP as (S & HP). unfold n. rewrite <- (qform_bform A) by exact Esq. apply HP. destruct (nonzero_dec n x) as [N|Z]; [exact N|]. exfalso.
    destruct NZ as (i & Hi & Hb). apply Hb. rewrite <- (SX i Hi). unfold mv. apply rsum_0; intros j Hj. rewrite <- Esq in Hj. rewrite (Z j Hj). ring. }
  assert (IN : 0 < INR n) by (destruct NZ as (i & Hi & _); apply lt_0_INR; lia).
  assert (A1 := Rle_abs (qh - q)). assert (A2 := Rle_abs (- (qh - q))). rewrite Rabs_Ropp in A2.
  assert (LO : (1 - 2 * r) / (1 - r) * q <= qh). { replace ((1 - 2 * r) / (1 - r)) with (1 - r / (1 - r)) by (field; lra). lra. }
  assert (HI : qh <= / (1 - r) * q). { replace (/ (1 - r)) with (1 + r / (1 - r)) by (field; lra). lra. }
  assert (C1 : 0 < (1 - 2 * r) / (1 - r)) by (apply Rdiv_lt_0_compat; lra). assert (C2 : 0 < / (1 - r)) by (apply Rinv_0_lt_compat; lra).
  assert (QH : 0 < qh). { eapply Rlt_le_trans; [|exact LO]. apply Rmult_lt_0_compat; assumption. }
  split; [exact QP|]. split; [exact QH|].
  apply ln_le_mono in LO; [|apply Rmult_lt_0_compat; assumption]. apply ln_le_mono in HI; [|exact QH]. rewrite (ln_mult _ q) in LO by assumption. rewrite (ln_mult _ q) in HI by assumption. rewrite ln_Rinv in HI by lra. rewrite lnq in LO by lra.
  rewrite !lnq by assumption.
  assert (SQ : ln (1 - 2 * r) <= 2 * ln (1 - r)). { rewrite <- ln_sq by lra. apply ln_le_mono; [lra|]. nra. }
  assert (X := Rle_abs (ld - ex)). assert (Y := Rle_abs (- (ld - ex))). rewrite Rabs_Ropp in Y.
  set (l1 := ln (1 - r)) in *. set (l2 := ln (1 - 2 * r)) in *. set (lq := ln q) in *. set (lh := ln qh) in *.
  replace (- (INR n * (lh - ln (INR n)) + ld) / 2 - - (INR n * (lq - ln (INR n)) + ex) / 2) with ((INR n * (lq - lh) + (ex - ld)) / 2) by field.
  unfold Rdiv. rewrite Rabs_mult, (Rabs_pos_eq (/ 2)) by lra. apply Rmult_le_compat_r; [lra|]. apply Rabs_le.
  assert (B1 : INR n * (lq - lh) <= INR n * (l1 - l2)) by (apply Rmult_le_compat_l; lra).
  assert (B2 : INR n * (lh - lq) <= INR n * (l1 - l2)) by (apply Rmult_le_compat_l; lra).
  split; lra.
Qed.

(** ** The likelihood with 'precon' (constant nugget, or nugget from the row sums), for all data, hyperparameters and noise *)
Theorem C68_precon_likelihood :
  forall (o : gpopt) (d : gpdata) (condf : mat -> R) (hp : hpv) (noise : option vec) (varK : option R) (bn : bool) (vK : R) (calc_chofac calc_cond : bool),
  o_well o = Wprecon -> o_use_grad o = true -> (o_eta_const o = true -> o_eta_mtd o <> Edflt) ->
  opts_ok o -> data_set o d -> hyper_ok o hp -> noise_arg_ok o d hp noise -> eff_varK hp varK bn = Some vK -> 0 < vK ->
  exists out Kp p, calc_all_K_w_chofac o d condf (d_Rt d) hp noise calc_chofac calc_cond varK bn = Ok out /\
    k_Kprec out = Some Kp /\ (forall i, (i < d_n_data d)%nat -> 0 < p i) /\
    (forall i j, (i < d_n_data d)%nat -> (j < d_n_data d)%nat -> mat_at (k_Kcov out) i j = p i * p j * mat_at Kp i j) /\
    forall u e ar Kh ph, rounds u ar -> computed e Kp Kh -> precise u e (o_target o) (d_n_data d) ->
    (forall i, (i < d_n_data d)%nat -> near (gam u 2) (p i) (ph i)) -> sol_err u e (o_target o) (d_n_data d) < 1 ->
    exists c, cho_factor_fl ar Kh true = Ok c /\
      likelihood_accurate (k_Kcov out) (sol_err u e (o_target o) (d_n_data d)) (lndet_of (scale_rows_fl ar ph c)) (cho_solve_fl ar (scale_rows_fl ar ph c)).
Proof.
  intros o d condf hp noise varK bn vK cc cnd Hw Hu Hm H5 H6 H7 H8 H9 H10.
  destruct (precon_target o d condf hp noise varK bn vK cc cnd Hw Hu Hm H5 H6 H7 H8 H9 H10) as (out & Kp & p & EO & EP & PD1 & PD2 & EN1 & EN2 & Pp & EA & CM).
  exists out, Kp, p. rewrite <- EN2 in *. split; [exact EO|]. split; [exact EP|]. split; [exact Pp|]. split; [exact EA|].
  intros u e ar Kh ph RO CE PR HN R1. destruct (precon_factor u e (o_target o) ar (k_Kcov out) Kp Kh p ph) as (c & E & G); auto.
  assert (PR1 := PR). rewrite <- EN1 in PR1. destruct (C66_factorisation_does_not_fail u e (o_target o) ar Kp Kh true RO PD1 (or_intror CM) CE PR1) as (c1 & E' & _ & F1 & F2 & _).
  rewrite E in E'. injection E' as <-. exists c. split; [exact E|]. assert (T : 0 <= o_target o) by (destruct H5 as (_ & T & _); lra).
  eapply likelihood_of_factor; eauto; [split; [|exact R1]|cbn [scale_rows_fl fst nr]; congruence|cbn [scale_rows_fl fst nc]; congruence].
  apply sol_err_nonneg; auto. apply (ro_u _ _ RO).
Qed.
Print Assumptions C68_precon_likelihood.

(** The same without preconditioning, with any noise (nugget from the row sums, or without gradients) *)
Theorem C68_plain_likelihood :
  forall (o : gpopt) (d : gpdata) (condf : mat -> R) (hp : hpv) (noise : option vec) (varK : option R) (bn : bool) (vK : R) (calc_chofac calc_cond : bool),
  o_well o <> Wprecon -> (o_eta_const o = false \/ (o_use_grad o = false /\ o_eta_mtd o <> Edflt)) ->
  opts_ok o -> data_set o d -> hyper_ok o hp -> noise_arg_ok o d hp noise -> eff_varK hp varK bn = Some vK -> 0 < vK ->
  exists out, calc_all_K_w_chofac o d condf (d_Rt d) hp noise calc_chofac calc_cond varK bn = Ok out /\ nr (k_Kcov out) = d_n_data d /\
    forall u e ar Kh lower, rounds u ar -> computed e (k_Kcov out) Kh -> precise u e (o_target o) (d_n_data d) -> sol_err u e (o_target o) (d_n_data d) < 1 ->
    exists c, cho_factor_fl ar Kh lower = Ok c /\
      likelihood_accurate (k_Kcov out) (sol_err u e (o_target o) (d_n_data d)) (lndet_of c) (cho_solve_fl ar c).
Proof.
  intros o d condf hp noise varK bn vK cc cnd Hw Hm H5 H6 H7 H8 H9 H10.
  destruct (plain_target o d condf hp noise varK bn vK cc cnd Hw Hm H5 H6 H7 H8 H9 H10) as (out & EO & EN & PD & CM).
  exists out. split; [exact EO|]. split; [exact EN|]. intros u e ar Kh lower RO CE PR R1. rewrite <- EN in *.
  destruct (plain_factor u e (o_target o) ar (k_Kcov out) Kh lower RO PD (or_intror CM) CE PR) as (c & E & G).
  destruct (C66_factorisation_does_not_fail u e (o_target o) ar (k_Kcov out) Kh lower RO PD (or_intror CM) CE PR) as (c1 & E' & _ & F1 & F2 & _).
  rewrite E in E'. injection E' as <-. exists c. split; [exact E|]. assert (T : 0 <= o_target o) by (destruct H5 as (_ & T & _); lra).
  eapply likelihood_of_factor; eauto. split; [|exact R1]. apply sol_err_nonneg; auto. apply (ro_u _ _ RO).
Qed.
Print Assumptions C68_plain_likelihood.

Lemma likelihood_mono A r r' lndet solve : 0 <= r <= r' -> r' < 1 -> likelihood_accurate A r lndet solve -> likelihood_accurate A r' lndet solve.
Proof.
  intros Hr R1. unfold likelihood_accurate. cbv zeta. intros (P & Q). assert (IN := pos_INR (nr A)).
  assert (LM : - (INR (nr A) * ln (1 - r)) <= - (INR (nr A) * ln (1 - r'))).
  { apply Ropp_le_contravar, Rmult_le_compat_l; [exact IN|]. apply ln_le_mono; lra. }
  assert (RM : r / (1 - r) <= r' / (1 - r')).
  { apply Rmult_le_reg_r with (1 - r); [lra|]. unfold Rdiv at 1. rewrite Rmult_assoc, Rinv_l by lra.
    apply Rmult_le_reg_r with (1 - r'); [lra|]. replace (r' / (1 - r') * (1 - r) * (1 - r')) with (r' * (1 - r)) by (field; lra). lra. }
  split; [lra|]. intros b x SX. destruct (Q b x SX) as (Q0 & Q1 & Q2 & Q3).
  assert (RQ : r / (1 - r) * dotp (nr A) b x <= r' / (1 - r') * dotp (nr A) b x) by (apply Rmult_le_compat_r; assumption).
  split; [exact Q0|]. split; [lra|]. split; [lra|]. intros NZ R2. destruct (Q3 NZ ltac:(lra)) as (Q4 & Q5 & Q6). split; [exact Q4|]. split; [exact Q5|].
  assert (L2 : INR (nr A) * ln (1 - 2 * r') <= INR (nr A) * ln (1 - 2 * r)) by (apply Rmult_le_compat_l; [exact IN|apply ln_le_mono; lra]). lra.
Qed.
(** ** Double precision, up to 100 data and the default cond_max_target: r = 5% *)
Theorem C68_precon_double_precision :
  forall (o : gpopt) (d : gpdata) (condf : mat -> R) (hp : hpv) (noise : option vec) (varK : option R) (bn : bool) (vK : R) (calc_chofac calc_cond : bool),
  o_well o = Wprecon -> o_use_grad o = true -> (o_eta_const o = true -> o_eta_mtd o <> Edflt) -> o_target o <= 10 ^ 10 ->
  opts_ok o -> data_set o d -> hyper_ok o hp -> noise_arg_ok o d hp noise -> eff_varK hp varK bn = Some vK -> 0 < vK ->
  (d_n_data d <= 100)%nat ->
  exists out Kp p, calc_all_K_w_chofac o d condf (d_Rt d) hp noise calc_chofac calc_cond varK bn = Ok out /\
    k_Kprec out = Some Kp /\ (forall i, (i < d_n_data d)%nat -> 0 < p i) /\
    (forall i j, (i < d_n_data d)%nat -> (j < d_n_data d)%nat -> mat_at (k_Kcov out) i j = p i * p j * mat_at Kp i j) /\
    forall ar Kh ph, double_arith ar -> computed (/ 10 ^ 14) Kp Kh -> (forall i, (i < d_n_data d)%nat -> near (gam u64 2) (p i) (ph i)) ->
    exists c, cho_factor_fl ar Kh true = Ok c /\
      let cf := scale_rows_fl ar ph c in
      likelihood_accurate (k_Kcov out) (o_target o * (5 / 10 ^ 12)) (lndet_of cf) (cho_solve_fl ar cf).
Proof.
  intros o d condf hp noise varK bn vK cc cnd Hw Hu Hm Ht H5 H6 H7 H8 H9 H10 Hn.
  destruct (C68_precon_likelihood o d condf hp noise varK bn vK cc cnd Hw Hu Hm H5 H6 H7 H8 H9 H10) as (out & Kp & p & E1 & E2 & E3 & E4 & H).
  assert (T : 0 <= o_target o) by (destruct H5 as (_ & T & _); lra).
  exists out, Kp, p. repeat (split; [assumption|]). intros ar Kh ph HD HC HN.
  assert (SE := sol_err64 (d_n_data d) (o_target o) Hn T).
  assert (PR : precise u64 (/ 10 ^ 14) (o_target o) (d_n_data d)) by (apply precise64; [lia|lra]).
  destruct (H u64 (/ 10 ^ 14) ar Kh ph (double_arith_rounds ar HD) HC PR HN) as (c & E & HS); [lra|].
  exists c. split; [exact E|]. cbv zeta. eapply likelihood_mono; [| |exact HS]; [|lra]. split; [|exact SE].
  apply sol_err_nonneg; auto. apply u64_pos.
Qed.
Print Assumptions C68_precon_double_precision.

(** ** The hypotheses are met: two observations with correlation 1/2 in double precision; the residuals are not zero.
    (The hypotheses of the theorems about 'precon' are those of C67, see C66_precon_hypotheses_met.) *)
Example C68_hypotheses_met : forall tie, exists c, cho_factor_fl (double tie) fx_A true = Ok c /\
  likelihood_accurate fx_A (15 / 10 ^ 12) (lndet_of c) (cho_solve_fl (double tie) c) /\
  solves fx_A (fun i => if (i =? 0)%nat then 4 else 1) (fun i => if (i =? 0)%nat then 9 / 2 else 3) /\
  nonzero (nr fx_A) (fun i => if (i =? 0)%nat then 9 / 2 else 3).
Proof.
  intros tie. destruct (C66_C67_hypotheses_met tie) as (H1 & H2 & H3 & H4 & H5 & H6 & H7).
  destruct (plain_factor u64 (/ 10 ^ 14) 3 (double tie) fx_A fx_A true H1 H2 (or_introl H3) H4 H5) as (c & E & G).
  destruct (C66_factorisation_does_not_fail u64 (/ 10 ^ 14) 3 (double tie) fx_A fx_A true H1 H2 (or_introl H3) H4 H5) as (c1 & E' & _ & F1 & F2 & _).
  rewrite E in E'. injection E' as <-. exists c. split; [exact E|]. split; [|split; [exact H7|exists 0%nat; split; [cbn; lia|cbn; lra]]].
  assert (S0 : 0 <= sol_err u64 (/ 10 ^ 14) 3 (nr fx_A)) by (apply sol_err_nonneg; [apply (ro_u _ _ H1)|lra|exact H5]).
  apply (likelihood_mono _ (sol_err u64 (/ 10 ^ 14) 3 (nr fx_A))); [split; assumption|lra|]. eapply likelihood_of_factor; eauto. lra.
Qed.
