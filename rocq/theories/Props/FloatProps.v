(** * C66: the Cholesky factorisation in floating-point arithmetic

    Vocabulary: [Spec/FloatSpec.v] (arithmetic with rounding errors). *)
From Coq Require Import Reals List Arith Bool Lia Lra Psatz.
From Verif.Base Require Import NpLite NpFacts.
From Verif.Spec Require Import KernelSpec LinAlgSpec GpSpec FloatSpec.
From Verif.Model Require Import KernelSqExp KernelMatern KernelRatQuad KernelDispatch CommonFun WellCond Rescaling GpState Chol CholFl Cov.
From Verif.Proofs Require Import CovStruct StateFacts NoiseFacts LinAlg CholCorrect FlChol FlMargin FlSolve FlSol FlTarget Det CondBound NuggetCond NuggetMain CondMain.
From Verif.Props Require Import CondProps.
Import ListNotations.
Local Open Scope R_scope.

Lemma computed_margin e k A Ah u : 0 <= u -> pd A -> scaled_cond_le A k -> computed e A Ah -> precise u e k (nr A) ->
  symmetric Ah /\ (forall i, (i < nr Ah)%nat -> 0 < mat_at Ah i i) /\
  exists lam, 0 < lam /\ INR (nr Ah) * chol_err u (nr Ah) < lam /\ forall v, lam * rsum (nr Ah) (fun i => mat_at Ah i i * (v i * v i)) <= bform (nr Ah) (mat_at Ah) v v.
Proof.
  intros Hu HP HC (E1 & E2 & ES & EE) (He & HG7 & HK). assert (HG : gam u (nr A + 1) < 1) by (eapply Rle_lt_trans; [apply (gam_mono u (nr A + 1) (nr A + 7) Hu); lia|exact HG7]). assert (Esq := pd_square A HP). assert (CE := chol_err_nonneg u (nr A) Hu HG).
  split; [split; [congruence|intros; apply ES]|]. rewrite E1. set (n := nr A) in *.
  destruct (Nat.eq_dec n 0) as [Z|NZ].
  { rewrite Z. split; [intros i Hi; lia|]. exists 1. split; [lra|]. split; [cbn [INR]; lra|]. intros v. unfold bform. cbn [rsum]. lra. }
  assert (K1 : 1 <= k) by (apply (scaled_ge1 A); [unfold n in NZ; lia|exact HP|exact HC]).
  assert (IN : 1 <= INR n). { replace 1 with (INR 1) by reflexivity. apply le_INR. lia. }
  set (ce := chol_err u n) in *.
  assert (NE : INR n * e < / k).
  { apply Rmult_lt_reg_l with k; [lra|]. rewrite Rinv_r by lra. eapply Rle_lt_trans; [|exact HK]. apply Rmult_le_compat_l; [lra|]. apply Rmult_le_compat_l; [lra|]. nra. }
  assert (E1' : e < 1). { assert (/ k <= 1). { rewrite <- Rinv_1. apply Rinv_le_contravar; lra. } nra. }
  split.
  { intros i Hi. assert (X := EE i i Hi Hi). unfold size_ij in X. assert (P := pd_diag A i HP Hi). rewrite sqrt_sqrt in X by lra.
    assert (Y := Rle_abs (- (mat_at Ah i i - mat_at A i i))). rewrite Rabs_Ropp in Y. nra. }
  exists ((/ k - INR n * e) / (1 + e)).
  assert (LL : INR n * ce < (/ k - INR n * e) / (1 + e)).
  { apply Rmult_lt_reg_r with (1 + e); [lra|]. replace ((/ k - INR n * e) / (1 + e) * (1 + e)) with (/ k - INR n * e) by (field; lra).
    apply Rmult_lt_reg_l with k; [lra|]. rewrite Rmult_minus_distr_l, Rinv_r by lra. lra. }
  assert (0 <= INR n * ce) by (apply Rmult_le_pos; lra).
  split; [lra|]. split; [exact LL|]. intros v.
  apply (margin_perturb n (mat_at A)); auto.
  - intros i Hi. apply pd_diag; assumption.
  - lra.
  - assert (X := HC v). rewrite len_sq, qform_bform in X by (try exact Esq; intros; apply pd_diag; assumption). fold n in X. apply Rmult_le_reg_l with k; [lra|]. rewrite <- Rmult_assoc, Rinv_r, Rmult_1_l by lra. exact X.
Qed.

(** ** Every positive definite matrix whose condition number the precision allows is factored, whatever the roundings,
    also when its entries carry errors; the product of the factors is the matrix up to n roundings.
    What counts is the condition number after scaling to unit diagonal. *)
Theorem C66_factorisation_does_not_fail : forall (u e k : R) (ar : arith) (A Ah : mat) (lower : bool),
  rounds u ar -> pd A -> (cond2_le A k \/ scaled_cond_le A k) -> computed e A Ah -> precise u e k (nr A) ->
  exists c, cho_factor_fl ar Ah lower = Ok c /\ snd c = lower /\ nr (fst c) = nr A /\ nc (fst c) = nr A /\
    (forall i, (i < nr A)%nat -> 0 < mat_at (fst c) i i) /\
    forall i j, (i < nr A)%nat -> (j < nr A)%nat ->
      Rabs (rsum (nr A) (fun k => low (chol_read c) i k * low (chol_read c) j k) - mat_at Ah i j) <= chol_err u (nr A) * size_ij Ah i j.
Proof.
  intros u e k ar A Ah lower RO HP HC0 HE HR. assert (Hu := ro_u _ _ RO).
  assert (HC : scaled_cond_le A k) by (destruct HC0; [apply cond2_scaled|]; assumption).
  destruct (computed_margin e k A Ah u Hu HP HC HE HR) as (SY & DP & lam & _ & HL & HM). destruct HE as (E1 & _). destruct HR as (He & HG7 & _).
  assert (HG : gam u (nr A + 1) < 1) by (eapply Rle_lt_trans; [apply (gam_mono u (nr A + 1) (nr A + 7) Hu); lia|exact HG7]).
  rewrite <- E1 in *.
  destruct (factor_fl_ok u ar Ah lower lam RO SY HG HL DP HM) as (c & EC & S1 & R1 & C1 & D1 & O1).
  exists c. repeat (split; [assumption|]). split.
  - intros i Hi. destruct (D1 i Hi) as (P & _). unfold chol_read in P. destruct (snd c); exact P.
  - intros i j Hi Hj. apply (product_err (nr Ah) (gam u (nr Ah + 1))); auto.
    + intros a b Ha Hb. destruct SY as (_ & S). apply S; assumption.
    + split; [apply gam_nonneg, Hu|exact HG].
Qed.
Print Assumptions C66_factorisation_does_not_fail.

(** a multiple has the same condition number *)
Lemma cond2_le_scal A B c k : 0 < c -> nr B = nr A -> nc B = nc A -> (forall i j, (i < nr A)%nat -> (j < nc A)%nat -> mat_at B i j = c * mat_at A i j) ->
  cond2_le A k -> cond2_le B k.
Proof.
  intros Hc E1 E2 E (S1 & P1 & C1). assert (MV : forall x, nrm (nr A) (mv B x) = c * nrm (nr A) (mv A x)).
  { intros x. unfold nrm. replace c with (sqrt (c * c)) at 1 by (apply sqrt_square; lra). rewrite <- sqrt_mult_alt by nra. f_equal.
    unfold dotp. rewrite <- rsum_scal. apply rsum_ext; intros i Hi. assert (X : mv B x i = c * mv A x i).
    { unfold mv. rewrite E2, <- rsum_scal. apply rsum_ext; intros j Hj. rewrite E by assumption. ring. }
    rewrite X. ring. }
  split; [congruence|]. rewrite E1. split.
  - intros y Hy. rewrite MV. apply Rmult_lt_0_compat; [exact Hc|apply P1, Hy].
  - intros x y. rewrite !MV. assert (X := C1 x y). apply Rmult_le_compat_l with (r := c) in X; lra.
Qed.

Lemma precon_target :
  forall (o : gpopt) (d : gpdata) (condf : mat -> R) (hp : hpv) (noise : option vec) (varK : option R) (bn : bool) (vK : R) (calc_chofac calc_cond : bool),
  o_well o = Wprecon -> o_use_grad o = true -> (o_eta_const o = true -> o_eta_mtd o <> Edflt) ->
  opts_ok o -> data_set o d -> hyper_ok o hp -> noise_arg_ok o d hp noise -> eff_varK hp varK bn = Some vK -> 0 < vK ->
  exists out Kp p, calc_all_K_w_chofac o d condf (d_Rt d) hp noise calc_chofac calc_cond varK bn = Ok out /\
    k_Kprec out = Some Kp /\ pd Kp /\ pd (k_Kcov out) /\ nr Kp = d_n_data d /\ nr (k_Kcov out) = d_n_data d /\
    (forall i, (i < d_n_data d)%nat -> 0 < p i) /\
    (forall i j, (i < d_n_data d)%nat -> (j < d_n_data d)%nat -> mat_at (k_Kcov out) i j = p i * p j * mat_at Kp i j) /\
    scaled_cond_le Kp (o_target o).
Proof.
  intros o d condf hp noise varK bn vK cc cnd Hw Hu Hm H5 H6 H7 H8 H9 H10. assert (RD := ready o d H5 H6).
  assert (EC : d_n_data d = cN o d) by apply (wf_n _ _ (gr_wf _ _ RD)). rewrite EC.
  destruct (rok_ex _ _ (precon_shares o d hp RD H7 condf noise cc cnd varK bn vK H8 H9 H10 Hw Hu Hm)) as (out & EO & Kp & p & D & I1 & I2 & I3 & I4 & I5 & I6 & I7 & I8 & _).
  exists out, Kp, p. split; [exact EO|]. split; [exact I1|]. split; [exact I3|]. split; [exact I8|]. split; [exact I2|]. split; [apply I7|]. auto.
Qed.

(** ** The matrix that is factored with 'precon' (constant nugget, or nugget from the row sums): for every data set, all
    hyperparameters and any noise, its factorisation succeeds when the precision allows cond_max_target; and so would
    that of Kcov itself. *)
Theorem C66_precon_never_fails :
  forall (o : gpopt) (d : gpdata) (condf : mat -> R) (hp : hpv) (noise : option vec) (varK : option R) (bn : bool) (vK : R) (calc_chofac calc_cond : bool),
  o_well o = Wprecon -> o_use_grad o = true -> (o_eta_const o = true -> o_eta_mtd o <> Edflt) ->
  opts_ok o -> data_set o d -> hyper_ok o hp -> noise_arg_ok o d hp noise -> eff_varK hp varK bn = Some vK -> 0 < vK ->
  exists out Kp, calc_all_K_w_chofac o d condf (d_Rt d) hp noise calc_chofac calc_cond varK bn = Ok out /\
    k_Kprec out = Some Kp /\ nr Kp = d_n_data d /\
    forall u e ar Kh lower, rounds u ar -> computed e Kp Kh \/ computed e (k_Kcov out) Kh -> precise u e (o_target o) (d_n_data d) ->
    exists c, cho_factor_fl ar Kh lower = Ok c.
Proof.
  intros o d condf hp noise varK bn vK cc cnd Hw Hu Hm H5 H6 H7 H8 H9 H10.
  destruct (precon_target o d condf hp noise varK bn vK cc cnd Hw Hu Hm H5 H6 H7 H8 H9 H10) as (out & Kp & p & EO & EP & PD1 & PD2 & EN1 & EN2 & Pp & EA & CM).
  exists out, Kp. split; [exact EO|]. split; [exact EP|]. split; [exact EN1|]. intros u e ar Kh lower RO [CE|CE] PR.
  - rewrite <- EN1 in PR. destruct (C66_factorisation_does_not_fail u e (o_target o) ar Kp Kh lower RO PD1 (or_intror CM) CE PR) as (c & EC & _). eauto.
  - rewrite <- EN2 in PR, Pp, EA. assert (S1 := pd_square _ PD1). assert (S2 := pd_square _ PD2).
    assert (SC : scaled_cond_le (k_Kcov out) (o_target o)) by (apply (scaled_cond_diag (k_Kcov out) Kp p); auto; try congruence).
    destruct (C66_factorisation_does_not_fail u e (o_target o) ar (k_Kcov out) Kh lower RO PD2 (or_intror SC) CE PR) as (c & EC & _). eauto.
Qed.
Print Assumptions C66_precon_never_fails.

Lemma plain_target :
  forall (o : gpopt) (d : gpdata) (condf : mat -> R) (hp : hpv) (noise : option vec) (varK : option R) (bn : bool) (vK : R) (calc_chofac calc_cond : bool),
  o_well o <> Wprecon -> (o_eta_const o = false \/ (o_use_grad o = false /\ o_eta_mtd o <> Edflt)) ->
  opts_ok o -> data_set o d -> hyper_ok o hp -> noise_arg_ok o d hp noise -> eff_varK hp varK bn = Some vK -> 0 < vK ->
  exists out, calc_all_K_w_chofac o d condf (d_Rt d) hp noise calc_chofac calc_cond varK bn = Ok out /\ nr (k_Kcov out) = d_n_data d /\ pd (k_Kcov out) /\ scaled_cond_le (k_Kcov out) (o_target o).
Proof.
  intros o d condf hp noise varK bn vK cc cnd Hw Hm H5 H6 H7 H8 H9 H10. assert (RD := ready o d H5 H6).
  assert (EC : d_n_data d = cN o d) by apply (wf_n _ _ (gr_wf _ _ RD)). rewrite EC.
  destruct (rok_ex _ _ (plain_scaled o d hp RD H7 condf noise cc cnd varK bn vK H8 H9 H10 Hw Hm)) as (out & EO & I1 & I2 & I3). eauto.
Qed.
(** The same without preconditioning, with the nugget from the row sums or a gradient-free model; noise can be of any size. *)
Theorem C66_plain_never_fails :
  forall (o : gpopt) (d : gpdata) (condf : mat -> R) (hp : hpv) (noise : option vec) (varK : option R) (bn : bool) (vK : R) (calc_chofac calc_cond : bool),
  o_well o <> Wprecon -> (o_eta_const o = false \/ (o_use_grad o = false /\ o_eta_mtd o <> Edflt)) ->
  opts_ok o -> data_set o d -> hyper_ok o hp -> noise_arg_ok o d hp noise -> eff_varK hp varK bn = Some vK -> 0 < vK ->
  exists out, calc_all_K_w_chofac o d condf (d_Rt d) hp noise calc_chofac calc_cond varK bn = Ok out /\ nr (k_Kcov out) = d_n_data d /\
    forall u e ar Kh lower, rounds u ar -> computed e (k_Kcov out) Kh -> precise u e (o_target o) (d_n_data d) ->
    exists c, cho_factor_fl ar Kh lower = Ok c.
Proof.
  intros o d condf hp noise varK bn vK cc cnd Hw Hm H5 H6 H7 H8 H9 H10.
  destruct (plain_target o d condf hp noise varK bn vK cc cnd Hw Hm H5 H6 H7 H8 H9 H10) as (out & EO & EN & PD & CM).
  exists out. split; [exact EO|]. split; [exact EN|]. intros u e ar Kh lower RO CE PR. rewrite <- EN in PR.
  destruct (C66_factorisation_does_not_fail u e (o_target o) ar (k_Kcov out) Kh lower RO PD (or_intror CM) CE PR) as (c & EC & _). eauto.
Qed.
Print Assumptions C66_plain_never_fails.
