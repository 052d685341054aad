(** * C71: the mean and the log-likelihood in floating-point arithmetic

    Vocabulary: [Spec/FloatSpec.v], [Spec/FloatKernSpec.v], [Spec/FloatLkdSpec.v]; [lkd_matrix] is the matrix of C23. *)
From Coq Require Import Reals List Arith ZArith Bool Lia Lra Psatz.
From Verif.Base Require Import NpLite NpFacts.
From Verif.Spec Require Import KernelSpec LinAlgSpec GpSpec DataSpec LkdSpec EvalSpec FloatSpec FloatKernSpec FloatLkdSpec.
From Verif.Model Require Import KernelSqExp KernelMatern KernelRatQuad KernelDispatch CommonFun WellCond Rescaling GpState Chol CholFl Cov EvalModel EvalFl Lkd KernFl LkdFl.
From Verif.Proofs Require Import CovStruct StateFacts NoiseFacts LinAlg CholCorrect FlChol FlMargin FlSolve FlSol FlTarget FlEval FlFac FlKern FlCov FlCovMain FlPred FlOrder FlLkd Det NuggetCond NuggetMain CondMain LkdCore LkdFacts EvalKern.
From Verif.Props Require Import CondProps DataProps HpGradProps LkdProps EvalProps EvalProps2 FloatProps FloatProps2 FloatProps3 FloatProps4 FloatProps5 FloatKernProps FloatKernProps2 FloatKernProps3.
Import ListNotations.
Local Open Scope R_scope.

(** The computed mean and log-likelihood: [b0] and [L] are the exact ones, best over all means; [y2] and [h2] the weighted sums of squares
    of the data and of the basis (ones for the function values, zeros for the derivatives). *)
Definition likelihood_computed (o : gpopt) (d : gpdata) (A : mat) (u r : R) (m : machine) (c : mat * bool) : Prop :=
  let k := o_target o in let h := basis d in let y := vat (ydata d) in
  exists b0 L y2 h2, best_likelihood A (gp_residual o d) b0 L /\ weighted_square A (gp_residual o d 0) y2 /\ weighted_square A h h2 /\ 0 < h2 /\
    Rabs (beta_fl m c h y - b0) * sqrt h2 <= beta_acc u r k (nr A) * sqrt y2 /\
    Rabs (lkd_fl m c h y - L) <= lkd_acc u r k A y2 L.

Lemma likelihood_from o d hp A u r t m c : lkd_input o d hp -> machine_rounds u m ->
  nr A = d_n_data d -> scaled_cond_le A (o_target o) ->
  pd A -> nr (fst c) = nr A -> 0 <= r < 1 -> prod_acc u r (o_target o) (nr A) < 1 -> good_factor A r t (m_ar m) c ->
  likelihood_computed o d A u r m c.
Proof.
  intros HI Hm EA HC HP EN Hr P1 (G1 & _ & _ & G4). specialize (G4 (proj2 Hr)).
  assert (CN : d_n_data d = cN o d) by (apply (li_N o d hp HI)). assert (T : 0 <= o_target o) by (destruct HI as ((_ & T & _) & _); lra).
  assert (RD := li_ready o d hp HI).
  set (h := basis d). set (y := vat (ydata d)). unfold likelihood_computed. cbv zeta. fold h y.
  assert (RS : forall b i, (i < nr A)%nat -> gp_residual o d b i = y i - b * h i).
  { intros b i Hi. rewrite (li_res o d hp HI b i) by congruence. unfold gres. fold h y. ring. }
  destruct (solution_of A h HP) as (xh & Sh). destruct (solution_of A y HP) as (xy & Sy).
  assert (NZ : nonzero (nr A) h) by (unfold h; rewrite EA, CN; apply (basis_nz o d RD)).
  exists (dotp (nr A) y xh / dotp (nr A) h xh), (- (ln (det (nr A) (mat_at A)) + qb A h y xh xy (dotp (nr A) y xh / dotp (nr A) h xh)) / 2), (dotp (nr A) y xy), (dotp (nr A) h xh).
  split; [apply (best_lkd A HP h y xh xy Sh Sy NZ); exact RS|].
  split. { exists xy. split; [eapply solves_eq; [exact Sy|]; intros i Hi; rewrite RS by exact Hi; ring|]. unfold dotp. apply rsum_ext; intros i Hi. rewrite RS by exact Hi. ring. }
  split; [exists xh; split; [exact Sh|reflexivity]|].
  assert (PH := H_pos A HP h xh Sh NZ). assert (E2 := HH A HP h xh Sh). assert (E3 := YY A HP y xy Sy).
  assert (S2 : sqrt (dotp (nr A) h xh) = energy A xh) by (rewrite <- E2; apply sqrt_square; lra).
  assert (S3 : sqrt (dotp (nr A) y xy) = energy A xy) by (rewrite <- E3; apply sqrt_square, energy_nonneg).
  split; [rewrite <- E2; apply Rmult_lt_0_compat; exact PH|]. split.
  - rewrite S2, S3. apply (beta_err u r (o_target o) m A c Hm HP EN HC T Hr G1 h y xh xy Sh Sy NZ P1).
  - apply (lkd_err u r (o_target o) m A c Hm HP EN HC T Hr G1 h y xh xy Sh Sy NZ P1 G4).
Qed.

(** ** For all data, hyperparameters and noise: the exact likelihood is that of the exact covariance matrix (C23), the computed one
    goes through the computed noisy covariance matrix, preconditioner, factor, mean, residuals and solution.  [nz] are the noise
    variances up to one rounding; the data, the scaled points and the hyperparameters are exact. *)
Theorem C71_precon_likelihood :
  forall (o : gpopt) (d : gpdata) (condf : mat -> R) (hp : hpv) (cnd : bool) (vK u : R) (m : machine),
  o_well o = Wprecon -> (o_eta_const o = true -> o_eta_mtd o <> Edflt) -> o_kernel o <> RatQu ->
  lkd_input o d hp -> d_noisy d = true -> hp_varK hp = Some vK ->
  machine_rounds u m -> (1 + u) ^ (o_dim o + 5) <= 11 / 10 ->
  let n := d_n_data d in let e := precon_err u o n in let r := sol_err u e (o_target o) n in
  precise u e (o_target o) n -> r < 1 -> prod_acc u r (o_target o) n < 1 ->
  exists A nv, lkd_matrix o d condf cnd hp = Ok A /\ nr A = n /\ pd A /\ calc_noise_vec o d hp = Ok nv /\
    forall nz, (forall i, (i < n)%nat -> near u (vat nv i) (nz i)) ->
    exists c, chofac_fl m o d hp nz vK = Ok c /\ likelihood_computed o d A u r m c.
Proof.
  intros o d condf hp cnd vK u m Hw Hm0 Hk HI NZ EV Hm HG n e r PR R1 P1. assert (HI' := HI). destruct HI' as (H1 & H2 & H3 & H4 & _ & _ & H7).
  destruct (H7 NZ) as (vK' & EV' & Vp). rewrite EV in EV'. injection EV' as <-. assert (RD := ready o d H1 H2). assert (NA := li_noise o d hp HI).
  assert (EVK : eff_varK hp None false = Some vK) by (unfold eff_varK; rewrite EV; reflexivity).
  destruct (noise_vector o d hp RD H4 None NA) as (nv & EN & _).
  destruct (rok_ex _ _ (call_precon o d condf hp None true cnd None false vK RD H4 NA EVK Vp Hw (H3 Hw))) as (out & EO & _).
  exists (k_Kcov out), nv. unfold lkd_matrix. rewrite NZ. unfold Kcov_of. rewrite EO. cbn [bind].
  assert (T : 1 < o_target o) by (destruct H1 as (_ & T & _); lra).
  assert (Z : forall nz, (forall i, (i < n)%nat -> near u (vat nv i) (nz i)) -> nr (k_Kcov out) = n /\ pd (k_Kcov out) /\ exists c, chofac_fl m o d hp nz vK = Ok c /\ likelihood_computed o d (k_Kcov out) u r m c).
  { intros nz HZ. destruct (precon_chofac o d condf hp None None false vK true cnd u m out nv nz H1 H2 H4 NA EVK Vp Hk Hm HG EO EN HZ Hw (H3 Hw) Hm0 PR) as (c & C1 & C2 & C3 & C4 & C5 & C6 & D & C7 & C8).
    split; [exact C4|]. split; [exact C5|]. exists c. split; [exact C1|]. apply (likelihood_from o d hp (k_Kcov out) u r (sys_err u e n)); auto; try (rewrite C4; assumption).
    - apply (share_scaled n _ _ D _ C7 C5); [lra| |exact C8]. intros v. rewrite bform_mscal. apply Rmult_le_pos; [lra|]. unfold n. rewrite (li_N o d hp HI). apply ckf_psd, H4.
    - split; [apply sol_err_nonneg; [apply (ro_u _ _ (mr_ar _ _ Hm))|lra|exact PR]|exact R1]. }
  split; [reflexivity|]. assert (Z0 := fun H => Z (vat nv) H). split; [|split; [|split; [exact EN|intros nz HZ; apply (Z nz HZ)]]];
  apply Z0; intros i Hi; assert (0 <= u * Rabs (vat nv i)) by (apply Rmult_le_pos; [apply (ro_u _ _ (mr_ar _ _ Hm))|apply Rabs_pos]); split; rewrite Rminus_diag_eq, Rabs_R0 by reflexivity; assumption.
Qed.
Print Assumptions C71_precon_likelihood.
Theorem C71_plain_likelihood :
  forall (o : gpopt) (d : gpdata) (condf : mat -> R) (hp : hpv) (cnd : bool) (vK u : R) (m : machine),
  o_well o <> Wprecon -> (o_eta_const o = false \/ (o_use_grad o = false /\ o_eta_mtd o <> Edflt)) -> o_kernel o <> RatQu ->
  lkd_input o d hp -> d_noisy d = true -> hp_varK hp = Some vK ->
  machine_rounds u m -> (1 + u) ^ (o_dim o + 5) <= 11 / 10 ->
  let n := d_n_data d in let e := plain_err u o n in let r := sol_err u e (o_target o) n in
  precise u e (o_target o) n -> r < 1 -> prod_acc u r (o_target o) n < 1 ->
  exists A nv, lkd_matrix o d condf cnd hp = Ok A /\ nr A = n /\ pd A /\ calc_noise_vec o d hp = Ok nv /\
    forall nz, (forall i, (i < n)%nat -> near u (vat nv i) (nz i)) ->
    exists c, chofac_fl m o d hp nz vK = Ok c /\ likelihood_computed o d A u r m c.
Proof.
  intros o d condf hp cnd vK u m Hw Hm0 Hk HI NZ EV Hm HG n e r PR R1 P1. assert (HI' := HI). destruct HI' as (H1 & H2 & H3 & H4 & _ & _ & H7).
  destruct (H7 NZ) as (vK' & EV' & Vp). rewrite EV in EV'. injection EV' as <-. assert (RD := ready o d H1 H2). assert (NA := li_noise o d hp HI).
  assert (EVK : eff_varK hp None false = Some vK) by (unfold eff_varK; rewrite EV; reflexivity).
  destruct (noise_vector o d hp RD H4 None NA) as (nv & EN & _).
  destruct (rok_ex _ _ (call_plain o d condf hp None true cnd None false vK RD H4 NA EVK Vp Hw)) as (out & EO & _).
  exists (k_Kcov out), nv. unfold lkd_matrix. rewrite NZ. unfold Kcov_of. rewrite EO. cbn [bind].
  assert (T : 1 < o_target o) by (destruct H1 as (_ & T & _); lra).
  assert (Z : forall nz, (forall i, (i < n)%nat -> near u (vat nv i) (nz i)) -> nr (k_Kcov out) = n /\ pd (k_Kcov out) /\ exists c, chofac_fl m o d hp nz vK = Ok c /\ likelihood_computed o d (k_Kcov out) u r m c).
  { intros nz HZ. destruct (plain_chofac o d condf hp None None false vK true cnd u m out nv nz H1 H2 H4 NA EVK Vp Hk Hm HG EO EN HZ Hw Hm0 PR) as (c & C1 & C2 & C3 & C4 & C5 & C6 & D & C7 & C8).
    split; [exact C4|]. split; [exact C5|]. exists c. split; [exact C1|]. apply (likelihood_from o d hp (k_Kcov out) u r (sys_err u e n)); auto; try (rewrite C4; assumption).
    - apply (share_scaled n _ _ D _ C7 C5); [lra| |exact C8]. intros v. rewrite bform_mscal. apply Rmult_le_pos; [lra|]. unfold n. rewrite (li_N o d hp HI). apply ckf_psd, H4.
    - split; [apply sol_err_nonneg; [apply (ro_u _ _ (mr_ar _ _ Hm))|lra|exact PR]|exact R1]. }
  split; [reflexivity|]. assert (Z0 := fun H => Z (vat nv) H). split; [|split; [|split; [exact EN|intros nz HZ; apply (Z nz HZ)]]];
  apply Z0; intros i Hi; assert (0 <= u * Rabs (vat nv i)) by (apply Rmult_le_pos; [apply (ro_u _ _ (mr_ar _ _ Hm))|apply Rabs_pos]); split; rewrite Rminus_diag_eq, Rabs_R0 by reflexivity; assumption.
Qed.
Print Assumptions C71_plain_likelihood.

(** ** Double precision *)
Section N.
Variables (n : nat) (e k s : R).
Hypothesis Hn : (n <= 100)%nat.
Hypothesis He : 0 <= e <= / 10 ^ 10.
Hypothesis Hk : 1 <= k.
Hypothesis HE : k * (e + 4 / 10 ^ 14) <= s.
Hypothesis Hs : s <= / 10 ^ 3.
Notation r := (sol_err u64 e k n).
Let HE' : k * (e + 4 / 10 ^ 14) <= / 10 ^ 3. Proof. lra. Qed.
Let R : 0 <= r <= 100 * s. Proof. assert (X := sol_num n e k Hn He Hk). split; [apply X|]. eapply Rle_trans; [apply X|]. lra. Qed.
Let I9 : INR 100 = 100. Proof. rewrite INR_IZR_INZ. reflexivity. Qed.
Let IN : 0 <= INR n <= 100. Proof. split; [apply pos_INR|]. rewrite <- I9. apply le_INR, Hn. Qed.
Let KS : k * (4 / 10 ^ 14) <= s. Proof. eapply Rle_trans; [|exact HE]. apply Rmult_le_compat_l; lra. Qed.
Let G : 0 <= gam u64 (n + 3) <= 1144 / 10 ^ 17.
Proof.
  destruct (gam_num (n + 3) ltac:(lia)) as (G0 & G1). rewrite plus_INR in G1. replace (INR 3) with 3 in G1 by (rewrite INR_IZR_INZ; reflexivity).
  split; [exact G0|]. eapply Rle_trans; [exact G1|]. lra.
Qed.
Let G3 : 0 <= gam u64 3 <= 34 / 10 ^ 17.
Proof. destruct (gam_num 3 ltac:(lia)) as (G0 & G1). rewrite INR_IZR_INZ in G1. cbn [Z.of_nat Pos.of_succ_nat Pos.succ] in G1. split; [exact G0|]. lra. Qed.
Notation a := (sqrt (INR n * k)).
Let A : 0 <= a <= 10 * k.
Proof.
  split; [apply sqrt_pos|]. rewrite <- (sqrt_square (10 * k)) by lra. apply sqrt_le_1_alt. assert (INR n * k <= 100 * k) by (apply Rmult_le_compat_r; lra). assert (1 * k <= k * k) by (apply Rmult_le_compat_r; lra). lra.
Qed.
Notation p := (prod_acc u64 r k n).
Lemma prod_acc_num : 0 <= p <= 115 * s.
Proof.
  unfold prod_acc. assert (X : 0 <= a * gam u64 (n + 3) <= 10 * k * (1144 / 10 ^ 17)) by (split; [apply Rmult_le_pos; lra|apply Rmult_le_compat; lra]).
  destruct (frac_num n e k Hn He Hk HE' (r + a * gam u64 (n + 3)) (103 * s)); lra.
Qed.
Lemma beta_acc_num : 0 <= beta_acc u64 r k n <= 260 * s.
Proof.
  assert (P := prod_acc_num). unfold beta_acc. cbv zeta. set (q := p) in *. split; [apply Rmult_le_pos; [lra|]; left; apply Rinv_0_lt_compat; lra|].
  apply Rmult_le_reg_r with (1 - q); [lra|]. unfold Rdiv. rewrite Rmult_assoc, Rinv_l, Rmult_1_r by lra.
  assert (260 * s * (885 / 1000) <= 260 * s * (1 - q)) by (apply Rmult_le_compat_l; lra). lra.
Qed.
Lemma quad_acc_num : 0 <= quad_acc u64 r k n <= 260 * s.
Proof.
  assert (P := prod_acc_num). assert (B := beta_acc_num). unfold quad_acc. cbv zeta. set (q := p) in *. set (c := beta_acc u64 r k n) in *.
  assert (AG : 0 <= a * gam u64 3 <= 10 * k * (34 / 10 ^ 17)) by (split; [apply Rmult_le_pos; lra|apply Rmult_le_compat; lra]).
  assert (AG2 : 0 <= a * gam u64 3 <= s * (86 / 1000)) by lra.
  set (ep := a * gam u64 3 * (2 + c)). assert (EP : 0 <= ep <= s * (86 / 1000) * (226 / 100)) by (unfold ep; split; [apply Rmult_le_pos; lra|apply Rmult_le_compat; lra]).
  assert (SQ : 0 <= (1 + c + ep) ^ 2 <= 15888 / 10000). { cbn [pow]. rewrite Rmult_1_r. split; [apply Rmult_le_pos; lra|]. apply Rle_trans with (12604 / 10000 * (12604 / 10000)); [apply Rmult_le_compat; lra|lra]. }
  assert (T1 : 0 <= q * (1 + c + ep) ^ 2 <= 115 * s * (15888 / 10000)) by (split; [apply Rmult_le_pos; lra|apply Rmult_le_compat; lra]).
  assert (T2 : 0 <= c ^ 2 <= 260 * s * (26 / 100)) by (cbn [pow]; rewrite Rmult_1_r; split; [apply Rmult_le_pos; lra|apply Rmult_le_compat; lra]).
  assert (T3 : 0 <= ep * (2 * (1 + c) + ep) <= s * (2 / 10) * 3) by (split; [apply Rmult_le_pos; lra|apply Rmult_le_compat; lra]).
  lra.
Qed.
Lemma ln_le_sub x : 0 < x -> ln x <= x - 1.
Proof. intros Hx. assert (X := exp_ineq1_le (ln x)). rewrite exp_ln in X by exact Hx. lra. Qed.
Lemma det_acc_num M : nr M = n -> det_acc u64 r k M <= 11500 * s + 12 / 10 ^ 15 * rsum n (fun i => Rabs (ln (mat_at M i i))).
Proof.
  intros EM. unfold det_acc. cbv zeta. rewrite EM. set (S := rsum n _). assert (S0 : 0 <= S) by (apply rsum_nonneg; intros; apply Rabs_pos).
  assert (L1 : 0 <= - ln (1 - r) <= 112 * s).
  { assert (Z := ln_le_sub (1 - r) ltac:(lra)). split; [lra|]. rewrite <- ln_Rinv by lra. eapply Rle_trans; [apply ln_le_sub, Rinv_0_lt_compat; lra|].
    replace (/ (1 - r) - 1) with (r / (1 - r)) by (field; lra). destruct (frac_num n e k Hn He Hk HE' r (100 * s) R). lra. }
  assert (L2 := ln_le_sub k ltac:(lra)). assert (L0 : 0 <= ln k). { rewrite <- ln_1. destruct (Rle_lt_or_eq_dec 1 k Hk) as [X|<-]; [left; apply ln_increasing; lra|lra]. }
  set (l := - ln (1 - r)) in *. replace (- (INR n * ln (1 - r))) with (INR n * l) by (unfold l; ring). replace (ln k - ln (1 - r)) with (ln k + l) by (unfold l; ring).
  assert (N1 : 0 <= INR n * l <= 100 * (112 * s)) by (split; [apply Rmult_le_pos; lra|apply Rmult_le_compat; lra]).
  assert (N2 : 0 <= INR n * (ln k + l) <= 100 * k) by (split; [apply Rmult_le_pos; lra|apply Rmult_le_compat; lra]).
  rewrite Rmult_plus_distr_l. assert (T1 : gam u64 (n + 3) * S <= 12 / 10 ^ 15 * S) by (apply Rmult_le_compat_r; lra).
  assert (T2 : gam u64 (n + 3) * (INR n * (ln k + l)) <= 1144 / 10 ^ 17 * (100 * k)) by (apply Rmult_le_compat; lra). lra.
Qed.
End N.

(** The computed mean is right up to 260 [s], the computed log-likelihood up to half of [s] (11500 + 260 y2) plus rounding errors of the
    numbers themselves; [s] is cond_max_target times the precision. *)
Definition likelihood_double (o : gpopt) (d : gpdata) (A : mat) (s : R) (m : machine) (c : mat * bool) : Prop :=
  let h := basis d in let y := vat (ydata d) in
  exists b0 L y2 h2, best_likelihood A (gp_residual o d) b0 L /\ weighted_square A (gp_residual o d 0) y2 /\ weighted_square A h h2 /\ 0 < h2 /\
    Rabs (beta_fl m c h y - b0) * sqrt h2 <= 260 * s * sqrt y2 /\
    let D := (s * (11500 + 260 * y2) + 12 / 10 ^ 15 * rsum (nr A) (fun i => Rabs (ln (mat_at A i i)))) / 2 in
    Rabs (lkd_fl m c h y - L) <= D + 3 / 10 ^ 16 * (Rabs L + D).
Lemma weighted_nonneg A b q : pd A -> weighted_square A b q -> 0 <= q.
Proof. intros HP (x & Sx & ->). rewrite <- (bform_solves A x x b HP Sx). apply psd_of, HP. Qed.
Lemma likelihood_num o d A e s m c : pd A -> (nr A <= 100)%nat -> 0 <= e <= / 10 ^ 10 -> 1 <= o_target o -> o_target o * (e + 4 / 10 ^ 14) <= s -> s <= / 10 ^ 3 ->
  likelihood_computed o d A u64 (sol_err u64 e (o_target o) (nr A)) m c -> likelihood_double o d A s m c.
Proof.
  intros HP Hn He Hk HE Hs (b0 & L & y2 & h2 & B1 & B2 & B3 & B4 & B5 & B6). exists b0, L, y2, h2.
  split; [exact B1|]. split; [exact B2|]. split; [exact B3|]. split; [exact B4|]. assert (Y0 := weighted_nonneg A _ y2 HP B2). split.
  - eapply Rle_trans; [exact B5|]. apply Rmult_le_compat_r; [apply sqrt_pos|]. apply (beta_acc_num (nr A) e (o_target o) s); assumption.
  - eapply Rle_trans; [exact B6|]. unfold lkd_acc. cbv zeta. assert (Q := quad_acc_num (nr A) e (o_target o) s Hn He Hk HE Hs). assert (T := det_acc_num (nr A) e (o_target o) s Hn He Hk HE Hs A eq_refl).
    set (S := rsum (nr A) _) in *. set (q := quad_acc _ _ _ _) in *. set (t := det_acc _ _ _ _) in *. assert (QY : q * y2 <= 260 * s * y2) by (apply Rmult_le_compat_r; lra).
    set (D := (t + q * y2) / 2). set (D' := (s * (11500 + 260 * y2) + 12 / 10 ^ 15 * S) / 2). assert (DD : D <= D') by (unfold D, D'; lra).
    destruct (gam_num 2 ltac:(lia)) as (G0 & G1). rewrite INR_IZR_INZ in G1. cbn [Z.of_nat Pos.of_succ_nat Pos.succ] in G1. assert (L0 := Rabs_pos L).
    assert (S0 : 0 <= S) by (apply rsum_nonneg; intros; apply Rabs_pos). assert (s0 : 0 <= s) by (assert (0 <= o_target o * (e + 4 / 10 ^ 14)) by (apply Rmult_le_pos; lra); lra).
    assert (D0 : 0 <= D') by (unfold D'; assert (0 <= s * (11500 + 260 * y2)) by (apply Rmult_le_pos; lra); lra).
    assert (gam u64 2 * (Rabs L + D) <= 3 / 10 ^ 16 * (Rabs L + D')). { apply Rle_trans with (gam u64 2 * (Rabs L + D')); [apply Rmult_le_compat_l; lra|apply Rmult_le_compat_r; lra]. } lra.
Qed.
Theorem C71_precon_double_likelihood :
  forall (o : gpopt) (d : gpdata) (condf : mat -> R) (hp : hpv) (cnd : bool) (vK : R),
  o_well o = Wprecon -> (o_eta_const o = true -> o_eta_mtd o <> Edflt) -> o_kernel o <> RatQu ->
  10 ^ 5 <= o_target o <= 10 ^ 10 -> (o_dim o <= 20)%nat -> (d_n_data d <= 100)%nat ->
  lkd_input o d hp -> d_noisy d = true -> hp_varK hp = Some vK ->
  exists A nv, lkd_matrix o d condf cnd hp = Ok A /\ calc_noise_vec o d hp = Ok nv /\
    forall m nz, double_machine m -> (forall i, (i < d_n_data d)%nat -> near u64 (vat nv i) (nz i)) ->
    exists c, chofac_fl m o d hp nz vK = Ok c /\ likelihood_double o d A (o_target o * (75 / 10 ^ 15)) m c.
Proof.
  intros o d condf hp cnd vK Hw Hm0 Hk Ht Hd Hn HI NZ EV.
  assert (I1 : INR 100 = 100) by (rewrite INR_IZR_INZ; reflexivity). assert (IN : INR (d_n_data d) <= 100) by (rewrite <- I1; apply le_INR, Hn). assert (I0 := pos_INR (d_n_data d)).
  assert (E := precon_num o (d_n_data d) 100 Hd Hn ltac:(lia) (proj1 Ht)). rewrite I1 in E. set (e := precon_err u64 o (d_n_data d)) in *.
  assert (KE : o_target o * (e + 4 / 10 ^ 14) <= o_target o * (75 / 10 ^ 15)) by (apply Rmult_le_compat_l; lra).
  assert (PR : precise u64 e (o_target o) (d_n_data d)).
  { apply precise_num; [lia|lra|lra|]. apply Rle_lt_trans with (10 ^ 10 * (100 * (35 / 10 ^ 15 + 57 / 10 ^ 15))); [|lra]. apply Rmult_le_compat; [lra|apply Rmult_le_pos; lra|lra|]. apply Rmult_le_compat; lra. }
  assert (S := sol_num (d_n_data d) e (o_target o) Hn ltac:(lra) ltac:(lra)).
  assert (P := prod_acc_num (d_n_data d) e (o_target o) _ Hn ltac:(lra) ltac:(lra) KE ltac:(lra)).
  assert (W : forall m nz, double_machine m -> exists A nv, lkd_matrix o d condf cnd hp = Ok A /\ calc_noise_vec o d hp = Ok nv /\ ((forall i, (i < d_n_data d)%nat -> near u64 (vat nv i) (nz i)) ->
    exists c, chofac_fl m o d hp nz vK = Ok c /\ likelihood_double o d A (o_target o * (75 / 10 ^ 15)) m c)).
  { intros m nz HX. destruct (C71_precon_likelihood o d condf hp cnd vK u64 m Hw Hm0 Hk HI NZ EV (double_machine_rounds m HX) (small_dim _ Hd) PR ltac:(fold e; lra) ltac:(fold e; lra)) as (A & nv & EA & NA & HP & EN & Q).
    exists A, nv. split; [exact EA|]. split; [exact EN|]. intros HZ. destruct (Q nz HZ) as (c & EC & LC). exists c. split; [exact EC|].
    fold e in LC. rewrite <- NA in LC. apply (likelihood_num o d A e _ m c); [exact HP|rewrite NA; exact Hn|lra|lra|exact KE|lra|exact LC]. }
  destruct (W (a_machine (fun _ => true)) (fun _ => 0) (some_double_machine _)) as (A & nv & EA & EN & _). exists A, nv. split; [exact EA|]. split; [exact EN|]. intros m nz HX HZ.
  destruct (W m nz HX) as (A' & nv' & EA' & EN' & Q). rewrite EA in EA'. injection EA' as <-. rewrite EN in EN'. injection EN' as <-. exact (Q HZ).
Qed.
Print Assumptions C71_precon_double_likelihood.
(** Without preconditioning: gradient-free with a constant nugget, or with the nugget from the row sums (up to cond_max_target 1e8). *)
Theorem C71_plain_double_likelihood :
  forall (o : gpopt) (d : gpdata) (condf : mat -> R) (hp : hpv) (cnd : bool) (vK : R),
  o_well o <> Wprecon -> o_kernel o <> RatQu ->
  (o_eta_const o = false /\ o_target o <= 10 ^ 8 \/ o_eta_const o = true /\ o_use_grad o = false /\ o_eta_mtd o <> Edflt /\ o_target o <= 10 ^ 10) ->
  (o_dim o <= 20)%nat -> (d_n_data d <= 100)%nat ->
  lkd_input o d hp -> d_noisy d = true -> hp_varK hp = Some vK ->
  exists A nv, lkd_matrix o d condf cnd hp = Ok A /\ calc_noise_vec o d hp = Ok nv /\
    forall m nz, double_machine m -> (forall i, (i < d_n_data d)%nat -> near u64 (vat nv i) (nz i)) ->
    exists c, chofac_fl m o d hp nz vK = Ok c /\ likelihood_double o d A (o_target o * (if o_eta_const o then 75 / 10 ^ 15 else 3 / 10 ^ 12)) m c.
Proof.
  intros o d condf hp cnd vK Hw Hk HO Hd Hn HI NZ EV.
  assert (I1 : INR 100 = 100) by (rewrite INR_IZR_INZ; reflexivity). assert (IN : INR (d_n_data d) <= 100) by (rewrite <- I1; apply le_INR, Hn). assert (I0 := pos_INR (d_n_data d)).
  assert (T : 1 < o_target o) by (destruct HI as ((_ & T & _) & _); lra).
  set (e := plain_err u64 o (d_n_data d)). set (E := if o_eta_const o then 75 / 10 ^ 15 else 3 / 10 ^ 12).
  assert (X : 0 <= e <= / 10 ^ 10 /\ o_target o * E <= / 10 ^ 3 /\ e + 4 / 10 ^ 14 <= E /\ o_target o * (INR (d_n_data d) * (e + 57 / 10 ^ 15)) < 1).
  { unfold e, E, plain_err. destruct HO as [(HO & Ht)|(HO & _ & _ & Ht)]; rewrite HO.
    - assert (EN := eta_num (o_dim o) (d_n_data d) 100 Hd Hn ltac:(lia)). rewrite I1 in EN.
      destruct (cov_num (o_dim o) (eta_err u64 (o_dim o) (d_n_data d)) (278 / 10 ^ 14) Hd ltac:(lra) ltac:(lra)) as (C0 & C1). set (q := cov_err _ _ _) in *.
      split; [lra|]. split; [lra|]. split; [lra|].
      apply Rle_lt_trans with (10 ^ 8 * (100 * (3 / 10 ^ 12))); [|lra]. apply Rmult_le_compat; [lra|apply Rmult_le_pos; lra|lra|]. apply Rmult_le_compat; lra.
    - destruct (cov_num (o_dim o) 0 0 Hd ltac:(lra) ltac:(lra)) as (C0 & C1). set (q := cov_err _ _ _) in *.
      split; [lra|]. split; [lra|]. split; [lra|].
      apply Rle_lt_trans with (10 ^ 10 * (100 * (9 / 10 ^ 14))); [|lra]. apply Rmult_le_compat; [lra|apply Rmult_le_pos; lra|lra|]. apply Rmult_le_compat; lra. }
  destruct X as (X1 & X2 & X3 & X4). assert (PR : precise u64 e (o_target o) (d_n_data d)) by (apply precise_num; [lia|lra|lra|exact X4]).
  assert (HO' : o_eta_const o = false \/ o_use_grad o = false /\ o_eta_mtd o <> Edflt) by tauto.
  assert (KE : o_target o * (e + 4 / 10 ^ 14) <= o_target o * E) by (apply Rmult_le_compat_l; lra).
  assert (S := sol_num (d_n_data d) e (o_target o) Hn ltac:(lra) ltac:(lra)).
  assert (P := prod_acc_num (d_n_data d) e (o_target o) _ Hn ltac:(lra) ltac:(lra) KE ltac:(lra)).
  assert (W : forall m nz, double_machine m -> exists A nv, lkd_matrix o d condf cnd hp = Ok A /\ calc_noise_vec o d hp = Ok nv /\ ((forall i, (i < d_n_data d)%nat -> near u64 (vat nv i) (nz i)) ->
    exists c, chofac_fl m o d hp nz vK = Ok c /\ likelihood_double o d A (o_target o * E) m c)).
  { intros m nz HX. destruct (C71_plain_likelihood o d condf hp cnd vK u64 m Hw HO' Hk HI NZ EV (double_machine_rounds m HX) (small_dim _ Hd) PR ltac:(fold e; lra) ltac:(fold e; lra)) as (A & nv & EA & NA & HP & EN & Q).
    exists A, nv. split; [exact EA|]. split; [exact EN|]. intros HZ. destruct (Q nz HZ) as (c & EC & LC). exists c. split; [exact EC|].
    fold e in LC. rewrite <- NA in LC. apply (likelihood_num o d A e _ m c); [exact HP|rewrite NA; exact Hn|lra|lra|exact KE|lra|exact LC]. }
  destruct (W (a_machine (fun _ => true)) (fun _ => 0) (some_double_machine _)) as (A & nv & EA & EN & _). exists A, nv. split; [exact EA|]. split; [exact EN|]. intros m nz HX HZ.
  destruct (W m nz HX) as (A' & nv' & EA' & EN' & Q). rewrite EA in EA'. injection EA' as <-. rewrite EN in EN'. injection EN' as <-. exact (Q HZ).
Qed.
Print Assumptions C71_plain_double_likelihood.
(** the example of C29-C34, as in C70 *)
Example C71_hypotheses_met : exists d nv, lkd_input ex_opt d ev_hp /\ d_noisy d = true /\ hp_varK ev_hp = Some 2 /\ o_well ex_opt = Wprecon /\ o_eta_mtd ex_opt <> Edflt /\ o_kernel ex_opt <> RatQu /\
  10 ^ 5 <= o_target ex_opt <= 10 ^ 10 /\ (o_dim ex_opt <= 20)%nat /\ (d_n_data d <= 100)%nat /\ calc_noise_vec ex_opt d ev_hp = Ok nv /\
  (forall i, (i < d_n_data d)%nat -> near u64 (vat nv i) (vat nv i)) /\ (exists i j, (i < d_n_data d)%nat /\ (j < d_n_data d)%nat /\ basis d i = 1 /\ basis d j = 0) /\
  forall tie, double_machine (a_machine tie).
Proof.
  destruct (ev_data Ma5f2 Wprecon (or_intror eq_refl)) as (d & HI & Hb & Hn & Hg & NZ). assert (HI' := HI). destruct HI' as (H1 & H2 & H3 & H4 & _).
  destruct (noise_vector ex_opt d ev_hp (ready _ _ H1 H2) H4 None (ei_noise _ _ _ _ _ HI)) as (nv & EN & _). exists d, nv.
  assert (CN : d_n_data d = cN ex_opt d) by (apply (li_N _ _ _ (ei_lkd _ _ _ _ _ HI))). assert (N7 : d_n_data d = 7%nat) by (rewrite CN; unfold cN; rewrite Hn, Hg; reflexivity).
  split; [apply (ei_lkd _ _ _ _ _ HI)|]. split; [exact NZ|]. split; [reflexivity|]. split; [reflexivity|]. split; [discriminate|]. split; [discriminate|]. split; [unfold ex_opt; cbn; lra|]. split; [unfold ex_opt; cbn; lia|].
  split; [rewrite N7; lia|]. split; [exact EN|]. split.
  { intros i _. assert (0 <= u64 * Rabs (vat nv i)) by (apply Rmult_le_pos; [unfold u64; lra|apply Rabs_pos]). split; rewrite Rminus_diag_eq, Rabs_R0 by reflexivity; assumption. }
  split; [exists 0%nat, 5%nat; unfold basis; rewrite N7, Hn; cbn; repeat split; lia|]. intros tie. apply some_double_machine.
Qed.
