(** * C71, without noise: the mean, the closed form of the variance and the value the optimiser maximises, in floating-point arithmetic *)
From Coq Require Import Reals List Arith ZArith Bool Lia Lra Psatz.
From Verif.Base Require Import NpLite NpFacts.
From Verif.Spec Require Import KernelSpec LinAlgSpec GpSpec DataSpec LkdSpec EvalSpec FloatSpec FloatKernSpec FloatLkdSpec.
From Verif.Model Require Import KernelSqExp KernelMatern KernelRatQuad KernelDispatch CommonFun WellCond Rescaling GpState Chol CholFl Cov EvalModel EvalFl Lkd KernFl LkdFl.
From Verif.Proofs Require Import CovStruct StateFacts NoiseFacts LinAlg CholCorrect FlChol FlMargin FlSolve FlSol FlTarget FlEval FlFac FlKern FlCov FlCovMain FlPred FlOrder FlLkd FlLkdFree Det NuggetCond NuggetMain CondMain LkdCore LkdFacts EvalKern.
From Verif.Props Require Import CondProps DataProps HpGradProps LkdProps EvalProps EvalProps2 FloatProps FloatProps2 FloatProps3 FloatProps4 FloatProps5 FloatKernProps FloatKernProps2 FloatKernProps3 FloatLkdProps.
Import ListNotations.
Local Open Scope R_scope.

(** ** What [closed_form] means: above the limit 1e-32, the largest likelihood over all variances and all constant means, plus n / 2 *)
Lemma solves_times A s x r : 0 < s -> (solves (times s A) x r <-> solves A (fun i => s * x i) r).
Proof.
  intros Hs. unfold solves, mv. cbn [times nr nc mat_at]. split; intros H i Hi; rewrite <- (H i Hi); apply rsum_ext; intros; ring.
Qed.
Lemma ln_det_times A s : pd A -> 0 < s -> ln (det (nr A) (mat_at (times s A))) = INR (nr A) * ln s + ln (det (nr A) (mat_at A)).
Proof.
  intros HP Hs. cbn [times mat_at]. rewrite det_scal. destruct (cho_factor_pd A true HP) as (c0 & _ & C0). destruct C0 as (_ & _ & _ & C3). destruct (logdet_chol _ _ _ C3) as (P & _).
  rewrite ln_mult by (auto; apply pow_lt; exact Hs). f_equal. rewrite <- Rpower_pow by exact Hs. unfold Rpower. apply ln_exp.
Qed.
Lemma weighted_times A s r q : 0 < s -> (weighted_square (times s A) r q <-> weighted_square A r (s * q)).
Proof.
  intros Hs. unfold weighted_square. cbn [times nr]. split.
  - intros (x & Sx & ->). exists (fun i => s * x i). split; [apply solves_times; assumption|]. unfold dotp. rewrite <- rsum_scal. apply rsum_ext; intros; ring.
  - intros (x & Sx & E). exists (fun i => / s * x i). split.
    + apply solves_times; [exact Hs|]. intros i Hi. rewrite <- (Sx i Hi). unfold mv. apply rsum_ext; intros. field. lra.
    + apply Rmult_eq_reg_l with s; [|lra]. rewrite E. unfold dotp. rewrite <- rsum_scal. apply rsum_ext; intros. field. lra.
Qed.
Theorem C71_closed_form_is_best :
  forall A res b0 v L, pd A -> (0 < nr A)%nat -> closed_form A res b0 v L -> / 10 ^ 32 < v ->
  log_likelihood (times v A) (res b0) (L - INR (nr A) / 2) /\
  forall s b L', 0 < s -> log_likelihood (times s A) (res b) L' -> L' <= L - INR (nr A) / 2.
Proof.
  intros A res b0 v L HP Hn (q & W & QM & EV & EL) HV. assert (NP := lt_0_INR _ Hn). assert (FP : 0 < / 10 ^ 32) by (apply Rinv_0_lt_compat, pow_lt; lra). assert (VP : 0 < v) by lra.
  assert (EQ : q = INR (nr A) * v). { rewrite EV in *. unfold Rmax in *. destruct (Rle_dec (/ 10 ^ 32) (q / INR (nr A))); [field; lra|lra]. }
  assert (Q0 : 0 <= q) by (rewrite EQ; apply Rmult_le_pos; lra). split.
  - exists (q / v). split; [apply weighted_times; [exact VP|]; replace (v * (q / v)) with q by (field; lra); exact W|].
    change (nr (times v A)) with (nr A). rewrite ln_det_times by assumption. rewrite EL, EQ. field. lra.
  - intros s b L' Hs (q' & W' & ->). change (nr (times s A)) with (nr A). rewrite ln_det_times by assumption. apply weighted_times in W'; [|exact Hs]. assert (M := QM b _ W').
    destruct (varK_max (nr A) q (/ 10 ^ 32) s Hn Q0 FP Hs) as (V1 & _). rewrite <- EV in V1. specialize (V1 (or_intror HV)).
    assert (QS : q / s <= q'). { apply Rmult_le_reg_r with s; [exact Hs|]. unfold Rdiv. rewrite Rmult_assoc, Rinv_l, Rmult_1_r by lra. lra. }
    assert (QV : q / v = INR (nr A)) by (rewrite EQ; field; lra). rewrite EL. lra.
Qed.
Print Assumptions C71_closed_form_is_best.

(** The computed mean, variance and value: [b0], [v], [L] are the exact ones; [y2] and [h2] the weighted sums of squares of the data and of the basis;
    [vmin] is the number 1e-32 up to one rounding. *)
Definition closed_form_computed (o : gpopt) (d : gpdata) (A : mat) (u r : R) (m : machine) (c : mat * bool) : Prop :=
  let k := o_target o in let h := basis d in let y := vat (ydata d) in
  exists b0 v L y2 h2, closed_form A (gp_residual o d) b0 v L /\ weighted_square A (gp_residual o d 0) y2 /\ weighted_square A h h2 /\ 0 < h2 /\
    Rabs (beta_fl m c h y - b0) * sqrt h2 <= beta_acc u r k (nr A) * sqrt y2 /\
    forall vmin, near u (/ 10 ^ 32) vmin ->
    Rabs (varK_fl m c vmin h y - v) <= varK_acc u r k y2 v (nr A) * v /\
    forall t, varK_acc u r k y2 v (nr A) <= t < 1 -> Rabs (lkd_free_fl m c vmin h y - L) <= lkd_free_acc u r k t A v L.

Lemma closed_form_from o d hp A u r t m c : lkd_input o d hp -> machine_rounds u m ->
  nr A = d_n_data d -> scaled_cond_le A (o_target o) ->
  pd A -> nr (fst c) = nr A -> 0 <= r < 1 -> prod_acc u r (o_target o) (nr A) < 1 -> good_factor A r t (m_ar m) c ->
  closed_form_computed o d A u r m c.
Proof.
  intros HI Hm EA HC HP EN Hr P1 (G1 & _ & _ & G4). specialize (G4 (proj2 Hr)).
  assert (CN : d_n_data d = cN o d) by (apply (li_N o d hp HI)). assert (T : 0 <= o_target o) by (destruct HI as ((_ & T & _) & _); lra).
  assert (RD := li_ready o d hp HI).
  set (h := basis d). set (y := vat (ydata d)). unfold closed_form_computed. cbv zeta. fold h y.
  assert (RS : forall b i, (i < nr A)%nat -> gp_residual o d b i = y i - b * h i).
  { intros b i Hi. rewrite (li_res o d hp HI b i) by congruence. unfold gres. fold h y. ring. }
  destruct (solution_of A h HP) as (xh & Sh). destruct (solution_of A y HP) as (xy & Sy).
  assert (NZ : nonzero (nr A) h) by (unfold h; rewrite EA, CN; apply (basis_nz o d RD)).
  exists (dotp (nr A) y xh / dotp (nr A) h xh). set (b0 := dotp (nr A) y xh / dotp (nr A) h xh). exists (Rmax (/ 10 ^ 32) (qb A h y xh xy b0 / INR (nr A))). eexists. exists (dotp (nr A) y xy), (dotp (nr A) h xh).
  split; [apply (closed_form_here A HP h y xh xy Sh Sy NZ); exact RS|].
  split. { exists xy. split; [eapply solves_eq; [exact Sy|]; intros i Hi; rewrite RS by exact Hi; ring|]. unfold dotp. apply rsum_ext; intros i Hi. rewrite RS by exact Hi. ring. }
  split; [exists xh; split; [exact Sh|reflexivity]|].
  assert (PH := H_pos A HP h xh Sh NZ). assert (E2 := HH A HP h xh Sh). assert (E3 := YY A HP y xy Sy).
  assert (S2 : sqrt (dotp (nr A) h xh) = energy A xh) by (rewrite <- E2; apply sqrt_square; lra).
  assert (S3 : sqrt (dotp (nr A) y xy) = energy A xy) by (rewrite <- E3; apply sqrt_square, energy_nonneg).
  split; [rewrite <- E2; apply Rmult_lt_0_compat; exact PH|]. split.
  - rewrite S2, S3. apply (beta_err u r (o_target o) m A c Hm HP EN HC T Hr G1 h y xh xy Sh Sy NZ P1).
  - intros vmin HV. split; [apply (varK_err u r (o_target o) m A c Hm HP EN HC T Hr G1 h y xh xy Sh Sy NZ P1 vmin HV)|].
    intros t' Ht. apply (lkd_free_err u r (o_target o) m A c Hm HP EN HC T Hr G1 h y xh xy Sh Sy NZ P1 vmin t' HV Ht G4).
Qed.

(** ** For all noise-free data and hyperparameters; the matrix is the regularised kernel matrix (C23) *)
Theorem C71_precon_closed_form :
  forall (o : gpopt) (d : gpdata) (condf : mat -> R) (hp : hpv) (cnd : bool) (u : R) (m : machine),
  o_well o = Wprecon -> (o_eta_const o = true -> o_eta_mtd o <> Edflt) -> o_kernel o <> RatQu ->
  lkd_input o d hp -> d_noisy d = false ->
  machine_rounds u m -> (1 + u) ^ (o_dim o + 5) <= 11 / 10 ->
  let n := d_n_data d in let e := precon_err u o n in let r := sol_err u e (o_target o) n in
  precise u e (o_target o) n -> r < 1 -> prod_acc u r (o_target o) n < 1 ->
  exists A nv, lkd_matrix o d condf cnd hp = Ok A /\ nr A = n /\ pd A /\ calc_noise_vec o d hp = Ok nv /\
    forall nz, (forall i, (i < n)%nat -> near u (vat nv i) (nz i)) ->
    exists c, chofac_fl m o d hp nz 1 = Ok c /\ closed_form_computed o d A u r m c.
Proof.
  intros o d condf hp cnd u m Hw Hm0 Hk HI NZ Hm HG n e r PR R1 P1. assert (HI' := HI). destruct HI' as (H1 & H2 & H3 & H4 & _ & _ & _).
  assert (RD := ready o d H1 H2). assert (NA := li_noise o d hp HI).
  assert (EVK : eff_varK hp (Some 1) false = Some 1) by reflexivity.
  destruct (noise_vector o d hp RD H4 None NA) as (nv & EN & _).
  destruct (rok_ex _ _ (call_precon o d condf hp None true cnd (Some 1) false 1 RD H4 NA EVK Rlt_0_1 Hw (H3 Hw))) as (out & EO & _).
  exists (k_Kcov out), nv. unfold lkd_matrix. rewrite NZ. unfold Kern_of, calc_Kern_w_chofac. rewrite NZ. cbn [negb assert_]. rewrite bind_Ok, EO. cbn [bind].
  assert (T : 1 < o_target o) by (destruct H1 as (_ & T & _); lra).
  assert (Z : forall nz, (forall i, (i < n)%nat -> near u (vat nv i) (nz i)) -> nr (k_Kcov out) = n /\ pd (k_Kcov out) /\ exists c, chofac_fl m o d hp nz 1 = Ok c /\ closed_form_computed o d (k_Kcov out) u r m c).
  { intros nz HZ. destruct (precon_chofac o d condf hp None (Some 1) false 1 true cnd u m out nv nz H1 H2 H4 NA EVK Rlt_0_1 Hk Hm HG EO EN HZ Hw (H3 Hw) Hm0 PR) as (c & C1 & C2 & C3 & C4 & C5 & C6 & D & C7 & C8).
    split; [exact C4|]. split; [exact C5|]. exists c. split; [exact C1|]. apply (closed_form_from o d hp (k_Kcov out) u r (sys_err u e n)); auto; try (rewrite C4; assumption).
    - apply (share_scaled n _ _ D _ C7 C5); [lra| |exact C8]. intros v. rewrite bform_mscal. apply Rmult_le_pos; [lra|]. unfold n. rewrite (li_N o d hp HI). apply ckf_psd, H4.
    - split; [apply sol_err_nonneg; [apply (ro_u _ _ (mr_ar _ _ Hm))|lra|exact PR]|exact R1]. }
  split; [reflexivity|]. assert (Z0 := fun H => Z (vat nv) H). split; [|split; [|split; [exact EN|intros nz HZ; apply (Z nz HZ)]]];
  apply Z0; intros i Hi; assert (0 <= u * Rabs (vat nv i)) by (apply Rmult_le_pos; [apply (ro_u _ _ (mr_ar _ _ Hm))|apply Rabs_pos]); split; rewrite Rminus_diag_eq, Rabs_R0 by reflexivity; assumption.
Qed.
Print Assumptions C71_precon_closed_form.
Theorem C71_plain_closed_form :
  forall (o : gpopt) (d : gpdata) (condf : mat -> R) (hp : hpv) (cnd : bool) (u : R) (m : machine),
  o_well o <> Wprecon -> (o_eta_const o = false \/ (o_use_grad o = false /\ o_eta_mtd o <> Edflt)) -> o_kernel o <> RatQu ->
  lkd_input o d hp -> d_noisy d = false ->
  machine_rounds u m -> (1 + u) ^ (o_dim o + 5) <= 11 / 10 ->
  let n := d_n_data d in let e := plain_err u o n in let r := sol_err u e (o_target o) n in
  precise u e (o_target o) n -> r < 1 -> prod_acc u r (o_target o) n < 1 ->
  exists A nv, lkd_matrix o d condf cnd hp = Ok A /\ nr A = n /\ pd A /\ calc_noise_vec o d hp = Ok nv /\
    forall nz, (forall i, (i < n)%nat -> near u (vat nv i) (nz i)) ->
    exists c, chofac_fl m o d hp nz 1 = Ok c /\ closed_form_computed o d A u r m c.
Proof.
  intros o d condf hp cnd u m Hw Hm0 Hk HI NZ Hm HG n e r PR R1 P1. assert (HI' := HI). destruct HI' as (H1 & H2 & H3 & H4 & _ & _ & _).
  assert (RD := ready o d H1 H2). assert (NA := li_noise o d hp HI).
  assert (EVK : eff_varK hp (Some 1) false = Some 1) by reflexivity.
  destruct (noise_vector o d hp RD H4 None NA) as (nv & EN & _).
  destruct (rok_ex _ _ (call_plain o d condf hp None true cnd (Some 1) false 1 RD H4 NA EVK Rlt_0_1 Hw)) as (out & EO & _).
  exists (k_Kcov out), nv. unfold lkd_matrix. rewrite NZ. unfold Kern_of, calc_Kern_w_chofac. rewrite NZ. cbn [negb assert_]. rewrite bind_Ok, EO. cbn [bind].
  assert (T : 1 < o_target o) by (destruct H1 as (_ & T & _); lra).
  assert (Z : forall nz, (forall i, (i < n)%nat -> near u (vat nv i) (nz i)) -> nr (k_Kcov out) = n /\ pd (k_Kcov out) /\ exists c, chofac_fl m o d hp nz 1 = Ok c /\ closed_form_computed o d (k_Kcov out) u r m c).
  { intros nz HZ. destruct (plain_chofac o d condf hp None (Some 1) false 1 true cnd u m out nv nz H1 H2 H4 NA EVK Rlt_0_1 Hk Hm HG EO EN HZ Hw Hm0 PR) as (c & C1 & C2 & C3 & C4 & C5 & C6 & D & C7 & C8).
    split; [exact C4|]. split; [exact C5|]. exists c. split; [exact C1|]. apply (closed_form_from o d hp (k_Kcov out) u r (sys_err u e n)); auto; try (rewrite C4; assumption).
    - apply (share_scaled n _ _ D _ C7 C5); [lra| |exact C8]. intros v. rewrite bform_mscal. apply Rmult_le_pos; [lra|]. unfold n. rewrite (li_N o d hp HI). apply ckf_psd, H4.
    - split; [apply sol_err_nonneg; [apply (ro_u _ _ (mr_ar _ _ Hm))|lra|exact PR]|exact R1]. }
  split; [reflexivity|]. assert (Z0 := fun H => Z (vat nv) H). split; [|split; [|split; [exact EN|intros nz HZ; apply (Z nz HZ)]]];
  apply Z0; intros i Hi; assert (0 <= u * Rabs (vat nv i)) by (apply Rmult_le_pos; [apply (ro_u _ _ (mr_ar _ _ Hm))|apply Rabs_pos]); split; rewrite Rminus_diag_eq, Rabs_R0 by reflexivity; assumption.
Qed.
Print Assumptions C71_plain_closed_form.

(** ** Double precision.  The relative error of the variance is about 261 s y2 / (n v): 261 s, divided by the share of the data that the mean does not
    explain.  It enters the value through a logarithm. *)
Definition closed_form_double (o : gpopt) (d : gpdata) (A : mat) (s : R) (m : machine) (c : mat * bool) : Prop :=
  let h := basis d in let y := vat (ydata d) in let n := INR (nr A) in
  exists b0 v L y2 h2, closed_form A (gp_residual o d) b0 v L /\ weighted_square A (gp_residual o d 0) y2 /\ weighted_square A h h2 /\ 0 < h2 /\
    Rabs (beta_fl m c h y - b0) * sqrt h2 <= 260 * s * sqrt y2 /\
    forall vmin, near u64 (/ 10 ^ 32) vmin -> let w := 261 * s * y2 / (n * v) + 2 / 10 ^ 16 in
    Rabs (varK_fl m c vmin h y - v) <= w * v /\
    (w < 1 -> let l := - ln (1 - w) in
      let D := (n * l + 4 / 10 ^ 16 * (n * (Rabs (ln v) + l)) + 11500 * s + 12 / 10 ^ 15 * rsum (nr A) (fun i => Rabs (ln (mat_at A i i)))) / 2 in
      Rabs (lkd_free_fl m c vmin h y - L) <= D + 3 / 10 ^ 16 * (Rabs L + D)).
Lemma closed_form_num o d A e s m c : pd A -> (nr A <= 100)%nat -> 0 <= e <= / 10 ^ 10 -> 1 <= o_target o -> o_target o * (e + 4 / 10 ^ 14) <= s -> s <= / 10 ^ 3 ->
  closed_form_computed o d A u64 (sol_err u64 e (o_target o) (nr A)) m c -> closed_form_double o d A s m c.
Proof.
  intros HP Hn He Hk HE Hs (b0 & v & L & y2 & h2 & B1 & B2 & B3 & B4 & B5 & B6). unfold closed_form_double. cbv zeta. exists b0, v, L, y2, h2.
  split; [exact B1|]. split; [exact B2|]. split; [exact B3|]. split; [exact B4|]. assert (Y0 := weighted_nonneg A _ y2 HP B2). split.
  { eapply Rle_trans; [exact B5|]. apply Rmult_le_compat_r; [apply sqrt_pos|]. apply (beta_acc_num (nr A) e (o_target o) s); assumption. }
  intros vmin HV. destruct (B6 vmin HV) as (B7 & B8). assert (s0 : 4 / 10 ^ 14 <= s).
  { eapply Rle_trans; [|exact HE]. apply Rle_trans with (1 * (e + 4 / 10 ^ 14)); [lra|]. apply Rmult_le_compat_r; lra. }
  assert (V0 : 0 < v). { destruct B1 as (q & _ & _ & -> & _). eapply Rlt_le_trans; [|apply Rmax_l]. apply Rinv_0_lt_compat, pow_lt. lra. }
  assert (U : 0 <= u64 <= 12 / 10 ^ 17) by (unfold u64; lra).
  assert (NV : 0 <= / (INR (nr A) * v)).
  { destruct (Rle_lt_or_eq_dec 0 _ (pos_INR (nr A))) as [P|Z]; [left; apply Rinv_0_lt_compat, Rmult_lt_0_compat; assumption|]. rewrite <- Z, Rmult_0_l, Rinv_0. lra. }
  set (w := 261 * s * y2 / (INR (nr A) * v) + 2 / 10 ^ 16).
  assert (VW : varK_acc u64 (sol_err u64 e (o_target o) (nr A)) (o_target o) y2 v (nr A) <= w).
  { unfold varK_acc, w. assert (Q := quad_acc_num (nr A) e (o_target o) s Hn He Hk HE Hs). set (q := quad_acc _ _ _ _) in *.
    assert (X : (1 + u64) * q + u64 <= 261 * s). { assert (u64 * q <= 12 / 10 ^ 17 * 1) by (apply Rmult_le_compat; lra). lra. }
    assert (X2 : ((1 + u64) * q + u64) * y2 / (INR (nr A) * v) <= 261 * s * y2 / (INR (nr A) * v)) by (apply Rmult_le_compat_r; [exact NV|apply Rmult_le_compat_r; assumption]). lra. }
  split; [eapply Rle_trans; [exact B7|apply Rmult_le_compat_r; lra]|]. intros W1. assert (B9 := B8 w (conj VW W1)).
  eapply Rle_trans; [exact B9|]. unfold lkd_free_acc. cbv zeta. assert (T := det_acc_num (nr A) e (o_target o) s Hn He Hk HE Hs A eq_refl).
  set (S := rsum (nr A) _) in *. set (t := det_acc _ _ _ _) in *. set (N := INR (nr A)) in *. assert (N0 : 0 <= N) by apply pos_INR. set (l := - ln (1 - w)).
  assert (W0 : 0 <= w). { unfold w. assert (0 <= 261 * s * y2 / (N * v)) by (apply Rmult_le_pos; [apply Rmult_le_pos; lra|exact NV]). lra. }
  assert (L0 : 0 <= l). { unfold l. assert (X := ln_le_sub (1 - w) ltac:(lra)). lra. }
  assert (NB : 0 <= N * (Rabs (ln v) + l)) by (apply Rmult_le_pos; [exact N0|]; assert (X := Rabs_pos (ln v)); lra).
  destruct (gam_num 3 ltac:(lia)) as (G0 & G1). rewrite INR_IZR_INZ in G1. cbn [Z.of_nat Pos.of_succ_nat Pos.succ] in G1.
  destruct (gam_num 2 ltac:(lia)) as (H0 & H1). rewrite INR_IZR_INZ in H1. cbn [Z.of_nat Pos.of_succ_nat Pos.succ] in H1.
  assert (GB : gam u64 3 * (N * (Rabs (ln v) + l)) <= 4 / 10 ^ 16 * (N * (Rabs (ln v) + l))) by (apply Rmult_le_compat_r; [exact NB|lra]).
  set (B := N * (Rabs (ln v) + l)) in *.
  set (D := (N * l + gam u64 3 * B + t) / 2). set (D' := (N * l + 4 / 10 ^ 16 * B + 11500 * s + 12 / 10 ^ 15 * S) / 2). assert (DD : D <= D') by (unfold D, D'; lra).
  assert (S0 : 0 <= S) by (apply rsum_nonneg; intros; apply Rabs_pos). assert (LP := Rabs_pos L). assert (NL : 0 <= N * l) by (apply Rmult_le_pos; assumption).
  assert (D0 : 0 <= D') by (unfold D'; lra).
  assert (gam u64 2 * (Rabs L + D) <= 3 / 10 ^ 16 * (Rabs L + D')). { apply Rle_trans with (gam u64 2 * (Rabs L + D')); [apply Rmult_le_compat_l; lra|apply Rmult_le_compat_r; lra]. } lra.
Qed.
Theorem C71_precon_double_closed_form :
  forall (o : gpopt) (d : gpdata) (condf : mat -> R) (hp : hpv) (cnd : bool),
  o_well o = Wprecon -> (o_eta_const o = true -> o_eta_mtd o <> Edflt) -> o_kernel o <> RatQu ->
  10 ^ 5 <= o_target o <= 10 ^ 10 -> (o_dim o <= 20)%nat -> (d_n_data d <= 100)%nat ->
  lkd_input o d hp -> d_noisy d = false ->
  exists A nv, lkd_matrix o d condf cnd hp = Ok A /\ calc_noise_vec o d hp = Ok nv /\
    forall m nz, double_machine m -> (forall i, (i < d_n_data d)%nat -> near u64 (vat nv i) (nz i)) ->
    exists c, chofac_fl m o d hp nz 1 = Ok c /\ closed_form_double o d A (o_target o * (75 / 10 ^ 15)) m c.
Proof.
  intros o d condf hp cnd Hw Hm0 Hk Ht Hd Hn HI NZ.
  assert (I1 : INR 100 = 100) by (rewrite INR_IZR_INZ; reflexivity). assert (IN : INR (d_n_data d) <= 100) by (rewrite <- I1; apply le_INR, Hn). assert (I0 := pos_INR (d_n_data d)).
  assert (E := precon_num o (d_n_data d) 100 Hd Hn ltac:(lia) (proj1 Ht)). rewrite I1 in E. set (e := precon_err u64 o (d_n_data d)) in *.
  assert (KE : o_target o * (e + 4 / 10 ^ 14) <= o_target o * (75 / 10 ^ 15)) by (apply Rmult_le_compat_l; lra).
  assert (PR : precise u64 e (o_target o) (d_n_data d)).
  { apply precise_num; [lia|lra|lra|]. apply Rle_lt_trans with (10 ^ 10 * (100 * (35 / 10 ^ 15 + 57 / 10 ^ 15))); [|lra]. apply Rmult_le_compat; [lra|apply Rmult_le_pos; lra|lra|]. apply Rmult_le_compat; lra. }
  assert (S := sol_num (d_n_data d) e (o_target o) Hn ltac:(lra) ltac:(lra)).
  assert (P := prod_acc_num (d_n_data d) e (o_target o) _ Hn ltac:(lra) ltac:(lra) KE ltac:(lra)).
  assert (W : forall m nz, double_machine m -> exists A nv, lkd_matrix o d condf cnd hp = Ok A /\ calc_noise_vec o d hp = Ok nv /\ ((forall i, (i < d_n_data d)%nat -> near u64 (vat nv i) (nz i)) ->
    exists c, chofac_fl m o d hp nz 1 = Ok c /\ closed_form_double o d A (o_target o * (75 / 10 ^ 15)) m c)).
  { intros m nz HX. destruct (C71_precon_closed_form o d condf hp cnd u64 m Hw Hm0 Hk HI NZ (double_machine_rounds m HX) (small_dim _ Hd) PR ltac:(fold e; lra) ltac:(fold e; lra)) as (A & nv & EA & NA & HP & EN & Q).
    exists A, nv. split; [exact EA|]. split; [exact EN|]. intros HZ. destruct (Q nz HZ) as (c & EC & LC). exists c. split; [exact EC|].
    fold e in LC. rewrite <- NA in LC. apply (closed_form_num o d A e _ m c); [exact HP|rewrite NA; exact Hn|lra|lra|exact KE|lra|exact LC]. }
  destruct (W (a_machine (fun _ => true)) (fun _ => 0) (some_double_machine _)) as (A & nv & EA & EN & _). exists A, nv. split; [exact EA|]. split; [exact EN|]. intros m nz HX HZ.
  destruct (W m nz HX) as (A' & nv' & EA' & EN' & Q). rewrite EA in EA'. injection EA' as <-. rewrite EN in EN'. injection EN' as <-. exact (Q HZ).
Qed.
Print Assumptions C71_precon_double_closed_form.
(** Without preconditioning: gradient-free with a constant nugget, or with the nugget from the row sums (up to cond_max_target 1e8). *)
Theorem C71_plain_double_closed_form :
  forall (o : gpopt) (d : gpdata) (condf : mat -> R) (hp : hpv) (cnd : bool),
  o_well o <> Wprecon -> o_kernel o <> RatQu ->
  (o_eta_const o = false /\ o_target o <= 10 ^ 8 \/ o_eta_const o = true /\ o_use_grad o = false /\ o_eta_mtd o <> Edflt /\ o_target o <= 10 ^ 10) ->
  (o_dim o <= 20)%nat -> (d_n_data d <= 100)%nat ->
  lkd_input o d hp -> d_noisy d = false ->
  exists A nv, lkd_matrix o d condf cnd hp = Ok A /\ calc_noise_vec o d hp = Ok nv /\
    forall m nz, double_machine m -> (forall i, (i < d_n_data d)%nat -> near u64 (vat nv i) (nz i)) ->
    exists c, chofac_fl m o d hp nz 1 = Ok c /\ closed_form_double o d A (o_target o * (if o_eta_const o then 75 / 10 ^ 15 else 3 / 10 ^ 12)) m c.
Proof.
  intros o d condf hp cnd Hw Hk HO Hd Hn HI NZ.
  assert (I1 : INR 100 = 100) by (rewrite INR_IZR_INZ; reflexivity). assert (IN : INR (d_n_data d) <= 100) by (rewrite <- I1; apply le_INR, Hn). assert (I0 := pos_INR (d_n_data d)).
  assert (T : 1 < o_target o) by (destruct HI as ((_ & T & _) & _); lra).
  set (e := plain_err u64 o (d_n_data d)). set (E := if o_eta_const o then 75 / 10 ^ 15 else 3 / 10 ^ 12).
  assert (X : 0 <= e <= / 10 ^ 10 /\ o_target o * E <= / 10 ^ 3 /\ e + 4 / 10 ^ 14 <= E /\ o_target o * (INR (d_n_data d) * (e + 57 / 10 ^ 15)) < 1).
  { unfold e, E, plain_err. destruct HO as [(HO & Ht)|(HO & _ & _ & Ht)]; rewrite HO.
    - assert (EN := eta_num (o_dim o) (d_n_data d) 100 Hd Hn ltac:(lia)). rewrite I1 in EN.
      destruct (cov_num (o_dim o) (eta_err u64 (o_dim o) (d_n_data d)) (278 / 10 ^ 14) Hd ltac:(lra) ltac:(lra)) as (C0 & C1). set (q := cov_err _ _ _) in *.
      split; [lra|]. split; [lra|]. split; [lra|].
      apply Rle_lt_trans with (10 ^ 8 * (100 * (3 / 10 ^ 12))); [|lra]. apply Rmult_le_compat; [lra|apply Rmult_le_pos; lra|lra|]. apply Rmult_le_compat; lra.
    - destruct (cov_num (o_dim o) 0 0 Hd ltac:(lra) ltac:(lra)) as (C0 & C1). set (q := cov_err _ _ _) in *.
      split; [lra|]. split; [lra|]. split; [lra|].
      apply Rle_lt_trans with (10 ^ 10 * (100 * (9 / 10 ^ 14))); [|lra]. apply Rmult_le_compat; [lra|apply Rmult_le_pos; lra|lra|]. apply Rmult_le_compat; lra. }
  destruct X as (X1 & X2 & X3 & X4). assert (PR : precise u64 e (o_target o) (d_n_data d)) by (apply precise_num; [lia|lra|lra|exact X4]).
  assert (HO' : o_eta_const o = false \/ o_use_grad o = false /\ o_eta_mtd o <> Edflt) by tauto.
  assert (KE : o_target o * (e + 4 / 10 ^ 14) <= o_target o * E) by (apply Rmult_le_compat_l; lra).
  assert (S := sol_num (d_n_data d) e (o_target o) Hn ltac:(lra) ltac:(lra)).
  assert (P := prod_acc_num (d_n_data d) e (o_target o) _ Hn ltac:(lra) ltac:(lra) KE ltac:(lra)).
  assert (W : forall m nz, double_machine m -> exists A nv, lkd_matrix o d condf cnd hp = Ok A /\ calc_noise_vec o d hp = Ok nv /\ ((forall i, (i < d_n_data d)%nat -> near u64 (vat nv i) (nz i)) ->
    exists c, chofac_fl m o d hp nz 1 = Ok c /\ closed_form_double o d A (o_target o * E) m c)).
  { intros m nz HX. destruct (C71_plain_closed_form o d condf hp cnd u64 m Hw HO' Hk HI NZ (double_machine_rounds m HX) (small_dim _ Hd) PR ltac:(fold e; lra) ltac:(fold e; lra)) as (A & nv & EA & NA & HP & EN & Q).
    exists A, nv. split; [exact EA|]. split; [exact EN|]. intros HZ. destruct (Q nz HZ) as (c & EC & LC). exists c. split; [exact EC|].
    fold e in LC. rewrite <- NA in LC. apply (closed_form_num o d A e _ m c); [exact HP|rewrite NA; exact Hn|lra|lra|exact KE|lra|exact LC]. }
  destruct (W (a_machine (fun _ => true)) (fun _ => 0) (some_double_machine _)) as (A & nv & EA & EN & _). exists A, nv. split; [exact EA|]. split; [exact EN|]. intros m nz HX HZ.
  destruct (W m nz HX) as (A' & nv' & EA' & EN' & Q). rewrite EA in EA'. injection EA' as <-. rewrite EN in EN'. injection EN' as <-. exact (Q HZ).
Qed.
Print Assumptions C71_plain_double_closed_form.
(** the noise-free example of C24, C25: a value and a derivative; its variance is above the limit 1e-32 there *)
Example C71_hypotheses_met_noise_free : exists d nv, lkd_input nf_opt d nf_hp /\ d_noisy d = false /\ o_well nf_opt = Wprecon /\ o_eta_mtd nf_opt <> Edflt /\ o_kernel nf_opt <> RatQu /\
  10 ^ 5 <= o_target nf_opt <= 10 ^ 10 /\ (o_dim nf_opt <= 20)%nat /\ d_n_data d = 2%nat /\ calc_noise_vec nf_opt d nf_hp = Ok nv /\
  (forall i, (i < d_n_data d)%nat -> near u64 (vat nv i) (vat nv i)) /\ near u64 (/ 10 ^ 32) (/ 10 ^ 32) /\ forall tie, double_machine (a_machine tie).
Proof.
  destruct nf_data as (d & D & K1 & K2 & Z & B & N1 & N2 & ET & Y & NF).
  assert (LI : lkd_input nf_opt d nf_hp).
  { split; [split; [simpl; lia|split; simpl; lra]|]. split; [exact D|]. split; [reflexivity|]. split; [split; [reflexivity|]; split; [intros; simpl; lra|exact I]|].
    split; [split; [rewrite K1; reflexivity|rewrite K2; reflexivity]|]. split; [split; discriminate|rewrite Z; discriminate]. }
  destruct (noise_vector nf_opt d nf_hp (li_ready _ _ _ LI) ltac:(apply LI) None (li_noise _ _ _ LI)) as (nv & EN & _). exists d, nv.
  assert (X : forall x, near u64 x x). { intros x. assert (0 <= u64 * Rabs x) by (apply Rmult_le_pos; [unfold u64; lra|apply Rabs_pos]). split; rewrite Rminus_diag_eq, Rabs_R0 by reflexivity; assumption. }
  split; [exact LI|]. split; [exact Z|]. split; [reflexivity|]. split; [discriminate|]. split; [discriminate|]. split; [unfold nf_opt; cbn; lra|]. split; [cbn; lia|].
  split; [rewrite (li_N _ _ _ LI); unfold cN; rewrite N1, N2; reflexivity|]. split; [exact EN|]. split; [intros; apply X|]. split; [apply X|]. intros tie. apply some_double_machine.
Qed.
