(** * C62: the acquisition functions *)
From Coq Require Import Reals List Arith Bool Lia Lra Psatz.
From Coquelicot Require Import Coquelicot.
From Verif.Base Require Import NpLite NpFacts.
From Verif.Spec Require Import ScriptSpec.
From Verif.Model Require Import Scripts.
Local Open Scope R_scope.

Lemma s2pi : 0 < sqrt (2 * PI).
Proof. apply sqrt_lt_R0. pose proof PI_RGT_0. lra. Qed.
Lemma pdf_std z : normal_density 0 1 z = norm_pdf z.
Proof. unfold normal_density, norm_pdf. pose proof s2pi. replace (- (z - 0) ^ 2 / (2 * 1 ^ 2)) with (- (z ^ 2 / 2)) by field. field. lra. Qed.
Lemma pdf_scaled mu s y : 0 < s -> normal_density mu s y = norm_pdf ((y - mu) / s) / s.
Proof.
  intros Hs. unfold normal_density, norm_pdf. pose proof s2pi. replace (- (((y - mu) / s) ^ 2 / 2)) with (- (y - mu) ^ 2 / (2 * s ^ 2)) by (field; lra). field. lra.
Qed.
Lemma pdf_pos z : 0 < norm_pdf z.
Proof. unfold norm_pdf. apply Rdiv_lt_0_compat; [apply exp_pos|apply s2pi]. Qed.
Lemma pdf_der z : is_derive norm_pdf z (- z * norm_pdf z).
Proof. unfold norm_pdf. pose proof s2pi. auto_derive; [exact I|]. replace (- (z * (z * 1) * / 2)) with (- (z ^ 2 / 2)) by field. field. lra. Qed.
Lemma pdf_cont z : continuous norm_pdf z.
Proof. apply (ex_derive_continuous (V := R_NormedModule)). eexists. apply pdf_der. Qed.
Lemma pdf_int a b : ex_RInt norm_pdf a b.
Proof. apply (ex_RInt_continuous (V := R_CompleteNormedModule)). intros. apply pdf_cont. Qed.
Definition P (u : R) : R := RInt norm_pdf 0 u.
Lemma P_der u : is_derive P u (norm_pdf u).
Proof.
  unfold P. apply (is_derive_RInt (V := R_CompleteNormedModule) norm_pdf (fun u => RInt norm_pdf 0 u) 0).
  - exists (mkposreal 1 Rlt_0_1). intros y _. apply RInt_correct, pdf_int.
  - apply pdf_cont.
Qed.
Lemma P_diff a b : RInt norm_pdf a b = P b - P a.
Proof.
  assert (H : P a + RInt norm_pdf a b = P b) by exact (RInt_Chasles norm_pdf 0 a b (pdf_int 0 a) (pdf_int a b)).
  assert (Q : forall x y z : R, x + y = z -> y = z - x) by (intros; lra). exact (Q _ _ _ H).
Qed.
Section Normal.
Variables mu s : R.
Hypothesis Hs : 0 < s.
Lemma dens_int A b : RInt (normal_density mu s) A b = P ((b - mu) / s) - P ((A - mu) / s).
Proof.
  apply is_RInt_unique.
  apply (is_RInt_ext (fun y => norm_pdf ((y - mu) / s) / s)); [intros; symmetry; apply pdf_scaled; exact Hs|].
  apply (is_RInt_derive (V := R_CompleteNormedModule) (fun y => P ((y - mu) / s))).
  - intros y _. evar_last. apply (is_derive_comp (V := R_NormedModule) P (fun y => (y - mu) / s)); [apply P_der|]. auto_derive; [lra|reflexivity].
    unfold scal; cbn; unfold mult; cbn. field. lra.
  - intros y _. apply (continuous_mult (K := R_AbsRing) (fun y => norm_pdf ((y - mu) / s)) (fun _ => / s)); [|apply continuous_const].
    apply (continuous_comp (fun y => (y - mu) / s) norm_pdf); [|apply pdf_cont]. apply (ex_derive_continuous (V := R_NormedModule)). auto_derive. lra.
Qed.
Lemma ei_int best A : RInt (fun y => (best - y) * normal_density mu s y) A best =
  (best - mu) * (P ((best - mu) / s) - P ((A - mu) / s)) + s * (norm_pdf ((best - mu) / s) - norm_pdf ((A - mu) / s)).
Proof.
  set (F := fun y => (best - mu) * P ((y - mu) / s) + s * norm_pdf ((y - mu) / s)).
  replace (_ + _) with (F best - F A) by (unfold F; ring).
  apply is_RInt_unique.
  apply (is_RInt_ext (fun y => (best - y) * (norm_pdf ((y - mu) / s) / s))); [intros; rewrite pdf_scaled by exact Hs; reflexivity|].
  assert (L : forall y, is_derive (fun y => (y - mu) / s) y (/ s)). { intros y. auto_derive; [lra|]. field. lra. }
  assert (C : forall y, continuous (fun y => norm_pdf ((y - mu) / s)) y).
  { intros y. apply (continuous_comp (fun y => (y - mu) / s) norm_pdf); [|apply pdf_cont]. apply (ex_derive_continuous (V := R_NormedModule)). eexists. apply L. }
  apply (is_RInt_derive (V := R_CompleteNormedModule) F).
  - intros y _. unfold F. evar_last.
    apply (is_derive_plus (V := R_NormedModule)).
    + apply is_derive_scal. apply (is_derive_comp (V := R_NormedModule) P (fun y => (y - mu) / s)); [apply P_der|apply L].
    + apply is_derive_scal. apply (is_derive_comp (V := R_NormedModule) norm_pdf (fun y => (y - mu) / s)); [apply pdf_der|apply L].
    + unfold plus, scal; cbn; unfold mult; cbn. field. lra.
  - intros y _. apply (continuous_mult (K := R_AbsRing) (fun y => best - y) (fun y => norm_pdf ((y - mu) / s) / s)).
    + apply (ex_derive_continuous (V := R_NormedModule)). auto_derive. exact I.
    + apply (continuous_mult (K := R_AbsRing) (fun y => norm_pdf ((y - mu) / s)) (fun _ => / s)); [apply C|apply continuous_const].
Qed.
Lemma lim_std : is_lim (fun A => (A - mu) / s) m_infty m_infty.
Proof.
  apply is_lim_spec. intros M. exists (mu + s * M). intros x Hx. apply (Rmult_lt_reg_r s); [exact Hs|]. unfold Rdiv. rewrite Rmult_assoc, Rinv_l by lra. lra.
Qed.
End Normal.
Lemma pdf_lim : is_lim norm_pdf m_infty 0.
Proof.
  apply is_lim_spec. intros eps. pose proof s2pi as Hp. destruct eps as [e He]. cbn [pos].
  exists (- (1 + 2 / (e * sqrt (2 * PI)))). intros x Hx. unfold Rminus. rewrite Ropp_0, Rplus_0_r. rewrite Rabs_pos_eq by (left; apply pdf_pos).
  unfold norm_pdf. apply (Rmult_lt_reg_r (sqrt (2 * PI))); [exact Hp|]. unfold Rdiv at 1. rewrite Rmult_assoc, Rinv_l, Rmult_1_r by lra.
  set (q := e * sqrt (2 * PI)) in *. assert (Q : 0 < q) by (unfold q; apply Rmult_lt_0_compat; assumption).
  assert (Q2 : 0 < 2 / q) by (apply Rdiv_lt_0_compat; lra). assert (X1 : x < -1) by lra. assert (X2 : 2 / q < - x) by lra.
  rewrite exp_Ropp. assert (E1 := exp_ineq1 (x ^ 2 / 2)). assert (x ^ 2 / 2 <> 0) by nra. specialize (E1 H).
  apply (Rlt_trans _ (/ (x ^ 2 / 2))).
  - apply Rinv_lt_contravar; [|lra]. pose proof (exp_pos (x ^ 2 / 2)). apply Rmult_lt_0_compat; nra.
  - apply (Rlt_le_trans _ (/ (2 / q / 2))).
    + apply Rinv_lt_contravar; [nra|]. nra.
    + right. field. lra.
Qed.
Lemma cdf_lim cdf z : normal_cdf cdf -> is_lim (fun a => P z - P a) m_infty (cdf z).
Proof.
  intros H. specialize (H z). unfold integral_to in H. eapply is_lim_ext; [|exact H]. intros a. cbv beta.
  rewrite <- P_diff. apply RInt_ext. intros. apply pdf_std.
Qed.
Lemma far mu s f l : 0 < s -> is_lim f m_infty l -> is_lim (fun A => f ((A - mu) / s)) m_infty l.
Proof.
  intros Hs H. apply (is_lim_comp f (fun A => (A - mu) / s) m_infty l m_infty); [exact H|apply lim_std; exact Hs|].
  exists 0. intros x _. discriminate.
Qed.

(** C62: the value drawn for "expected improvement" is minus the expectation of max(best - Y, 0) under the model's prediction *)
Theorem C62_expected_improvement :
  forall (cdf : R -> R) (mu s best : R), normal_cdf cdf -> 0 < s ->
  exists ei, acq_exp_improvement cdf mu s best = Some (- ei) /\ expected_improvement mu s best ei.
Proof.
  intros cdf mu s best Hc Hs. unfold acq_exp_improvement. destruct (Req_EM_T s 0); [lra|]. cbv zeta.
  eexists. split; [reflexivity|]. unfold expected_improvement, integral_to.
  eapply is_lim_ext; [intros A; symmetry; apply (ei_int mu s Hs)|].
  set (z := (best - mu) / s).
  assert (L1 := far mu s _ _ Hs (cdf_lim cdf z Hc)). assert (L2 := far mu s _ _ Hs pdf_lim). cbv beta in L1, L2.
  evar_last.
  - apply is_lim_plus'.
    + apply (is_lim_scal_l _ (best - mu) m_infty (Finite (cdf z))). exact L1.
    + apply (is_lim_scal_l _ s m_infty (Finite (norm_pdf z - 0))). apply is_lim_minus'; [apply is_lim_const|exact L2].
  - cbn. f_equal. ring.
Qed.
Print Assumptions C62_expected_improvement.

(** the "upper confidence" value is the quantile below which the prediction falls with probability cdf(-beta) *)
Theorem C62_confidence_quantile :
  forall (cdf : R -> R) (mu s beta : R), normal_cdf cdf -> 0 < s ->
  integral_to (normal_density mu s) (acq_upper_conf mu s beta) (cdf (- beta)).
Proof.
  intros cdf mu s beta Hc Hs. unfold integral_to. eapply is_lim_ext; [intros A; symmetry; apply (dens_int mu s Hs)|].
  unfold acq_upper_conf. replace ((mu - beta * s - mu) / s) with (- beta) by (field; lra).
  exact (far mu s _ _ Hs (cdf_lim cdf (- beta) Hc)).
Qed.
Print Assumptions C62_confidence_quantile.

(** a prediction without uncertainty: the improvement is certain, unless it is exactly zero *)
Theorem C62_no_uncertainty_partial :
  forall (cdf : R -> R) (mu best : R), mu <> best -> acq_exp_improvement cdf mu 0 best = Some (- Rmax (best - mu) 0).
Proof.
  intros cdf mu best N. unfold acq_exp_improvement. destruct (Req_EM_T 0 0); [|lra]. destruct (Req_EM_T best mu); [congruence|].
  destruct (Rlt_dec mu best); f_equal; unfold Rmax; destruct (Rle_dec (best - mu) 0); try lra.
Qed.
Print Assumptions C62_no_uncertainty_partial.
(** at the best point evaluated so far, where the model without noise predicts the best value with zero deviation, the result is NaN *)
Theorem C62_no_uncertainty_refuted : ~ (forall cdf mu best, exists v, acq_exp_improvement cdf mu 0 best = Some v).
Proof.
  intros H. destruct (H (fun _ => 0) 1 1) as (v & E). unfold acq_exp_improvement in E. destruct (Req_EM_T 0 0); [|lra]. destruct (Req_EM_T 1 1); [discriminate|lra].
Qed.
Print Assumptions C62_no_uncertainty_refuted.

(** the normal distribution function exists *)
Lemma pdf_le_atan z : norm_pdf z <= 2 / (1 + z ^ 2).
Proof.
  unfold norm_pdf. pose proof s2pi as H. assert (H1 : 1 <= sqrt (2 * PI)). { rewrite <- sqrt_1. apply sqrt_le_1_alt. pose proof PI2_1. lra. }
  pose proof (pow2_ge_0 z) as Z. rewrite exp_Ropp.
  assert (E : 1 + z ^ 2 / 2 <= exp (z ^ 2 / 2)). { destruct (Req_dec (z ^ 2 / 2) 0) as [e|n]; [rewrite e, exp_0; lra|left; apply exp_ineq1; exact n]. }
  apply (Rle_trans _ (/ exp (z ^ 2 / 2))).
  - unfold Rdiv. rewrite <- (Rmult_1_r (/ exp (z ^ 2 * / 2))) at 2. apply Rmult_le_compat_l; [left; apply Rinv_0_lt_compat, exp_pos|].
    rewrite <- Rinv_1. apply Rinv_le_contravar; lra.
  - apply (Rle_trans _ (/ (1 + z ^ 2 / 2))).
    + apply Rinv_le_contravar; lra.
    + unfold Rdiv. replace (/ (1 + z ^ 2 * / 2)) with (2 * / (2 + z ^ 2)) by (field; lra). apply Rmult_le_compat_l; [lra|]. apply Rinv_le_contravar; lra.
Qed.
Lemma P_mono a b : a <= b -> P a <= P b.
Proof.
  intros H. assert (0 <= RInt norm_pdf a b). { apply RInt_ge_0; [exact H|apply pdf_int|]. intros; left; apply pdf_pos. } rewrite P_diff in H0. lra.
Qed.
Lemma P_bound a b : a <= b -> P b - P a <= 2 * PI.
Proof.
  intros H. rewrite <- P_diff.
  assert (I2 : is_RInt (fun z => 2 / (1 + z ^ 2)) a b (minus (2 * atan b) (2 * atan a))).
  { apply (is_RInt_derive (V := R_CompleteNormedModule) (fun z => 2 * atan z)).
    - intros x _. evar_last. apply is_derive_scal. apply is_derive_atan. cbn. unfold Rsqr. field. pose proof (pow2_ge_0 x). nra.
    - intros x _. apply (ex_derive_continuous (V := R_NormedModule)). auto_derive. pose proof (pow2_ge_0 x). nra. }
  apply (Rle_trans _ (RInt (fun z => 2 / (1 + z ^ 2)) a b)).
  - apply RInt_le; [exact H|apply pdf_int|eexists; exact I2|]. intros; apply pdf_le_atan.
  - rewrite (is_RInt_unique _ _ _ _ I2). unfold minus, plus, opp; cbn. pose proof (atan_bound a). pose proof (atan_bound b). lra.
Qed.
Example C62_cdf_exists : exists cdf, normal_cdf cdf.
Proof.
  set (E := fun x => exists a, a <= 0 /\ x = - P a).
  destruct (completeness E) as (L & HL1 & HL2).
  - exists (2 * PI). intros x (a & Ha & ->). pose proof (P_bound a 0 Ha). assert (P 0 = 0) by (unfold P; apply (RInt_point (V := R_CompleteNormedModule))). lra.
  - exists (- P 0), 0. split; [lra|reflexivity].
  - exists (fun z => P z + L). intros z. unfold integral_to. apply (is_lim_ext (fun a => P z - P a)).
    + intros a. rewrite <- P_diff. apply RInt_ext. intros. symmetry. apply pdf_std.
    + apply is_lim_spec. intros [e He]. cbn [pos].
      assert (Q : exists a0, a0 <= 0 /\ L - e < - P a0).
      { destruct (Classical_Prop.classic (exists a0, a0 <= 0 /\ L - e < - P a0)) as [Y|N]; [exact Y|]. exfalso.
        assert (L <= L - e); [|lra]. apply HL2. intros x (a & Ha & ->). apply Rnot_lt_le. intros C. apply N. exists a. split; [exact Ha|lra]. }
      destruct Q as (a0 & Ha0 & Q). exists a0. intros x Hx. assert (- P x <= L) by (apply HL1; exists x; split; [lra|reflexivity]).
      assert (P x <= P a0) by (apply P_mono; lra). apply Rabs_def1; lra.
Qed.
