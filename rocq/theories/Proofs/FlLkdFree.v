(** Rounding errors of the log-likelihood without noise (closed form of the variance), given a Cholesky factor with accurate solutions. *)
From Coq Require Import Reals List Arith Bool Lia Lra Psatz.
From Verif.Base Require Import NpLite NpFacts.
From Verif.Spec Require Import KernelSpec LinAlgSpec LkdSpec FloatSpec FloatKernSpec FloatLkdSpec.
From Verif.Model Require Import Chol CholFl EvalFl LkdFl.
From Verif.Proofs Require Import LinAlg CholCorrect Det FlOrder FlChol FlMargin FlSolve FlSol FlTarget FlEval FlLkd.
Import ListNotations.
Local Open Scope R_scope.

Lemma Rmax_lipschitz a b c d e : Rabs (a - c) <= e -> Rabs (b - d) <= e -> Rabs (Rmax a b - Rmax c d) <= e.
Proof. intros H1 H2. apply Rabs_le_both in H1. apply Rabs_le_both in H2. apply Rabs_le. unfold Rmax. destruct (Rle_dec a b), (Rle_dec c d); lra. Qed.
(** the logarithm of a number with a relative error *)
Lemma ln_rel_err v w t : 0 < v -> 0 < w -> 0 <= t < 1 -> Rabs (w - v) <= t * v -> Rabs (ln w - ln v) <= - ln (1 - t).
Proof.
  intros Hv Hw Ht H. apply Rabs_le_both in H. assert (A : ln ((1 - t) * v) <= ln w) by (apply ln_le_mono; [apply Rmult_lt_0_compat; lra|lra]).
  assert (B : ln w <= ln ((1 + t) * v)) by (apply ln_le_mono; [exact Hw|lra]). rewrite ln_mult in A by lra. rewrite ln_mult in B by lra.
  assert (Z : ln ((1 + t) * (1 - t)) <= ln 1) by (apply ln_le_mono; [apply Rmult_lt_0_compat; lra|assert (0 <= t * t) by (apply Rmult_le_pos; lra); lra]). rewrite ln_1, ln_mult in Z by lra.
  apply Rabs_le. lra.
Qed.

Section L.
Variables (u r k : R) (m : machine) (A : mat) (c : mat * bool).
Hypothesis Hm : machine_rounds u m.
Hypothesis HP : pd A.
Hypothesis EN : nr (fst c) = nr A.
Hypothesis HC : scaled_cond_le A k.
Hypothesis K0 : 0 <= k.
Hypothesis Hr : 0 <= r < 1.
Notation ar := (m_ar m).
Notation n := (nr A).
Notation sol := (cho_solve_fl ar c).
Hypothesis HA : forall b x, solves A x b -> accurate A r (sol b) x.
Let RO := mr_ar _ _ Hm.
Let Hu := ro_u _ _ RO.
Variables (h y xh xy : nat -> R).
Hypothesis Sh : solves A xh h.
Hypothesis Sy : solves A xy y.
Hypothesis Hh : nonzero n h.
Hypothesis P1 : prod_acc u r k n < 1.
Notation bs := (dotp n y xh / dotp n h xh).
Notation y2 := (dotp n y xy).
Notation qs := (qb A h y xh xy bs).
Notation vs := (Rmax (/ 10 ^ 32) (qs / INR n)).

Lemma n_pos : 0 < INR n.
Proof. apply lt_0_INR. destruct Hh as (i & Hi & _). lia. Qed.
Lemma floor_pos : 0 < / 10 ^ 32. Proof. apply Rinv_0_lt_compat, pow_lt. lra. Qed.
Lemma vs_pos : 0 < vs. Proof. eapply Rlt_le_trans; [apply floor_pos|apply Rmax_l]. Qed.
Lemma qs_range : 0 <= qs <= y2.
Proof.
  split.
  - rewrite <- (qb_sq A HP h y xh xy Sh Sy). apply Rle_0_sqr.
  - rewrite <- (YY A HP y xy Sy). apply (qb_le A HP h y xh xy Sh Sy Hh).
Qed.
Lemma quad_acc_nonneg : 0 <= quad_acc u r k n.
Proof.
  assert (P := p_nonneg u r k m A Hm Hr). assert (C := C_nonneg u r k m A Hm Hr P1). unfold quad_acc. cbv zeta. set (e := sqrt (INR n * k) * gam u 3 * (2 + beta_acc u r k n)).
  assert (E0 : 0 <= e) by (unfold e; apply Rmult_le_pos; [apply Rmult_le_pos; [apply sqrt_pos|apply gam_nonneg, Hu]|lra]).
  assert (0 <= prod_acc u r k n * (1 + beta_acc u r k n + e) ^ 2) by (apply Rmult_le_pos; [exact P|apply pow2_ge_0]). assert (0 <= beta_acc u r k n ^ 2) by apply pow2_ge_0.
  assert (0 <= e * (2 * (1 + beta_acc u r k n) + e)) by (apply Rmult_le_pos; lra). lra.
Qed.

Lemma varK_err vmin : near u (/ 10 ^ 32) vmin -> Rabs (varK_fl m c vmin h y - vs) <= varK_acc u r k y2 vs n * vs.
Proof.
  intros (V1 & _). unfold varK_fl. cbv zeta. rewrite EN. assert (Q := quad_err u r k m A c Hm HP EN HC K0 Hr HA h y xh xy Sh Sy Hh P1). cbv zeta in Q. rewrite (YY A HP y xy Sy) in Q.
  set (q := dot_fl ar n _ _) in *. assert (NP := n_pos). assert (VP := vs_pos). assert (QR := qs_range). assert (QA := quad_acc_nonneg). assert (FP := floor_pos).
  set (q0 := qs) in *. set (v := Rmax (/ 10 ^ 32) (q0 / INR n)) in *. set (dq := quad_acc u r k n * y2) in *. set (N := INR n) in *. assert (IN : 0 < / N) by (apply Rinv_0_lt_compat, NP).
  destruct (ro_div _ _ RO q N ltac:(lra)) as (D & _). set (z := f_div ar q N) in *.
  set (e := ((1 + u) * dq + u * y2) / N). assert (DQ0 : 0 <= dq) by (unfold dq; apply Rmult_le_pos; lra).
  assert (EZ : Rabs (z - q0 / N) <= e).
  { replace (z - q0 / N) with ((z - q / N) + (q - q0) / N) by (unfold Rdiv; ring). eapply Rle_trans; [apply Rabs_triang|]. unfold Rdiv in *. rewrite Rabs_mult in D. rewrite (Rabs_mult (q - q0)), (Rabs_pos_eq (/ N)) in * by lra.
    assert (QS : Rabs q <= dq + y2). { replace q with ((q - q0) + q0) by ring. eapply Rle_trans; [apply Rabs_triang|]. rewrite (Rabs_pos_eq q0) by lra. lra. }
    assert (X1 : u * (Rabs q * / N) <= u * ((dq + y2) * / N)) by (apply Rmult_le_compat_l; [exact Hu|apply Rmult_le_compat_r; lra]).
    assert (X2 : Rabs (q - q0) * / N <= dq * / N) by (apply Rmult_le_compat_r; lra). unfold e, Rdiv. lra. }
  assert (EQ : varK_acc u r k y2 v n * v = e + u * v) by (unfold varK_acc, e, dq; fold N; field; split; lra).
  rewrite EQ. rewrite (Rabs_pos_eq (/ 10 ^ 32)) in V1 by lra. assert (VL : / 10 ^ 32 <= v) by apply Rmax_l. assert (UV : u * / 10 ^ 32 <= u * v) by (apply Rmult_le_compat_l; [exact Hu|exact VL]).
  assert (UV0 : 0 <= u * v) by (apply Rmult_le_pos; lra). assert (E0 : 0 <= e) by (unfold e, Rdiv; apply Rmult_le_pos; [|lra]; assert (0 <= (1 + u) * dq) by (apply Rmult_le_pos; lra); assert (0 <= u * y2) by (apply Rmult_le_pos; lra); lra).
  apply Rmax_lipschitz; lra.
Qed.

Lemma varK_acc_nonneg : u <= varK_acc u r k y2 vs n.
Proof.
  unfold varK_acc. assert (NP := n_pos). assert (VP := vs_pos). assert (QR := qs_range). assert (QA := quad_acc_nonneg). assert (0 < / (INR n * vs)) by (apply Rinv_0_lt_compat, Rmult_lt_0_compat; assumption).
  assert (0 <= ((1 + u) * quad_acc u r k n + u) * y2 / (INR n * vs)); [|lra].
  unfold Rdiv. apply Rmult_le_pos; [apply Rmult_le_pos; [|lra]|lra]. assert (0 <= (1 + u) * quad_acc u r k n) by (apply Rmult_le_pos; lra). lra.
Qed.
Lemma lkd_free_err vmin t : near u (/ 10 ^ 32) vmin -> varK_acc u r k y2 vs n <= t < 1 ->
  (exists L, is_chol n L A /\ forall i, (i < n)%nat -> 0 < mat_at (fst c) i i /\ Rabs (2 * ln (mat_at (fst c) i i) - 2 * ln (L i i)) <= - ln (1 - r)) ->
  let L := - (INR n * ln vs + ln (det n (mat_at A))) / 2 in Rabs (lkd_free_fl m c vmin h y - L) <= lkd_free_acc u r k t A vs L.
Proof.
  intros HV Ht HL. cbv zeta. unfold lkd_free_fl. rewrite EN. assert (VE := varK_err vmin HV). assert (VA := varK_acc_nonneg). assert (VP := vs_pos). assert (NP := n_pos).
  assert (D := lndet_err u r k m A c Hm HP EN HC K0 HL). set (ld := lndet_fl m c) in *. set (l0 := ln (det n (mat_at A))) in *. set (vh := varK_fl m c vmin h y) in *. set (v := vs) in *. set (N := INR n) in *.
  assert (VHP : 0 < vh).
  { apply Rabs_le_both in VE. assert (varK_acc u r k y2 v n * v < 1 * v) by (apply Rmult_lt_compat_r; lra). lra. }
  assert (T0 : 0 <= t < 1) by lra.
  assert (VT : Rabs (vh - v) <= t * v) by (eapply Rle_trans; [exact VE|apply Rmult_le_compat_r; lra]).
  assert (LE := ln_rel_err v vh t VP VHP T0 VT). set (l := - ln (1 - t)) in *.
  destruct (mr_ln _ _ Hm vh VHP) as (M1 & _). set (lm := m_ln m vh) in *. destruct (ro_mul _ _ RO N lm) as (M2 & _). set (z1 := f_mul ar N lm) in *.
  assert (G2 := gam_nonneg u 2 Hu). assert (G3 := gam_nonneg u 3 Hu).
  assert (LV : Rabs (ln vh) <= Rabs (ln v) + l). { replace (ln vh) with ((ln vh - ln v) + ln v) by ring. eapply Rle_trans; [apply Rabs_triang|]. lra. }
  set (B := Rabs (ln v) + l) in *.
  assert (LM : Rabs (lm - ln vh) <= gam u 2 * B) by (eapply Rle_trans; [exact M1|apply Rmult_le_compat_l; assumption]).
  assert (LM2 : Rabs lm <= (1 + gam u 2) * B). { replace lm with ((lm - ln vh) + ln vh) by ring. eapply Rle_trans; [apply Rabs_triang|]. lra. }
  assert (Z1 : Rabs (z1 - N * ln v) <= N * l + gam u 3 * (N * B)).
  { replace (z1 - N * ln v) with ((z1 - N * lm) + N * ((lm - ln vh) + (ln vh - ln v))) by ring. eapply Rle_trans; [apply Rabs_triang|]. rewrite (Rabs_mult N (lm - ln vh + _)). rewrite (Rabs_mult N lm) in M2. rewrite (Rabs_pos_eq N) in * by lra.
    assert (X1 : u * (N * Rabs lm) <= u * (N * ((1 + gam u 2) * B))) by (apply Rmult_le_compat_l; [exact Hu|apply Rmult_le_compat_l; lra]).
    assert (X2 : N * Rabs (lm - ln vh + (ln vh - ln v)) <= N * (gam u 2 * B + l)) by (apply Rmult_le_compat_l; [lra|]; eapply Rle_trans; [apply Rabs_triang|lra]).
    rewrite (gam_S u 2). lra. }
  set (q0 := N * ln v) in *. set (L := - (q0 + l0) / 2). unfold lkd_free_acc. cbv zeta. fold N l B. set (W := (N * l + gam u 3 * (N * B) + det_acc u r k A) / 2).
  destruct (mr_add _ _ Hm z1 ld) as (N1 & _). set (s := m_add m z1 ld) in *. destruct (ro_div _ _ RO (- s) 2 ltac:(lra)) as (N2 & _). set (z := f_div ar (- s) 2) in *.
  assert (LW : Rabs (- (z1 + ld) / 2 - L) <= W).
  { unfold L. replace (- (z1 + ld) / 2 - - (q0 + l0) / 2) with (- ((z1 - q0) + (ld - l0)) / 2) by field. unfold Rdiv. rewrite Rabs_mult, Rabs_Ropp, (Rabs_pos_eq (/ 2)) by lra. assert (T := Rabs_triang (z1 - q0) (ld - l0)). unfold W. lra. }
  assert (E1 : Rabs (- (z1 + ld) / 2) <= Rabs L + W). { replace (- (z1 + ld) / 2) with ((- (z1 + ld) / 2 - L) + L) by ring. eapply Rle_trans; [apply Rabs_triang|]. lra. }
  assert (E2 : Rabs (z1 + ld) = 2 * Rabs (- (z1 + ld) / 2)). { unfold Rdiv. rewrite Rabs_mult, Rabs_Ropp, (Rabs_pos_eq (/ 2)) by lra. lra. }
  set (X := Rabs (- (z1 + ld) / 2)) in *. rewrite E2 in N1.
  assert (N1' : Rabs (- s / 2 - - (z1 + ld) / 2) <= u * X). { replace (- s / 2 - - (z1 + ld) / 2) with (- (s - (z1 + ld)) / 2) by field. unfold Rdiv. rewrite Rabs_mult, Rabs_Ropp, (Rabs_pos_eq (/ 2)) by lra. lra. }
  assert (S1 : Rabs (- s / 2) <= (1 + u) * X). { replace (- s / 2) with ((- s / 2 - - (z1 + ld) / 2) + - (z1 + ld) / 2) by ring. eapply Rle_trans; [apply Rabs_triang|]. fold X. lra. }
  assert (N3 : Rabs (z - - (z1 + ld) / 2) <= gam u 2 * X).
  { replace (z - - (z1 + ld) / 2) with ((z - - s / 2) + (- s / 2 - - (z1 + ld) / 2)) by ring. eapply Rle_trans; [apply Rabs_triang|].
    assert (u * Rabs (- s / 2) <= u * ((1 + u) * X)) by (apply Rmult_le_compat_l; assumption). unfold gam. cbn [pow]. lra. }
  replace (z - L) with ((z - - (z1 + ld) / 2) + (- (z1 + ld) / 2 - L)) by ring. eapply Rle_trans; [apply Rabs_triang|].
  assert (gam u 2 * X <= gam u 2 * (Rabs L + W)) by (apply Rmult_le_compat_l; [exact G2|exact E1]). lra.
Qed.

Lemma closed_form_here res : (forall b i, (i < n)%nat -> res b i = y i - b * h i) -> closed_form A res bs vs (- (INR n * ln vs + ln (det n (mat_at A))) / 2).
Proof.
  intros HRes. destruct (best_lkd A HP h y xh xy Sh Sy Hh res HRes) as ((q & W & E) & Q). exists q.
  assert (EQ : q = qs) by lra. split; [exact W|]. split; [|split; [rewrite EQ; reflexivity|reflexivity]].
  intros b q' W'. assert (X := Q b _ (ex_intro _ q' (conj W' eq_refl))). lra.
Qed.
End L.
