(** Rounding errors of the assembled covariance matrix. *)
From Coq Require Import Reals List Arith Bool Lia Lra Psatz.
From Verif.Base Require Import NpLite NpFacts.
From Verif.Spec Require Import KernelSpec FloatSpec FloatKernSpec.
From Verif.Model Require Import KernelSqExp KernelMatern KernelDispatch KernFl.
From Verif.Proofs Require Import CovStruct FlChol FlTarget FlFac FlKern.
Local Open Scope R_scope.

Section A.
Variables (u : R) (m : machine).
Hypothesis Hm : machine_rounds u m.
Hypothesis Hs : gam u 2 < 1.
Notation mul := (f_mul (m_ar m)).
Notation div := (f_div (m_ar m)).
Notation sqt := (f_sqrt (m_ar m)).
Notation add := (m_add m).
Let Hu := Hu u m Hm.
Let mulf := mul_fac u m Hm Hs.
Let divf := div_fac u m Hm Hs.
Let addf := add_fac u m Hm Hs.
Let sqtf := sqt_fac u m Hm Hs.
Let mono := mono u m Hm.

Variables (N d : nat) (kf Kh : nat -> nat -> R) (nz nzh : nat -> R) (vK e eh ke w : R).
Hypothesis KP : forall i, (i < N)%nat -> 0 < kf i i.
Hypothesis KS : forall i j, (i < N)%nat -> (j < N)%nat -> Rabs (kf i j) <= sqrt (kf i i) * sqrt (kf j j).
Hypothesis KE : forall i j, (i < N)%nat -> (j < N)%nat -> Rabs (Kh i j - kf i j) <= ke * (sqrt (kf i i) * sqrt (kf j j)).
Hypothesis KD : forall i, (i < N)%nat -> fac u (d + 14) (kf i i) (Kh i i).
Hypothesis NZ : forall i, (i < N)%nat -> 0 <= nz i.
Hypothesis NZH : forall i, (i < N)%nat -> fac u 1 (nz i) (nzh i).
Hypothesis VP : 0 < vK.
Hypothesis EP : 0 <= e.
Hypothesis EHP : 0 <= eh.
Hypothesis WP : 0 <= w.
Hypothesis KEP : 0 <= ke.
Hypothesis EW : Rabs (eh - e) <= w * (1 + e).

Definition asm_err (ke w : R) : R := (1 + (ke + w)) * (1 + gam u (2 * d + 40)) - 1. (* = cov_err *)
Notation kn := (kn kf nz vK).
Notation knh := (noisy_fl m Kh nzh vK).
Lemma add0r_fac x : fac u 1 x (add x 0).
Proof. apply near_fac; [exact Hu|apply (u1 u m Hm Hs)|]. assert (A := mr_add _ _ Hm x 0). rewrite Rplus_0_r in A. exact A. Qed.
Lemma kn_pos i : (i < N)%nat -> 0 < kn i i.
Proof. intros H. unfold CovStruct.kn, dl. rewrite Nat.eqb_refl. assert (A := KP i H). assert (B : 0 <= nz i / vK) by (apply Rmult_le_pos; [apply NZ, H|left; apply Rinv_0_lt_compat, VP]). lra. Qed.
Lemma kn_ge i : (i < N)%nat -> kf i i <= kn i i.
Proof. intros H. unfold CovStruct.kn, dl. rewrite Nat.eqb_refl. assert (B : 0 <= nz i / vK) by (apply Rmult_le_pos; [apply NZ, H|left; apply Rinv_0_lt_compat, VP]). lra. Qed.
Lemma knh_diag i : (i < N)%nat -> fac u (d + 15) (kn i i) (knh i i).
Proof.
  intros H. unfold CovStruct.kn, dl, noisy_fl. rewrite Nat.eqb_refl. replace (d + 15)%nat with (d + 14 + 1)%nat by lia. apply addf; [left; apply KP, H| |apply KD, H|].
  - apply Rmult_le_pos; [apply NZ, H|left; apply Rinv_0_lt_compat, VP].
  - apply (mono 2); [|lia]. apply (divf 1%nat 0%nat); [lra|apply NZH, H|apply fac_refl, Hu].
Qed.
Lemma knh_off i j : i <> j -> fac u 1 (Kh i j) (knh i j).
Proof. intros H. unfold noisy_fl. destruct (Nat.eqb_spec i j); [contradiction|]. apply add0r_fac. Qed.
Notation hf := ((d + 16) / 2)%nat.
Lemma hf_lo : (d + 15 <= 2 * hf)%nat. Proof. assert (E := Nat.div_mod (d + 16) 2 ltac:(lia)). assert (B := Nat.mod_upper_bound (d + 16) 2 ltac:(lia)). lia. Qed.
Lemma hf_hi : (2 * hf <= d + 16)%nat. Proof. assert (E := Nat.div_mod (d + 16) 2 ltac:(lia)). lia. Qed.
Lemma pinv_fac i : (i < N)%nat -> fac u (hf + 2) (/ sqrt (kn i i)) (div 1 (pvec_fl m Kh nzh vK i)).
Proof.
  intros H. assert (P := sqrt_lt_R0 _ (kn_pos i H)). replace (/ sqrt (kn i i)) with (1 / sqrt (kn i i)) by (field; lra). apply (mono (0 + (hf + 1) + 1)); [|lia]. apply divf; [lra|apply fac_refl, Hu|].
  apply sqtf; [left; apply kn_pos, H|]. apply (mono (d + 15)); [apply knh_diag, H|apply hf_lo].
Qed.
Lemma kcorh_diag i : (i < N)%nat -> fac u (2 * d + 37) 1 (kcor_fl m Kh nzh vK i i).
Proof.
  intros H. assert (P := kn_pos i H). assert (Q := sqrt_lt_R0 _ P). assert (X := hf_hi).
  replace 1 with (/ sqrt (kn i i) * kn i i * / sqrt (kn i i)) at 1.
  - apply (mono (hf + 2 + (d + 15) + 1 + (hf + 2) + 1)); [|lia]. apply mulf; [apply mulf|]; [apply pinv_fac, H|apply knh_diag, H|apply pinv_fac, H].
  - rewrite <- (sqrt_sqrt (kn i i)) at 2 by lra. field. lra.
Qed.
Lemma kcorh_off i j : (i < N)%nat -> (j < N)%nat -> i <> j -> fac u (d + 23) (/ sqrt (kn i i) * Kh i j * / sqrt (kn j j)) (kcor_fl m Kh nzh vK i j).
Proof.
  intros H H' NE. assert (X := hf_hi). apply (mono (hf + 2 + 1 + 1 + (hf + 2) + 1)); [|lia]. apply mulf; [apply mulf|]; [apply pinv_fac, H|apply knh_off, NE|apply pinv_fac, H'].
Qed.
Lemma mul0r x : mul x 0 = 0.
Proof. apply (fac_zero u 1). rewrite <- (Rmult_0_r x) at 1. apply (mulf 0%nat 0%nat); apply fac_refl, Hu. Qed.
Lemma gg k l : (k <= l)%nat -> gam u k <= gam u l. Proof. apply gam_mono, Hu. Qed.

Lemma off_err k c K x : (k <= 2 * d + 40)%nat -> 0 <= c -> 0 <= K -> Rabs x <= K -> forall xh y, Rabs (xh - x) <= ke * K -> fac u k (c * xh) y -> Rabs (y - c * x) <= asm_err ke w * (c * K).
Proof.
  intros Hk Hc HK HX xh y HE (f & -> & F). assert (B := rng_err u Hu _ _ F). assert (G := gg _ _ Hk). assert (G0 := gam_nonneg u k Hu).
  replace (c * xh * f - c * x) with (c * ((xh - x) * f + x * (f - 1))) by ring. rewrite Rabs_mult, (Rabs_right c) by lra.
  replace (asm_err ke w * (c * K)) with (c * (asm_err ke w * K)) by ring. apply Rmult_le_compat_l; [exact Hc|]. eapply Rle_trans; [apply Rabs_triang|]. rewrite !Rabs_mult.
  assert (Ff : Rabs f <= 1 + gam u (2 * d + 40)) by (replace f with (1 + (f - 1)) by ring; eapply Rle_trans; [apply Rabs_triang|]; rewrite Rabs_R1; lra).
  apply Rle_trans with (ke * K * (1 + gam u (2 * d + 40)) + K * gam u (2 * d + 40)).
  - apply Rplus_le_compat; [apply Rmult_le_compat; try apply Rabs_pos; assumption|apply Rmult_le_compat; try apply Rabs_pos; lra].
  - unfold asm_err. assert (0 <= w * (1 + gam u (2 * d + 40)) * K) by (apply Rmult_le_pos; [apply Rmult_le_pos; lra|exact HK]). lra.
Qed.
(** with preconditioning *)
Lemma kprec_err i j : (i < N)%nat -> (j < N)%nat ->
  Rabs (kprec_fl m Kh nzh vK eh i j - vK * (kcor kf nz vK i j + dl i j e)) <= asm_err ke w * (vK * (1 + e)).
Proof.
  intros H H'. unfold kprec_fl, dl. assert (P := kn_pos i H). assert (P' := kn_pos j H'). assert (Q := sqrt_lt_R0 _ P). assert (Q' := sqrt_lt_R0 _ P'). destruct (Nat.eqb_spec i j) as [<-|NE].
  - assert (KC : kcor kf nz vK i i = 1). { unfold kcor. rewrite <- (sqrt_sqrt (kn i i)) at 2 by lra. field. lra. } rewrite KC.
    assert (F : fac u (2 * d + 39) (vK * (1 + eh)) (mul vK (add (kcor_fl m Kh nzh vK i i) (mul eh 1)))).
    { apply (mono (0 + (2 * d + 37 + 1) + 1)); [|lia]. apply mulf; [apply fac_refl, Hu|]. apply addf; [lra|exact EHP|apply kcorh_diag, H|]. rewrite <- (Rmult_1_r eh) at 1. apply (mono 1); [|lia]. apply (mulf 0%nat 0%nat); apply fac_refl, Hu. }
    apply fac_err in F; [|exact Hu]. rewrite (Rabs_right (vK * (1 + eh))) in F by (apply Rle_ge, Rmult_le_pos; lra).
    replace (mul vK (add (kcor_fl m Kh nzh vK i i) (mul eh 1)) - vK * (1 + e)) with ((mul vK (add (kcor_fl m Kh nzh vK i i) (mul eh 1)) - vK * (1 + eh)) + vK * (eh - e)) by ring.
    eapply Rle_trans; [apply Rabs_triang|]. rewrite (Rabs_mult vK), (Rabs_right vK) by lra. assert (G := gg (2 * d + 39) (2 * d + 40) ltac:(lia)). assert (G0 := gam_nonneg u (2 * d + 39) Hu).
    apply Rabs_def2_le in EW as EW'. assert (V : vK * (1 + eh) <= vK * ((1 + w) * (1 + e))) by (apply Rmult_le_compat_l; lra). assert (V0 : 0 <= vK * (1 + eh)) by (apply Rmult_le_pos; lra).
    assert (V2 : vK * Rabs (eh - e) <= vK * (w * (1 + e))) by (apply Rmult_le_compat_l; lra).
    assert (V3 : gam u (2 * d + 39) * (vK * (1 + eh)) <= gam u (2 * d + 40) * (vK * ((1 + w) * (1 + e)))) by (apply Rmult_le_compat; lra).
    unfold asm_err. assert (0 <= ke * (1 + gam u (2 * d + 40)) * (vK * (1 + e))) by (apply Rmult_le_pos; apply Rmult_le_pos; lra). lra.
  - rewrite mul0r, Rplus_0_r. unfold kcor. set (c := vK * (/ sqrt (kn i i) * / sqrt (kn j j))).
    assert (CP : 0 <= c) by (apply Rmult_le_pos; [lra|]; apply Rmult_le_pos; left; apply Rinv_0_lt_compat; assumption).
    assert (E1 : vK * (1 / sqrt (kn i i) * kn i j * (1 / sqrt (kn j j))) = c * kf i j).
    { assert (kn i j = kf i j) as -> by (unfold CovStruct.kn, dl; destruct (Nat.eqb_spec i j); [contradiction|ring]). unfold c. field. split; lra. }
    rewrite E1. eapply Rle_trans; [apply (off_err (d + 25) c (sqrt (kf i i) * sqrt (kf j j)) (kf i j)) with (xh := Kh i j); auto; try lia|].
    + apply Rmult_le_pos; apply sqrt_pos.
    + replace (c * Kh i j) with (vK * (/ sqrt (kn i i) * Kh i j * / sqrt (kn j j))) by (unfold c; ring). apply (mono (0 + (d + 23 + 1) + 1)); [|lia].
      apply mulf; [apply fac_refl, Hu|]. eapply fac_trans; [exact Hu|apply kcorh_off; assumption|apply add0r_fac].
    + apply Rmult_le_compat_l; [unfold asm_err; assert (G := gam_nonneg u (2 * d + 40) Hu); nra|]. unfold c.
      assert (S1 : sqrt (kf i i) <= sqrt (kn i i)) by (apply sqrt_le_1_alt, kn_ge, H). assert (S2 : sqrt (kf j j) <= sqrt (kn j j)) by (apply sqrt_le_1_alt, kn_ge, H').
      rewrite Rmult_assoc. apply Rmult_le_compat_l; [lra|]. apply Rle_trans with 1; [|lra].
      replace (/ sqrt (kn i i) * / sqrt (kn j j) * (sqrt (kf i i) * sqrt (kf j j))) with (sqrt (kf i i) / sqrt (kn i i) * (sqrt (kf j j) / sqrt (kn j j))) by (field; split; lra).
      assert (R1 : forall a b : R, 0 <= a <= b -> 0 < b -> 0 <= a / b <= 1). { intros a b A B. split; [apply Rmult_le_pos; [lra|left; apply Rinv_0_lt_compat, B]|]. apply (Rmult_le_reg_r b); [exact B|]. unfold Rdiv. rewrite Rmult_assoc, Rinv_l by lra. lra. }
      destruct (R1 _ _ (conj (sqrt_pos (kf i i)) S1) Q). destruct (R1 _ _ (conj (sqrt_pos (kf j j)) S2) Q'). rewrite <- (Rmult_1_r 1). apply Rmult_le_compat; assumption.
Qed.
(** without preconditioning *)
Lemma ratio_err A B y : 0 <= A -> 0 <= B -> Rabs (eh - e) <= w * e -> e <= B -> fac u (2 * d + 40) (vK * (A + eh)) y -> A + e <= B -> Rabs (y - vK * (A + e)) <= asm_err ke w * (vK * B).
Proof.
  intros HA HB HW _ F HAB. apply fac_err in F; [|exact Hu]. rewrite (Rabs_right (vK * (A + eh))) in F by (apply Rle_ge, Rmult_le_pos; lra).
  replace (y - vK * (A + e)) with ((y - vK * (A + eh)) + vK * (eh - e)) by ring. eapply Rle_trans; [apply Rabs_triang|]. rewrite (Rabs_mult vK), (Rabs_right vK) by lra. assert (G0 := gam_nonneg u (2 * d + 40) Hu).
  apply Rabs_def2_le in HW as HW'. assert (WE : w * e <= w * B) by (apply Rmult_le_compat_l; lra). assert (V : vK * (A + eh) <= vK * ((1 + w) * B)) by (apply Rmult_le_compat_l; lra).
  assert (V2 : vK * Rabs (eh - e) <= vK * (w * B)) by (apply Rmult_le_compat_l; lra).
  assert (V3 : gam u (2 * d + 40) * (vK * (A + eh)) <= gam u (2 * d + 40) * (vK * ((1 + w) * B))) by (apply Rmult_le_compat_l; lra).
  unfold asm_err. assert (0 <= ke * (1 + gam u (2 * d + 40)) * (vK * B)) by (apply Rmult_le_pos; apply Rmult_le_pos; lra). lra.
Qed.
Lemma kplain_err i j : (i < N)%nat -> (j < N)%nat -> Rabs (eh - e) <= w * e ->
  Rabs (kplain_fl m Kh nzh vK eh i j - vK * (kn i j + dl i j e)) <= asm_err ke w * (vK * (sqrt (kn i i + e) * sqrt (kn j j + e))).
Proof.
  intros H H' HW. unfold kplain_fl, dl. assert (P := kn_pos i H). assert (P' := kn_pos j H'). destruct (Nat.eqb_spec i j) as [<-|NE].
  - rewrite sqrt_sqrt by lra. apply ratio_err; auto; try lra. apply (mono (0 + (d + 15 + 1) + 1)); [|lia]. apply mulf; [apply fac_refl, Hu|]. apply addf; [lra|exact EHP|apply knh_diag, H|].
    rewrite <- (Rmult_1_r eh) at 1. apply (mono 1); [|lia]. apply (mulf 0%nat 0%nat); apply fac_refl, Hu.
  - rewrite mul0r, Rplus_0_r. assert (kn i j = kf i j) as -> by (unfold CovStruct.kn, dl; destruct (Nat.eqb_spec i j); [contradiction|ring]).
    eapply Rle_trans; [apply (off_err 3 vK (sqrt (kf i i) * sqrt (kf j j)) (kf i j)) with (xh := Kh i j); auto; try lia; try lra|].
    + apply Rmult_le_pos; apply sqrt_pos.
    + apply (mulf 0%nat 2%nat); [apply fac_refl, Hu|]. apply (fac_trans u Hu 1 1 _ (knh i j)); [apply knh_off, NE|apply add0r_fac].
    + apply Rmult_le_compat_l; [unfold asm_err; assert (G := gam_nonneg u (2 * d + 40) Hu); nra|]. apply Rmult_le_compat_l; [lra|].
      apply Rmult_le_compat; try apply sqrt_pos; apply sqrt_le_1_alt; [assert (X := kn_ge i H)|assert (X := kn_ge j H')]; lra.
Qed.
(** the entries of Kcor *)
Lemma kcor_err i j : (i < N)%nat -> (j < N)%nat -> Rabs (kcor_fl m Kh nzh vK i j - kcor kf nz vK i j) <= asm_err ke w.
Proof.
  intros H H'. assert (P := kn_pos i H). assert (P' := kn_pos j H'). assert (Q := sqrt_lt_R0 _ P). assert (Q' := sqrt_lt_R0 _ P'). assert (GN := gam_nonneg u (2 * d + 40) Hu).
  assert (AN : 0 <= asm_err ke w) by (unfold asm_err; nra). destruct (Nat.eq_dec i j) as [<-|NE].
  - assert (KC : kcor kf nz vK i i = 1). { unfold kcor. rewrite <- (sqrt_sqrt (kn i i)) at 2 by lra. field. lra. } rewrite KC.
    assert (F := kcorh_diag i H). apply fac_err in F; [|exact Hu]. rewrite Rabs_R1, Rmult_1_r in F. assert (G := gg (2 * d + 37) (2 * d + 40) ltac:(lia)). unfold asm_err. nra.
  - unfold kcor. set (c := / sqrt (kn i i) * / sqrt (kn j j)).
    assert (CP : 0 <= c) by (apply Rmult_le_pos; left; apply Rinv_0_lt_compat; assumption).
    assert (E1 : 1 / sqrt (kn i i) * kn i j * (1 / sqrt (kn j j)) = c * kf i j).
    { assert (kn i j = kf i j) as -> by (unfold CovStruct.kn, dl; destruct (Nat.eqb_spec i j); [contradiction|ring]). unfold c. field. split; lra. }
    rewrite E1. eapply Rle_trans; [apply (off_err (d + 23) c (sqrt (kf i i) * sqrt (kf j j)) (kf i j)) with (xh := Kh i j); auto; try lia|].
    + apply Rmult_le_pos; apply sqrt_pos.
    + replace (c * Kh i j) with (/ sqrt (kn i i) * Kh i j * / sqrt (kn j j)) by (unfold c; ring). apply kcorh_off; assumption.
    + rewrite <- (Rmult_1_r (asm_err ke w)) at 2. apply Rmult_le_compat_l; [exact AN|]. unfold c.
      assert (S1 : sqrt (kf i i) <= sqrt (kn i i)) by (apply sqrt_le_1_alt, kn_ge, H). assert (S2 : sqrt (kf j j) <= sqrt (kn j j)) by (apply sqrt_le_1_alt, kn_ge, H').
      replace (/ sqrt (kn i i) * / sqrt (kn j j) * (sqrt (kf i i) * sqrt (kf j j))) with (sqrt (kf i i) / sqrt (kn i i) * (sqrt (kf j j) / sqrt (kn j j))) by (field; split; lra).
      assert (R1 : forall a b : R, 0 <= a <= b -> 0 < b -> 0 <= a / b <= 1). { intros a b A B. split; [apply Rmult_le_pos; [lra|left; apply Rinv_0_lt_compat, B]|]. apply (Rmult_le_reg_r b); [exact B|]. unfold Rdiv. rewrite Rmult_assoc, Rinv_l by lra. lra. }
      destruct (R1 _ _ (conj (sqrt_pos (kf i i)) S1) Q). destruct (R1 _ _ (conj (sqrt_pos (kf j j)) S2) Q'). rewrite <- (Rmult_1_r 1). apply Rmult_le_compat; assumption.
Qed.
End A.

(** the nugget from the row sums *)
Section Eta.
Variables (u : R) (m : machine).
Hypothesis Hm : machine_rounds u m.
Hypothesis Hs : gam u 2 < 1.
Let Hu := Hu u m Hm.
Lemma abs_sum_fac f n : fac u n (rsum n (fun j => Rabs (f j))) (abs_sum_fl m f n).
Proof.
  unfold abs_sum_fl. set (l := map (fun j => Rabs (f j)) (seq 0 n)). assert (LL : length l = n) by (unfold l; rewrite map_length, seq_length; reflexivity).
  assert (N := mr_sum _ _ Hm l). rewrite LL in N. replace (rsum n (fun j => Rabs (f j))) with (total l) by apply total_seq.
  assert (LP : forall x, In x l -> 0 <= x) by (intros x Hx; apply in_map_iff in Hx; destruct Hx as (j & <- & _); apply Rabs_pos). specialize (N LP).
  assert (T0 : 0 <= total l) by (clearbody l; clear - LP; induction l as [|x l IH]; unfold total; cbn [fold_right]; [lra|]; assert (0 <= x) by (apply LP; left; reflexivity); assert (0 <= total l) by (apply IH; intros; apply LP; right; assumption); unfold total in *; lra).
  set (t := total l) in *. set (s := m_sum m l) in *. destruct N as (N0 & N1 & N2). rewrite (Rabs_pos_eq t T0) in N1. unfold gam in N1, N2. set (P := (1 + u) ^ n) in *.
  assert (P1 : 1 <= P) by apply pw_ge1, Hu. assert (X := Rle_abs (s - t)). assert (Y := Rle_abs (- (s - t))). rewrite Rabs_Ropp in Y.
  destruct (Req_dec t 0) as [Z|Z].
  - assert (S1 : s = 0). { clearbody s t P. subst t. replace (s - 0) with s in N1 by ring. rewrite Rmult_0_r in N1. assert (Q := Rabs_pos s). destruct (Req_dec s 0) as [|W]; [assumption|]. apply Rabs_pos_lt in W. lra. }
    exists 1. split; [rewrite S1, Z; ring|]. split; fold P; [rewrite <- Rinv_1; apply Rinv_le_contravar; lra|exact P1].
  - assert (TP : 0 < t) by lra. 
    rewrite (Rabs_pos_eq s) in N2 by exact N0. exists (s / t). split; [field; lra|]. split; fold P.
    + apply Rmult_le_reg_r with t; [exact TP|]. replace (s / t * t) with s by (field; lra). apply Rmult_le_reg_l with P; [lra|]. rewrite <- Rmult_assoc, Rinv_r, Rmult_1_l by lra. lra.
    + apply Rmult_le_reg_r with t; [exact TP|]. replace (s / t * t) with s by (field; lra). lra.
Qed.
Lemma abs_sum_err n (f g : nat -> R) c : (forall j, (j < n)%nat -> Rabs (g j - f j) <= c) -> Rabs (rsum n (fun j => Rabs (g j)) - rsum n (fun j => Rabs (f j))) <= INR n * c.
Proof.
  induction n as [|n IH]; intros H; cbn [rsum]; [rewrite Rminus_0_r, Rabs_R0; cbn; lra|]. rewrite S_INR. assert (A := IH (fun j Hj => H j ltac:(lia))). assert (B := H n ltac:(lia)).
  assert (C := Rabs_triang_inv2 (g n) (f n)). replace (rsum n (fun j => Rabs (g j)) + Rabs (g n) - (rsum n (fun j => Rabs (f j)) + Rabs (f n))) with ((rsum n (fun j => Rabs (g j)) - rsum n (fun j => Rabs (f j))) + (Rabs (g n) - Rabs (f n))) by ring.
  eapply Rle_trans; [apply Rabs_triang|]. lra.
Qed.
Variables (N : nat) (A Ah : nat -> nat -> R) (t c : R) (i0 : nat).
Hypothesis Ht : 1 < t.
Hypothesis Hi0 : (i0 < N)%nat.
Hypothesis Hc : 0 <= c.
Notation rs K i := (rsum N (fun j => Rabs (K i j))).
Hypothesis HM : forall i, (i < N)%nat -> rs A i <= rs A i0.
Hypothesis HE : forall i j, (i < N)%nat -> (j < N)%nat -> Rabs (Ah i j - A i j) <= c * rs A i0.
Lemma eta_fl_err : exists eh, eta_fl m Ah N t = Ok eh /\ 0 <= eh /\
  Rabs (eh - rs A i0 / (t - 1)) <= ((1 + INR N * c) * (1 + gam u (N + 2)) - 1) * (rs A i0 / (t - 1)).
Proof.
  set (M := rs A i0) in *. assert (M0 : 0 <= M) by (apply rsum_nonneg; intros; apply Rabs_pos).
  unfold eta_fl. destruct (rok_ex _ _ (argmax_ok (mkvec N (fun i => abs_sum_fl m (Ah i) N)) ltac:(simpl; lia))) as (i & -> & Hi & HX). simpl in Hi, HX. cbn [bind].
  assert (RE : forall k, (k < N)%nat -> Rabs (rs Ah k - rs A k) <= INR N * (c * M)) by (intros k Hk; apply abs_sum_err; intros; apply HE; assumption).
  assert (IN := pos_INR N). set (x := INR N * c) in *. assert (X0 : 0 <= x) by (apply Rmult_le_pos; assumption).
  assert (XE : INR N * (c * M) = x * M) by (unfold x; ring). rewrite XE in RE.
  assert (GN : 1 <= (1 + u) ^ N) by apply pw_ge1, Hu. assert (GI : 0 < / (1 + u) ^ N <= 1) by (split; [apply Rinv_0_lt_compat; lra|apply (Rmult_le_reg_l ((1 + u) ^ N)); [lra|]; rewrite Rinv_r by lra; lra]).
  set (G := (1 + u) ^ N) in *. set (r := abs_sum_fl m (Ah i) N) in *.
  assert (HI : r <= (1 + x) * G * M /\ 0 <= r).
  { destruct (abs_sum_fac (Ah i) N) as (f & E & F1 & F2). fold r in E. fold G in F1, F2. assert (B := Rabs_def2_le _ _ (RE i Hi)). assert (C := HM i Hi). assert (S0 : 0 <= rs Ah i) by (apply rsum_nonneg; intros; apply Rabs_pos).
    rewrite E. split; [|apply Rmult_le_pos; lra]. apply Rle_trans with ((1 + x) * M * G); [apply Rmult_le_compat; lra|lra]. }
  assert (LO : (1 - x) * M <= r * G).
  { destruct (abs_sum_fac (Ah i0) N) as (f & E & F1 & F2). fold G in F1, F2. assert (B := Rabs_def2_le _ _ (RE i0 Hi0)). fold M in B. assert (S0 : 0 <= rs Ah i0) by (apply rsum_nonneg; intros; apply Rabs_pos).
    assert (Y := HX i0 Hi0). rewrite E in Y. apply Rle_trans with (rs Ah i0); [lra|]. apply Rle_trans with (rs Ah i0 * f * G); [|apply Rmult_le_compat_r; [lra|exact Y]].
    rewrite Rmult_assoc. rewrite <- (Rmult_1_r (rs Ah i0)) at 1. apply Rmult_le_compat_l; [exact S0|]. apply Rle_trans with (/ G * G); [rewrite Rinv_l by lra; lra|apply Rmult_le_compat_r; lra]. }
  assert (FS : fac u 1 (t - 1) (f_sub (m_ar m) t 1)) by (apply near_fac; [exact Hu|apply (u1 u m Hm Hs)|apply (ro_sub _ _ (mr_ar _ _ Hm))]).
  assert (TN : t - 1 <> 0) by lra. assert (FD : fac u 2 (r / (t - 1)) (f_div (m_ar m) r (f_sub (m_ar m) t 1))) by exact (div_fac u m Hm Hs 0 1 r (t - 1) r _ TN (fac_refl u Hu 0 r) FS). destruct FD as (f & -> & F1 & F2).
  exists (r / (t - 1) * f). split; [reflexivity|]. assert (G2 : 1 <= (1 + u) ^ 2) by apply pw_ge1, Hu. set (H := (1 + u) ^ 2) in *. assert (HI2 : 0 < / H) by (apply Rinv_0_lt_compat; lra).
  assert (IT : 0 < / (t - 1)) by (apply Rinv_0_lt_compat; lra). destruct HI as (HI & R0). assert (RT : 0 <= r / (t - 1)) by (unfold Rdiv; apply Rmult_le_pos; lra). split; [apply Rmult_le_pos; [exact RT|]; apply Rle_trans with (/ H); [left; exact HI2|exact F1]|].
  replace (r / (t - 1) * f - M / (t - 1)) with ((r * f - M) * / (t - 1)) by (unfold Rdiv; ring). rewrite Rabs_mult, (Rabs_right (/ (t - 1))) by lra.
  replace (((1 + x) * (1 + gam u (N + 2)) - 1) * (M / (t - 1))) with (((1 + x) * (1 + gam u (N + 2)) - 1) * M * / (t - 1)) by (unfold Rdiv; ring). apply Rmult_le_compat_r; [lra|].
  replace (1 + gam u (N + 2)) with (G * H) by (unfold gam, G, H; rewrite pow_add; ring). assert (GH : 1 <= G * H) by nra.
  apply Rabs_le. split.
  - assert (L1 : (1 - x) * M <= r * f * (G * H)).
    { eapply Rle_trans; [exact LO|]. replace (r * f * (G * H)) with (r * G * (f * H)) by ring. rewrite <- (Rmult_1_r (r * G)) at 1. apply Rmult_le_compat_l; [apply Rmult_le_pos; lra|]. rewrite <- (Rinv_l H) by lra. apply Rmult_le_compat_r; lra. }
    set (g := G * H) in *. assert (RF : 0 <= r * f) by (apply Rmult_le_pos; lra). apply Rmult_le_reg_r with g; [lra|].
    assert (0 <= M * (g - 1) ^ 2) by (apply Rmult_le_pos; [exact M0|apply pow2_ge_0]). assert (0 <= M * x * (g * g - 1)) by (apply Rmult_le_pos; [apply Rmult_le_pos; assumption|nra]). nra.
  - assert (U1 : r * f <= (1 + x) * G * M * H) by (apply Rmult_le_compat; lra). lra.
Qed.
End Eta.
