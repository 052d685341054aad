(** Multiplicative error factors: [fac u k x y] says y = x f with f between (1+u)^-k and (1+u)^k. *)
From Coq Require Import Reals List Arith Bool Lia Lra Psatz.
From Verif.Base Require Import NpLite NpFacts.
From Verif.Spec Require Import FloatSpec FloatKernSpec.
From Verif.Proofs Require Import FlChol.
Local Open Scope R_scope.

Definition rng (u : R) (k : nat) (f : R) : Prop := / (1 + u) ^ k <= f <= (1 + u) ^ k.
Definition fac (u : R) (k : nat) (x y : R) : Prop := exists f, y = x * f /\ rng u k f.

Lemma Rabs_def2_le x a : Rabs x <= a -> - a <= x <= a.
Proof. unfold Rabs. destruct (Rcase_abs x); lra. Qed.

Section U.
Variable u : R.
Hypothesis Hu : 0 <= u.

Lemma pw_pos k : 0 < (1 + u) ^ k. Proof. apply pow_lt. lra. Qed.
Lemma pw_ge1 k : 1 <= (1 + u) ^ k. Proof. apply pow_R1_Rle. lra. Qed.
Lemma pw_mono k l : (k <= l)%nat -> (1 + u) ^ k <= (1 + u) ^ l. Proof. intros. apply Rle_pow; [lra|assumption]. Qed.
Lemma ipw_pos k : 0 < / (1 + u) ^ k. Proof. apply Rinv_0_lt_compat, pw_pos. Qed.
Lemma rng_pos k f : rng u k f -> 0 < f.
Proof. intros (A & _). assert (P := ipw_pos k). lra. Qed.
Lemma rng_mono k l f : (k <= l)%nat -> rng u k f -> rng u l f.
Proof. intros H (A & B). assert (P := pw_mono k l H). split; [eapply Rle_trans; [|exact A]; apply Rinv_le_contravar; [apply pw_pos|exact P]|lra]. Qed.
Lemma rng_1 k : rng u k 1.
Proof. split; [|apply pw_ge1]. apply Rle_trans with (/ 1); [apply Rinv_le_contravar; [lra|apply pw_ge1]|rewrite Rinv_1; lra]. Qed.
Lemma rng_mult k l f g : rng u k f -> rng u l g -> rng u (k + l) (f * g).
Proof.
  intros Hf Hg. assert (P := rng_pos _ _ Hf). assert (Q := rng_pos _ _ Hg). destruct Hf as (A & B), Hg as (C & D). assert (P1 := ipw_pos k). assert (P2 := ipw_pos l). unfold rng. rewrite pow_add.
  rewrite Rinv_mult. split; apply Rmult_le_compat; lra.
Qed.
Lemma rng_inv k f : rng u k f -> rng u k (/ f).
Proof.
  intros Hf. assert (P := rng_pos _ _ Hf). destruct Hf as (A & B). split; [apply Rinv_le_contravar; assumption|].
  rewrite <- (Rinv_inv ((1 + u) ^ k)). apply Rinv_le_contravar; [apply ipw_pos|exact A].
Qed.
Lemma rng_sqrt k f : rng u (2 * k) f -> rng u k (sqrt f).
Proof.
  intros Hf. assert (P := rng_pos _ _ Hf). destruct Hf as (A & B). replace (2 * k)%nat with (k + k)%nat in * by lia. rewrite pow_add in A, B. assert (Q := pw_pos k).
  split.
  - apply Rsqr_incr_0_var; [|apply sqrt_pos]. rewrite Rsqr_sqrt by lra. unfold Rsqr. rewrite Rinv_mult in A. exact A.
  - apply Rsqr_incr_0_var; [|lra]. rewrite Rsqr_sqrt by lra. exact B.
Qed.
Lemma rng_err k f : rng u k f -> Rabs (f - 1) <= gam u k.
Proof.
  intros (A & B). unfold gam. apply Rabs_le. split; [|lra]. assert (P := pw_ge1 k). assert (Q := pw_pos k).
  assert (/ (1 + u) ^ k >= 2 - (1 + u) ^ k); [|lra]. set (x := (1 + u) ^ k) in *. apply Rle_ge. apply (Rmult_le_reg_l x); [exact Q|]. rewrite Rinv_r by lra. nra.
Qed.

Lemma fac_refl k x : fac u k x x. Proof. exists 1. split; [ring|apply rng_1]. Qed.
Lemma fac_mono k l x y : (k <= l)%nat -> fac u k x y -> fac u l x y.
Proof. intros H (f & E & F). exists f. split; [exact E|apply (rng_mono k); assumption]. Qed.
Lemma fac_mult k l a b a' b' : fac u k a a' -> fac u l b b' -> fac u (k + l) (a * b) (a' * b').
Proof. intros (f & -> & F) (g & -> & G). exists (f * g). split; [ring|apply rng_mult; assumption]. Qed.
Lemma fac_trans k l a b c : fac u k a b -> fac u l b c -> fac u (k + l) a c.
Proof. intros (f & -> & F) (g & -> & G). exists (f * g). split; [ring|apply rng_mult; assumption]. Qed.
Lemma fac_opp k a b : fac u k a b -> fac u k (- a) (- b).
Proof. intros (f & -> & F). exists f. split; [ring|exact F]. Qed.
Lemma fac_plus k a b a' b' : 0 <= a -> 0 <= b -> fac u k a a' -> fac u k b b' -> fac u k (a + b) (a' + b').
Proof.
  intros Ha Hb (f & -> & F) (g & -> & G). assert (P := rng_pos _ _ F). assert (Q := rng_pos _ _ G). destruct F as (F1 & F2), G as (G1 & G2).
  destruct (Rle_lt_or_eq_dec 0 (a + b) ltac:(lra)) as [S|S].
  - exists ((a * f + b * g) / (a + b)). split; [field; lra|]. split.
    + apply Rmult_le_reg_r with (a + b); [exact S|]. unfold Rdiv. rewrite Rmult_assoc, Rinv_l by lra. nra.
    + apply Rmult_le_reg_r with (a + b); [exact S|]. unfold Rdiv. rewrite Rmult_assoc, Rinv_l by lra. nra.
  - exists 1. assert (a = 0) by lra. assert (b = 0) by lra. subst. split; [ring|apply rng_1].
Qed.
Lemma fac_inv k a b : a <> 0 -> fac u k a b -> fac u k (/ a) (/ b).
Proof. intros Ha (f & -> & F). exists (/ f). assert (P := rng_pos _ _ F). split; [field; lra|apply rng_inv, F]. Qed.
Lemma fac_sqrt k a b : 0 <= a -> fac u (2 * k) a b -> fac u k (sqrt a) (sqrt b).
Proof. intros Ha (f & -> & F). exists (sqrt f). assert (P := rng_pos _ _ F). split; [apply sqrt_mult; lra|apply rng_sqrt, F]. Qed.
Lemma fac_err k a b : fac u k a b -> Rabs (b - a) <= gam u k * Rabs a.
Proof. intros (f & -> & F). replace (a * f - a) with ((f - 1) * a) by ring. rewrite Rabs_mult. apply Rmult_le_compat_r; [apply Rabs_pos|apply rng_err, F]. Qed.
Lemma fac_pos k a b : 0 < a -> fac u k a b -> 0 < b.
Proof. intros Ha (f & -> & F). apply Rmult_lt_0_compat; [exact Ha|apply (rng_pos k), F]. Qed.
Lemma fac_nonneg k a b : 0 <= a -> fac u k a b -> 0 <= b.
Proof. intros Ha (f & -> & F). apply Rmult_le_pos; [exact Ha|left; apply (rng_pos k), F]. Qed.
Lemma fac_zero k b : fac u k 0 b -> b = 0. Proof. intros (f & -> & _). ring. Qed.

Lemma near_rng e k x y : gam u k = e -> e < 1 -> near e x y -> fac u k x y.
Proof.
  intros E L (A & B). assert (E0 : 0 <= e) by (rewrite <- E; apply gam_nonneg, Hu). assert (PW : (1 + u) ^ k = 1 + e) by (rewrite <- E; unfold gam; ring).
  destruct (Req_dec x 0) as [->|N].
  - rewrite Rabs_R0, Rmult_0_r in A. assert (Rabs (y - 0) = 0) by (apply Rle_antisym; [exact A|apply Rabs_pos]). exists 1. split; [|apply rng_1]. unfold Rabs in H. destruct (Rcase_abs (y - 0)); lra.
  - exists (y / x). split; [field; exact N|]. unfold rng. rewrite PW.
    assert (AX : 0 < Rabs x) by (apply Rabs_pos_lt, N).
    assert (A' : Rabs (y / x - 1) <= e). { replace (y / x - 1) with ((y - x) / x) by (field; exact N). unfold Rdiv. rewrite Rabs_mult, Rabs_inv. apply Rmult_le_reg_r with (Rabs x); [exact AX|]. rewrite Rmult_assoc, Rinv_l by lra. lra. }
    assert (B' : Rabs (y / x - 1) <= e * Rabs (y / x)). { replace (y / x - 1) with ((y - x) / x) by (field; exact N). unfold Rdiv. rewrite !Rabs_mult, Rabs_inv. apply Rmult_le_reg_r with (Rabs x); [exact AX|]. rewrite Rmult_assoc, Rinv_l by lra. rewrite <- Rmult_assoc, !Rmult_assoc, Rinv_l by lra. lra. }
    apply Rabs_def2_le in A'. split; [|lra]. rewrite (Rabs_right (y / x)) in B' by lra. apply Rabs_def2_le in B'.
    apply (Rmult_le_reg_l (1 + e)); [lra|]. rewrite Rinv_r by lra. lra.
Qed.
Lemma near_fac x y : u < 1 -> near u x y -> fac u 1 x y.
Proof. intros L. apply (near_rng u 1); [unfold gam; ring|exact L]. Qed.
End U.
