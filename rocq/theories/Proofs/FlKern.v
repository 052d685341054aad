(** Rounding errors of the entries of kernel matrices. *)
From Coq Require Import Reals List Arith Bool Lia Lra Psatz.
From Verif.Base Require Import NpLite NpFacts.
From Verif.Spec Require Import KernelSpec FloatSpec FloatKernSpec.
From Verif.Model Require Import KernelSqExp KernelMatern KernelDispatch KernFl.
From Verif.Proofs Require Import KernGradBlocks KernelExact FlChol FlTarget FlFac.
Local Open Scope R_scope.

Lemma exp_taylor4 x : 0 <= x -> 1 + x + x ^ 2 / 2 + x ^ 3 / 6 + x ^ 4 / 24 <= exp x.
Proof.
  intros Hx. unfold exp. destruct (exist_exp x) as (l & H). cbn [proj1_sig].
  apply Rle_trans with (sum_f_R0 (fun i => / INR (fact i) * x ^ i) 4).
  - right. cbn. field.
  - apply sum_incr; [exact H|]. intros n. apply Rmult_le_pos; [left; apply Rinv_0_lt_compat, INR_fact_lt_0|apply pow_le, Hx].
Qed.
Lemma exp_taylor_scaled G t : 1 <= G <= 11 / 10 -> 0 <= t -> 1 + 10 / 11 * t + (10 / 11 * t) ^ 2 / 2 + (10 / 11 * t) ^ 3 / 6 + (10 / 11 * t) ^ 4 / 24 <= exp (t / G).
Proof.
  intros HG Ht. eapply Rle_trans; [apply exp_taylor4; lra|]. assert (10 / 11 * t <= t / G).
  { unfold Rdiv. rewrite (Rmult_comm t). apply Rmult_le_compat_r; [exact Ht|]. replace (10 * / 11) with (/ (11 / 10)) by field. apply Rinv_le_contravar; lra. }
  destruct (Rle_lt_or_eq_dec _ _ H) as [L|E]; [left; apply exp_increasing; exact L|right; rewrite E; reflexivity].
Qed.
Lemma poly_exp G t : 1 <= G <= 11 / 10 -> 0 <= t -> (1 + t) ^ 2 * exp (- (t / G)) <= 2 /\ t * (1 + t) ^ 2 * exp (- (t / G)) <= 4.
Proof.
  intros HG Ht. assert (B := exp_taylor_scaled G t HG Ht). rewrite exp_Ropp. assert (P := exp_pos (t / G)). set (E := exp (t / G)) in *.
  split; apply (Rmult_le_reg_r E); try exact P; rewrite Rmult_assoc, Rinv_l, Rmult_1_r by lra.
  - apply Rle_trans with (2 * (1 + 10 / 11 * t + (10 / 11 * t) ^ 2 / 2 + (10 / 11 * t) ^ 3 / 6 + (10 / 11 * t) ^ 4 / 24)); [|lra].
    assert (0 <= t * (t - 7 / 10) ^ 2) by (apply Rmult_le_pos; [exact Ht|apply pow2_ge_0]). assert (0 <= t ^ 4) by (apply pow_le; exact Ht). assert (0 <= t ^ 2) by (apply pow_le; exact Ht). nra.
  - apply Rle_trans with (4 * (1 + 10 / 11 * t + (10 / 11 * t) ^ 2 / 2 + (10 / 11 * t) ^ 3 / 6 + (10 / 11 * t) ^ 4 / 24)); [|lra].
    assert (0 <= (t ^ 2 - 23 / 10 * t) ^ 2) by apply pow2_ge_0. assert (0 <= t ^ 4) by (apply pow_le; exact Ht). assert (0 <= (t - 2) ^ 2) by apply pow2_ge_0. assert (0 <= t * (t - 3) ^ 2) by (apply Rmult_le_pos; [exact Ht|apply pow2_ge_0]). nra.
Qed.

Definition eterm (u : R) (kh kg : nat) (t M y : R) : Prop := exists h f, y = M * h * exp (- (t * f)) /\ rng u kh h /\ rng u kg f.
Section U.
Variable u : R.
Hypothesis Hu : 0 <= u.

Lemma exp_diff a b : a <= b -> 0 <= exp (- a) - exp (- b) <= exp (- a) * (b - a).
Proof.
  intros H. replace (exp (- b)) with (exp (- a) * exp (- (b - a))) by (rewrite <- exp_plus; f_equal; ring).
  assert (P := exp_pos (- a)). assert (Q := exp_ineq1_le (- (b - a))). assert (L : exp (- (b - a)) <= 1) by (destruct (Req_dec b a) as [->|N]; [rewrite Rminus_eq_0, Ropp_0, exp_0; lra|left; rewrite <- exp_0; apply exp_increasing; lra]).
  replace (exp (- a) - exp (- a) * exp (- (b - a))) with (exp (- a) * (1 - exp (- (b - a)))) by ring. split; [apply Rmult_le_pos; lra|apply Rmult_le_compat_l; lra].
Qed.
Lemma eterm_err kh kg t M y : 0 <= t -> eterm u kh kg t M y ->
  Rabs (y - M * exp (- t)) <= Rabs M * (exp (- (t / (1 + u) ^ kg)) * (gam u kh + t * gam u kg)).
Proof.
  intros Ht (h & f & -> & Hh & Hf). replace (M * h * exp (- (t * f)) - M * exp (- t)) with (M * (h * exp (- (t * f)) - exp (- t))) by ring.
  rewrite Rabs_mult. apply Rmult_le_compat_l; [apply Rabs_pos|].
  replace (h * exp (- (t * f)) - exp (- t)) with ((h - 1) * exp (- (t * f)) + (exp (- (t * f)) - exp (- t))) by ring.
  set (G := (1 + u) ^ kg) in *. assert (G1 : 1 <= G) by apply pw_ge1, Hu. assert (Gp : 0 < / G) by (apply Rinv_0_lt_compat; lra). assert (Gl : / G <= 1) by (rewrite <- Rinv_1; apply Rinv_le_contravar; lra).
  assert (E1 := rng_err u Hu _ _ Hh). assert (E2 := rng_err u Hu _ _ Hf). destruct Hf as (F1 & F2). fold G in F1, F2.
  assert (M1 : t / G <= t * f) by (unfold Rdiv; apply Rmult_le_compat_l; assumption). assert (M2 : t / G <= t) by (unfold Rdiv; rewrite <- (Rmult_1_r t) at 2; apply Rmult_le_compat_l; assumption).
  assert (X1 : exp (- (t * f)) <= exp (- (t / G))) by (destruct (exp_diff _ _ M1); lra).
  assert (X2 : Rabs (exp (- (t * f)) - exp (- t)) <= exp (- (t / G)) * (t * gam u kg)).
  { assert (TF : Rabs (t * f - t) <= t * gam u kg) by (replace (t * f - t) with (t * (f - 1)) by ring; rewrite Rabs_mult, (Rabs_right t) by lra; apply Rmult_le_compat_l; assumption). apply Rabs_def2_le in TF.
    destruct (Rle_dec (t * f) t) as [L|L].
    - destruct (exp_diff _ _ L) as (A & B). rewrite Rabs_right by lra. eapply Rle_trans; [exact B|]. apply Rmult_le_compat; [left; apply exp_pos|lra|exact X1|lra].
    - destruct (exp_diff t (t * f) ltac:(lra)) as (A & B). rewrite Rabs_minus_sym, Rabs_right by lra. eapply Rle_trans; [exact B|]. destruct (exp_diff _ _ M2).
      apply Rmult_le_compat; [left; apply exp_pos|lra|lra|lra]. }
  eapply Rle_trans; [apply Rabs_triang|]. rewrite Rabs_mult, (Rabs_right (exp _)) by (left; apply exp_pos).
  rewrite Rmult_plus_distr_l. apply Rplus_le_compat; [|exact X2]. rewrite Rmult_comm. apply Rmult_le_compat; [left; apply exp_pos|apply Rabs_pos|exact X1|exact E1].
Qed.
Lemma eterm_fac kh kg t M y k c c' : fac u k c c' -> eterm u kh kg t M y -> eterm u (k + kh) kg t (c * M) (c' * y).
Proof. intros (g & -> & Hg) (h & f & -> & Hh & Hf). exists (g * h), f. split; [ring|]. split; [apply rng_mult; assumption|exact Hf]. Qed.
Lemma eterm_near kh kg t M y k z : fac u k y z -> eterm u kh kg t M y -> eterm u (kh + k) kg t M z.
Proof. intros (g & -> & Hg) (h & f & -> & Hh & Hf). exists (h * g), f. split; [ring|]. split; [apply rng_mult; assumption|exact Hf]. Qed.
Lemma eterm_mono kh kg kh' kg' t M y : (kh <= kh')%nat -> (kg <= kg')%nat -> eterm u kh kg t M y -> eterm u kh' kg' t M y.
Proof. intros A B (h & f & E & Hh & Hf). exists h, f. split; [exact E|]. split; [apply (rng_mono u Hu kh)|apply (rng_mono u Hu kg)]; assumption. Qed.
Lemma eterm_val kh kg t M M' y : M = M' -> eterm u kh kg t M y -> eterm u kh kg t M' y. Proof. intros ->. exact (fun H => H). Qed.
Lemma eterm_zero kh kg M y : eterm u kh kg 0 M y -> fac u kh M y.
Proof. intros (h & f & -> & Hh & _). exists h. split; [|exact Hh]. rewrite Rmult_0_l, Ropp_0, exp_0. ring. Qed.

(** one or two terms *)
Lemma eterm_bound kh kg t M y g : (1 + u) ^ kg <= 11 / 10 -> 0 <= t -> 0 <= g -> Rabs M <= (1 + t) ^ 2 * g -> eterm u kh kg t M y ->
  Rabs (y - M * exp (- t)) <= (2 * gam u kh + 4 * gam u kg) * g.
Proof.
  intros HG Ht Hg HM H. eapply Rle_trans; [apply eterm_err; eassumption|].
  destruct (poly_exp ((1 + u) ^ kg) t (conj (pw_ge1 u Hu kg) HG) Ht) as (P1 & P2). assert (G1 := gam_nonneg u kh Hu). assert (G2 := gam_nonneg u kg Hu).
  assert (EP := exp_pos (- (t / (1 + u) ^ kg))). set (E := exp _) in *.
  apply Rle_trans with ((1 + t) ^ 2 * g * (E * (gam u kh + t * gam u kg))).
  - apply Rmult_le_compat_r; [apply Rmult_le_pos; [lra|]; assert (0 <= t * gam u kg) by (apply Rmult_le_pos; assumption); lra|exact HM].
  - replace ((1 + t) ^ 2 * g * (E * (gam u kh + t * gam u kg))) with (((1 + t) ^ 2 * E * gam u kh + t * (1 + t) ^ 2 * E * gam u kg) * g) by ring.
    apply Rmult_le_compat_r; [exact Hg|]. apply Rplus_le_compat; apply Rmult_le_compat_r; assumption.
Qed.
Lemma eterm_bound2 kh kg t M y M' y' g : (1 + u) ^ kg <= 11 / 10 -> 0 <= t -> 0 <= g -> Rabs M + Rabs M' <= (1 + t) ^ 2 * g -> eterm u kh kg t M y -> eterm u kh kg t M' y' ->
  Rabs (y - y' - (M - M') * exp (- t)) <= (2 * gam u kh + 4 * gam u kg) * g.
Proof.
  intros HG Ht Hg HM H H'. assert (A := eterm_err _ _ _ _ _ Ht H). assert (B := eterm_err _ _ _ _ _ Ht H').
  replace (y - y' - (M - M') * exp (- t)) with ((y - M * exp (- t)) + - (y' - M' * exp (- t))) by ring.
  eapply Rle_trans; [apply Rabs_triang|]. rewrite Rabs_Ropp. eapply Rle_trans; [apply Rplus_le_compat; [exact A|exact B]|]. rewrite <- Rmult_plus_distr_r.
  destruct (poly_exp ((1 + u) ^ kg) t (conj (pw_ge1 u Hu kg) HG) Ht) as (P1 & P2). assert (G1 := gam_nonneg u kh Hu). assert (G2 := gam_nonneg u kg Hu).
  assert (EP := exp_pos (- (t / (1 + u) ^ kg))). set (E := exp (- (t / _))) in *.
  apply Rle_trans with ((1 + t) ^ 2 * g * (E * (gam u kh + t * gam u kg))).
  - apply Rmult_le_compat_r; [apply Rmult_le_pos; [lra|]; assert (0 <= t * gam u kg) by (apply Rmult_le_pos; assumption); lra|exact HM].
  - replace ((1 + t) ^ 2 * g * (E * (gam u kh + t * gam u kg))) with (((1 + t) ^ 2 * E * gam u kh + t * (1 + t) ^ 2 * E * gam u kg) * g) by ring.
    apply Rmult_le_compat_r; [exact Hg|]. apply Rplus_le_compat; apply Rmult_le_compat_r; assumption.
Qed.
End U.

Section E.
Variables (u : R) (m : machine).
Hypothesis Hm : machine_rounds u m.
Hypothesis Hs : gam u 2 < 1.
Notation sub := (f_sub (m_ar m)).
Notation mul := (f_mul (m_ar m)).
Notation div := (f_div (m_ar m)).
Notation sqt := (f_sqrt (m_ar m)).
Notation add := (m_add m).

Lemma Hu : 0 <= u. Proof. apply (ro_u _ _ (mr_ar _ _ Hm)). Qed.
Lemma u1 : u < 1. Proof. assert (A := gam_mono u 1 2 Hu ltac:(lia)). assert (gam u 1 = u) by (unfold gam; ring). lra. Qed.
Lemma mul_fac k l a b a' b' : fac u k a a' -> fac u l b b' -> fac u (k + l + 1) (a * b) (mul a' b').
Proof. intros A B. eapply fac_trans; [exact Hu|apply fac_mult; [exact Hu|exact A|exact B]|apply near_fac; [exact Hu|exact u1|apply (ro_mul _ _ (mr_ar _ _ Hm))]]. Qed.
Lemma div_fac k l a b a' b' : b <> 0 -> fac u k a a' -> fac u l b b' -> fac u (k + l + 1) (a / b) (div a' b').
Proof.
  intros N A B. assert (N' : b' <> 0) by (destruct B as (f & -> & F); apply Rmult_integral_contrapositive; split; [exact N|apply Rgt_not_eq, (rng_pos u Hu l), F]).
  eapply fac_trans; [exact Hu|apply fac_mult; [exact Hu|exact A|apply fac_inv; [exact Hu|exact N|exact B]]|apply near_fac; [exact Hu|exact u1|apply (ro_div _ _ (mr_ar _ _ Hm)), N']].
Qed.
Lemma add_fac k a b a' b' : 0 <= a -> 0 <= b -> fac u k a a' -> fac u k b b' -> fac u (k + 1) (a + b) (add a' b').
Proof. intros P Q A B. eapply fac_trans; [exact Hu|apply fac_plus; [exact Hu|exact P|exact Q|exact A|exact B]|apply near_fac; [exact Hu|exact u1|apply (mr_add _ _ Hm)]]. Qed.
Lemma sqt_fac k a a' : 0 <= a -> fac u (2 * k) a a' -> fac u (k + 1) (sqrt a) (sqt a').
Proof. intros P A. eapply fac_trans; [exact Hu|apply fac_sqrt; [exact Hu|exact P|exact A]|apply near_fac; [exact Hu|exact u1|apply (ro_sqrt _ _ (mr_ar _ _ Hm))]]. apply (fac_nonneg u Hu (2 * k) a); assumption. Qed.
Lemma mono k l a b : fac u k a b -> (k <= l)%nat -> fac u l a b. Proof. intros H L. apply (fac_mono u Hu k l); assumption. Qed.
Lemma add0_fac x : fac u 1 x (add 0 x).
Proof. apply near_fac; [exact Hu|exact u1|]. assert (A := mr_add _ _ Hm 0 x). rewrite Rplus_0_l in A. exact A. Qed.
Lemma emul kh kg t M y k c c' : fac u k c c' -> eterm u kh kg t M y -> eterm u (k + kh + 1) kg t (c * M) (mul c' y).
Proof. intros A B. eapply eterm_near; [exact Hu|apply near_fac; [exact Hu|exact u1|apply (ro_mul _ _ (mr_ar _ _ Hm))]|apply eterm_fac; [exact Hu|exact A|exact B]]. Qed.

Variables (d : nat) (th r rh : nat -> R).
Hypothesis Hth : forall i, (i < d)%nat -> 0 < th i.
Hypothesis Hr : forall i, (i < d)%nat -> fac u 1 (r i) (rh i).
Notation s := (rsum d (fun i => th i * r i ^ 2)).

Lemma part_nonneg i : (i < d)%nat -> 0 <= th i * r i ^ 2.
Proof. intros H. apply Rmult_le_pos; [left; apply Hth, H|apply pow2_ge_0]. Qed.
Lemma s_nonneg k : (k <= d)%nat -> 0 <= rsum k (fun i => th i * r i ^ 2).
Proof. intros H. apply rsum_nonneg. intros i Hi. apply part_nonneg. lia. Qed.
Lemma part_le i : (i < d)%nat -> th i * r i ^ 2 <= s.
Proof. intros H. apply (rsum_ge_one d (fun i => th i * r i ^ 2) i H). intros; apply part_nonneg; assumption. Qed.
Lemma sq_fac i : (i < d)%nat -> fac u 3 (r i ^ 2) (mul (rh i) (rh i)).
Proof. intros H. replace (r i ^ 2) with (r i * r i) by ring. apply (mul_fac 1 1); apply Hr, H. Qed.
Lemma part_fac i : (i < d)%nat -> fac u 4 (th i * r i ^ 2) (mul (th i) (mul (rh i) (rh i))).
Proof. intros H. apply (mul_fac 0 3); [apply fac_refl, Hu|apply sq_fac, H]. Qed.

(** *** squared exponential *)
Lemma se_sum_fac k : (k <= d)%nat -> fac u (k + 4) (- rsum k (fun i => th i * r i ^ 2)) (se_sum_fl m th rh k).
Proof.
  induction k as [|k IH]; intros H; cbn [se_sum_fl rsum].
  - exists 1. split; [ring|apply rng_1, Hu].
  - assert (A := IH ltac:(lia)). assert (B := mono _ (k + 4) _ _ (part_fac k ltac:(lia)) ltac:(lia)).
    replace (S k + 4)%nat with ((k + 4) + 1)%nat by lia. eapply fac_trans; [exact Hu| |apply near_fac; [exact Hu|exact u1|apply (ro_sub _ _ (mr_ar _ _ Hm))]].
    replace (- (rsum k (fun i => th i * r i ^ 2) + th k * r k ^ 2)) with (- (rsum k (fun i => th i * r i ^ 2) + th k * r k ^ 2)) by ring.
    replace (se_sum_fl m th rh k - mul (th k) (mul (rh k) (rh k))) with (- (- se_sum_fl m th rh k + mul (th k) (mul (rh k) (rh k)))) by ring.
    apply fac_opp. apply fac_plus; [exact Hu|apply s_nonneg; lia|apply part_nonneg; lia| |exact B]. apply fac_opp in A. rewrite Ropp_involutive in A. exact A.
Qed.
Lemma exp_eterm kg t a : 0 <= t -> fac u kg (- t) a -> eterm u 2 kg t 1 (m_exp m a).
Proof.
  intros Ht (f & -> & Hf). destruct (near_rng u Hu (gam u 2) 2 (exp (- t * f)) (m_exp m (- t * f)) eq_refl Hs (mr_exp _ _ Hm _)) as (h & E & Hh).
  exists h, f. split; [rewrite E; replace (- t * f) with (- (t * f)) by ring; ring|auto].
Qed.
Lemma se_base_et : eterm u 2 (d + 4) s 1 (se_base_fl m d th rh).
Proof. apply exp_eterm; [apply s_nonneg; lia|apply se_sum_fac; lia]. Qed.
(** sizes: a_i = sqrt(theta_i) |r_i| *)
Lemma abs_th_r i : (i < d)%nat -> th i * Rabs (r i) = sqrt (th i) * sqrt (th i * r i ^ 2).
Proof.
  intros H. assert (P := Hth i H). rewrite sqrt_mult by (try apply pow2_ge_0; lra). replace (r i ^ 2) with (Rsqr (r i)) by (unfold Rsqr; ring). rewrite sqrt_Rsqr_abs.
  rewrite <- Rmult_assoc, sqrt_sqrt by lra. reflexivity.
Qed.
Lemma sqrt_part_le i : (i < d)%nat -> sqrt (th i * r i ^ 2) <= sqrt s.
Proof. intros H. apply sqrt_le_1_alt, part_le, H. Qed.
Lemma sqrt_s_le x : 0 <= x -> 2 * sqrt x <= 1 + x.
Proof. intros H. assert (A := pow2_ge_0 (sqrt x - 1)). assert (B := sqrt_sqrt x H). nra. Qed.

Lemma se_gf_et i : (i < d)%nat -> eterm u 6 (d + 4) s (- 2 * th i * r i) (se_gf_fl m d th rh i).
Proof.
  intros H. eapply eterm_val; [|apply (emul 2 (d + 4) s 1 _ 3 (- 2 * th i * r i) _); [|exact se_base_et]]; [ring|].
  apply (mul_fac 1 1); [apply (mul_fac 0 0); apply fac_refl, Hu|apply Hr, H].
Qed.
Lemma se_fg_et i : (i < d)%nat -> eterm u 6 (d + 4) s (2 * th i * r i) (se_fg_fl m d th rh i).
Proof.
  intros H. eapply eterm_val; [|apply (emul 2 (d + 4) s 1 _ 3 (2 * th i * r i) _); [|exact se_base_et]]; [ring|].
  apply (mul_fac 1 1); [apply (mul_fac 0 0); apply fac_refl, Hu|apply Hr, H].
Qed.
Lemma se_gh_et i j : (i < d)%nat -> (j < d)%nat -> eterm u 10 (d + 4) s (- 4 * th i * th j * (r i * r j)) (se_gh_fl m d th rh i j).
Proof.
  intros H H'. unfold se_gh_fl. eapply (eterm_near u Hu 9 (d + 4) s _ _ 1).
  - apply add0_fac.
  - eapply eterm_val; [|apply (emul 6 (d + 4) s (r i * r j * 1) _ 2 (- 4 * th i * th j) _)]; [ring| |].
    + apply (mul_fac 1 0); [apply (mul_fac 0 0)|]; apply fac_refl, Hu.
    + apply (emul 2 (d + 4) s 1 _ 3); [|exact se_base_et]. apply (mul_fac 1 1); apply Hr; assumption.
Qed.
Lemma se_gg_et i : (i < d)%nat -> exists y y', se_gg_fl m d th rh i = y - y' /\ eterm u 10 (d + 4) s (2 * th i) y /\ eterm u 10 (d + 4) s (4 * th i ^ 2 * r i ^ 2) y'.
Proof.
  intros H. unfold se_gg_fl. set (X := mul 2 (th i)). set (Y := mul (mul 4 (mul (th i) (th i))) (mul (rh i) (rh i))).
  assert (FX : fac u 1 (2 * th i) X) by (apply (mul_fac 0 0); apply fac_refl, Hu).
  assert (FY : fac u 6 (4 * th i ^ 2 * r i ^ 2) Y).
  { apply (mul_fac 2 3); [|apply sq_fac, H]. apply (mul_fac 0 1); [apply fac_refl, Hu|]. replace (th i ^ 2) with (th i * th i) by ring. apply (mul_fac 0 0); apply fac_refl, Hu. }
  assert (FS : fac u 1 (X - Y) (sub X Y)) by (apply near_fac; [exact Hu|exact u1|apply (ro_sub _ _ (mr_ar _ _ Hm))]). destruct FS as (f & EF & Hf).
  destruct (mul_fac 0 0 _ _ _ _ (fac_refl u Hu 0 (sub X Y)) (fac_refl u Hu 0 (se_base_fl m d th rh))) as (f' & EF' & Hf'). rewrite EF', EF.
  exists (X * f * (se_base_fl m d th rh * f')), (Y * f * (se_base_fl m d th rh * f')). split; [ring|].
  assert (B : eterm u 3 (d + 4) s 1 (se_base_fl m d th rh * f')) by (eapply (eterm_near u Hu 2 _ _ _ _ 1); [exists f'; split; [reflexivity|exact Hf']|exact se_base_et]).
  split.
  - apply (eterm_mono u Hu 5 (d + 4)); [lia|lia|]. eapply eterm_val; [|apply (eterm_fac u Hu 3 (d + 4) s 1 _ 2 (2 * th i) (X * f)); [|exact B]]; [ring|]. apply (fac_trans u Hu 1 1 _ X); [exact FX|exists f; auto].
  - eapply eterm_val; [|apply (eterm_fac u Hu 3 (d + 4) s 1 _ 7 (4 * th i ^ 2 * r i ^ 2) (Y * f)); [|exact B]]; [ring|]. apply (fac_trans u Hu 6 1 _ Y); [exact FY|exists f; auto].
Qed.

(** *** Matern *)
Notation nu := (sqrt s).
Notation t5 := (sqrt 5 * nu).
Notation kk := ((d + 5) / 2)%nat.
Lemma kk_lo : (d + 4 <= 2 * kk)%nat. Proof. assert (E := Nat.div_mod (d + 5) 2 ltac:(lia)). assert (B := Nat.mod_upper_bound (d + 5) 2 ltac:(lia)). lia. Qed.
Lemma kk_hi : (2 * kk <= d + 5)%nat. Proof. assert (E := Nat.div_mod (d + 5) 2 ltac:(lia)). lia. Qed.
Lemma ma_sum_fac k : (k <= d)%nat -> fac u (k + 4) (rsum k (fun i => th i * r i ^ 2)) (ma_sum_fl m th rh k).
Proof.
  induction k as [|k IH]; intros H; cbn [ma_sum_fl rsum].
  - apply fac_refl, Hu.
  - assert (A := IH ltac:(lia)). assert (B := mono _ (k + 4) _ _ (part_fac k ltac:(lia)) ltac:(lia)).
    replace (S k + 4)%nat with ((k + 4) + 1)%nat by lia. apply add_fac; [apply s_nonneg; lia|apply part_nonneg; lia|exact A|exact B].
Qed.
Lemma ma_nu_fac : fac u (kk + 1) nu (ma_nu_fl m d th rh).
Proof. apply sqt_fac; [apply s_nonneg; lia|]. apply (mono (d + 4)); [apply ma_sum_fac; lia|apply kk_lo]. Qed.
Lemma s5_fac : fac u 1 (sqrt 5) (sqt 5).
Proof. apply (sqt_fac 0); [lra|apply fac_refl, Hu]. Qed.
Lemma t5_fac : fac u (kk + 3) t5 (mul (sqt 5) (ma_nu_fl m d th rh)).
Proof. apply (mono (1 + (kk + 1) + 1)); [|lia]. apply mul_fac; [exact s5_fac|exact ma_nu_fac]. Qed.
Lemma t5_nonneg : 0 <= t5. Proof. apply Rmult_le_pos; apply sqrt_pos. Qed.
Lemma ma_A_et : eterm u 2 (kk + 3) t5 1 (ma_A_fl m d th rh).
Proof. apply exp_eterm; [apply t5_nonneg|]. rewrite <- Ropp_mult_distr_l_reverse. apply (mono (1 + (kk + 1) + 1)); [|lia]. apply mul_fac; [apply fac_opp; exact s5_fac|exact ma_nu_fac]. Qed.
Lemma c53_fac : fac u 1 (5 / 3) (div 5 3). Proof. apply (div_fac 0 0); [lra| |]; apply fac_refl, Hu. Qed.
Lemma c253_fac : fac u 1 (25 / 3) (div 25 3). Proof. apply (div_fac 0 0); [lra| |]; apply fac_refl, Hu. Qed.
Lemma one_t5_fac : fac u (kk + 4) (1 + t5) (add 1 (mul (sqt 5) (ma_nu_fl m d th rh))).
Proof. replace (kk + 4)%nat with (kk + 3 + 1)%nat by lia. apply add_fac; [lra|apply t5_nonneg|apply fac_refl, Hu|exact t5_fac]. Qed.
Lemma ma_mat1_et : eterm u (kk + 9) (kk + 3) t5 (5 / 3 * (1 + t5)) (ma_mat1_fl m d th rh).
Proof.
  apply (eterm_mono u Hu (1 + (kk + 4) + 1 + 2 + 1) (kk + 3)); [lia|lia|]. eapply eterm_val; [|apply emul; [apply mul_fac; [exact c53_fac|exact one_t5_fac]|exact ma_A_et]]. ring.
Qed.
Lemma ma_base_et : eterm u (2 * kk + 9) (kk + 3) t5 (1 + t5 + 5 / 3 * (nu * nu)) (ma_base_fl m d th rh).
Proof.
  assert (N2 : fac u (2 * kk + 5) (5 / 3 * (nu * nu)) (mul (div 5 3) (mul (ma_nu_fl m d th rh) (ma_nu_fl m d th rh)))).
  { apply (mono (1 + (kk + 1 + (kk + 1) + 1) + 1)); [|lia]. apply mul_fac; [exact c53_fac|]. apply mul_fac; exact ma_nu_fac. }
  apply (eterm_mono u Hu (2 * kk + 5 + 1 + 2 + 1) (kk + 3)); [lia|lia|]. eapply eterm_val; [|apply emul; [apply add_fac; [| |apply (mono (kk + 4)); [exact one_t5_fac|lia]|exact N2]|exact ma_A_et]]; [ring| |].
  - assert (P := t5_nonneg). lra.
  - apply Rmult_le_pos; [lra|]. apply Rmult_le_pos; apply sqrt_pos.
Qed.
Lemma ma_gf_et i : (i < d)%nat -> eterm u (kk + 12) (kk + 3) t5 (- th i * r i * (5 / 3 * (1 + t5))) (ma_gf_fl m d th rh i).
Proof.
  intros H. apply (eterm_mono u Hu (2 + (kk + 9) + 1) (kk + 3)); [lia|lia|]. apply emul; [|exact ma_mat1_et]. apply (mul_fac 0 1); [apply fac_refl, Hu|apply Hr, H].
Qed.
Lemma ma_fg_et i : (i < d)%nat -> eterm u (kk + 12) (kk + 3) t5 (th i * r i * (5 / 3 * (1 + t5))) (ma_fg_fl m d th rh i).
Proof.
  intros H. apply (eterm_mono u Hu (2 + (kk + 9) + 1) (kk + 3)); [lia|lia|]. apply emul; [|exact ma_mat1_et]. apply (mul_fac 0 1); [apply fac_refl, Hu|apply Hr, H].
Qed.
Lemma ma_gh_et i j : (i < d)%nat -> (j < d)%nat -> eterm u 11 (kk + 3) t5 (- (25 / 3) * th i * th j * r i * r j) (ma_gh_fl m d th rh i j).
Proof.
  intros H H'. unfold ma_gh_fl. eapply (eterm_near u Hu 10 (kk + 3) t5 _ _ 1).
  - apply add0_fac.
  - eapply eterm_val; [|apply (emul 2 (kk + 3) t5 1 _ 7 (- (25 / 3) * th i * th j * r i * r j) _); [|exact ma_A_et]]; [ring|].
    apply (mul_fac 5 1); [|apply Hr; assumption]. apply (mul_fac 3 1); [|apply Hr; assumption]. apply (mul_fac 2 0); [|apply fac_refl, Hu]. apply (mul_fac 1 0); [|apply fac_refl, Hu].
    apply fac_opp. exact c253_fac.
Qed.
Lemma ma_gg_et i : (i < d)%nat -> exists y y', ma_gg_fl m d th rh i = y - y' /\ eterm u (kk + 11) (kk + 3) t5 (th i * (5 / 3 * (1 + t5))) y /\ eterm u (kk + 11) (kk + 3) t5 (25 / 3 * th i ^ 2 * r i ^ 2) y'.
Proof.
  intros H. unfold ma_gg_fl. set (X := mul (th i) (ma_mat1_fl m d th rh)). set (Y := mul (mul (mul (div 25 3) (mul (th i) (th i))) (mul (rh i) (rh i))) (ma_A_fl m d th rh)).
  assert (FX : eterm u (kk + 10) (kk + 3) t5 (th i * (5 / 3 * (1 + t5))) X).
  { apply (eterm_mono u Hu (0 + (kk + 9) + 1) (kk + 3)); [lia|lia|]. apply emul; [apply fac_refl, Hu|exact ma_mat1_et]. }
  assert (FY : eterm u 10 (kk + 3) t5 (25 / 3 * th i ^ 2 * r i ^ 2) Y).
  { eapply eterm_val; [|apply (emul 2 (kk + 3) t5 1 _ 7 (25 / 3 * th i ^ 2 * r i ^ 2)); [|exact ma_A_et]]; [ring|]. apply (mul_fac 3 3); [|apply sq_fac, H].
    apply (mul_fac 1 1); [exact c253_fac|]. replace (th i ^ 2) with (th i * th i) by ring. apply (mul_fac 0 0); apply fac_refl, Hu. }
  assert (FS : fac u 1 (X - Y) (sub X Y)) by (apply near_fac; [exact Hu|exact u1|apply (ro_sub _ _ (mr_ar _ _ Hm))]). destruct FS as (f & EF & Hf). rewrite EF.
  exists (X * f), (Y * f). split; [ring|]. split.
  - apply (eterm_mono u Hu (kk + 10 + 1) (kk + 3)); [lia|lia|]. eapply eterm_near; [exact Hu|exists f; split; [reflexivity|exact Hf]|exact FX].
  - apply (eterm_mono u Hu (10 + 1) (kk + 3)); [lia|lia|]. eapply eterm_near; [exact Hu|exists f; split; [reflexivity|exact Hf]|exact FY].
Qed.

(** *** all entries *)
Lemma gf_size c i T : 0 < c -> (i < d)%nat -> sqrt c * nu <= T -> Rabs (c * th i * r i) <= T * sqrt (c * th i).
Proof.
  intros Hc H HT. assert (P := Hth i H). rewrite Rabs_mult, (Rabs_right (c * th i)) by (apply Rle_ge, Rmult_le_pos; lra). rewrite Rmult_assoc, (abs_th_r i H). rewrite (sqrt_mult c (th i)) by lra.
  assert (A := sqrt_part_le i H). assert (SC := sqrt_lt_R0 c Hc). assert (ST := sqrt_lt_R0 (th i) P). rewrite <- (sqrt_sqrt c) at 1 by lra.
  apply Rle_trans with (sqrt c * nu * (sqrt c * sqrt (th i))); [|apply Rmult_le_compat_r; [apply Rmult_le_pos; lra|exact HT]].
  replace (sqrt c * sqrt c * (sqrt (th i) * sqrt (th i * r i ^ 2))) with (sqrt c * (sqrt c * sqrt (th i)) * sqrt (th i * r i ^ 2)) by ring.
  replace (sqrt c * nu * (sqrt c * sqrt (th i))) with (sqrt c * (sqrt c * sqrt (th i)) * nu) by ring. apply Rmult_le_compat_l; [apply Rmult_le_pos; [lra|apply Rmult_le_pos; lra]|exact A].
Qed.
Lemma gh_size c i j : 0 < c -> (i < d)%nat -> (j < d)%nat -> Rabs (c * th i * th j * (r i * r j)) <= s * (sqrt (c * th i) * sqrt (c * th j)).
Proof.
  intros Hc H H'. assert (P := Hth i H). assert (Q := Hth j H'). rewrite (sqrt_mult c (th i)), (sqrt_mult c (th j)) by lra. rewrite !Rabs_mult, (Rabs_right c), (Rabs_right (th i)), (Rabs_right (th j)) by lra.
  replace (c * th i * th j * (Rabs (r i) * Rabs (r j))) with (c * ((th i * Rabs (r i)) * (th j * Rabs (r j)))) by ring. rewrite (abs_th_r i H), (abs_th_r j H').
  replace (s * (sqrt c * sqrt (th i) * (sqrt c * sqrt (th j)))) with ((sqrt c * sqrt c) * (sqrt (th i) * sqrt (th j) * s)) by ring. rewrite sqrt_sqrt by lra. apply Rmult_le_compat_l; [lra|].
  replace (sqrt (th i) * sqrt (th i * r i ^ 2) * (sqrt (th j) * sqrt (th j * r j ^ 2))) with (sqrt (th i) * sqrt (th j) * (sqrt (th i * r i ^ 2) * sqrt (th j * r j ^ 2))) by ring.
  apply Rmult_le_compat_l; [apply Rmult_le_pos; apply sqrt_pos|]. rewrite <- (sqrt_sqrt s) by (apply s_nonneg; lia). apply Rmult_le_compat; try apply sqrt_pos; apply sqrt_part_le; assumption.
Qed.

Hypothesis HG : (1 + u) ^ (d + 5) <= 11 / 10.
Lemma one_term kh kg t M y g : (kh <= d + 14)%nat -> (kg <= d + 5)%nat -> 0 <= t -> 0 <= g -> Rabs M <= (1 + t) ^ 2 * g -> eterm u kh kg t M y -> Rabs (y - M * exp (- t)) <= kern_err u d * g.
Proof. intros A B Ht Hg HM E. apply (eterm_bound u Hu (d + 14) (d + 5)); auto. apply (eterm_mono u Hu kh kg); assumption. Qed.
Lemma two_terms kh kg t M y M' y' g : (kh <= d + 14)%nat -> (kg <= d + 5)%nat -> 0 <= t -> 0 <= g -> Rabs M + Rabs M' <= (1 + t) ^ 2 * g -> eterm u kh kg t M y -> eterm u kh kg t M' y' ->
  Rabs (y - y' - (M - M') * exp (- t)) <= kern_err u d * g.
Proof. intros A B Ht Hg HM E E'. apply (eterm_bound2 u Hu (d + 14) (d + 5)); auto; apply (eterm_mono u Hu kh kg); assumption. Qed.
Lemma kk_b : (2 * kk + 9 <= d + 14 /\ kk + 12 <= d + 14 /\ kk + 3 <= d + 5)%nat.
Proof. assert (A := kk_hi). assert (E := Nat.div_mod (d + 5) 2 ltac:(lia)). assert (B := Nat.mod_upper_bound (d + 5) 2 ltac:(lia)). lia. Qed.

Lemma sq1 x : (1 + x) ^ 2 = 1 + 2 * x + x * x. Proof. ring. Qed.
Definition entry_ex (k : kernel) (a b : option nat) : R :=
  match a, b with
  | None, None => phi0 k 0 s
  | Some i, None => 2 * th i * r i * phi1 k 0 s
  | None, Some j => - (2 * th j * r j * phi1 k 0 s)
  | Some i, Some j => - ((if (i =? j)%nat then 2 * th i else 0) * phi1 k 0 s + (2 * th i * r i) * (2 * th j * r j) * phi2 k 0 s)
  end.
Definition osize (k : kernel) (a : option nat) : R := match a with None => 1 | Some i => sqrt (gamma2 k (th i)) end.
Definition dir_ok (a : option nat) : Prop := match a with None => True | Some i => (i < d)%nat end.
Lemma s_nn : 0 <= s. Proof. apply s_nonneg; lia. Qed.
Lemma sqrt2_le : sqrt 2 * nu <= (1 + s) ^ 2.
Proof.
  assert (P := s_nn). rewrite <- sqrt_mult by lra. assert (A := sqrt_s_le (2 * s) ltac:(lra)). assert (0 <= s * s) by (apply Rmult_le_pos; assumption). rewrite sq1. lra.
Qed.
Lemma se_entry_err a b : dir_ok a -> dir_ok b -> Rabs (entry_fl m SqExp d th rh a b - entry_ex SqExp a b) <= kern_err u d * (osize SqExp a * osize SqExp b).
Proof.
  assert (P := s_nn). assert (S2 : 0 <= s * s) by (apply Rmult_le_pos; assumption).
  destruct a as [i|], b as [j|]; cbn [dir_ok entry_fl entry_ex osize phi0 phi1 phi2 gamma2]; intros A B; unfold se0, se1, se2.
  - assert (T1 := Hth i A). assert (T2 := Hth j B). destruct (Nat.eqb_spec i j) as [<-|NE].
    + destruct (se_gg_et i A) as (y & y' & -> & E1 & E2). rewrite sqrt_sqrt by lra.
      replace (- (2 * th i * - exp (- s) + 2 * th i * r i * (2 * th i * r i) * exp (- s))) with ((2 * th i - 4 * th i ^ 2 * r i ^ 2) * exp (- s)) by ring.
      apply (two_terms 10 (d + 4)); auto; try lia; try lra. rewrite !Rabs_right; [|apply Rle_ge; apply Rmult_le_pos; [|apply pow2_ge_0]; apply Rmult_le_pos; [lra|apply pow2_ge_0]|lra].
      replace (2 * th i + 4 * th i ^ 2 * r i ^ 2) with ((1 + 2 * (th i * r i ^ 2)) * (2 * th i)) by ring. apply Rmult_le_compat_r; [lra|]. assert (X := part_le i A). rewrite sq1 in *. lra.
    + replace (- (0 * - exp (- s) + 2 * th i * r i * (2 * th j * r j) * exp (- s))) with ((- 4 * th i * th j * (r i * r j)) * exp (- s)) by ring.
      assert (SZ : forall p q, (p < d)%nat -> (q < d)%nat -> Rabs (- 4 * th p * th q * (r p * r q)) <= (1 + s) ^ 2 * (sqrt (2 * th p) * sqrt (2 * th q))).
      { intros p q Hp Hq. replace (- 4 * th p * th q * (r p * r q)) with (- (2 * (2 * th p * th q * (r p * r q)))) by ring. rewrite Rabs_Ropp, Rabs_mult, Rabs_right by lra. assert (X := gh_size 2 p q ltac:(lra) Hp Hq).
        assert (0 <= sqrt (2 * th p) * sqrt (2 * th q)) by (apply Rmult_le_pos; apply sqrt_pos). set (g := sqrt (2 * th p) * sqrt (2 * th q)) in *. rewrite sq1. nra. }
      destruct (Nat.lt_ge_cases i j) as [L|L].
      * rewrite Nat.min_l, Nat.max_r by lia. apply (one_term 10 (d + 4)); auto; try lia; [apply Rmult_le_pos; apply sqrt_pos|apply se_gh_et; assumption].
      * rewrite Nat.min_r, Nat.max_l by lia. rewrite (Rmult_comm (sqrt (2 * th i))). replace (- 4 * th i * th j * (r i * r j)) with (- 4 * th j * th i * (r j * r i)) by ring.
        apply (one_term 10 (d + 4)); auto; try lia; [apply Rmult_le_pos; apply sqrt_pos|apply se_gh_et; assumption].
  - rewrite Rmult_1_r. replace (2 * th i * r i * - exp (- s)) with (- 2 * th i * r i * exp (- s)) by ring. apply (one_term 6 (d + 4)); auto; try lia; [apply sqrt_pos| |apply se_gf_et; assumption].
    replace (- 2 * th i * r i) with (- (2 * th i * r i)) by ring. rewrite Rabs_Ropp. apply gf_size; [lra|exact A|apply sqrt2_le].
  - rewrite Rmult_1_l. replace (- (2 * th j * r j * - exp (- s))) with (2 * th j * r j * exp (- s)) by ring. apply (one_term 6 (d + 4)); auto; try lia; [apply sqrt_pos| |apply se_fg_et; assumption].
    apply gf_size; [lra|exact B|apply sqrt2_le].
  - rewrite !Rmult_1_r. assert (X := one_term 2 (d + 4) s 1 (se_base_fl m d th rh) 1 ltac:(lia) ltac:(lia) P ltac:(lra)). rewrite Rmult_1_l, !Rmult_1_r in X. apply X; [|exact se_base_et]. rewrite Rabs_R1. rewrite sq1. lra.
Qed.
Lemma t5_sq : t5 * t5 = 5 * s.
Proof. replace (t5 * t5) with ((sqrt 5 * sqrt 5) * (nu * nu)) by ring. rewrite !sqrt_sqrt by (try apply s_nn; lra). reflexivity. Qed.
Lemma sqrt53_le : sqrt (5 / 3) * nu <= t5.
Proof. apply Rmult_le_compat_r; [apply sqrt_pos|]. apply sqrt_le_1_alt. lra. Qed.
Lemma ma_entry_err a b : dir_ok a -> dir_ok b -> Rabs (entry_fl m Ma5f2 d th rh a b - entry_ex Ma5f2 a b) <= kern_err u d * (osize Ma5f2 a * osize Ma5f2 b).
Proof.
  assert (P := t5_nonneg). assert (SQ := t5_sq). destruct kk_b as (K1 & K2 & K3). assert (PS := s_nn). assert (S53 := sqrt53_le).
  destruct a as [i|], b as [j|]; cbn [dir_ok entry_fl entry_ex osize phi0 phi1 phi2 gamma2]; intros A B; unfold ma0, ma1, ma2, matern_base_entry, matern_mat1_entry, matern_Abase_entry; replace (- sqrt 5 * nu) with (- t5) by ring.
  - assert (T1 := Hth i A). assert (T2 := Hth j B). destruct (Nat.eqb_spec i j) as [<-|NE].
    + destruct (ma_gg_et i A) as (y & y' & -> & E1 & E2). rewrite sqrt_sqrt by lra.
      replace (- (2 * th i * (- / 2 * (5 / 3 * (1 + t5) * exp (- t5))) + 2 * th i * r i * (2 * th i * r i) * (25 / 12 * exp (- t5)))) with ((th i * (5 / 3 * (1 + t5)) - 25 / 3 * th i ^ 2 * r i ^ 2) * exp (- t5)) by field.
      apply (two_terms (kk + 11) (kk + 3)); auto; try lia; try lra. rewrite !Rabs_right; [|apply Rle_ge; apply Rmult_le_pos; [|apply pow2_ge_0]; apply Rmult_le_pos; [lra|apply pow2_ge_0]|apply Rle_ge, Rmult_le_pos; lra].
      replace (th i * (5 / 3 * (1 + t5)) + 25 / 3 * th i ^ 2 * r i ^ 2) with ((1 + t5 + 5 * (th i * r i ^ 2)) * (5 / 3 * th i)) by field. apply Rmult_le_compat_r; [lra|]. assert (X := part_le i A). rewrite sq1 in *. lra.
    + replace (- (0 * (- / 2 * (5 / 3 * (1 + t5) * exp (- t5))) + 2 * th i * r i * (2 * th j * r j) * (25 / 12 * exp (- t5)))) with ((- (25 / 3) * th i * th j * r i * r j) * exp (- t5)) by field.
      assert (SZ : forall p q, (p < d)%nat -> (q < d)%nat -> Rabs (- (25 / 3) * th p * th q * r p * r q) <= (1 + t5) ^ 2 * (sqrt (5 / 3 * th p) * sqrt (5 / 3 * th q))).
      { intros p q Hp Hq. replace (- (25 / 3) * th p * th q * r p * r q) with (- (5 * (5 / 3 * th p * th q * (r p * r q)))) by field. rewrite Rabs_Ropp, Rabs_mult, Rabs_right by lra. assert (X := gh_size (5 / 3) p q ltac:(lra) Hp Hq).
        assert (0 <= sqrt (5 / 3 * th p) * sqrt (5 / 3 * th q)) by (apply Rmult_le_pos; apply sqrt_pos). set (g := sqrt (5 / 3 * th p) * sqrt (5 / 3 * th q)) in *.
        apply Rle_trans with (5 * s * g); [lra|]. apply Rmult_le_compat_r; [assumption|]. rewrite sq1. lra. }
      destruct (Nat.lt_ge_cases i j) as [L|L].
      * rewrite Nat.min_l, Nat.max_r by lia. apply (one_term 11 (kk + 3)); auto; try lia; [apply Rmult_le_pos; apply sqrt_pos|apply ma_gh_et; assumption].
      * rewrite Nat.min_r, Nat.max_l by lia. rewrite (Rmult_comm (sqrt (5 / 3 * th i))). replace (- (25 / 3) * th i * th j * r i * r j) with (- (25 / 3) * th j * th i * r j * r i) by ring.
        apply (one_term 11 (kk + 3)); auto; try lia; [apply Rmult_le_pos; apply sqrt_pos|apply ma_gh_et; assumption].
  - rewrite Rmult_1_r. replace (2 * th i * r i * (- / 2 * (5 / 3 * (1 + t5) * exp (- t5)))) with (- th i * r i * (5 / 3 * (1 + t5)) * exp (- t5)) by field. apply (one_term (kk + 12) (kk + 3)); auto; try lia; [apply sqrt_pos| |apply ma_gf_et; assumption].
    replace (- th i * r i * (5 / 3 * (1 + t5))) with (- ((1 + t5) * (5 / 3 * th i * r i))) by field. rewrite Rabs_Ropp, Rabs_mult, Rabs_right by lra. assert (X := gf_size (5 / 3) i t5 ltac:(lra) A S53).
    assert (0 <= sqrt (5 / 3 * th i)) by apply sqrt_pos. set (g := sqrt (5 / 3 * th i)) in *. apply Rle_trans with ((1 + t5) * (t5 * g)); [apply Rmult_le_compat_l; lra|]. rewrite <- Rmult_assoc. apply Rmult_le_compat_r; [assumption|]. rewrite sq1. lra.
  - rewrite Rmult_1_l. replace (- (2 * th j * r j * (- / 2 * (5 / 3 * (1 + t5) * exp (- t5))))) with (th j * r j * (5 / 3 * (1 + t5)) * exp (- t5)) by field. apply (one_term (kk + 12) (kk + 3)); auto; try lia; [apply sqrt_pos| |apply ma_fg_et; assumption].
    replace (th j * r j * (5 / 3 * (1 + t5))) with ((1 + t5) * (5 / 3 * th j * r j)) by field. rewrite Rabs_mult, Rabs_right by lra. assert (X := gf_size (5 / 3) j t5 ltac:(lra) B S53).
    assert (0 <= sqrt (5 / 3 * th j)) by apply sqrt_pos. set (g := sqrt (5 / 3 * th j)) in *. apply Rle_trans with ((1 + t5) * (t5 * g)); [apply Rmult_le_compat_l; lra|]. rewrite <- Rmult_assoc. apply Rmult_le_compat_r; [assumption|]. rewrite sq1. lra.
  - replace (nu ^ 2) with (nu * nu) by ring. apply (one_term (2 * kk + 9) (kk + 3)); auto; try lia; [lra| |exact ma_base_et]. rewrite sqrt_sqrt by exact PS.
    rewrite Rabs_right by lra. rewrite sq1. lra.
Qed.
Lemma entry_err k a b : k <> RatQu -> dir_ok a -> dir_ok b -> Rabs (entry_fl m k d th rh a b - entry_ex k a b) <= kern_err u d * (osize k a * osize k b).
Proof. destruct k; intros N; [apply se_entry_err|apply ma_entry_err|congruence]. Qed.

(** the diagonal *)
Lemma entry_diag k a : k <> RatQu -> dir_ok a -> (forall i, (i < d)%nat -> r i = 0) -> fac u (d + 14) (osize k a * osize k a) (entry_fl m k d th rh a a).
Proof.
  intros N A Z. assert (S0 : s = 0) by (apply rsum_0; intros i Hi; rewrite (Z i Hi); ring). destruct kk_b as (K1 & K2 & K3).
  assert (T0 : t5 = 0) by (rewrite S0, sqrt_0; ring).
  destruct k; [| |congruence]; destruct a as [i|]; cbn [entry_fl osize gamma2 dir_ok] in *; rewrite ?Nat.eqb_refl.
  - assert (T := Hth i A). rewrite sqrt_sqrt by lra. destruct (se_gg_et i A) as (y & y' & -> & E1 & E2). rewrite S0 in E1, E2. apply eterm_zero in E1. apply eterm_zero in E2.
    rewrite (Z i A) in E2. replace (4 * th i ^ 2 * 0 ^ 2) with 0 in E2 by ring. apply fac_zero in E2. rewrite E2, Rminus_0_r. apply (mono 10); [exact E1|lia].
  - rewrite Rmult_1_r. assert (E := se_base_et). rewrite S0 in E. apply eterm_zero in E. apply (mono 2); [exact E|lia].
  - assert (T := Hth i A). rewrite sqrt_sqrt by lra. destruct (ma_gg_et i A) as (y & y' & -> & E1 & E2). rewrite T0 in E1, E2. apply eterm_zero in E1. apply eterm_zero in E2.
    rewrite (Z i A) in E2. replace (25 / 3 * th i ^ 2 * 0 ^ 2) with 0 in E2 by ring. apply fac_zero in E2. rewrite E2, Rminus_0_r. replace (5 / 3 * th i) with (th i * (5 / 3 * (1 + 0))) by ring. apply (mono (kk + 11)); [exact E1|lia].
  - rewrite Rmult_1_r. assert (E := ma_base_et). rewrite T0, S0, sqrt_0 in E. apply eterm_zero in E. replace (1 + 0 + 5 / 3 * (0 * 0)) with 1 in E by ring. apply (mono (2 * kk + 9)); [exact E|lia].
Qed.
End E.
