(** * Decay of the covariance of observations at distant points. *)
From Coq Require Import Reals List Arith Bool Lia Lra Psatz.
From Verif.Base Require Import NpLite NpFacts.
From Verif.Spec Require Import KernelSpec LinAlgSpec.
From Verif.Model Require Import KernelSqExp KernelMatern KernelRatQuad KernelDispatch.
From Verif.Proofs Require Import KernGradBlocks KernelExact LinAlg Mixture Jets Psd EvalKern LkdCore.
Local Open Scope R_scope.

Lemma exp4 w : 0 < w -> exp (- w) * w ^ 4 <= 256.
Proof.
  intros Hw. assert (E : exp w = exp (w / 4) ^ 4) by (replace w with (w / 4 + w / 4 + w / 4 + w / 4) at 1 by field; rewrite !exp_plus; ring).
  assert (X : w / 4 <= exp (w / 4)) by (assert (Z := exp_ineq1 (w / 4) ltac:(lra)); lra).
  assert (Y : (w / 4) ^ 4 <= exp w) by (rewrite E; apply pow_incr; lra).
  assert (P := exp_pos w). rewrite exp_Ropp. apply (Rmult_le_reg_l (exp w)); [exact P|]. rewrite <- Rmult_assoc, Rinv_r, Rmult_1_l by lra. replace ((w / 4) ^ 4) with (w ^ 4 / 256) in Y by field. lra.
Qed.
Definition tail (k : kernel) (a s : R) : R := Rabs (phi0 k a s) + sqrt s * Rabs (phi1 k a s) + s * Rabs (phi2 k a s).
Lemma tail_se s : 1 <= s -> tail SqExp 0 s <= 768 / s.
Proof.
  intros Hs. unfold tail, phi0, phi1, phi2, se0, se1, se2. assert (E := exp4 s ltac:(lra)). assert (P := exp_pos (- s)). rewrite Rabs_Ropp, !Rabs_pos_eq by lra.
  assert (Q : sqrt s <= s) by (rewrite <- (sqrt_square s) at 2 by lra; apply sqrt_le_1_alt; nra). assert (Q0 := sqrt_pos s).
  assert (B : exp (- s) * s <= 256 / s). { apply (Rmult_le_reg_r (s ^ 3)); [apply pow_lt; lra|]. replace (256 / s * s ^ 3) with (256 * s ^ 2) by (field; lra). assert (1 <= s ^ 2) by nra. replace (exp (- s) * s * s ^ 3) with (exp (- s) * s ^ 4) by ring. nra. }
  assert (exp (- s) <= exp (- s) * s) by nra. assert (sqrt s * exp (- s) <= exp (- s) * s) by nra. replace (768 / s) with (256 / s + 256 / s + 256 / s) by (field; lra). lra.
Qed.
Lemma tail_ma a s : 1 <= s -> tail Ma5f2 a s <= 10000 / s.
Proof.
  intros Hs. unfold tail, phi0, phi1, phi2, ma0, ma1, ma2, matern_base_entry, matern_mat1_entry, matern_Abase_entry.
  assert (Q5 : sqrt 5 * sqrt 5 = 5) by (apply sqrt_sqrt; lra). assert (P5 : 2 <= sqrt 5) by (rewrite <- (sqrt_square 2) by lra; apply sqrt_le_1_alt; lra).
  set (v := sqrt s). assert (V2 : v * v = s) by (apply sqrt_sqrt; lra). assert (V1 : 1 <= v) by (unfold v; rewrite <- sqrt_1; apply sqrt_le_1_alt; lra).
  set (w := sqrt 5 * v). replace (- sqrt 5 * v) with (- w) by (unfold w; ring). set (x := exp (- w)). assert (X0 : 0 < x) by apply exp_pos.
  assert (W : 1 <= w) by (unfold w; nra). assert (W2 : w * w = 5 * s) by (unfold w; replace (sqrt 5 * v * (sqrt 5 * v)) with (sqrt 5 * sqrt 5 * (v * v)) by ring; rewrite Q5, V2; reflexivity).
  assert (E : x * w ^ 4 <= 256) by (apply exp4; lra). replace (w ^ 4) with (25 * (s * s)) in E by (replace (w ^ 4) with ((w * w) * (w * w)) by ring; rewrite W2; ring).
  assert (WS : w <= 5 * s) by nra. replace (v ^ 2) with s by (rewrite <- V2; ring).
  rewrite (Rabs_mult (- / 2)), (Rabs_left (- / 2)) by lra. assert (0 <= w * x) by nra. rewrite !Rabs_pos_eq by nra.
  assert (B : x * s <= 11 / s). { apply (Rmult_le_reg_r s); [lra|]. replace (11 / s * s) with 11 by (field; lra). lra. }
  assert (VS : v <= s) by nra. assert (VW : v * w <= 5 * s) by (unfold w; replace (v * (sqrt 5 * v)) with (sqrt 5 * s) by (rewrite <- V2; ring); nra).
  assert (A1 : (1 + w + 5 / 3 * s) * x <= 8 * (x * s)) by nra. assert (A2 : v * (/ 2 * (5 / 3 * (1 + w) * x)) <= 6 * (x * s)) by nra. assert (A3 : s * (25 / 12 * x) <= 3 * (x * s)) by nra.
  assert (SP : 0 < / s) by (apply Rinv_0_lt_compat; lra). unfold Rdiv in *. nra.
Qed.
Lemma tail_rq a s : 0 < a -> 1 <= s -> tail RatQu a s <= (2 + 2 * a) * Rpower (1 + s / a) (- a).
Proof.
  intros Ha Hs. unfold tail, phi0, phi1, phi2, rq0, rq1, rq2, rat_pow, rat_B. set (B := 1 + s / a). assert (B1 : 1 <= B) by (unfold B; assert (0 < s / a) by (apply Rdiv_lt_0_compat; lra); lra).
  assert (SB : s <= a * B) by (unfold B; replace (a * (1 + s / a)) with (a + s) by (field; lra); lra).
  assert (P0 : 0 < Rpower B (- a)) by apply exp_pos. assert (P1 : 0 < Rpower B (- a - 1)) by apply exp_pos. assert (P2 : 0 < Rpower B (- a - 2)) by apply exp_pos.
  assert (E1 : Rpower B (- a) = B * Rpower B (- a - 1)) by (rewrite <- (Rpower_1 B) at 2 by lra; rewrite <- Rpower_plus; f_equal; ring).
  assert (E2 : Rpower B (- a - 1) = B * Rpower B (- a - 2)) by (rewrite <- (Rpower_1 B) at 2 by lra; rewrite <- Rpower_plus; f_equal; ring).
  assert (Q : sqrt s <= s) by (rewrite <- (sqrt_square s) at 2 by lra; apply sqrt_le_1_alt; nra). assert (Q0 := sqrt_pos s). assert (I : 0 < / a) by (apply Rinv_0_lt_compat; lra).
  rewrite Rabs_Ropp. assert (0 < (1 + 1 / a) * Rpower B (- a - 2)) by (apply Rmult_lt_0_compat; [unfold Rdiv; lra|exact P2]). rewrite !Rabs_pos_eq by lra.
  assert (T1 : sqrt s * Rpower B (- a - 1) <= a * Rpower B (- a)) by (rewrite E1; nra).
  assert (T2 : s * ((1 + 1 / a) * Rpower B (- a - 2)) <= (1 + a) * Rpower B (- a - 1)).
  { rewrite E2. replace ((1 + a) * (B * Rpower B (- a - 2))) with (a * B * ((1 + 1 / a) * Rpower B (- a - 2))) by (field; lra). apply Rmult_le_compat_r; lra. }
  assert (T3 : Rpower B (- a - 1) <= Rpower B (- a)) by (rewrite E1; nra). nra.
Qed.
Lemma tail_small k hp e : hp_ok k hp -> 0 < e -> exists S, 1 <= S /\ forall s, S <= s -> tail k (hp_val hp) s <= e.
Proof.
  intros Hh He. destruct k; cbn [hp_ok] in Hh.
  - exists (1 + 768 / e). assert (P : 0 < 768 / e) by (apply Rdiv_lt_0_compat; lra). split; [lra|]. intros s Hs. assert (T := tail_se s ltac:(lra)). change (tail SqExp (hp_val hp) s) with (tail SqExp 0 s).
    apply (Rle_trans _ _ _ T). apply (Rmult_le_reg_r s); [lra|]. replace (768 / s * s) with (e * (768 / e)) by (field; lra). apply Rmult_le_compat_l; lra.
  - exists (1 + 10000 / e). assert (P : 0 < 10000 / e) by (apply Rdiv_lt_0_compat; lra). split; [lra|]. intros s Hs. assert (T := tail_ma (hp_val hp) s ltac:(lra)).
    apply (Rle_trans _ _ _ T). apply (Rmult_le_reg_r s); [lra|]. replace (10000 / s * s) with (e * (10000 / e)) by (field; lra). apply Rmult_le_compat_l; lra.
  - destruct Hh as (a & -> & Ha). cbn [hp_val]. set (q := e / (2 + 2 * a)). assert (Q : 0 < q) by (apply Rdiv_lt_0_compat; lra).
    exists (1 + a * exp (- ln q / a)). assert (EP := exp_pos (- ln q / a)). split; [nra|]. intros s Hs. assert (S1 : 1 <= s) by nra. apply (Rle_trans _ _ _ (tail_rq a s Ha S1)).
    replace e with ((2 + 2 * a) * q) by (unfold q; field; lra). apply Rmult_le_compat_l; [lra|]. unfold Rpower. rewrite <- (exp_ln q Q) at 1.
    assert (L : - ln q / a <= ln (1 + s / a)).
    { rewrite <- (ln_exp (- ln q / a)). assert (X : exp (- ln q / a) <= 1 + s / a). { apply (Rmult_le_reg_l a); [exact Ha|]. replace (a * (1 + s / a)) with (a + s) by (field; lra). lra. }
      destruct X as [X| ->]; [left; apply ln_increasing; assumption|right; reflexivity]. }
    assert (M : - a * ln (1 + s / a) <= ln q). { apply (Rmult_le_compat_l a) in L; [|lra]. replace (a * (- ln q / a)) with (- ln q) in L by (field; lra). lra. }
    destruct M as [M| ->]; [left; apply exp_increasing; exact M|right; reflexivity].
Qed.
(** the point an observation is made at *)
Definition at_of (a : obs) : pt := match a with Val x => x | Der _ x => x end.
Section K.
Variables (k : kernel) (hp : option R) (d : nat) (th : nat -> R).
Hypothesis Hh : hp_ok k hp.
Hypothesis Hth : forall i, 0 <= th i.
Lemma term_sqrt x y i : (i < d)%nat -> Rabs (th i * (x i - y i)) <= sqrt (th i) * sqrt (sqd d th x y).
Proof.
  intros Hi. assert (T := rsum_le_term d (fun i => th i * (x i - y i) ^ 2) i ltac:(intros; apply Rmult_le_pos; [apply Hth|apply pow2_ge_0]) Hi). cbv beta in T. fold (sqd d th x y) in T.
  rewrite <- sqrt_mult_alt by apply Hth. rewrite <- sqrt_Rsqr_abs. apply sqrt_le_1_alt. unfold Rsqr. assert (H := Hth i). replace (th i * (x i - y i) * (th i * (x i - y i))) with (th i * (th i * (x i - y i) ^ 2)) by ring. apply Rmult_le_compat_l; assumption.
Qed.
Lemma kj_small e : 0 < e -> exists S, 0 < S /\ forall a b, obs_lt d a -> obs_lt d b -> S <= sqd d th (at_of a) (at_of b) -> Rabs (kjet k (hp_val hp) d th a b) <= e.
Proof.
  intros He. set (T := 1 + rsum d th). assert (T0 : 0 <= rsum d th) by (apply rsum_nonneg; intros; apply Hth).
  assert (T1 : forall i, (i < d)%nat -> th i <= T /\ sqrt (th i) <= T).
  { intros i Hi. assert (Z := rsum_le_term d th i ltac:(intros; apply Hth) Hi). assert (H := Hth i). split; [unfold T; lra|]. apply Rle_trans with (1 + th i); [|unfold T; lra].
    rewrite <- (sqrt_square (1 + th i)) by lra. apply sqrt_le_1_alt. nra. }
  assert (TP : 1 <= T) by (unfold T; lra). assert (EP : 0 < e / (6 * T * T)) by (apply Rdiv_lt_0_compat; nra).
  destruct (tail_small k hp _ Hh EP) as (S & S1 & S2). exists S. split; [lra|]. intros a b Ha Hb Hs. set (s := sqd d th (at_of a) (at_of b)) in *.
  assert (B := S2 s Hs). unfold tail in B. set (f0 := Rabs (phi0 k (hp_val hp) s)) in *. set (f1 := Rabs (phi1 k (hp_val hp) s)) in *. set (f2 := Rabs (phi2 k (hp_val hp) s)) in *.
  assert (F0 : 0 <= f0) by apply Rabs_pos. assert (F1 : 0 <= f1) by apply Rabs_pos. assert (F2 : 0 <= f2) by apply Rabs_pos. set (r := sqrt s) in *.
  assert (R1 : 1 <= r) by (unfold r; rewrite <- sqrt_1; apply sqrt_le_1_alt; lra). assert (R2 : r * r = s) by (apply sqrt_sqrt; lra).
  set (q := e / (6 * T * T)) in *. assert (EQ : e = 6 * T * T * q) by (unfold q; field; lra).
  assert (C1 : r * f1 <= q) by nra. assert (C2 : s * f2 <= q) by nra. assert (C3 : f1 <= q) by nra. assert (C0 : f0 <= q) by nra.
  assert (L1 : forall i x y, (i < d)%nat -> sqd d th x y = s -> Rabs (2 * th i * (x i - y i)) <= 2 * T * r).
  { intros i x y Hi Hxy. replace (2 * th i * (x i - y i)) with (2 * (th i * (x i - y i))) by ring. rewrite Rabs_mult, (Rabs_pos_eq 2) by lra. assert (Z := term_sqrt x y i Hi). rewrite Hxy in Z. fold r in Z. destruct (T1 i Hi). nra. }
  assert (TT : T * q <= T * T * q) by nra. assert (QT : q <= T * q) by nra.
  destruct a as [x|i x], b as [y|j y]; cbn [at_of obs_lt] in *; unfold kjet, rjet; fold s.
  - fold f0. lra.
  - rewrite Rabs_Ropp, Rabs_mult. fold f1. assert (Z := L1 j x y Hb eq_refl). assert (2 * T * (r * f1) <= 2 * T * q) by (apply Rmult_le_compat_l; lra). assert (Rabs (2 * th j * (x j - y j)) * f1 <= 2 * T * r * f1) by (apply Rmult_le_compat_r; lra). lra.
  - rewrite Rabs_mult. fold f1. assert (Z := L1 i x y Ha eq_refl). assert (2 * T * (r * f1) <= 2 * T * q) by (apply Rmult_le_compat_l; lra). assert (Rabs (2 * th i * (x i - y i)) * f1 <= 2 * T * r * f1) by (apply Rmult_le_compat_r; lra). lra.
  - rewrite Rabs_Ropp. eapply Rle_trans; [apply Rabs_triang|]. rewrite !Rabs_mult. fold f1 f2. rewrite <- !Rabs_mult.
    assert (Zi := L1 i x y Ha eq_refl). assert (Zj := L1 j x y Hb eq_refl).
    assert (Z0 : Rabs (if (i =? j)%nat then 2 * th i else 0) <= 2 * T). { destruct (T1 i Ha). assert (H' := Hth i). destruct (i =? j)%nat; [rewrite Rabs_pos_eq; lra|rewrite Rabs_R0; lra]. }
    assert (A1 : Rabs (if (i =? j)%nat then 2 * th i else 0) * f1 <= 2 * T * q) by (apply Rmult_le_compat; [apply Rabs_pos|exact F1|exact Z0|exact C3]).
    assert (A2 : Rabs (2 * th i * (x i - y i) * (2 * th j * (x j - y j))) * f2 <= 4 * T * T * q).
    { rewrite Rabs_mult. apply Rle_trans with (2 * T * r * (2 * T * r) * f2); [apply Rmult_le_compat_r; [exact F2|]; apply Rmult_le_compat; auto using Rabs_pos|]. replace (2 * T * r * (2 * T * r) * f2) with (4 * T * T * (s * f2)) by (rewrite <- R2; ring). apply Rmult_le_compat_l; nra. }
    lra.
Qed.
End K.
