(** The three radial functions and their derivatives. *)
From Coq Require Import Reals List Arith Bool Lia Lra Psatz.
From Coquelicot Require Import Coquelicot.
From Verif.Base Require Import NpLite NpFacts.
From Verif.Spec Require Import KernelSpec.
From Verif.Model Require Import KernelSqExp KernelMatern KernelRatQuad.
From Verif.Proofs Require Import KernTac KernGradBlocks RadialCalculus.
Import ListNotations.
Local Open Scope R_scope.

Definition Dall (s : R) : Prop := True.
Definition Dnn (s : R) : Prop := 0 <= s.

Lemma se_d01 : deriv_on Dall se0 se1.
Proof.
  exists se0. split; auto. intros s _. unfold se0, se1. auto_derive; [exact I | ring].
Qed.
Lemma se_d12 : deriv_on Dall se1 se2.
Proof.
  exists se1. split; auto. intros s _. unfold se1, se2. auto_derive; [exact I | ring].
Qed.
Definition se3 x := - exp (- x).
Lemma se_d23 : deriv_on Dall se2 se3.
Proof.
  exists se2. split; auto. intros s _. unfold se2, se3. auto_derive; [exact I | ring].
Qed.

(** ** rational quadratic *)
Lemma rat_B_pos a s : 0 < a -> 0 <= s -> 0 < rat_B a s.
Proof.
  intros Ha Hs. unfold rat_B. assert (0 <= s / a) by (apply Rmult_le_pos; [exact Hs | left; apply Rinv_0_lt_compat; exact Ha]). lra.
Qed.
Lemma rat_B_ge1 a s : 0 < a -> 0 <= s -> 1 <= rat_B a s.
Proof.
  intros Ha Hs. unfold rat_B. assert (0 <= s / a) by (apply Rmult_le_pos; [exact Hs | left; apply Rinv_0_lt_compat; exact Ha]). lra.
Qed.
Lemma rat_pow_derive a p s : 0 < a -> 0 <= s ->
  is_derive (rat_pow a p) s (p / a * rat_pow a (p - 1) s).
Proof.
  intros Ha Hs. assert (HB := rat_B_pos a s Ha Hs).
  unfold rat_pow, Rpower.
  eapply is_derive_val.
  - unfold rat_B. auto_derive; [|reflexivity]. unfold rat_B in HB. lra.
  - fold (rat_B a s). replace ((p - 1) * ln (rat_B a s)) with (p * ln (rat_B a s) + - ln (rat_B a s)) by ring.
    rewrite exp_plus, exp_Ropp, exp_ln by exact HB. 
    change (1 + s * / a) with (rat_B a s). rnorm. field. split; lra.
Qed.
Lemma rq_d01 a : 0 < a -> deriv_on Dnn (rq0 a) (rq1 a).
Proof.
  intros Ha. exists (rq0 a). split; auto. intros s Hs. unfold rq0, rq1.
  eapply is_derive_val; [apply rat_pow_derive; auto|]. rnorm. field; lra.
Qed.
Lemma rq_d12 a : 0 < a -> deriv_on Dnn (rq1 a) (rq2 a).
Proof.
  intros Ha. exists (rq1 a). split; auto. intros s Hs. unfold rq1, rq2.
  eapply is_derive_val; [apply @is_derive_opp; apply rat_pow_derive; auto|].
  replace (- a - 1 - 1) with (- a - 2) by ring. rnorm. field; lra.
Qed.
Definition rq3 a x := - (1 + 1 / a) * (1 + 2 / a) * rat_pow a (- a - 3) x.
Lemma rq_d23 a : 0 < a -> deriv_on Dnn (rq2 a) (rq3 a).
Proof.
  intros Ha. exists (rq2 a). split; auto. intros s Hs. unfold rq2, rq3.
  eapply is_derive_val; [apply is_derive_scal; apply rat_pow_derive; auto|].
  replace (- a - 2 - 1) with (- a - 3) by ring. rnorm. field; lra.
Qed.

(** ** one-sided extension at 0 *)
Lemma extend_deriv (f f1 : R -> R) :
  (forall s, 0 < s -> is_derive f s (f1 s)) ->
  (forall eps, 0 < eps -> exists del, 0 < del /\ forall s, 0 < s < del -> Rabs (f s - f 0) < eps) ->
  (forall eps, 0 < eps -> exists del, 0 < del /\ forall s, 0 < s < del -> Rabs (f1 s - f1 0) < eps) ->
  deriv_on Dnn f f1.
Proof.
  intros Hd Hc Hc1.
  set (e := fun s => if Rle_dec 0 s then f s else f 0 + f1 0 * s).
  exists e. split.
  - intros s Hs. unfold e. destruct (Rle_dec 0 s); [reflexivity | unfold Dnn in Hs; lra].
  - intros s Hs. unfold Dnn in Hs. destruct (Req_dec s 0) as [->|Hne].
    + apply is_derive_Reals. intros eps Heps.
      destruct (Hc1 (eps / 2) ltac:(lra)) as (del & Hdel & HH).
      exists (mkposreal del Hdel). intros h Hh Hhd. simpl in Hhd. unfold e.
      rewrite Rplus_0_l. destruct (Rle_dec 0 0) as [_|]; [|lra].
      destruct (Rle_dec 0 h) as [Hp|Hn].
      * assert (Hh0 : 0 < h) by lra. rewrite Rabs_pos_eq in Hhd by lra.
        destruct (MVT_gen e 0 h f1) as (c & Hc2 & Hc3).
        { intros x Hx. rewrite Rmin_left, Rmax_right in Hx by lra.
          apply (is_derive_ext_loc f).
          - exists (mkposreal x (proj1 Hx)). intros y Hy. unfold e.
            unfold ball in Hy; simpl in Hy; unfold AbsRing_ball, abs, minus, plus, opp in Hy; simpl in Hy.
            destruct (Rle_dec 0 y); [reflexivity|]. apply Rabs_def2 in Hy. lra.
          - apply Hd; lra. }
        { intros x Hx. rewrite Rmin_left, Rmax_right in Hx by lra.
          destruct (Req_dec x 0) as [->|Hx0].
          - intros ep Hep. destruct (Hc (ep / 2) ltac:(lra)) as (de & Hde & HH2).
            set (M := Rabs (f1 0) + 1). assert (HM : 0 < M) by (unfold M; assert (H := Rabs_pos (f1 0)); lra).
            exists (Rmin de (ep / M)). split.
            { apply Rmin_pos; [exact Hde|]. apply Rdiv_lt_0_compat; lra. }
            intros y [_ Hy]. simpl in *. unfold R_dist in *. rewrite Rminus_0_r in Hy.
            assert (Hy1 := Rlt_le_trans _ _ _ Hy (Rmin_l _ _)).
            assert (Hy2 := Rlt_le_trans _ _ _ Hy (Rmin_r _ _)).
            unfold e. destruct (Rle_dec 0 0) as [_|]; [|lra].
            destruct (Rle_dec 0 y).
            + destruct (Req_dec y 0) as [->|]; [rewrite Rminus_diag_eq by reflexivity; rewrite Rabs_R0; lra|].
              rewrite Rabs_pos_eq in Hy1 by lra. specialize (HH2 y ltac:(lra)). lra.
            + replace (f 0 + f1 0 * y - f 0) with (f1 0 * y) by ring. rewrite Rabs_mult.
              apply Rle_lt_trans with (M * Rabs y).
              * apply Rmult_le_compat_r; [apply Rabs_pos | unfold M; lra].
              * apply Rmult_lt_reg_r with (/ M); [apply Rinv_0_lt_compat; exact HM|].
                replace (M * Rabs y * / M) with (Rabs y) by (field; lra). exact Hy2.
          - apply derivable_continuous_pt. exists (f1 x).
            apply is_derive_Reals. apply (is_derive_ext_loc f).
            + assert (Hx1 : 0 < x) by lra. exists (mkposreal x Hx1). intros y Hy. unfold e.
              unfold ball in Hy; simpl in Hy; unfold AbsRing_ball, abs, minus, plus, opp in Hy; simpl in Hy.
              destruct (Rle_dec 0 y); [reflexivity|]. apply Rabs_def2 in Hy. lra.
            + apply Hd; lra. }
        rewrite Rmin_left, Rmax_right in Hc2 by lra. rewrite Rminus_0_r in Hc3.
        unfold e in Hc3. destruct (Rle_dec 0 h) as [_|]; [|lra]. destruct (Rle_dec 0 0) as [_|]; [|lra].
        rewrite Hc3. replace (f1 c * h / h - f1 0) with (f1 c - f1 0) by (field; lra).
        destruct (Req_dec c 0) as [->|]; [rewrite Rminus_diag_eq by reflexivity; rewrite Rabs_R0; lra|].
        specialize (HH c ltac:(lra)). lra.
      * replace ((f 0 + f1 0 * h - f 0) / h - f1 0) with 0 by (field; lra). rewrite Rabs_R0; lra.
    + apply (is_derive_ext_loc f).
      * assert (Hs1 : 0 < s) by lra. exists (mkposreal s Hs1). intros y Hy. unfold e.
        unfold ball in Hy; simpl in Hy; unfold AbsRing_ball, abs, minus, plus, opp in Hy; simpl in Hy.
        destruct (Rle_dec 0 y); [reflexivity|]. apply Rabs_def2 in Hy. lra.
      * apply Hd; lra.
Qed.

(** functions of sqrt s *)
Lemma sqrt_cont0 (g : R -> R) : continuous g 0 ->
  forall eps, 0 < eps -> exists del, 0 < del /\ forall s, 0 < s < del -> Rabs (g (sqrt s) - g (sqrt 0)) < eps.
Proof.
  intros Hg eps Heps. rewrite sqrt_0.
  destruct (Hg (ball (g 0) (mkposreal eps Heps))) as [del Hdel].
  { exists (mkposreal eps Heps). auto. }
  exists (del ^ 2). split; [apply pow_lt; apply cond_pos|].
  intros s [Hs1 Hs2]. assert (Hb : ball 0 del (sqrt s)).
  { unfold ball; simpl; unfold AbsRing_ball, abs, minus, plus, opp; simpl.
    replace (sqrt s + - 0) with (sqrt s) by ring. rewrite Rabs_pos_eq by apply sqrt_pos.
    rewrite <- (sqrt_pow2 del) by (left; apply cond_pos). apply sqrt_lt_1; nra. }
  exact (Hdel _ Hb).
Qed.
Lemma sqrt_derive (g : R -> R) g1 s : 0 < s -> is_derive g (sqrt s) g1 ->
  is_derive (fun x => g (sqrt x)) s (g1 / (2 * sqrt s)).
Proof.
  intros Hs Hg. assert (H0 := sqrt_lt_R0 s Hs).
  eapply is_derive_val.
  - apply (is_derive_comp g sqrt); [exact Hg|]. apply is_derive_Reals, derivable_pt_lim_sqrt, Hs.
  - rnorm. field. lra.
Qed.
Lemma cont_of_derive (g : R -> R) x l : is_derive g x l -> continuous g x.
Proof. intros H. apply @ex_derive_continuous. exists l; exact H. Qed.

Definition ma3 x := - (25 * sqrt 5 / 24) / sqrt x * matern_Abase_entry (sqrt x).
Lemma sq5 : sqrt 5 * sqrt 5 = 5.
Proof. apply sqrt_sqrt; lra. Qed.
Lemma mat_base_derive v : is_derive matern_base_entry v (- (5 / 3) * v * (1 + sqrt 5 * v) * exp (- sqrt 5 * v)).
Proof.
  unfold matern_base_entry. eapply is_derive_val; [auto_derive; [exact I | reflexivity]|].
  generalize (exp (- sqrt 5 * v)); intros E. assert (H5 := sq5). revert H5. generalize (sqrt 5); intros q H5.
  rnorm. field_simplify. replace (q ^ 2) with 5 by (rewrite <- H5; ring). rnorm. field.
Qed.
Lemma mat_mat1_derive v : is_derive matern_mat1_entry v (- (25 / 3) * v * exp (- sqrt 5 * v)).
Proof.
  unfold matern_mat1_entry. eapply is_derive_val; [auto_derive; [exact I | reflexivity]|].
  generalize (exp (- sqrt 5 * v)); intros E. assert (H5 := sq5). revert H5. generalize (sqrt 5); intros q H5.
  rnorm. field_simplify. replace (q ^ 2) with 5 by (rewrite <- H5; ring). rnorm. field.
Qed.
Lemma mat_A_derive v : is_derive matern_Abase_entry v (- sqrt 5 * exp (- sqrt 5 * v)).
Proof.
  unfold matern_Abase_entry. eapply is_derive_val; [auto_derive; [exact I | reflexivity]|]. rnorm. ring.
Qed.
Lemma ma_d01 : deriv_on Dnn ma0 ma1.
Proof.
  apply extend_deriv.
  - intros s Hs. assert (H0 := sqrt_lt_R0 s Hs). eapply is_derive_val.
    + apply (sqrt_derive matern_base_entry); [exact Hs | apply mat_base_derive].
    + unfold ma1, matern_mat1_entry. rnorm. field. lra.
  - unfold ma0. apply sqrt_cont0. eapply cont_of_derive, mat_base_derive.
  - intros eps Heps.
    destruct (sqrt_cont0 matern_mat1_entry ltac:(eapply cont_of_derive, mat_mat1_derive) eps Heps) as (del & Hd & H).
    exists del; split; [exact Hd|]. intros s Hs. specialize (H s Hs). unfold ma1.
    rewrite <- Rmult_minus_distr_l, Rabs_mult.
    replace (Rabs (- / 2)) with (/ 2) by (rewrite Rabs_Ropp, Rabs_pos_eq; lra). lra.
Qed.
Lemma ma_d12 : deriv_on Dnn ma1 ma2.
Proof.
  apply extend_deriv.
  - intros s Hs. assert (H0 := sqrt_lt_R0 s Hs). unfold ma1. eapply is_derive_val.
    + apply is_derive_scal. apply (sqrt_derive matern_mat1_entry); [exact Hs | apply mat_mat1_derive].
    + unfold ma2, matern_Abase_entry. rnorm. field. lra.
  - intros eps Heps.
    destruct (sqrt_cont0 matern_mat1_entry ltac:(eapply cont_of_derive, mat_mat1_derive) eps Heps) as (del & Hd & H).
    exists del; split; [exact Hd|]. intros s Hs. specialize (H s Hs). unfold ma1.
    rewrite <- Rmult_minus_distr_l, Rabs_mult.
    replace (Rabs (- / 2)) with (/ 2) by (rewrite Rabs_Ropp, Rabs_pos_eq; lra). lra.
  - intros eps Heps.
    destruct (sqrt_cont0 matern_Abase_entry ltac:(eapply cont_of_derive, mat_A_derive) (eps / 3) ltac:(lra)) as (del & Hd & H).
    exists del; split; [exact Hd|]. intros s Hs. specialize (H s Hs). unfold ma2.
    rewrite <- Rmult_minus_distr_l, Rabs_mult.
    replace (Rabs (25 / 12)) with (25 / 12) by (rewrite Rabs_pos_eq; lra). lra.
Qed.
Definition Dpos (s : R) : Prop := 0 < s.
Lemma ma_d23 : deriv_on Dpos ma2 ma3.
Proof.
  exists ma2; split; auto. intros s Hs. assert (H0 := sqrt_lt_R0 s Hs). unfold ma2. eapply is_derive_val.
  - apply is_derive_scal. apply (sqrt_derive matern_Abase_entry); [exact Hs | apply mat_A_derive].
  - unfold ma3, matern_Abase_entry. rnorm. field. lra.
Qed.

(** agreement with the documented covariance functions *)
Lemma se0_spec d th x y : se0 (sqd d th x y) = k_sqexp d th x y.
Proof. reflexivity. Qed.
Lemma ma0_spec d th x y : ma0 (sqd d th x y) = k_matern d th x y.
Proof.
  unfold ma0, k_matern, matern_base_entry, matern52.
  replace (- sqrt 5 * sqrt (sqd d th x y)) with (- (sqrt 5 * sqrt (sqd d th x y))) by ring. reflexivity.
Qed.
Lemma rq0_spec d th a x y : rq0 a (sqd d th x y) = k_ratqu d th a x y.
Proof. reflexivity. Qed.
