(** * C70, continued: IEEE double precision (53 bits, rounding to nearest, no overflow or underflow). *)
From Coq Require Import Reals List Arith ZArith Bool Lia Lra Psatz.
From Verif.Base Require Import NpLite NpFacts.
From Verif.Spec Require Import KernelSpec LinAlgSpec GpSpec DataSpec LkdSpec EvalSpec FloatSpec FloatKernSpec.
From Verif.Model Require Import KernelSqExp KernelMatern KernelRatQuad KernelDispatch CommonFun WellCond Rescaling GpState Chol CholFl Cov EvalModel EvalFl Lkd KernFl.
From Verif.Proofs Require Import CovStruct StateFacts NoiseFacts LinAlg CholCorrect FlChol FlMargin FlSolve FlSol FlTarget FlFac FlKern FlCov FlCovMain FlPred FlOrder Det NuggetCond NuggetMain.
From Verif.Props Require Import CondProps DataProps LkdProps EvalProps EvalProps2 FloatProps FloatProps2 FloatProps3 FloatProps4 FloatProps5 FloatKernProps FloatKernProps2.
Import ListNotations.
Local Open Scope R_scope.

(** double precision, with the exponential function and the logarithm of a numerical library; sums in any order *)
Definition library_exp (ex : R -> R) : Prop := forall a, near (gam u64 2) (exp a) (ex a).
Definition library_ln (lg : R -> R) : Prop := forall a, 0 < a -> near (gam u64 2) (ln a) (lg a).
Definition double_machine (m : machine) : Prop := exists tie, any_order (rnd64 tie) (m_ar m) /\ (forall a b, m_add m a b = rnd64 tie (a + b)) /\
  library_exp (m_exp m) /\ library_ln (m_ln m) /\ forall l, l = [] /\ m_sum m l = 0 \/ added (rnd64 tie) l (m_sum m l).
Lemma double_machine_rounds m : double_machine m -> machine_rounds u64 m.
Proof.
  intros (tie & H1 & H2 & H3 & H5 & H4). constructor; [apply double_arith_rounds; exists tie; exact H1|intros; rewrite H2; apply near64|exact H3| | |exact H5].
  2:{ intros l. destruct (H4 l) as [(-> & ->)|A]; [|apply (added_any u64 (rnd64 tie)); [apply u64_pos|apply near64|exact A]]. unfold total. cbn [map fold_right length]. rewrite Rminus_eq_0, Rabs_R0. lra. }
  intros l HP. destruct (H4 l) as [(-> & ->)|A]; [|apply (added_near u64 (rnd64 tie)); [apply u64_pos|apply near64|unfold u64; lra|exact A|exact HP]].
  unfold total. cbn [fold_right]. split; [lra|]. split; rewrite Rminus_diag_eq, Rabs_R0 by reflexivity; apply Rmult_le_pos; try lra; apply gam_nonneg, u64_pos.
Qed.
Lemma double_machine_arith m : double_machine m -> double_arith (m_ar m).
Proof. intros (tie & H & _). exists tie. exact H. Qed.
(** there is one: the rounded exponential function *)
Lemma near64_2 tie x : near (gam u64 2) x (rnd64 tie x).
Proof.
  destruct (near64 tie x) as (A & B). assert (G : u64 <= gam u64 2) by (unfold gam, u64; cbn [pow]; lra).
  split; [eapply Rle_trans; [exact A|]|eapply Rle_trans; [exact B|]]; apply Rmult_le_compat_r; try apply Rabs_pos; exact G.
Qed.
Example some_library_exp : forall tie, library_exp (fun a => rnd64 tie (exp a)).
Proof. intros tie a. apply near64_2. Qed.
Example some_library_ln : forall tie, library_ln (fun a => rnd64 tie (ln a)).
Proof. intros tie a _. apply near64_2. Qed.
(** a machine that sums one number after the other *)
Definition a_machine (tie : Z -> bool) : machine :=
  mkmach (double tie) (fun a b => rnd64 tie (a + b)) (fun a => rnd64 tie (exp a))
    (fun l => match l with [] => 0 | a :: l => fold_left (fun s b => rnd64 tie (s + b)) l a end) (fun a => rnd64 tie (ln a)).
Example some_double_machine : forall tie, double_machine (a_machine tie).
Proof.
  intros tie. exists tie. split; [apply sequential_any_order|]. split; [reflexivity|]. split; [apply some_library_exp|]. split; [apply some_library_ln|].
  intros [|a l]; [left; split; reflexivity|right]. cbn [a_machine m_sum].
  enough (G : forall l l0 s, added (rnd64 tie) l0 s -> added (rnd64 tie) (l0 ++ l) (fold_left (fun s b => rnd64 tie (s + b)) l s)) by apply (G l [a]), a_one.
  intros l1. induction l1 as [|b l1 IH]; intros l0 s H; [rewrite app_nil_r; exact H|]. change (b :: l1) with ([b] ++ l1). rewrite app_assoc. cbn [fold_left app]. apply IH, a_add; [exact H|apply a_one].
Qed.

(** ** numbers *)
Lemma gam_num k : (k <= 600)%nat -> 0 <= gam u64 k <= INR k * (11103 / 10 ^ 20).
Proof.
  intros Hk. assert (U : 0 <= u64 <= 111023 / 10 ^ 21) by (unfold u64; lra). split; [apply gam_nonneg; lra|].
  assert (I6 : INR 600 = 600) by (rewrite INR_IZR_INZ; reflexivity). assert (IK : INR k <= 600) by (rewrite <- I6; apply le_INR, Hk). assert (I0 := pos_INR k).
  set (x := INR k * u64). assert (X : 0 <= x <= INR k * (111023 / 10 ^ 21)) by (unfold x; split; [apply Rmult_le_pos; lra|apply Rmult_le_compat_l; lra]).
  eapply Rle_trans; [apply gam_bound; [lra|]; fold x; lra|]. fold x. cbn [pow]. assert (x * x <= x * / 10 ^ 10) by (apply Rmult_le_compat_l; lra). lra.
Qed.
Lemma kern_num d : (d <= 20)%nat -> 0 <= kern_err u64 d <= 1866 / 10 ^ 17.
Proof.
  intros Hd. assert (U : 0 <= u64) by (unfold u64; lra). unfold kern_err. assert (A := gam_mono u64 (d + 14) 34 U ltac:(lia)). assert (B := gam_mono u64 (d + 5) 25 U ltac:(lia)).
  destruct (gam_num 34 ltac:(lia)) as (_ & A1). destruct (gam_num 25 ltac:(lia)) as (_ & B1). rewrite INR_IZR_INZ in A1, B1. cbn [Z.of_nat Pos.of_succ_nat Pos.succ] in A1, B1.
  assert (A0 := gam_nonneg u64 (d + 14) U). assert (B0 := gam_nonneg u64 (d + 5) U). lra.
Qed.
Lemma prod_num a b A B : 0 <= a <= A -> 0 <= b <= B -> A <= / 10 ^ 6 -> 0 <= (1 + a) * (1 + b) - 1 <= A + B + B / 10 ^ 6.
Proof. intros Ha Hb HA. assert (0 <= a * b) by (apply Rmult_le_pos; lra). assert (a * b <= / 10 ^ 6 * B) by (apply Rmult_le_compat; lra). split; [lra|]. unfold Rdiv. lra. Qed.
Lemma cov_num d w W : (d <= 20)%nat -> 0 <= w <= W -> W <= / 10 ^ 7 -> 0 <= cov_err u64 d w <= 2755 / 10 ^ 17 + W.
Proof.
  intros Hd Hw HW. destruct (kern_num d Hd) as (K0 & K1). assert (U : 0 <= u64) by (unfold u64; lra). assert (A := gam_mono u64 (2 * d + 40) 80 U ltac:(lia)). destruct (gam_num 80 ltac:(lia)) as (_ & A1). rewrite INR_IZR_INZ in A1. cbn [Z.of_nat Pos.of_succ_nat Pos.succ] in A1.
  assert (A0 := gam_nonneg u64 (2 * d + 40) U). unfold cov_err.
  destruct (prod_num (kern_err u64 d + w) (gam u64 (2 * d + 40)) (1866 / 10 ^ 17 + W) (80 * (11103 / 10 ^ 20)) ltac:(lra) ltac:(lra) ltac:(lra)). lra.
Qed.
Lemma eta_num d n m : (d <= 20)%nat -> (n <= m)%nat -> (m <= 500)%nat -> 0 <= eta_err u64 d n <= INR m * (2755 / 10 ^ 17 + 2 * (11104 / 10 ^ 20)) + 3 / 10 ^ 16.
Proof.
  intros Hd Hn Hm. destruct (cov_num d 0 0 Hd ltac:(lra) ltac:(lra)) as (C0 & C1). assert (U : 0 <= u64) by (unfold u64; lra). assert (I0 := pos_INR n). assert (IM : INR n <= INR m) by (apply le_INR, Hn).
  assert (I5 : INR 500 = 500) by (rewrite INR_IZR_INZ; reflexivity). assert (IK : INR m <= 500) by (rewrite <- I5; apply le_INR, Hm).
  destruct (gam_num (n + 2) ltac:(lia)) as (G0 & G1). rewrite plus_INR in G1. replace (INR 2) with 2 in G1 by (rewrite INR_IZR_INZ; reflexivity).
  unfold eta_err. set (c := cov_err u64 d 0) in *.
  assert (N1 : 0 <= INR n * c <= INR m * (2755 / 10 ^ 17)) by (split; [apply Rmult_le_pos; lra|apply Rmult_le_compat; lra]).
  destruct (prod_num (INR n * c) (gam u64 (n + 2)) (INR m * (2755 / 10 ^ 17)) ((INR m + 2) * (11103 / 10 ^ 20)) N1 ltac:(lra) ltac:(lra)) as (P & Q). split; [exact P|]. lra.
Qed.
Lemma total_num d w W : (d <= 20)%nat -> 0 <= w <= W -> W <= / 10 ^ 7 -> 0 <= total_err u64 d w <= 3178 / 10 ^ 17 + W.
Proof.
  intros Hd Hw HW. destruct (cov_num d w W Hd Hw HW) as (K0 & K1). assert (U : 0 <= u64) by (unfold u64; lra). assert (A := gam_mono u64 (d + 18) 38 U ltac:(lia)). destruct (gam_num 38 ltac:(lia)) as (_ & A1). rewrite INR_IZR_INZ in A1. cbn [Z.of_nat Pos.of_succ_nat Pos.succ] in A1.
  assert (A0 := gam_nonneg u64 (d + 18) U). unfold total_err.
  destruct (prod_num (cov_err u64 d w) (gam u64 (d + 18)) (2755 / 10 ^ 17 + W) (38 * (11103 / 10 ^ 20)) ltac:(lra) ltac:(lra) ltac:(lra)). lra.
Qed.
Lemma small_dim d : (d <= 20)%nat -> (1 + u64) ^ (d + 5) <= 11 / 10.
Proof.
  intros Hd. assert (U : 0 <= u64) by (unfold u64; lra). assert (A := gam_mono u64 (d + 5) 25 U ltac:(lia)). destruct (gam_num 25 ltac:(lia)) as (_ & A1). rewrite INR_IZR_INZ in A1. cbn [Z.of_nat Pos.of_succ_nat Pos.succ] in A1. unfold gam in A at 1. lra.
Qed.
(** the error of the matrix with 'precon', at most 500 data *)
Lemma precon_num o n m : (o_dim o <= 20)%nat -> (n <= m)%nat -> (m <= 500)%nat -> 10 ^ 5 <= o_target o -> 0 <= precon_err u64 o n <= 3178 / 10 ^ 17 + INR m * INR m * (28 / 10 ^ 20) + INR m * / 10 ^ 20.
Proof.
  intros Hd Hn Hm Ht. destruct (eta_num (o_dim o) n m Hd Hn Hm) as (E0 & E1). assert (I0 := pos_INR n). assert (IM : INR n <= INR m) by (apply le_INR, Hn).
  assert (I5 : INR 500 = 500) by (rewrite INR_IZR_INZ; reflexivity). assert (IK : INR m <= 500) by (rewrite <- I5; apply le_INR, Hm).
  unfold precon_err. rewrite Rplus_assoc. set (W := INR m * INR m * (28 / 10 ^ 20) + INR m * / 10 ^ 20).
  assert (MM : INR m * INR m <= 500 * 500) by (apply Rmult_le_compat; lra). assert (M0 : 0 <= INR m * INR m) by (apply Rmult_le_pos; lra).
  apply total_num; [exact Hd| |unfold W; lra]. destruct (o_eta_const o); [unfold W; lra|].
  assert (T : 0 <= / (o_target o - 1) <= 100002 / 10 ^ 10). { split; [left; apply Rinv_0_lt_compat; lra|]. apply (Rmult_le_reg_r (o_target o - 1)); [lra|]. rewrite Rinv_l by lra. lra. }
  assert (NT : 0 <= INR n * / (o_target o - 1) <= INR m * (100002 / 10 ^ 10)) by (split; [apply Rmult_le_pos; lra|apply Rmult_le_compat; lra]).
  unfold Rdiv at 1. split; [apply Rmult_le_pos; lra|].
  apply Rle_trans with ((INR m * (2755 / 10 ^ 17 + 2 * (11104 / 10 ^ 20)) + 3 / 10 ^ 16) * (INR m * (100002 / 10 ^ 10))); [apply Rmult_le_compat; lra|]. unfold W. lra.
Qed.
Lemma precise_num n e k : (n <= 500)%nat -> 0 <= k -> 0 <= e <= / 10 ^ 10 -> k * (INR n * (e + 57 / 10 ^ 15)) < 1 -> precise u64 e k n.
Proof.
  intros Hn K0 He HK. assert (U : 0 <= u64) by (unfold u64; lra). assert (I5 : INR 500 = 500) by (rewrite INR_IZR_INZ; reflexivity). assert (IN : INR n <= 500) by (rewrite <- I5; apply le_INR, Hn). assert (I0 := pos_INR n).
  assert (G7 := gam_mono u64 (n + 7) 507 U ltac:(lia)). destruct (gam_num 507 ltac:(lia)) as (_ & G). rewrite INR_IZR_INZ in G. cbn [Z.of_nat Pos.of_succ_nat Pos.succ] in G.
  assert (G1 := gam_mono u64 (n + 1) (n + 7) U ltac:(lia)). assert (G0 := gam_nonneg u64 (n + 1) U).
  split; [lra|]. split; [lra|].
  assert (CE : 0 <= chol_err u64 n <= 5652 / 10 ^ 17).
  { split; [apply chol_err_nonneg; lra|]. unfold chol_err. apply Rmult_le_reg_r with (1 - gam u64 (n + 1)); [lra|].
    unfold Rdiv at 1. rewrite Rmult_assoc, Rinv_l by lra. nra. }
  eapply Rle_lt_trans; [|exact HK]. apply Rmult_le_compat_l; [exact K0|]. apply Rmult_le_compat_l; [exact I0|]. nra.
Qed.
(** up to 100 data, in terms of E = e + 4e-14 *)
Section A.
Variables (n : nat) (e k : R).
Hypothesis Hn : (n <= 100)%nat.
Hypothesis He : 0 <= e <= / 10 ^ 10.
Hypothesis Hk : 1 <= k.
Notation E := (e + 4 / 10 ^ 14).
Hypothesis HE : k * E <= / 10 ^ 3.
Let I9 : INR 100 = 100. Proof. rewrite INR_IZR_INZ. reflexivity. Qed.
Let IN : 0 <= INR n <= 100. Proof. split; [apply pos_INR|]. rewrite <- I9. apply le_INR, Hn. Qed.
Lemma sys_num : 0 <= sys_err u64 e n <= E.
Proof.
  destruct (gam64 n Hn) as (G0 & G). assert (S0 : 0 <= solve_err u64 n) by (apply solve_err_nonneg; [unfold u64|]; lra).
  assert (S1 : solve_err u64 n <= 3580 / 10 ^ 17).
  { unfold solve_err. set (g := gam u64 (n + 7)) in *. apply Rmult_le_reg_r with (1 - g); [lra|]. unfold Rdiv at 1. rewrite Rmult_assoc, Rinv_l by lra. assert (g * g <= (1190 / 10 ^ 17) * (1190 / 10 ^ 17)) by (apply Rmult_le_compat; lra). cbn [pow] in *. lra. }
  unfold sys_err. assert (0 <= e * solve_err u64 n <= / 10 ^ 10 * (3580 / 10 ^ 17)) by (split; [apply Rmult_le_pos; lra|apply Rmult_le_compat; lra]). split; lra.
Qed.
Lemma sol_num : 0 <= sol_err u64 e k n <= 100 * (k * E).
Proof.
  assert (S := sys_num). unfold sol_err. change (e + (1 + e) * solve_err u64 n) with (sys_err u64 e n). split; [apply Rmult_le_pos; [lra|]; apply Rmult_le_pos; [apply IN|apply S]|].
  replace (100 * (k * E)) with (k * (100 * E)) by ring. apply Rmult_le_compat_l; [lra|]. apply Rmult_le_compat; [apply IN|apply S|apply IN|apply S].
Qed.
Let g := gam u64 (n + 1).
Let G : 0 <= g <= 1190 / 10 ^ 17.
Proof. destruct (gam64 n Hn) as (_ & G7). assert (GG := gam_mono u64 (n + 1) (n + 7) ltac:(unfold u64; lra) ltac:(lia)). unfold g. split; [apply gam_nonneg; unfold u64; lra|lra]. Qed.
Let GE : 0 <= g * (1 + e) <= 1200 / 10 ^ 17.
Proof. assert (0 <= g * e <= 1190 / 10 ^ 17 * / 10 ^ 10) by (split; [apply Rmult_le_pos; lra|apply Rmult_le_compat; lra]). lra. Qed.
Lemma var_num : k * var_err u64 e n <= 1.
Proof.
  assert (S := sys_num). unfold var_err. fold g. replace (g * (1 + e)) with (g * (1 + e)) by ring.
  assert (B2 : 0 <= (1 + g) * (1 + e) <= 101 / 100).
  { replace ((1 + g) * (1 + e)) with (1 + e + g * (1 + e)) by ring. lra. }
  assert (B3 : 0 <= (1 + g) * (1 + e) * (2 * e + g * (1 + e)) <= 101 / 100 * (2 * E)) by (split; [apply Rmult_le_pos; lra|apply Rmult_le_compat; lra]).
  apply Rle_trans with (k * (100 * (4 * E))); [|lra]. apply Rmult_le_compat_l; [lra|]. apply Rmult_le_compat; try apply IN; lra.
Qed.
Let a := sqrt (INR n * k).
Let A : 0 <= a <= 10 * k.
Proof.
  unfold a. split; [apply sqrt_pos|]. rewrite <- (sqrt_square (10 * k)) by lra. apply sqrt_le_1_alt. assert (X := IN). 
  apply Rle_trans with (100 * k); [apply Rmult_le_compat_r; lra|]. replace (10 * k * (10 * k)) with (100 * k * k) by ring. rewrite <- (Rmult_1_r (100 * k)) at 1. apply Rmult_le_compat_l; lra.
Qed.
Lemma frac_num t c : 0 <= t <= c -> 0 <= t / (1 - sol_err u64 e k n) <= 10 / 9 * c.
Proof.
  intros Ht. assert (S := sol_num). set (r := sol_err _ _ _ _) in *. split; [apply Rmult_le_pos; [lra|]; left; apply Rinv_0_lt_compat; lra|].
  apply Rmult_le_reg_r with (1 - r); [lra|]. unfold Rdiv at 1. rewrite Rmult_assoc, Rinv_l, Rmult_1_r by lra. assert (10 / 9 * c * (9 / 10) <= 10 / 9 * c * (1 - r)) by (apply Rmult_le_compat_l; lra). lra.
Qed.
Lemma mean_num : 0 <= mean_err u64 e (sol_err u64 e k n) k n <= 140 * (k * E).
Proof.
  assert (S := sol_num). unfold mean_err. fold g a.
  assert (B1 : 0 <= a * (e + g * (1 + e)) <= 10 * k * E) by (split; [apply Rmult_le_pos; lra|apply Rmult_le_compat; lra]).
  destruct (frac_num (sol_err u64 e k n + a * (e + g * (1 + e))) (110 * (k * E))); lra.
Qed.
Lemma var_acc_num : 0 <= var_acc u64 e (sol_err u64 e k n) k n <= 140 * (k * E).
Proof.
  assert (S := sol_num). unfold var_acc. cbv zeta. fold g a. set (r := sol_err u64 e k n) in *.
  assert (AE : 0 <= a * e <= 10 * k * E) by (split; [apply Rmult_le_pos; lra|apply Rmult_le_compat; lra]). set (b := 1 + a * e).
  assert (B : 1 <= b <= 101 / 100) by (unfold b; lra). assert (BB : 0 <= b * b <= 102 / 100 + 2 / 10 ^ 4) by (split; [apply Rmult_le_pos; lra|]; apply Rle_trans with (101 / 100 * (101 / 100)); [apply Rmult_le_compat; lra|lra]).
  assert (KE : 0 <= k * E) by (apply Rmult_le_pos; lra).
  assert (T1 : 0 <= r * (b * b) <= 100 * (k * E) * (102 / 100 + 2 / 10 ^ 4)) by (split; [apply Rmult_le_pos; lra|apply Rmult_le_compat; lra]).
  assert (AB : 0 <= a * b <= 10 * k * (101 / 100)) by (split; [apply Rmult_le_pos; lra|apply Rmult_le_compat; lra]).
  assert (T2 : 0 <= g * (1 + e) * (a * b) <= 3 / 10 * E * (10 * k * (101 / 100))) by (split; [apply Rmult_le_pos; lra|apply Rmult_le_compat; lra]).
  assert (T3 : 0 <= a * e * (1 + b) <= 10 * k * E * (201 / 100)) by (split; [apply Rmult_le_pos; lra|apply Rmult_le_compat; lra]).
  assert (Q := frac_num (r * (b * b) + g * (1 + e) * (a * b)) (1053 / 10 * (k * E)) ltac:(lra)). fold r in Q.
  destruct Q as [Q1 Q2]. split; lra.
Qed.
End A.

(** ** With 'precon', 'SqExp' or 'Ma5f2', at most 20 dimensions and 500 data, cond_max_target between 1e5 and 1e10 (the default): the
    whole computation succeeds, whatever the data, the noises, the hyperparameters, the rounding of ties and the exponential
    function of the library. *)
Theorem C70_precon_double_never_fails :
  forall (o : gpopt) (d : gpdata) (condf : mat -> R) (hp : hpv) (noise : option vec) (varK : option R) (bn : bool) (vK : R) (calc_chofac calc_cond : bool),
  o_well o = Wprecon -> o_use_grad o = true -> (o_eta_const o = true -> o_eta_mtd o <> Edflt) -> o_kernel o <> RatQu ->
  10 ^ 5 <= o_target o <= 10 ^ 10 -> (o_dim o <= 20)%nat -> (d_n_data d <= 500)%nat ->
  opts_ok o -> data_set o d -> hyper_ok o hp -> noise_arg_ok o d hp noise -> eff_varK hp varK bn = Some vK -> 0 < vK ->
  exists nv, match noise with Some v => Ok v | None => calc_noise_vec o d hp end = Ok nv /\
    forall m nz, double_machine m -> (forall i, (i < d_n_data d)%nat -> near u64 (vat nv i) (nz i)) ->
    exists c, chofac_fl m o d hp nz vK = Ok c.
Proof.
  intros o d condf hp noise varK bn vK cc cnd Hw Hug Hm0 Hk Ht Hd Hn H1 H2 H3 H4 H5 H6.
  assert (I5 : INR 500 = 500) by (rewrite INR_IZR_INZ; reflexivity). assert (IN : INR (d_n_data d) <= 500) by (rewrite <- I5; apply le_INR, Hn). assert (I0 := pos_INR (d_n_data d)).
  assert (E := precon_num o (d_n_data d) 500 Hd Hn (le_n _) (proj1 Ht)). rewrite I5 in E.
  assert (PR : precise u64 (precon_err u64 o (d_n_data d)) (o_target o) (d_n_data d)).
  { apply precise_num; [exact Hn|lra|lra|]. apply Rle_lt_trans with (10 ^ 10 * (500 * (1025 / 10 ^ 16 + 57 / 10 ^ 15))); [|lra]. apply Rmult_le_compat; [lra|apply Rmult_le_pos; lra|lra|]. apply Rmult_le_compat; lra. }
  assert (RD := ready o d H1 H2). destruct (noise_vector o d hp RD H3 noise H4) as (nv & EN & _). exists nv. split; [exact EN|]. intros m nz HX HZ.
  destruct (C70_precon_factor o d condf hp noise varK bn vK cc cnd u64 m Hw Hug Hm0 Hk H1 H2 H3 H4 H5 H6 (double_machine_rounds m HX) (small_dim _ Hd) PR) as (out & nv' & _ & EN' & H).
  rewrite EN in EN'. injection EN' as <-. destruct (H nz HZ) as (c & EC & _). eauto.
Qed.
Print Assumptions C70_precon_double_never_fails.

(** ** Accuracy, at most 100 data.  Weights and likelihood: relative error at most 8e-12 cond_max_target. *)
Theorem C70_precon_double_factor :
  forall (o : gpopt) (d : gpdata) (condf : mat -> R) (hp : hpv) (noise : option vec) (varK : option R) (bn : bool) (vK : R) (calc_chofac calc_cond : bool),
  o_well o = Wprecon -> o_use_grad o = true -> (o_eta_const o = true -> o_eta_mtd o <> Edflt) -> o_kernel o <> RatQu ->
  10 ^ 5 <= o_target o <= 10 ^ 10 -> (o_dim o <= 20)%nat -> (d_n_data d <= 100)%nat ->
  opts_ok o -> data_set o d -> hyper_ok o hp -> noise_arg_ok o d hp noise -> eff_varK hp varK bn = Some vK -> 0 < vK ->
  exists out nv, calc_all_K_w_chofac o d condf (d_Rt d) hp noise calc_chofac calc_cond varK bn = Ok out /\
    match noise with Some v => Ok v | None => calc_noise_vec o d hp end = Ok nv /\
    forall m nz, double_machine m -> (forall i, (i < d_n_data d)%nat -> near u64 (vat nv i) (nz i)) ->
    let r := o_target o * (8 / 10 ^ 12) in
    exists c, chofac_fl m o d hp nz vK = Ok c /\
      (forall b x, solves (k_Kcov out) x b -> accurate (k_Kcov out) r (cho_solve_fl (m_ar m) c b) x) /\
      likelihood_accurate (k_Kcov out) r (lndet_of c) (cho_solve_fl (m_ar m) c).
Proof.
  intros o d condf hp noise varK bn vK cc cnd Hw Hug Hm0 Hk Ht Hd Hn H1 H2 H3 H4 H5 H6.
  assert (I1 : INR 100 = 100) by (rewrite INR_IZR_INZ; reflexivity). assert (IN : INR (d_n_data d) <= 100) by (rewrite <- I1; apply le_INR, Hn). assert (I0 := pos_INR (d_n_data d)).
  assert (E := precon_num o (d_n_data d) 100 Hd Hn ltac:(lia) (proj1 Ht)). rewrite I1 in E. set (e := precon_err u64 o (d_n_data d)) in *.
  assert (KE : o_target o * (e + 4 / 10 ^ 14) <= 10 ^ 10 * (75 / 10 ^ 15)) by (apply Rmult_le_compat; lra).
  assert (PR : precise u64 e (o_target o) (d_n_data d)).
  { apply precise_num; [lia|lra|lra|]. apply Rle_lt_trans with (10 ^ 10 * (100 * (35 / 10 ^ 15 + 57 / 10 ^ 15))); [|lra]. apply Rmult_le_compat; [lra|apply Rmult_le_pos; lra|lra|]. apply Rmult_le_compat; lra. }
  assert (S := sol_num (d_n_data d) e (o_target o) Hn ltac:(lra) ltac:(lra)).
  assert (SE : sol_err u64 e (o_target o) (d_n_data d) <= o_target o * (8 / 10 ^ 12)).
  { eapply Rle_trans; [apply S|]. replace (100 * (o_target o * (e + 4 / 10 ^ 14))) with (o_target o * (100 * (e + 4 / 10 ^ 14))) by ring. apply Rmult_le_compat_l; lra. }
  assert (RD := ready o d H1 H2). destruct (noise_vector o d hp RD H3 noise H4) as (nv & EN & _).
  destruct (rok_ex _ _ (call_precon o d condf hp noise cc cnd varK bn vK RD H3 H4 H5 H6 Hw Hug)) as (out & EO & _).
  exists out, nv. split; [exact EO|]. split; [exact EN|]. intros m nz HX HZ r.
  destruct (C70_precon_factor o d condf hp noise varK bn vK cc cnd u64 m Hw Hug Hm0 Hk H1 H2 H3 H4 H5 H6 (double_machine_rounds m HX) (small_dim _ Hd) PR) as (out' & nv' & EO' & EN' & H).
  rewrite EN in EN'. injection EN' as <-. rewrite EO in EO'. injection EO' as <-. destruct (H nz HZ) as (c & EC & C1 & C2). exists c. split; [exact EC|].
  fold e in C1, C2. split; [intros b x SX; eapply accurate_mono; [exact SE|apply C1, SX]|]. eapply likelihood_mono; [split; [apply S|exact SE]|unfold r; lra|apply C2; lra].
Qed.
Print Assumptions C70_precon_double_factor.

(** Predictions: the check of the variance never fails, mean and variance are right up to [D] in relation to the length of the
    data and the prior variance. *)
Definition predicts_double (o : gpopt) (d : gpdata) (hp : hpv) (vK b0 : R) (A : mat) (D : R) (M : machine) (c : mat * bool) : Prop :=
  forall (x : pt) (m v : R),
  posterior_mean (gp_kernel o hp) (gp_observations o d) A (gp_residual o d b0) b0 x m ->
  posterior_var (gp_kernel o hp) (gp_observations o d) A x v ->
  let kh := cross_fl M o d hp x in
  (exists s, sig_fl (m_ar M) c kh vK = Ok s /\ deviation_within u64 D v vK s) /\
  forall w, solves A w (gp_residual o d b0) ->
    let l := sqrt (dotp (d_n_data d) (gp_residual o d b0) w) in
    Rabs (mu_fl (m_ar M) c b0 kh (gp_residual o d b0) - m) <= D * l + u64 * (Rabs m + D * l).
Lemma predicts_num o d hp vK b0 A e D M c : 1 <= o_target o -> (d_n_data d <= 100)%nat -> 0 <= e <= / 10 ^ 10 -> o_target o * (e + 4 / 10 ^ 14) <= / 10 ^ 3 -> 140 * (o_target o * (e + 4 / 10 ^ 14)) <= D ->
  predicts_computed o d hp vK b0 A u64 e M c -> predicts_double o d hp vK b0 A D M c.
Proof.
  intros Ht Hn He HE HD H x m v PM PV kh. destruct (H x m v PM PV) as (P1 & P2). fold kh in P1, P2. cbv zeta in P1, P2. assert (U0 : 0 <= u64) by (unfold u64; lra).
  assert (S := sol_num (d_n_data d) e (o_target o) Hn He Ht). assert (R1 : sol_err u64 e (o_target o) (d_n_data d) < 1) by lra.
  assert (V := var_num (d_n_data d) e (o_target o) Hn He Ht HE). assert (W := var_acc_num (d_n_data d) e (o_target o) Hn He Ht HE). assert (Z := mean_num (d_n_data d) e (o_target o) Hn He Ht HE). split.
  - destruct (P1 V) as (s & ES & HS). exists s. split; [exact ES|]. eapply deviation_mono; [exact U0| |exact (HS R1)]. lra.
  - intros w SW. specialize (P2 R1 w SW). cbv zeta. set (l := sqrt _) in *. assert (L0 : 0 <= l) by apply sqrt_pos. set (q := mean_err _ _ _ _ _) in *.
    assert (X : q * l <= D * l) by (apply Rmult_le_compat_r; lra). eapply Rle_trans; [exact P2|]. assert (u64 * (q * l) <= u64 * (D * l)) by (apply Rmult_le_compat_l; assumption). lra.
Qed.
Theorem C70_precon_double_predictions :
  forall (o : gpopt) (d : gpdata) (condf : mat -> R) (hp : hpv) (vK b0 : R) (cc : bool) (su : surr),
  o_well o = Wprecon -> (o_eta_const o = true -> o_eta_mtd o <> Edflt) -> o_kernel o <> RatQu ->
  10 ^ 5 <= o_target o <= 10 ^ 10 -> (o_dim o <= 20)%nat -> (d_n_data d <= 100)%nat ->
  eval_input o d hp vK b0 -> setup_eval_model o d condf hp cc = Ok su ->
  exists nv, calc_noise_vec o d hp = Ok nv /\
    forall m nz, double_machine m -> (forall i, (i < d_n_data d)%nat -> near u64 (vat nv i) (nz i)) ->
    exists c, chofac_fl m o d hp nz 1 = Ok c /\ predicts_double o d hp vK b0 (k_Kcov (su_K su)) (o_target o * (11 / 10 ^ 12)) m c.
Proof.
  intros o d condf hp vK b0 cc su Hw Hm0 Hk Ht Hd Hn HI SU.
  assert (I1 : INR 100 = 100) by (rewrite INR_IZR_INZ; reflexivity). assert (IN : INR (d_n_data d) <= 100) by (rewrite <- I1; apply le_INR, Hn). assert (I0 := pos_INR (d_n_data d)).
  assert (E := precon_num o (d_n_data d) 100 Hd Hn ltac:(lia) (proj1 Ht)). rewrite I1 in E. set (e := precon_err u64 o (d_n_data d)) in *.
  assert (KE : o_target o * (e + 4 / 10 ^ 14) <= 10 ^ 10 * (75 / 10 ^ 15)) by (apply Rmult_le_compat; lra).
  assert (KE' : 140 * (o_target o * (e + 4 / 10 ^ 14)) <= o_target o * (11 / 10 ^ 12)).
  { replace (140 * (o_target o * (e + 4 / 10 ^ 14))) with (o_target o * (140 * (e + 4 / 10 ^ 14))) by ring. apply Rmult_le_compat_l; lra. }
  assert (PR : precise u64 e (o_target o) (d_n_data d)).
  { apply precise_num; [lia|lra|lra|]. apply Rle_lt_trans with (10 ^ 10 * (100 * (35 / 10 ^ 15 + 57 / 10 ^ 15))); [|lra]. apply Rmult_le_compat; [lra|apply Rmult_le_pos; lra|lra|]. apply Rmult_le_compat; lra. }
  assert (HI' := HI). destruct HI' as (H1 & H2 & H3 & H4 & _). assert (RD := ready o d H1 H2). destruct (noise_vector o d hp RD H4 None (ei_noise o d hp vK b0 HI)) as (nv & EN & _). exists nv. split; [exact EN|]. intros m nz HX HZ.
  destruct (C70_precon_predictions o d condf hp vK b0 cc su u64 m Hw Hm0 Hk HI SU (double_machine_rounds m HX) (small_dim _ Hd) PR) as (nv' & EN' & H).
  rewrite EN in EN'. injection EN' as <-. destruct (H nz HZ) as (c & EC & HC). exists c. split; [exact EC|]. apply (predicts_num o d hp vK b0 _ e); auto; lra.
Qed.
Print Assumptions C70_precon_double_predictions.
(** Without preconditioning: gradient-free with a constant nugget up to cond_max_target 1e10, or with the nugget from the row sums up
    to 1e8 (the proved error of the sum of n rounded entries is larger). *)
Theorem C70_plain_double_predictions :
  forall (o : gpopt) (d : gpdata) (condf : mat -> R) (hp : hpv) (vK b0 : R) (cc : bool) (su : surr),
  o_well o <> Wprecon -> o_kernel o <> RatQu ->
  (o_eta_const o = false /\ o_target o <= 10 ^ 8 \/ o_eta_const o = true /\ o_use_grad o = false /\ o_eta_mtd o <> Edflt /\ o_target o <= 10 ^ 10) ->
  (o_dim o <= 20)%nat -> (d_n_data d <= 100)%nat ->
  eval_input o d hp vK b0 -> setup_eval_model o d condf hp cc = Ok su ->
  exists nv, calc_noise_vec o d hp = Ok nv /\
    forall m nz, double_machine m -> (forall i, (i < d_n_data d)%nat -> near u64 (vat nv i) (nz i)) ->
    exists c, chofac_fl m o d hp nz 1 = Ok c /\
      predicts_double o d hp vK b0 (k_Kcov (su_K su)) (o_target o * (if o_eta_const o then 11 / 10 ^ 12 else 5 / 10 ^ 10)) m c.
Proof.
  intros o d condf hp vK b0 cc su Hw Hk HO Hd Hn HI SU.
  assert (I1 : INR 100 = 100) by (rewrite INR_IZR_INZ; reflexivity). assert (IN : INR (d_n_data d) <= 100) by (rewrite <- I1; apply le_INR, Hn). assert (I0 := pos_INR (d_n_data d)).
  assert (T : 1 < o_target o) by (destruct HI as ((_ & T & _) & _); lra).
  set (e := plain_err u64 o (d_n_data d)).
  assert (X : 0 <= e <= / 10 ^ 10 /\ o_target o * (e + 4 / 10 ^ 14) <= / 10 ^ 3 /\ e + 4 / 10 ^ 14 <= (if o_eta_const o then 75 / 10 ^ 15 else 3 / 10 ^ 12) /\ o_target o * (INR (d_n_data d) * (e + 57 / 10 ^ 15)) < 1).
  { unfold e, plain_err. destruct HO as [(HO & Ht)|(HO & _ & _ & Ht)]; rewrite HO.
    - assert (EN := eta_num (o_dim o) (d_n_data d) 100 Hd Hn ltac:(lia)). rewrite I1 in EN.
      destruct (cov_num (o_dim o) (eta_err u64 (o_dim o) (d_n_data d)) (278 / 10 ^ 14) Hd ltac:(lra) ltac:(lra)) as (C0 & C1). set (q := cov_err _ _ _) in *.
      split; [lra|]. split; [apply Rle_trans with (10 ^ 8 * (285 / 10 ^ 14)); [apply Rmult_le_compat; lra|lra]|]. split; [lra|].
      apply Rle_lt_trans with (10 ^ 8 * (100 * (3 / 10 ^ 12))); [|lra]. apply Rmult_le_compat; [lra|apply Rmult_le_pos; lra|lra|]. apply Rmult_le_compat; lra.
    - destruct (cov_num (o_dim o) 0 0 Hd ltac:(lra) ltac:(lra)) as (C0 & C1). set (q := cov_err _ _ _) in *.
      split; [lra|]. split; [apply Rle_trans with (10 ^ 10 * (75 / 10 ^ 15)); [apply Rmult_le_compat; lra|lra]|]. split; [lra|].
      apply Rle_lt_trans with (10 ^ 10 * (100 * (9 / 10 ^ 14))); [|lra]. apply Rmult_le_compat; [lra|apply Rmult_le_pos; lra|lra|]. apply Rmult_le_compat; lra. }
  destruct X as (X1 & X2 & X3 & X4). assert (PR : precise u64 e (o_target o) (d_n_data d)) by (apply precise_num; [lia|lra|lra|exact X4]).
  assert (HO' : o_eta_const o = false \/ o_use_grad o = false /\ o_eta_mtd o <> Edflt) by tauto.
  assert (HI' := HI). destruct HI' as (H1 & H2 & H3 & H4 & _). assert (RD := ready o d H1 H2). destruct (noise_vector o d hp RD H4 None (ei_noise o d hp vK b0 HI)) as (nv & EN & _). exists nv. split; [exact EN|]. intros m nz HX HZ.
  destruct (C70_plain_predictions o d condf hp vK b0 cc su u64 m Hw HO' Hk HI SU (double_machine_rounds m HX) (small_dim _ Hd) PR) as (nv' & EN' & H).
  rewrite EN in EN'. injection EN' as <-. destruct (H nz HZ) as (c & EC & HC). exists c. split; [exact EC|]. apply (predicts_num o d hp vK b0 _ e); auto; [lra|].
  replace (140 * (o_target o * (e + 4 / 10 ^ 14))) with (o_target o * (140 * (e + 4 / 10 ^ 14))) by ring. apply Rmult_le_compat_l; [lra|]. destruct (o_eta_const o); lra.
Qed.
Print Assumptions C70_plain_double_predictions.
(** the example of C29-C34: 3 noisy points in 2 dimensions, gradients at two of them, Matern kernel, 'precon'; exact noises are
    allowed as computed noises, the rounded exponential function as the one of the library *)
Example C70_hypotheses_met : exists d su nv, eval_input ex_opt d ev_hp 2 (1 / 3) /\ o_well ex_opt = Wprecon /\ o_use_grad ex_opt = true /\ o_eta_mtd ex_opt <> Edflt /\ o_kernel ex_opt <> RatQu /\
  10 ^ 5 <= o_target ex_opt <= 10 ^ 10 /\ (o_dim ex_opt <= 20)%nat /\ (d_n_data d <= 100)%nat /\ setup_eval_model ex_opt d (fun _ => 1) ev_hp true = Ok su /\ calc_noise_vec ex_opt d ev_hp = Ok nv /\
  (forall i, (i < d_n_data d)%nat -> near u64 (vat nv i) (vat nv i)) /\
  (forall x, exists m v w, posterior_mean (gp_kernel ex_opt ev_hp) (gp_observations ex_opt d) (k_Kcov (su_K su)) (gp_residual ex_opt d (1 / 3)) (1 / 3) x m /\
    posterior_var (gp_kernel ex_opt ev_hp) (gp_observations ex_opt d) (k_Kcov (su_K su)) x v /\ solves (k_Kcov (su_K su)) w (gp_residual ex_opt d (1 / 3))) /\
  forall tie, double_machine (a_machine tie) /\ exists c, chofac_fl (a_machine tie) ex_opt d ev_hp (vat nv) 1 = Ok c.
Proof.
  destruct C69_hypotheses_met as (d & su & _ & _ & HI & Hw & Hm & Ht & Hn & SU & _ & _ & H).
  assert (HI' := HI). destruct HI' as (H1 & H2 & H3 & H4 & _). destruct (noise_vector ex_opt d ev_hp (ready _ _ H1 H2) H4 None (ei_noise _ _ _ _ _ HI)) as (nv & EN & _).
  assert (NR : forall i, (i < d_n_data d)%nat -> near u64 (vat nv i) (vat nv i)).
  { intros i _. assert (0 <= u64 * Rabs (vat nv i)) by (apply Rmult_le_pos; [unfold u64; lra|apply Rabs_pos]). split; rewrite Rminus_diag_eq, Rabs_R0 by reflexivity; assumption. }
  assert (T : 10 ^ 5 <= o_target ex_opt) by (unfold ex_opt; cbn; lra). assert (D20 : (o_dim ex_opt <= 20)%nat) by (unfold ex_opt; cbn; lia).
  exists d, su, nv. split; [exact HI|]. split; [exact Hw|]. split; [reflexivity|]. split; [exact Hm|]. split; [discriminate|]. split; [split; assumption|]. split; [exact D20|].
  split; [exact Hn|]. split; [exact SU|]. split; [exact EN|]. split; [exact NR|]. split.
  - intros x. destruct (H x) as (kx & m & v & w & _ & _ & A & B & C). exists m, v, w. auto.
  - intros tie. split; [apply some_double_machine|]. destruct (C70_precon_double_predictions ex_opt d (fun _ => 1) ev_hp 2 (1 / 3) true su Hw (fun _ => Hm) ltac:(discriminate) (conj T Ht) D20 Hn HI SU) as (nv' & EN' & Q).
    rewrite EN in EN'. injection EN' as <-. destruct (Q (a_machine tie) (vat nv) (some_double_machine tie) NR) as (c & EC & _). eauto.
Qed.
(** the machine of the general theorems may also be exact *)
Example exact_machine_rounds : machine_rounds 0 (mkmach (mkar Rminus Rmult Rdiv sqrt Rdiv (fun _ _ c l => c - sum_products l) sum_products) Rplus exp total ln).
Proof.
  assert (X : forall u x, 0 <= u -> near u x x) by (intros u x U; assert (0 <= u * Rabs x) by (apply Rmult_le_pos; [exact U|apply Rabs_pos]); split; rewrite Rminus_diag_eq, Rabs_R0 by reflexivity; assumption).
  constructor; [exact exact_rounds|intros; apply X; lra|intros; apply X; unfold gam; cbn [pow]; lra| | |intros; apply X; unfold gam; cbn [pow]; lra].
  2:{ intros l. cbn [m_sum]. rewrite Rminus_eq_0, Rabs_R0. unfold gam. rewrite Rplus_0_r, pow1. lra. }
  intros l HP. split; [|apply X, gam_nonneg; lra]. cbn [m_sum]. clear X. induction l as [|a l IH]; unfold total; cbn [fold_right]; [lra|]. assert (0 <= a) by (apply HP; left; reflexivity). assert (0 <= total l) by (apply IH; intros; apply HP; right; assumption). unfold total in *. lra.
Qed.
