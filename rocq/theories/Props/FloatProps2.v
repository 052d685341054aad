(** * C66 for IEEE double precision: 53 bits, rounding to nearest (any rule for ties), no overflow or underflow.
    The rounding function is Flocq's [round] in the format FLX. *)
From Coq Require Import Reals List Arith ZArith Bool Lia Lra Psatz.
From Flocq Require Import Core Relative.
From Verif.Base Require Import NpLite NpFacts.
From Verif.Spec Require Import KernelSpec LinAlgSpec GpSpec FloatSpec.
From Verif.Model Require Import KernelSqExp KernelMatern KernelRatQuad KernelDispatch CommonFun WellCond Rescaling GpState Chol CholFl Cov.
From Verif.Proofs Require Import LinAlg CholCorrect FlChol FlMargin FlOrder.
From Verif.Props Require Import CondProps FloatProps.
Import ListNotations.
Local Open Scope R_scope.

(** rounding to nearest with 53 bits; [tie] decides ties *)
Definition rnd64 (tie : Z -> bool) : R -> R := round radix2 (FLX_exp 53) (Znearest tie).
(** the sums in any order, with or without fused operations *)
Definition double_arith (ar : arith) : Prop := exists tie, any_order (rnd64 tie) ar.
(** one product after the other *)
Definition double (tie : Z -> bool) : arith := sequential (rnd64 tie).
Definition u64 : R := / 2 ^ 53.
Lemma u64_bpow : / 2 * bpow radix2 (- (53) + 1) = u64.
Proof. unfold u64. cbn [bpow Z.add Z.opp Z.pos_sub]. change (Z.pow_pos radix2 52) with (2 ^ 52)%Z. rewrite (IZR_Zpower radix2 52 ltac:(lia)) || idtac. cbn. lra. Qed.
Lemma near64 tie x : near u64 x (rnd64 tie x).
Proof.
  split; rewrite <- u64_bpow.
  - apply (relative_error_N_FLX radix2 53 ltac:(lia) tie x).
  - apply (relative_error_N_FLX_round radix2 53 ltac:(lia) tie x).
Qed.
Lemma u64_pos : 0 <= u64. Proof. unfold u64. left. apply Rinv_0_lt_compat. apply pow_lt. lra. Qed.
Lemma double_arith_rounds ar : double_arith ar -> rounds u64 ar.
Proof. intros (tie & H). exact (any_order_rounds u64 (rnd64 tie) u64_pos (near64 tie) ar H). Qed.
Lemma double_is tie : double_arith (double tie). Proof. exists tie. apply sequential_any_order. Qed.
Lemma double_rounds tie : rounds u64 (double tie). Proof. apply double_arith_rounds, double_is. Qed.
(** The errors of C66 to C70 ([rounds]) are those of every order of summation, in any arithmetic with rounding function [rnd]. *)
Theorem C66_any_order_of_summation : forall (u : R) (rnd : R -> R) (ar : arith),
  0 <= u -> (forall x, near u x (rnd x)) -> any_order rnd ar -> rounds u ar.
Proof. intros u rnd ar Hu Hr. apply any_order_rounds; assumption. Qed.
Print Assumptions C66_any_order_of_summation.

Lemma gam_bound u k : 0 <= u -> INR k * u <= 1 -> gam u k <= INR k * u + (INR k * u) ^ 2.
Proof.
  intros Hu. induction k as [|k IH]; intros H; [rewrite gam_0; cbn; lra|]. rewrite gam_S. rewrite S_INR in *.
  assert (P := pos_INR k). assert (H' : INR k * u <= 1) by nra. assert (X := IH H'). set (x := INR k) in *.
  assert (Y : gam u k * (1 + u) <= (x * u + (x * u) ^ 2) * (1 + u)) by (apply Rmult_le_compat_r; lra).
  assert (Q : 0 <= (x * u) * u) by (apply Rmult_le_pos; [apply Rmult_le_pos|]; lra).
  assert (Q2 : (x * u) * ((x * u) * u) <= 1 * ((x * u) * u)) by (apply Rmult_le_compat_r; lra).
  cbn [pow] in *. nra.
Qed.
(** 900 observations (values and components of gradients) and a condition number of 1e10 are within double precision *)
Lemma precise64 n k : (n <= 900)%nat -> 0 <= k <= 10 ^ 10 -> precise u64 (/ 10 ^ 14) k n.
Proof.
  intros Hn (K0 & K1). assert (U : 0 <= u64 <= 1111 / 10 ^ 19) by (unfold u64; lra).
  assert (I9 : INR 900 = 900) by (rewrite INR_IZR_INZ; reflexivity). assert (IN : INR n <= 900) by (rewrite <- I9; apply le_INR, Hn). assert (I0 := pos_INR n).
  assert (G : gam u64 (n + 7) <= 10081 / 10 ^ 17).
  { assert (B := gam_bound u64 (n + 7) ltac:(lra)). rewrite plus_INR in B. replace (INR 7) with 7 in B by (rewrite INR_IZR_INZ; reflexivity). set (x := (INR n + 7) * u64) in *.
    assert (X : 0 <= x <= 10081 / 10 ^ 17 - 2 / 10 ^ 26).
    { unfold x. split; [apply Rmult_le_pos; lra|]. apply Rle_trans with (907 * (1111 / 10 ^ 19)); [apply Rmult_le_compat; lra|lra]. }
    eapply Rle_trans; [apply B; lra|]. assert (x * x <= (1009 / 10 ^ 16) * (1009 / 10 ^ 16)) by (apply Rmult_le_compat; lra). cbn [pow] in *. lra. }
  assert (G1 : gam u64 (n + 1) <= gam u64 (n + 7)) by (apply gam_mono; [lra|lia]).
  assert (G0 : 0 <= gam u64 (n + 1)) by (apply gam_nonneg; lra).
  split; [lra|]. split; [lra|].
  assert (CE : 0 <= chol_err u64 n <= 10082 / 10 ^ 17).
  { split; [apply chol_err_nonneg; lra|]. unfold chol_err. apply Rmult_le_reg_r with (1 - gam u64 (n + 1)); [lra|].
    unfold Rdiv at 1. rewrite Rmult_assoc, Rinv_l by lra. nra. }
  apply Rle_lt_trans with (10 ^ 10 * (900 * (/ 10 ^ 14 + (1 + / 10 ^ 14) * (10082 / 10 ^ 17)))); [|lra].
  assert (0 <= / 10 ^ 14 + (1 + / 10 ^ 14) * chol_err u64 n) by nra.
  apply Rmult_le_compat; [lra|apply Rmult_le_pos; lra|lra|]. apply Rmult_le_compat; try lra.
Qed.

Theorem C66_double_precision : forall (ar : arith) (A Ah : mat) (lower : bool),
  double_arith ar -> pd A -> cond2_le A (10 ^ 10) -> (nr A <= 900)%nat -> computed (/ 10 ^ 14) A Ah ->
  exists c, cho_factor_fl ar Ah lower = Ok c.
Proof.
  intros ar A Ah lower HD HP HC Hn HE. assert (K : 0 <= 10 ^ 10 <= 10 ^ 10) by (split; [apply pow_le; lra|apply Rle_refl]).
  destruct (C66_factorisation_does_not_fail u64 (/ 10 ^ 14) (10 ^ 10) ar A Ah lower (double_arith_rounds ar HD) HP (or_introl HC) HE (precise64 (nr A) (10 ^ 10) Hn K)) as (c & E & _). eauto.
Qed.
Print Assumptions C66_double_precision.

(** the method 'precon' with cond_max_target at most its default 1e10 and at most 900 data: the factorisation in double
    precision succeeds for all data sets and hyperparameters, with entries that are right to 14 digits *)
Theorem C66_precon_double_precision :
  forall (o : gpopt) (d : gpdata) (condf : mat -> R) (hp : hpv) (noise : option vec) (varK : option R) (bn : bool) (vK : R) (calc_chofac calc_cond : bool),
  o_well o = Wprecon -> o_use_grad o = true -> (o_eta_const o = true -> o_eta_mtd o <> Edflt) -> o_target o <= 10 ^ 10 ->
  opts_ok o -> data_set o d -> hyper_ok o hp -> noise_arg_ok o d hp noise -> eff_varK hp varK bn = Some vK -> 0 < vK ->
  (d_n_data d <= 900)%nat ->
  exists out Kp, calc_all_K_w_chofac o d condf (d_Rt d) hp noise calc_chofac calc_cond varK bn = Ok out /\ k_Kprec out = Some Kp /\
    forall ar Kh, double_arith ar -> computed (/ 10 ^ 14) Kp Kh -> exists c, cho_factor_fl ar Kh true = Ok c.
Proof.
  intros o d condf hp noise varK bn vK cc cnd Hw Hu Hm Ht H5 H6 H7 H8 H9 H10 Hn.
  destruct (C66_precon_never_fails o d condf hp noise varK bn vK cc cnd Hw Hu Hm H5 H6 H7 H8 H9 H10) as (out & Kp & E1 & E2 & _ & H).
  exists out, Kp. split; [exact E1|]. split; [exact E2|]. intros ar Kh HD HC.
  apply (H u64 (/ 10 ^ 14) ar Kh true (double_arith_rounds ar HD) (or_introl HC)). apply precise64; [exact Hn|]. destruct H5 as (_ & T & _). lra.
Qed.
Print Assumptions C66_precon_double_precision.

(** without a nugget: two coincident points *)
Lemma rnd64_0 tie : rnd64 tie 0 = 0. Proof. apply round_0. apply valid_rnd_N. Qed.
Lemma rnd64_1 tie : rnd64 tie 1 = 1.
Proof. apply round_generic; [apply valid_rnd_N|]. change 1 with (bpow radix2 0). apply generic_format_bpow. cbn. lia. Qed.
Lemma coincident_points_fail tie lower : cho_factor_fl (double tie) (mkmat 2 2 (fun _ _ => 1)) lower = Err ELinAlg.
Proof.
  unfold cho_factor_fl. cbn [nr nc Nat.eqb mat_at]. cbv zeta. set (a := fun i j : nat => if lower then _ else _).
  assert (Ea : forall i j, a i j = 1) by (intros i j; unfold a; destruct lower; [destruct (j <=? i)%nat|destruct (i <=? j)%nat]; reflexivity).
  cbn [chol_steps_fl]. unfold double, sequential, pairs. cbn [f_sqrt f_quo f_res seq map fold_left Nat.eqb fst snd]. rewrite !Ea. destruct (Rlt_dec 0 1) as [_|N]; [|lra]. cbn [Nat.eqb]. cbv beta zeta.
  rewrite ?Ea, ?sqrt_1, !rnd64_1. replace (1 / 1) with 1 by field. rewrite !rnd64_1, Rmult_1_r, rnd64_1, Rminus_eq_0, rnd64_0.
  destruct (Rlt_dec 0 0) as [X|_]; [lra|]. reflexivity.
Qed.
