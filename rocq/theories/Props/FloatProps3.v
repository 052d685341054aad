(** * C67: the weights of the surrogate in floating-point arithmetic

    Vocabulary: [Spec/FloatSpec.v]. *)
From Coq Require Import Reals List Arith ZArith Bool Lia Lra Psatz.
From Verif.Base Require Import NpLite NpFacts.
From Verif.Spec Require Import KernelSpec LinAlgSpec GpSpec FloatSpec.
From Verif.Model Require Import KernelSqExp KernelMatern KernelRatQuad KernelDispatch CommonFun WellCond Rescaling GpState Chol CholFl Cov.
From Verif.Proofs Require Import CovStruct StateFacts NoiseFacts LinAlg CholCorrect FlChol FlMargin FlSolve FlSol FlTarget Det NuggetCond NuggetMain CondMain.
From Verif.Props Require Import CondProps FloatProps FloatProps2.
Import ListNotations.
Local Open Scope R_scope.

Definition good_factor (A : mat) (r t : R) (ar : arith) (c : mat * bool) : Prop :=
  (forall b x, solves A x b -> accurate A r (cho_solve_fl ar c b) x) /\
  (r < 1 -> Rabs (log_det (nr A) c - ln (det (nr A) (mat_at A))) <= - (INR (nr A) * ln (1 - r))) /\
  (forall b i, (i < nr A)%nat -> Rabs (b i - mv A (cho_solve_fl ar c b) i) <= t * (sqrt (mat_at A i i) * rsum (nr A) (fun j => sqrt (mat_at A j j) * Rabs (cho_solve_fl ar c b j)))) /\
  (r < 1 -> exists L, is_chol (nr A) L A /\ forall i, (i < nr A)%nat -> 0 < mat_at (fst c) i i /\
     Rabs (2 * ln (mat_at (fst c) i i) - 2 * ln (L i i)) <= - ln (1 - r)).
Lemma plain_factor : forall (u e k : R) (ar : arith) (A Ah : mat) (lower : bool),
  rounds u ar -> pd A -> (cond2_le A k \/ scaled_cond_le A k) -> computed e A Ah -> precise u e k (nr A) ->
  exists c, cho_factor_fl ar Ah lower = Ok c /\ good_factor A (sol_err u e k (nr A)) (sys_err u e (nr A)) ar c.
Proof.
  intros u e k ar A Ah lower RO HP HC0 HE HR. assert (Hu := ro_u _ _ RO).
  assert (HC : scaled_cond_le A k) by (destruct HC0; [apply cond2_scaled|]; assumption).
  destruct (computed_margin e k A Ah u Hu HP HC HE HR) as (SY & DP & lam & _ & HL & HM). assert (HE' := HE). destruct HE' as (E1 & _). assert (HR' := HR). destruct HR' as (He & HG7 & _).
  assert (HG : gam u (nr Ah + 1) < 1) by (rewrite E1; eapply Rle_lt_trans; [apply (gam_mono u (nr A + 1) (nr A + 7) Hu); lia|exact HG7]).
  destruct (factor_fl_ok u ar Ah lower lam RO SY HG HL DP HM) as (c & EC & S1 & R1 & C1 & D1 & O1).
  exists c. split; [exact EC|]. rewrite E1 in *. assert (GM : gam u (nr A + 1) <= gam u (nr A + 7)) by (apply gam_mono; [exact Hu|lia]).
  apply (use_factor u e k ar A Ah c); auto.
  - intros j Hj. apply (diag_ok_mono (gam u (nr A + 1))); auto.
  - intros a j Hj Ha. apply (off_ok_mono (gam u (nr A + 1))); auto.
Qed.
Lemma precon_factor : forall (u e k : R) (ar : arith) (A B Bh : mat) (p ph : nat -> R),
  rounds u ar -> pd A -> pd B -> nr A = nr B -> (forall i, (i < nr A)%nat -> 0 < p i) ->
  (forall i j, (i < nr A)%nat -> (j < nr A)%nat -> mat_at A i j = p i * p j * mat_at B i j) ->
  (cond2_le B k \/ scaled_cond_le B k) -> computed e B Bh -> precise u e k (nr A) ->
  (forall i, (i < nr A)%nat -> near (gam u 2) (p i) (ph i)) ->
  exists c, cho_factor_fl ar Bh true = Ok c /\ good_factor A (sol_err u e k (nr A)) (sys_err u e (nr A)) ar (scale_rows_fl ar ph c).
Proof.
  intros u e k ar A B Bh p ph RO HPA HPB EN Hp EA HC0 HE HR HN. assert (Hu := ro_u _ _ RO).
  assert (HC : scaled_cond_le B k) by (destruct HC0; [apply cond2_scaled|]; assumption).
  assert (SA := pd_square A HPA). assert (SB := pd_square B HPB).
  assert (HR2 := HR). rewrite EN in HR2.
  destruct (computed_margin e k B Bh u Hu HPB HC HE HR2) as (SY & DP & lam & _ & HL & HM). assert (HE' := HE). destruct HE' as (E1 & E2 & E3 & E4). assert (HR' := HR). destruct HR' as (He & HG7 & _).
  assert (HG : gam u (nr Bh + 1) < 1) by (rewrite E1, <- EN; eapply Rle_lt_trans; [apply (gam_mono u (nr A + 1) (nr A + 7) Hu); lia|exact HG7]).
  destruct (factor_fl_ok u ar Bh true lam RO SY HG HL DP HM) as (c & EC & S1 & R1 & C1 & D1 & O1).
  exists c. split; [exact EC|].
  assert (HCA : scaled_cond_le A k) by (apply (scaled_cond_diag A B p k); auto; congruence).
  set (Ah := mkmat (nr A) (nr A) (fun i j => if (i <? nr A)%nat && (j <? nr A)%nat then p i * p j * mat_at Bh i j else 0)).
  assert (AhE : forall i j, (i < nr A)%nat -> (j < nr A)%nat -> mat_at Ah i j = p i * p j * mat_at Bh i j).
  { intros i j Hi Hj. unfold Ah. cbn [mat_at]. apply Nat.ltb_lt in Hi. apply Nat.ltb_lt in Hj. rewrite Hi, Hj. reflexivity. }
  assert (SD : forall i, (i < nr A)%nat -> sqrt (mat_at A i i) = p i * sqrt (mat_at B i i)).
  { intros i Hi. rewrite EA by assumption. assert (P := Hp i Hi). rewrite sqrt_mult_alt by nra. rewrite sqrt_square by lra. reflexivity. }
  assert (CA : computed e A Ah).
  { split; [reflexivity|]. split; [exact SA|]. split.
    - intros i j. unfold Ah. cbn [mat_at]. rewrite (andb_comm (i <? nr A)%nat). destruct ((j <? nr A)%nat && (i <? nr A)%nat); [|reflexivity]. rewrite (E3 i j). ring.
    - intros i j Hi Hj. rewrite AhE, EA by assumption. unfold size_ij. rewrite !SD by assumption. rewrite EN in Hi, Hj. assert (X := E4 i j Hi Hj). rewrite <- EN in Hi, Hj.
      assert (P1 := Hp i Hi). assert (P2 := Hp j Hj). rewrite <- Rmult_minus_distr_l, Rabs_mult, (Rabs_pos_eq (p i * p j)) by nra.
      apply Rle_trans with (p i * p j * (e * size_ij B i j)); [apply Rmult_le_compat_l; [nra|exact X]|]. right. unfold size_ij. ring. }
  (* the multiplied factor *)
  set (c' := scale_rows_fl ar ph c).
  assert (RD : forall i j, chol_read c' i j = f_mul ar (ph i) (chol_read c i j)).
  { intros i j. unfold chol_read, c', scale_rows_fl. cbn [fst snd mat_at]. rewrite S1. reflexivity. }
  assert (G0 := gam_nonneg u (nr A + 1) Hu). assert (G3 := gam_nonneg u 3 Hu).
  rewrite E1, <- EN in *.
  assert (SC : forall i j m, (i < nr A)%nat -> (j < nr A)%nat ->
    Rabs (mat_at Bh i j - rsum m (fun k => chol_read c i k * chol_read c j k)) <= gam u (nr A + 1) * rsum m (fun k => Rabs (chol_read c i k * chol_read c j k)) ->
    Rabs (mat_at Ah i j - rsum m (fun k => chol_read c' i k * chol_read c' j k)) <= gam u (nr A + 7) * rsum m (fun k => Rabs (chol_read c' i k * chol_read c' j k))).
  { intros r s m Hr Hs H. rewrite AhE by assumption. replace (nr A + 7)%nat with (nr A + 1 + 6)%nat by lia. rewrite <- gam_scale.
    apply (scale_err (gam u 3) (gam u (nr A + 1)) (mat_at Bh) (chol_read c) (chol_read c') p r s m G3 G0 (Hp r Hr) (Hp s Hs)); [| |exact H];
      intros q Hq; rewrite RD; apply scale_entry; auto. }
  apply (use_factor u e k ar A Ah c'); auto.
  - intros j Hj. rewrite AhE by exact Hj. assert (P := Hp j Hj). assert (Q := DP j Hj). apply Rmult_lt_0_compat; [nra|exact Q].
  - intros j Hj. destruct (D1 j Hj) as (P & Q). split.
    + rewrite RD. destruct (HN j Hj) as (N1 & N2). assert (PJ := Hp j Hj).
      (* signs: the relative errors are less than 1 *)
      assert (G2 : gam u 2 < 1) by (eapply Rle_lt_trans; [apply (gam_mono u 2 (nr A + 7) Hu); lia|exact HG7]).
      assert (U1 : u < 1). { assert (X := gam_mono u 1 (nr A + 7) Hu). assert (Y : gam u 1 = u) by (unfold gam; cbn [pow]; ring). rewrite Y in X. eapply Rle_lt_trans; [apply X; lia|exact HG7]. }
      assert (PH : 0 < ph j). { rewrite (Rabs_pos_eq (p j)) in N1 by lra. assert (X := Rle_abs (- (ph j - p j))). rewrite Rabs_Ropp in X. nra. }
      destruct (ro_mul _ _ RO (ph j) (chol_read c j j)) as (M1 & _). assert (PL : 0 < ph j * chol_read c j j) by (apply Rmult_lt_0_compat; assumption).
      rewrite (Rabs_pos_eq (ph j * chol_read c j j)) in M1 by lra. assert (X := Rle_abs (- (f_mul ar (ph j) (chol_read c j j) - ph j * chol_read c j j))). rewrite Rabs_Ropp in X. nra.
    + assert (Y := SC j j (S j) Hj Hj). rewrite !sq_abs in Y. apply Y. exact Q.
  - intros a j Hj Ha. apply SC; [lia|lia|]. apply O1; assumption.
Qed.

(** ** Factorisation and solution with the factors: the solution of the exact system up to a relative error
    k n (e + about 3 n u), in the length scaled by the diagonal and in that of the inner product of the matrix. *)
Theorem C67_solution_of_the_system : forall (u e k : R) (ar : arith) (A Ah : mat) (lower : bool),
  rounds u ar -> pd A -> (cond2_le A k \/ scaled_cond_le A k) -> computed e A Ah -> precise u e k (nr A) ->
  exists c, cho_factor_fl ar Ah lower = Ok c /\
    forall b x, solves A x b -> accurate A (sol_err u e k (nr A)) (cho_solve_fl ar c b) x.
Proof.
  intros u e k ar A Ah lower RO HP HC0 HE HR. destruct (plain_factor u e k ar A Ah lower RO HP HC0 HE HR) as (c & E & H & _). eauto.
Qed.
Print Assumptions C67_solution_of_the_system.

(** ** With preconditioning: A = P B P with a diagonal P > 0; B is factored, the rows of its factor are multiplied by
    P (known up to two roundings), and the result is used to solve systems with A.  The accuracy is given by the
    condition number of B. *)
Theorem C67_solution_with_preconditioning : forall (u e k : R) (ar : arith) (A B Bh : mat) (p ph : nat -> R),
  rounds u ar -> pd A -> pd B -> nr A = nr B -> (forall i, (i < nr A)%nat -> 0 < p i) ->
  (forall i j, (i < nr A)%nat -> (j < nr A)%nat -> mat_at A i j = p i * p j * mat_at B i j) ->
  (cond2_le B k \/ scaled_cond_le B k) -> computed e B Bh -> precise u e k (nr A) ->
  (forall i, (i < nr A)%nat -> near (gam u 2) (p i) (ph i)) ->
  exists c, cho_factor_fl ar Bh true = Ok c /\
    forall b x, solves A x b -> accurate A (sol_err u e k (nr A)) (cho_solve_fl ar (scale_rows_fl ar ph c) b) x.
Proof.
  intros u e k ar A B Bh p ph RO HPA HPB EN Hp EA HC0 HE HR HN. destruct (precon_factor u e k ar A B Bh p ph RO HPA HPB EN Hp EA HC0 HE HR HN) as (c & E & H & _). eauto.
Qed.
Print Assumptions C67_solution_with_preconditioning.

(** ** The weights of the model with 'precon' (constant nugget, or nugget from the row sums), for all data, hyperparameters
    and noise: accurate as far as the precision allows cond_max_target, however ill-conditioned Kcov itself may be. *)
Theorem C67_precon_weights :
  forall (o : gpopt) (d : gpdata) (condf : mat -> R) (hp : hpv) (noise : option vec) (varK : option R) (bn : bool) (vK : R) (calc_chofac calc_cond : bool),
  o_well o = Wprecon -> o_use_grad o = true -> (o_eta_const o = true -> o_eta_mtd o <> Edflt) ->
  opts_ok o -> data_set o d -> hyper_ok o hp -> noise_arg_ok o d hp noise -> eff_varK hp varK bn = Some vK -> 0 < vK ->
  exists out Kp p, calc_all_K_w_chofac o d condf (d_Rt d) hp noise calc_chofac calc_cond varK bn = Ok out /\
    k_Kprec out = Some Kp /\ (forall i, (i < d_n_data d)%nat -> 0 < p i) /\
    (forall i j, (i < d_n_data d)%nat -> (j < d_n_data d)%nat -> mat_at (k_Kcov out) i j = p i * p j * mat_at Kp i j) /\
    forall u e ar Kh ph, rounds u ar -> computed e Kp Kh -> precise u e (o_target o) (d_n_data d) ->
    (forall i, (i < d_n_data d)%nat -> near (gam u 2) (p i) (ph i)) ->
    exists c, cho_factor_fl ar Kh true = Ok c /\
      forall b x, solves (k_Kcov out) x b -> accurate (k_Kcov out) (sol_err u e (o_target o) (d_n_data d)) (cho_solve_fl ar (scale_rows_fl ar ph c) b) x.
Proof.
  intros o d condf hp noise varK bn vK cc cnd Hw Hu Hm H5 H6 H7 H8 H9 H10. assert (RD := ready o d H5 H6).
  destruct (precon_target o d condf hp noise varK bn vK cc cnd Hw Hu Hm H5 H6 H7 H8 H9 H10) as (out & Kp & p & EO & EP & PD1 & PD2 & EN1 & EN2 & Pp & EA & CM).
  exists out, Kp, p. rewrite <- EN2 in *. split; [exact EO|]. split; [exact EP|]. split; [exact Pp|]. split; [exact EA|].
  intros u e ar Kh ph RO CE PR HN. apply (C67_solution_with_preconditioning u e (o_target o) ar (k_Kcov out) Kp Kh p ph); auto.
Qed.
Print Assumptions C67_precon_weights.

(** The same for a model without preconditioning, with any noise (nugget from the row sums, or without gradients). *)
Theorem C67_plain_weights :
  forall (o : gpopt) (d : gpdata) (condf : mat -> R) (hp : hpv) (noise : option vec) (varK : option R) (bn : bool) (vK : R) (calc_chofac calc_cond : bool),
  o_well o <> Wprecon -> (o_eta_const o = false \/ (o_use_grad o = false /\ o_eta_mtd o <> Edflt)) ->
  opts_ok o -> data_set o d -> hyper_ok o hp -> noise_arg_ok o d hp noise -> eff_varK hp varK bn = Some vK -> 0 < vK ->
  exists out, calc_all_K_w_chofac o d condf (d_Rt d) hp noise calc_chofac calc_cond varK bn = Ok out /\ nr (k_Kcov out) = d_n_data d /\
    forall u e ar Kh lower, rounds u ar -> computed e (k_Kcov out) Kh -> precise u e (o_target o) (d_n_data d) ->
    exists c, cho_factor_fl ar Kh lower = Ok c /\
      forall b x, solves (k_Kcov out) x b -> accurate (k_Kcov out) (sol_err u e (o_target o) (d_n_data d)) (cho_solve_fl ar c b) x.
Proof.
  intros o d condf hp noise varK bn vK cc cnd Hw Hm H5 H6 H7 H8 H9 H10.
  destruct (plain_target o d condf hp noise varK bn vK cc cnd Hw Hm H5 H6 H7 H8 H9 H10) as (out & EO & EN & PD & CM).
  exists out. split; [exact EO|]. split; [exact EN|]. intros u e ar Kh lower RO CE PR. rewrite <- EN in *.
  apply (C67_solution_of_the_system u e (o_target o) ar (k_Kcov out) Kh lower RO PD (or_intror CM) CE PR).
Qed.
Print Assumptions C67_plain_weights.

(** Quantities linear in the weights, such as the predicted mean: [w] the covariances of the point with the data, [v] the
    weights of the kriging predictor.  dotp w v is the part of the prior variance of the point that the data explain, at
    most all of it, so that the error of the mean is at most r / (1 - r) times the prior standard deviation and the
    length of the data (the square root of the quadratic form of the likelihood). *)
Theorem C67_linear_functionals : forall (A : mat) (r : R) (b xh x w v : nat -> R),
  pd A -> solves A x b -> accurate A r xh x -> r < 1 -> solves A v w ->
  Rabs (dotp (nr A) w xh - dotp (nr A) w x) <= r / (1 - r) * (sqrt (dotp (nr A) w v) * sqrt (dotp (nr A) b x)).
Proof.
  intros A r b xh x w v HP SX (_ & (_ & H)) R1 SV. assert (H' := H R1). assert (Esq := pd_square A HP).
  assert (FE : forall y z c, solves A y c -> bform (nr A) (mat_at A) z y = dotp (nr A) c z).
  { intros y z c S. rewrite bform_dotp. rewrite (dotp_sym _ c). apply dotp_ext; [reflexivity|]. intros i Hi. rewrite <- (S i Hi). unfold mv. rewrite <- Esq. reflexivity. }
  assert (EV : energy A v = sqrt (dotp (nr A) w v)) by (unfold energy; rewrite qform_bform by exact Esq; rewrite (FE v v w SV); reflexivity).
  assert (EX : energy A x = sqrt (dotp (nr A) b x)) by (unfold energy; rewrite qform_bform by exact Esq; rewrite (FE x x b SX); reflexivity).
  assert (D : dotp (nr A) w xh - dotp (nr A) w x = bform (nr A) (mat_at A) (fun i => xh i - x i) v).
  { rewrite (FE v _ w SV). unfold dotp. rewrite <- rsum_minus. apply rsum_ext; intros; ring. }
  rewrite D. eapply Rle_trans; [apply energy_cs; exact HP|]. rewrite EV in *. rewrite EX in H'. assert (S0 := sqrt_pos (dotp (nr A) w v)).
  apply Rmult_le_compat_r with (r := sqrt (dotp (nr A) w v)) in H'; [|exact S0]. eapply Rle_trans; [exact H'|]. right; ring.
Qed.
Print Assumptions C67_linear_functionals.

(** ** Double precision: up to 100 data and a condition number k up to 1e10, entries right to 14 digits: the relative
    error is at most k 5e-12 (5% in the worst case). *)
Lemma rel_error_mono N r r' xh x : (forall x, 0 <= N x) -> r <= r' -> rel_error N r xh x -> rel_error N r' xh x.
Proof.
  intros NN H (P & Q). assert (L1 := NN x). assert (L2 := NN xh). split.
  - eapply Rle_trans; [exact P|]. apply Rmult_le_compat_r; assumption.
  - intros R1. eapply Rle_trans; [apply Q; lra|]. apply Rmult_le_compat_r; [exact L1|]. apply Rmult_le_reg_r with (1 - r); [lra|]. unfold Rdiv at 1. rewrite Rmult_assoc, Rinv_l by lra.
    apply Rmult_le_reg_r with (1 - r'); [lra|]. replace (r' / (1 - r') * (1 - r) * (1 - r')) with (r' * (1 - r)) by (field; lra). lra.
Qed.
Lemma accurate_mono A r r' xh x : r <= r' -> accurate A r xh x -> accurate A r' xh x.
Proof. intros H (P & Q). split; apply (rel_error_mono _ r); auto; intros; [apply nrm_nonneg|apply energy_nonneg]. Qed.
Lemma sol_err64 n k : (n <= 100)%nat -> 0 <= k -> sol_err u64 (/ 10 ^ 14) k n <= k * (5 / 10 ^ 12).
Proof.
  intros Hn K0. assert (U : 0 <= u64 <= 1111 / 10 ^ 19) by (unfold u64; lra).
  assert (I9 : INR 100 = 100) by (rewrite INR_IZR_INZ; reflexivity). assert (IN : INR n <= 100) by (rewrite <- I9; apply le_INR, Hn). assert (I0 := pos_INR n).
  assert (G : gam u64 (n + 7) <= 1190 / 10 ^ 17).
  { assert (B := gam_bound u64 (n + 7) ltac:(lra)). rewrite plus_INR in B. replace (INR 7) with 7 in B by (rewrite INR_IZR_INZ; reflexivity). set (x := (INR n + 7) * u64) in *.
    assert (X : 0 <= x <= 1189 / 10 ^ 17).
    { unfold x. split; [apply Rmult_le_pos; lra|]. apply Rle_trans with (107 * (1111 / 10 ^ 19)); [apply Rmult_le_compat; lra|lra]. }
    eapply Rle_trans; [apply B; lra|]. assert (x * x <= (1189 / 10 ^ 17) * (1189 / 10 ^ 17)) by (apply Rmult_le_compat; lra). cbn [pow] in *. lra. }
  assert (G0 : 0 <= gam u64 (n + 7)) by (apply gam_nonneg; lra).
  assert (S0 : 0 <= solve_err u64 n) by (apply solve_err_nonneg; lra).
  assert (S1 : solve_err u64 n <= 3580 / 10 ^ 17).
  { unfold solve_err. set (g := gam u64 (n + 7)) in *. apply Rmult_le_reg_r with (1 - g); [lra|]. unfold Rdiv at 1. rewrite Rmult_assoc, Rinv_l by lra. assert (g * g <= (1190 / 10 ^ 17) * (1190 / 10 ^ 17)) by (apply Rmult_le_compat; lra). cbn [pow] in *. lra. }
  unfold sol_err. apply Rmult_le_compat_l; [exact K0|]. apply Rle_trans with (100 * (/ 10 ^ 14 + (1 + / 10 ^ 14) * (3580 / 10 ^ 17))); [|lra].
  apply Rmult_le_compat; try lra; nra.
Qed.
Theorem C67_double_precision : forall (ar : arith) (k : R) (A Ah : mat) (lower : bool),
  double_arith ar -> pd A -> cond2_le A k -> k <= 10 ^ 10 -> (1 <= nr A <= 100)%nat -> computed (/ 10 ^ 14) A Ah ->
  exists c, cho_factor_fl ar Ah lower = Ok c /\
    forall b x, solves A x b -> accurate A (k * (5 / 10 ^ 12)) (cho_solve_fl ar c b) x.
Proof.
  intros ar k A Ah lower HD HP HC HK Hn HE. assert (K1 : 1 <= k) by (apply (cond_ge1 A); [lia|exact HC]).
  destruct (C67_solution_of_the_system u64 (/ 10 ^ 14) k ar A Ah lower (double_arith_rounds ar HD) HP (or_introl HC) HE) as (c & E & H); [apply precise64; [lia|lra]|].
  exists c. split; [exact E|]. intros b x SO. eapply accurate_mono; [|apply H, SO]. apply sol_err64; [lia|lra].
Qed.
Print Assumptions C67_double_precision.
Theorem C67_precon_double_precision :
  forall (o : gpopt) (d : gpdata) (condf : mat -> R) (hp : hpv) (noise : option vec) (varK : option R) (bn : bool) (vK : R) (calc_chofac calc_cond : bool),
  o_well o = Wprecon -> o_use_grad o = true -> (o_eta_const o = true -> o_eta_mtd o <> Edflt) -> o_target o <= 10 ^ 10 ->
  opts_ok o -> data_set o d -> hyper_ok o hp -> noise_arg_ok o d hp noise -> eff_varK hp varK bn = Some vK -> 0 < vK ->
  (d_n_data d <= 100)%nat ->
  exists out Kp p, calc_all_K_w_chofac o d condf (d_Rt d) hp noise calc_chofac calc_cond varK bn = Ok out /\
    k_Kprec out = Some Kp /\ (forall i, (i < d_n_data d)%nat -> 0 < p i) /\
    (forall i j, (i < d_n_data d)%nat -> (j < d_n_data d)%nat -> mat_at (k_Kcov out) i j = p i * p j * mat_at Kp i j) /\
    forall ar Kh ph, double_arith ar -> computed (/ 10 ^ 14) Kp Kh -> (forall i, (i < d_n_data d)%nat -> near (gam u64 2) (p i) (ph i)) ->
    exists c, cho_factor_fl ar Kh true = Ok c /\
      forall b x, solves (k_Kcov out) x b -> accurate (k_Kcov out) (o_target o * (5 / 10 ^ 12)) (cho_solve_fl ar (scale_rows_fl ar ph c) b) x.
Proof.
  intros o d condf hp noise varK bn vK cc cnd Hw Hu Hm Ht H5 H6 H7 H8 H9 H10 Hn.
  destruct (C67_precon_weights o d condf hp noise varK bn vK cc cnd Hw Hu Hm H5 H6 H7 H8 H9 H10) as (out & Kp & p & E1 & E2 & E3 & E4 & H).
  assert (T : 0 <= o_target o) by (destruct H5 as (_ & T & _); lra).
  exists out, Kp, p. repeat (split; [assumption|]). intros ar Kh ph HD HC HN.
  destruct (H u64 (/ 10 ^ 14) ar Kh ph (double_arith_rounds ar HD) HC) as (c & E & HS); [apply precise64; [lia|lra]|exact HN|].
  exists c. split; [exact E|]. intros b x SO. eapply accurate_mono; [|apply HS, SO]. apply sol_err64; [lia|lra].
Qed.
Print Assumptions C67_precon_double_precision.

(** ** The hypotheses are met *)
(** exact arithmetic is the case u = 0 *)
Example exact_rounds : rounds 0 (mkar Rminus Rmult Rdiv sqrt Rdiv (fun _ _ c l => c - sum_products l) sum_products).
Proof.
  assert (X : forall g x, 0 <= g -> near g x x). { intros g x Hg. assert (0 <= g * Rabs x) by (apply Rmult_le_pos; [exact Hg|apply Rabs_pos]). split; rewrite Rminus_eq_0, Rabs_R0; assumption. }
  assert (G : forall k, gam 0 k = 0) by (intros k; unfold gam; rewrite Rplus_0_r, pow1; ring).
  constructor; [lra|..]; intros; cbn [f_sub f_mul f_div f_sqrt f_quo f_res f_dot]; try (apply X; rewrite ?G; lra); rewrite Rminus_eq_0, Rabs_R0, G; lra.
Qed.
Lemma computed_refl e A : 0 <= e -> pd A -> (forall i j, mat_at A i j = mat_at A j i) -> computed e A A.
Proof.
  intros He HP HS. split; [reflexivity|]. split; [reflexivity|]. split; [exact HS|]. intros i j _ _. rewrite Rminus_eq_0, Rabs_R0.
  apply Rmult_le_pos; [exact He|]. unfold size_ij. apply Rmult_le_pos; apply sqrt_pos.
Qed.
(** two observations with correlation [a] *)
Definition corr2 (a : R) : mat := mkmat 2 2 (fun i j => if (i =? j)%nat then 1 else a).
Lemma corr2_sym a i j : mat_at (corr2 a) i j = mat_at (corr2 a) j i. Proof. cbn [mat_at corr2]. rewrite Nat.eqb_sym. reflexivity. Qed.
Lemma corr2_pd a : 0 <= a < 1 -> pd (corr2 a).
Proof.
  intros Ha. split; [split; [reflexivity|intros; apply corr2_sym]|]. intros v (i & Hi & Hv). unfold qform, corr2. cbn [nr nc mat_at rsum Nat.eqb].
  assert (P : 0 < v 0%nat * v 0%nat + v 1%nat * v 1%nat).
  { cbn [nr corr2] in Hi. assert (C : i = 0%nat \/ i = 1%nat) by lia. destruct C as [->| ->]; nra. }
  assert (0 <= a * ((v 0%nat + v 1%nat) * (v 0%nat + v 1%nat))) by (apply Rmult_le_pos; [lra|apply Rle_0_sqr]). nra.
Qed.
Lemma corr2_cond a : 0 <= a < 1 -> cond2_le (corr2 a) ((1 + a) / (1 - a)).
Proof.
  intros Ha. split; [reflexivity|].
  assert (M : forall x, dotp 2 (mv (corr2 a) x) (mv (corr2 a) x) = (x 0%nat + a * x 1%nat) ^ 2 + (a * x 0%nat + x 1%nat) ^ 2).
  { intros x. unfold dotp, mv, corr2. cbn [nr nc mat_at rsum Nat.eqb]. ring. }
  assert (D : forall x, dotp 2 x x = x 0%nat ^ 2 + x 1%nat ^ 2) by (intros x; unfold dotp; cbn [rsum]; ring).
  assert (LO : forall y, (1 - a) * nrm 2 y <= nrm 2 (mv (corr2 a) y)).
  { intros y. apply Rsqr_incr_0_var; [|apply nrm_nonneg]. unfold Rsqr. rewrite nrm_sq. replace ((1 - a) * nrm 2 y * ((1 - a) * nrm 2 y)) with ((1 - a) ^ 2 * (nrm 2 y * nrm 2 y)) by ring.
    rewrite nrm_sq, M, D. assert (0 <= a * ((y 0%nat + y 1%nat) * (y 0%nat + y 1%nat))) by (apply Rmult_le_pos; [lra|apply Rle_0_sqr]). nra. }
  assert (HI : forall x, nrm 2 (mv (corr2 a) x) <= (1 + a) * nrm 2 x).
  { intros x. apply Rsqr_incr_0_var; [|assert (X := nrm_nonneg 2 x); nra]. unfold Rsqr. rewrite nrm_sq. replace ((1 + a) * nrm 2 x * ((1 + a) * nrm 2 x)) with ((1 + a) ^ 2 * (nrm 2 x * nrm 2 x)) by ring.
    rewrite nrm_sq, M, D. assert (0 <= a * ((x 0%nat - x 1%nat) * (x 0%nat - x 1%nat))) by (apply Rmult_le_pos; [lra|apply Rle_0_sqr]). nra. }
  cbn [nr corr2] in *. split.
  - intros y Hy. assert (X := nrm_pos 2 y Hy). assert (Y := LO y). nra.
  - intros x y. assert (X := HI x). assert (Y := LO y). assert (0 <= nrm 2 x) by apply nrm_nonneg. assert (0 <= nrm 2 y) by apply nrm_nonneg. assert (0 <= nrm 2 (mv (corr2 a) x)) by apply nrm_nonneg.
    apply Rmult_le_reg_r with (1 - a); [lra|]. replace ((1 + a) / (1 - a) * (nrm 2 (mv (corr2 a) y) * nrm 2 x) * (1 - a)) with ((1 + a) * nrm 2 x * nrm 2 (mv (corr2 a) y)) by (field; lra).
    rewrite Rmult_assoc, (Rmult_comm (nrm 2 y)). apply Rmult_le_compat; try assumption. apply Rmult_le_pos; lra.
Qed.
Definition fx_A : mat := corr2 (1 / 2).
Lemma fx_pd : pd fx_A. Proof. apply corr2_pd. lra. Qed.
Lemma fx_cond : cond2_le fx_A 3. Proof. replace 3 with ((1 + 1 / 2) / (1 - 1 / 2)) by field. apply corr2_cond. lra. Qed.
Example C66_C67_hypotheses_met : forall tie, rounds u64 (double tie) /\ pd fx_A /\ cond2_le fx_A 3 /\ computed (/ 10 ^ 14) fx_A fx_A /\
  precise u64 (/ 10 ^ 14) 3 (nr fx_A) /\ sol_err u64 (/ 10 ^ 14) 3 (nr fx_A) <= 15 / 10 ^ 12 /\
  solves fx_A (fun i => if (i =? 0)%nat then 4 else 1) (fun i => if (i =? 0)%nat then 9 / 2 else 3).
Proof.
  intros tie. split; [apply double_rounds|]. split; [apply fx_pd|]. split; [apply fx_cond|]. split.
  { apply computed_refl; [lra|apply fx_pd|apply corr2_sym]. }
  split; [apply precise64; [cbn; lia|lra]|]. split.
  - assert (X := sol_err64 (nr fx_A) 3 ltac:(cbn; lia) ltac:(lra)). lra.
  - intros i Hi. unfold fx_A in *. cbn [nr corr2] in Hi. unfold mv, corr2. cbn [nc mat_at rsum]. assert (C : i = 0%nat \/ i = 1%nat) by lia. destruct C as [->| ->]; cbn [Nat.eqb]; field.
Qed.
(** the example of C10-C14: 3 points in 2 dimensions, gradients at two of them, Matern kernel, 'precon' *)
Example C66_precon_hypotheses_met : exists d, o_well ex_opt = Wprecon /\ o_use_grad ex_opt = true /\ o_eta_mtd ex_opt <> Edflt /\ o_target ex_opt <= 10 ^ 10 /\
  opts_ok ex_opt /\ data_set ex_opt d /\ hyper_ok ex_opt ex_hp /\ noise_arg_ok ex_opt d ex_hp None /\ eff_varK ex_hp None false = Some 2 /\ (d_n_data d <= 100)%nat.
Proof.
  destruct ex_data as (d & D & K1 & K2 & N1 & N2). exists d. repeat (split; [first [reflexivity | discriminate]|]).
  assert (OK : opts_ok ex_opt) by (split; [simpl; lia|split; simpl; lra]).
  split; [unfold ex_opt; cbn; lra|]. split; [exact OK|]. split; [exact D|]. split.
  - split; [reflexivity|]. split; [|exact I]. intros i _. simpl. assert (0 <= INR i) by apply pos_INR. lra.
  - split.
    + split.
      * split; [rewrite K1; split; [reflexivity|eexists; reflexivity]|]. intros _. rewrite K2. eexists; reflexivity.
      * split; intros v E; injection E as <-; lra.
    + split; [reflexivity|]. rewrite (wf_n _ _ (gr_wf _ _ (ready ex_opt d OK D))). unfold cN. rewrite N1, N2. cbn. lia.
Qed.
(** ** How far it goes *)
(** Without the nugget the factorisation of the matrix of two coincident points fails. *)
Example C66_without_nugget : forall tie lower, cho_factor_fl (double tie) (mkmat 2 2 (fun _ _ => 1)) lower = Err ELinAlg.
Proof. exact coincident_points_fail. Qed.
(** A condition number of 1e16 (the default of cond_max_abs, up to which the code tries to factorise without
    preconditioning) is not within double precision: entries with an error of 3e-16 make the factorisation fail. *)
Example C66_not_for_1e16 : forall tie lower, exists A Ah, pd A /\ cond2_le A (10 ^ 16) /\ computed (3 / 10 ^ 16) A Ah /\
  cho_factor_fl (double tie) Ah lower = Err ELinAlg.
Proof.
  intros tie lower. set (a := 1 - / 2 ^ 52). assert (Ha : 0 <= a < 1) by (unfold a; lra).
  exists (corr2 a), (mkmat 2 2 (fun _ _ => 1)). split; [apply corr2_pd, Ha|]. split; [|split; [|apply coincident_points_fail]].
  - destruct (corr2_cond a Ha) as (C1 & C2 & C3). split; [exact C1|]. split; [exact C2|]. intros x y. eapply Rle_trans; [apply C3|].
    apply Rmult_le_compat_r; [apply Rmult_le_pos; apply nrm_nonneg|]. apply Rmult_le_reg_r with (1 - a); [lra|]. replace ((1 + a) / (1 - a) * (1 - a)) with (1 + a) by (field; lra). unfold a. lra.
  - split; [reflexivity|]. split; [reflexivity|]. split; [reflexivity|]. intros i j Hi Hj. unfold size_ij, corr2. cbn [mat_at]. rewrite !Nat.eqb_refl, sqrt_1, !Rmult_1_r.
    destruct (i =? j)%nat; [rewrite Rminus_eq_0, Rabs_R0; lra|]. unfold a. replace (1 - (1 - / 2 ^ 52)) with (/ 2 ^ 52) by ring. rewrite Rabs_pos_eq; lra.
Qed.
