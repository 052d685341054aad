(** * Property C75: noisier observations never make the surrogate more certain.  Vocabulary: [Spec/NoiseOrderSpec.v], [Spec/EvalSpec.v]. *)
From Coq Require Import Reals List Arith Bool Lia Lra Psatz.
From Coquelicot Require Import Coquelicot.
From Verif.Base Require Import NpLite NpFacts Deriv.
From Verif.Spec Require Import KernelSpec LinAlgSpec GpSpec HpSpec DataSpec LkdSpec RescaleSpec EvalSpec OrderSpec NoiseOrderSpec.
From Verif.Model Require Import KernelSqExp KernelMatern KernelRatQuad KernelDispatch CommonFun WellCond Rescaling GpState Chol Cov HpInfo HpGrad MeanFun Lkd EvalModel.
From Verif.Proofs Require Import KernTac KernGradBlocks RadialCalculus KernelExact LinAlg CholCorrect Jets Psd CovStruct ThetaGrad HessX2 StateFacts NoiseFacts DataFacts NuggetCond NuggetMain MinMax RescaleFacts
  LinDeriv LkdCore LkdFacts LkdMain EvalKern EvalFacts EvalMain EvalInterp Reorder.
From Verif.Props Require Import CondProps DataProps LkdProps EvalProps EvalProps2 OrderProps OrderLkd.
Import ListNotations.
Local Open Scope R_scope.

Section M.
Variables (o : gpopt) (d1 d2 : gpdata) (hp1 hp2 : hpv) (vK b1 b2 : R) (f h : nat -> nat).
Hypothesis I1 : eval_input o d1 hp1 vK b1.
Hypothesis I2 : eval_input o d2 hp2 vK b2.
Hypothesis HO : design_in o d1 d2 f h.
Hypothesis SF : same_factors o d1 d2.
Hypothesis SH : same_covariance hp1 hp2.
Notation N1 := (cN o d1).
Notation N2 := (cN o d2).
Definition lmap (l : label) : label := match l with LVal p => LVal (f p) | LDer i q => LDer i (h q) end.
Definition sig (r : nat) : nat := match unradr (d_n_eval d1) (d_n_grad d1) r with F p => f p | G i q => radr (d_n_eval d2) (d_n_grad d2) (G i (h q)) end.
Let D1 : data_set o d1. Proof. apply I1. Qed.
Let D2 : data_set o d2. Proof. apply I2. Qed.
Lemma sig_label r : (r < N1)%nat -> exists l, nth_error (gp_labels o d1) r = Some l /\ nth_error (gp_labels o d2) (sig r) = Some (lmap l) /\
  match l with LVal p => (p < d_n_eval d1)%nat | LDer i q => o_use_grad o = true /\ (i < o_dim o)%nat /\ (q < n_used (d_n_eval d1) (d_bvec d1))%nat end.
Proof.
  intros Hr. destruct (gp_mask o d1 D1) as (M1 & EN1 & EG1 & EB1). destruct (gp_mask o d2 D2) as (M2 & EN2 & EG2 & EB2).
  unfold cN in Hr. destruct (unradr_ok _ _ _ _ Hr) as (V & ER). exists (rix_lab (unradr (d_n_eval d1) (d_n_grad d1) r)). unfold sig, gp_labels. destruct (unradr (d_n_eval d1) (d_n_grad d1) r) as [p|i q]; cbn [rvalid radr rix_lab lmap] in *.
  - subst r. split; [apply (DataFacts.labels_nth _ _ _ (F p)); exact V|]. split; [|exact V]. apply (DataFacts.labels_nth _ _ _ (F (f p))). apply (di_point _ _ _ _ _ HO p V).
  - destruct V as (Vi & Vq). assert (U : o_use_grad o = true).
    { destruct (o_use_grad o) eqn:U; [reflexivity|]. unfold gp_dim in EN1. rewrite U in EN1. exfalso. assert (d_n_grad d1 * o_dim o = 0)%nat by lia. nia. }
    rewrite !n_used_count by assumption. rewrite <- EG1, <- EG2 by exact U. unfold gp_dim. rewrite U.
    assert (Hq : (q < n_used (d_n_eval d1) (d_bvec d1))%nat) by (rewrite n_used_count, <- EG1 by assumption; exact Vq).
    split; [rewrite <- ER; apply (DataFacts.labels_nth _ _ _ (G i q)); split; assumption|]. split; [|auto].
    apply (DataFacts.labels_nth _ _ _ (G i (h q))). split; [exact Vi|]. rewrite EG2, <- n_used_count by assumption. apply (di_gpoint _ _ _ _ _ HO U q Hq).
Qed.
Lemma sig_lt r : (r < N1)%nat -> (sig r < N2)%nat.
Proof. intros Hr. destruct (sig_label r Hr) as (l & _ & E & _). apply (label_row o d2 hp2 vK b2 I2 _ _ E). Qed.
Lemma sig_inj r s : (r < N1)%nat -> (s < N1)%nat -> sig r = sig s -> r = s.
Proof.
  intros Hr Hs E. destruct (sig_label r Hr) as (l & L1 & L2 & L3). destruct (sig_label s Hs) as (l' & L1' & L2' & L3'). rewrite E, L2' in L2. injection L2 as E2.
  assert (EL : l = l').
  { destruct l as [p|i q], l' as [p'|i' q']; cbn [lmap] in E2; try discriminate; injection E2; intros.
    - f_equal. apply (di_inj _ _ _ _ _ HO); auto.
    - subst. f_equal. destruct L3 as (U & _ & L3), L3' as (_ & _ & L3'). apply (di_ginj _ _ _ _ _ HO U); auto. }
  subst l'. unfold gp_labels in L1, L1'. apply labels_inv in L1. apply labels_inv in L1'. destruct L1 as (_ & ->), L1' as (_ & ->). reflexivity.
Qed.
Lemma gpt_lt q : o_use_grad o = true -> (q < n_used (d_n_eval d1) (d_bvec d1))%nat -> (nth q (grad_points (d_n_eval d1) (d_bvec d1)) 0%nat < d_n_eval d1)%nat.
Proof.
  intros U Hq. assert (I : In (nth q (grad_points (d_n_eval d1) (d_bvec d1)) 0%nat) (grad_points (d_n_eval d1) (d_bvec d1))) by (apply nth_In, Hq).
  unfold grad_points in I at 2. destruct (d_bvec d1) as [m|]; [apply filter_In in I; destruct I as (I & _)|]; apply in_seq in I; lia.
Qed.
(** the observations differ by a translation *)
Lemma sig_obs r : (r < N1)%nat -> obs_kind (cobs d1 (fst (get_scl_x_w_dist d1)) r) (cobs d2 (fst (get_scl_x_w_dist d2)) (sig r)) /\
  forall i, (i < o_dim o)%nat -> obs_pt (cobs d2 (fst (get_scl_x_w_dist d2)) (sig r)) i = obs_pt (cobs d1 (fst (get_scl_x_w_dist d1)) r) i + (in_shift d1 i - in_shift d2 i) * in_scale d1 i.
Proof.
  intros Hr. destruct (sig_label r Hr) as (l & L1 & L2 & L3). destruct (label_row o d1 hp1 vK b1 I1 _ _ L1) as (_ & -> & _). destruct (label_row o d2 hp2 vK b2 I2 _ _ L2) as (_ & -> & _).
  assert (PT : forall p i, (p < d_n_eval d1)%nat -> (i < o_dim o)%nat -> rows_of (fst (get_scl_x_w_dist d2)) (f p) i = rows_of (fst (get_scl_x_w_dist d1)) p i + (in_shift d1 i - in_shift d2 i) * in_scale d1 i).
  { intros p i Hp Hi. destruct (di_point _ _ _ _ _ HO p Hp) as (P1 & P3). rewrite (scaled_rows o d2 _ _ D2 P1 Hi), (scaled_rows o d1 _ _ D1 Hp Hi), P3, (proj2 SF i Hi) by exact Hi. ring. }
  destruct l as [p|i q]; cbn [lmap label_obs obs_kind obs_pt]; (split; [reflexivity || exact I|]); intros j Hj.
  - apply PT; assumption.
  - destruct L3 as (U & Hi & Hq). destruct (di_gpoint _ _ _ _ _ HO U q Hq) as (_ & ->). apply PT; [apply gpt_lt; assumption|exact Hj].
Qed.
Lemma sig_kf r s : (r < N1)%nat -> (s < N1)%nat -> ckf o d2 hp2 (fst (get_scl_x_w_dist d2)) (sig r) (sig s) = ckf o d1 hp1 (fst (get_scl_x_w_dist d1)) r s.
Proof.
  intros Hr Hs. destruct SH as (S1 & S2 & _). unfold ckf. rewrite S1, S2. destruct (sig_obs r Hr) as (K1 & T1). destruct (sig_obs s Hs) as (K2 & T2).
  apply kj_diff; auto; try (apply (cobs_lt o d1 hp1 (ei_noise _ _ _ _ _ I1)); assumption). intros i Hi. rewrite T1, T2 by exact Hi. ring.
Qed.
(** covariances with a point *)
Lemma to_scl2 x i : (i < o_dim o)%nat -> to_scl d2 x i = to_scl d1 x i + (in_shift d1 i - in_shift d2 i) * in_scale d1 i.
Proof. intros Hi. unfold to_scl. rewrite (proj2 SF i Hi). ring. Qed.
Lemma sig_kx x r : (r < N1)%nat -> kxf o d2 hp2 (to_scl d2 x) (sig r) = kxf o d1 hp1 (to_scl d1 x) r.
Proof.
  intros Hr. destruct SH as (S1 & S2 & _). unfold kxf. rewrite S1, S2. destruct (sig_obs r Hr) as (K1 & T1).
  apply kj_diff; cbn [obs_lt obs_kind obs_pt]; auto; try exact I; [apply (cobs_lt o d1 hp1 (ei_noise _ _ _ _ _ I1)); assumption|]. intros i Hi. rewrite T1, to_scl2 by exact Hi. ring.
Qed.
Hypothesis LN : less_noise o d1 d2 hp1 hp2 f h.
Lemma sig_noise r : (r < N1)%nat -> noise_fn d2 hp2 None (sig r) <= noise_fn d1 hp1 None r.
Proof.
  intros Hr. destruct (sig_label r Hr) as (l & L1 & L2 & L3). destruct (label_row o d1 hp1 vK b1 I1 _ _ L1) as (_ & _ & _ & ->). destruct (label_row o d2 hp2 vK b2 I2 _ _ L2) as (_ & _ & _ & ->).
  destruct LN as (LV & LD). destruct l as [p|i q]; cbn [lmap]; [apply LV, L3|]. destruct L3 as (U & Hi & Hq). apply LD; assumption.
Qed.
Lemma sig_sdiag e1 e2 r : (r < N1)%nat -> 0 <= e2 <= e1 -> sdiag o d2 hp2 e2 (sig r) <= sdiag o d1 hp1 e1 r.
Proof.
  intros Hr He. unfold sdiag. rewrite (sig_kf r r Hr Hr). assert (Z := sig_noise r Hr). destruct (is_precon (o_well o)); [|lra].
  assert (P1 := ckf_pos o d1 hp1 (fst (get_scl_x_w_dist d1)) ltac:(apply I1) r Hr).
  assert (P2 : 0 <= noise_fn d2 hp2 None (sig r)) by (apply (f_nn o d2 hp2 (ei_ev _ _ _ _ _ I2) ltac:(apply I2) (ei_noise _ _ _ _ _ I2) _ (sig_lt r Hr))).
  nra.
Qed.
Lemma sig_var e1 e2 x : 0 <= e2 <= e1 -> pdf N1 (smat o d1 hp1 e1) -> pdf N2 (smat o d2 hp2 e2) -> Pv o d2 hp2 e2 (to_scl d2 x) <= Pv o d1 hp1 e1 (to_scl d1 x).
Proof.
  intros He P1 P2. unfold Pv, pv, pz. apply (var_mono N1 N2 sig); auto using sig_lt.
  - intros r Hr. apply sig_kx, Hr.
  - intros r s Hr Hs Hne. unfold smat. rewrite (sig_kf r s Hr Hs). destruct (Nat.eqb_spec (sig r) (sig s)) as [E|E]; [exfalso; apply Hne, sig_inj; assumption|]. destruct (Nat.eqb_spec r s); [contradiction|reflexivity].
  - intros r Hr. unfold smat. rewrite !Nat.eqb_refl, (sig_kf r r Hr Hr). assert (Z := sig_sdiag e1 e2 r Hr He). lra.
Qed.
End M.

(** ** C75.  Every observation of d1 has a counterpart in d2 that is not noisier (whatever the observed values are, and
    whatever else is observed): then the predicted standard deviation with d2 is nowhere larger, if the nugget is not. *)
Theorem C75_less_noise_less_uncertainty :
  forall (o : gpopt) (d1 d2 : gpdata) (condf : mat -> R) (hp1 hp2 : hpv) (vK b1 b2 : R) (cc1 cc2 : bool) (su1 su2 : surr) (f h : nat -> nat),
  eval_input o d1 hp1 vK b1 -> eval_input o d2 hp2 vK b2 -> mask_supported o d1 -> mask_supported o d2 ->
  design_in o d1 d2 f h -> same_factors o d1 d2 -> same_covariance hp1 hp2 -> less_noise o d1 d2 hp1 hp2 f h ->
  set_up o d1 condf hp1 cc1 su1 -> set_up o d2 condf hp2 cc2 su2 -> k_eta (su_K su2) <= k_eta (su_K su1) ->
  forall x2 : mat, nc x2 = o_dim o -> (0 < nr x2)%nat ->
  exists ev1 ev2, eval_model o d1 hp1 su1 x2 false false = Ok ev1 /\ eval_model o d2 hp2 su2 x2 false false = Ok ev2 /\
    vlen (e_sig ev1) = nr x2 /\ vlen (e_sig ev2) = nr x2 /\
    forall p, (p < nr x2)%nat -> 0 <= vat (e_sig ev2) p <= vat (e_sig ev1) p.
Proof.
  intros o d1 d2 condf hp1 hp2 vK b1 b2 cc1 cc2 su1 su2 f h I1 I2 M1 M2 HO SF SH LN S1 S2 HE x2 Hx Hn.
  destruct (ei_main o d1 hp1 vK b1 I1 condf cc1 su1 S1) as (e1 & c1 & inv1 & Q1 & Q2 & Q3 & Q4 & Q5 & Q6 & Q7 & Q8 & Q9).
  destruct (ei_eval o d1 hp1 vK b1 I1 condf cc1 su1 e1 c1 inv1 x2 false false S1 M1 Q1 Q3 Q4 Q5 Q6 Q7 Q8 Q9 Hx Hn ltac:(discriminate)) as (ev1 & E1 & _ & (V1 & W1) & _).
  destruct (ei_main o d2 hp2 vK b2 I2 condf cc2 su2 S2) as (e2 & c2 & inv2 & P1 & P2 & P3 & P4 & P5 & P6 & P7 & P8 & P9).
  destruct (ei_eval o d2 hp2 vK b2 I2 condf cc2 su2 e2 c2 inv2 x2 false false S2 M2 P1 P3 P4 P5 P6 P7 P8 P9 Hx Hn ltac:(discriminate)) as (ev2 & E2 & _ & (V2 & W2) & _).
  exists ev1, ev2. split; [exact E1|]. split; [exact E2|]. split; [exact V1|]. split; [exact V2|]. intros p Hp. rewrite W1, W2 by exact Hp.
  assert (OP : 0 < out_scale d1) by (apply (out_scale_pos o); apply I1). unfold Si, Psig. rewrite (proj1 SF).
  assert (MV := sig_var o d1 d2 hp1 hp2 vK b1 b2 f h I1 I2 HO SF SH LN e1 e2 (rows_of x2 p) ltac:(lra) Q3 P3).
  assert (IV : 0 < / out_scale d1) by (apply Rinv_0_lt_compat, OP). unfold Rdiv. split.
  - apply Rmult_le_pos; [apply Rmult_le_pos; apply sqrt_pos|lra].
  - apply Rmult_le_compat_r; [lra|]. apply Rmult_le_compat_r; [apply sqrt_pos|]. apply sqrt_le_1_alt, MV.
Qed.
Print Assumptions C75_less_noise_less_uncertainty.

Lemma same_design_in o d1 d2 : same_design o d1 d2 -> design_in o d1 d2 (fun p => p) (fun q => q).
Proof.
  intros (N & B & X). constructor.
  - intros p Hp. split; [rewrite N; exact Hp|intros i Hi; apply X; assumption].
  - intros p q _ _ E; exact E.
  - intros _ q Hq. rewrite N, B. auto.
  - intros _ p q _ _ E; exact E.
Qed.
(** With a constant nugget (the default): the same places, standard deviations or fitted variances of the noise that are
    at least as large in [d1]. *)
Theorem C75_more_noise_more_uncertainty :
  forall (o : gpopt) (d1 d2 : gpdata) (condf : mat -> R) (hp1 hp2 : hpv) (vK b1 b2 : R) (cc1 cc2 : bool) (su1 su2 : surr),
  o_eta_const o = true ->
  eval_input o d1 hp1 vK b1 -> eval_input o d2 hp2 vK b2 -> mask_supported o d1 -> mask_supported o d2 ->
  same_design o d1 d2 -> same_factors o d1 d2 -> same_covariance hp1 hp2 ->
  (d_noisy d2 = true -> d_noisy d1 = true /\
     stdv_grows (d_n_eval d1) (d_std_fval d1) (d_std_fval d2) /\ (d_std_fval d1 = None -> var_grows (hp_var_fval hp1) (hp_var_fval hp2)) /\
     (o_use_grad o = true -> std_grows (n_used (d_n_eval d1) (d_bvec d1)) (o_dim o) (d_std_grad d1) (d_std_grad d2) /\ (d_std_grad d1 = None -> var_grows (hp_var_fgrad hp1) (hp_var_fgrad hp2)))) ->
  set_up o d1 condf hp1 cc1 su1 -> set_up o d2 condf hp2 cc2 su2 ->
  forall x2 : mat, nc x2 = o_dim o -> (0 < nr x2)%nat ->
  exists ev1 ev2, eval_model o d1 hp1 su1 x2 false false = Ok ev1 /\ eval_model o d2 hp2 su2 x2 false false = Ok ev2 /\
    vlen (e_sig ev1) = nr x2 /\ vlen (e_sig ev2) = nr x2 /\
    forall p, (p < nr x2)%nat -> 0 <= vat (e_sig ev2) p <= vat (e_sig ev1) p.
Proof.
  intros o d1 d2 condf hp1 hp2 vK b1 b2 cc1 cc2 su1 su2 C I1 I2 M1 M2 SD SF SH NZ S1 S2.
  assert (NN : forall l, 0 <= obs_noise d1 hp1 l).
  { intros l. unfold obs_noise. destruct (d_noisy d1); [|lra]. destruct I1 as (_ & _ & _ & _ & _ & (G1 & G2) & _).
    destruct l as [p|i q]; cbn [noise_variance]; [destruct (d_std_fval d1); [apply pow2_ge_0|destruct (hp_var_fval hp1) eqn:E; [apply G1; reflexivity|lra]]|destruct (d_std_grad d1); [apply pow2_ge_0|destruct (hp_var_fgrad hp1) eqn:E; [apply G2; reflexivity|lra]]]. }
  assert (OP : 0 < out_scale d1) by (apply (out_scale_pos o); apply I1).
  assert (IS : forall i, (i < o_dim o)%nat -> 0 < in_scale d1 i) by apply I1.
  assert (SQ : forall a b c, 0 <= a <= b -> 0 <= c -> (a * c) ^ 2 <= (b * c) ^ 2).
  { intros a b c Ha Hc. apply pow_incr. split; [apply Rmult_le_pos; lra|apply Rmult_le_compat_r; lra]. }
  assert (LN : less_noise o d1 d2 hp1 hp2 (fun p => p) (fun q => q)).
  { split.
    - intros p Hp. unfold obs_noise at 1. destruct (d_noisy d2) eqn:E2; [|apply NN]. destruct (NZ eq_refl) as (E1 & A & B & _). unfold obs_noise. rewrite E1. cbn [noise_variance]. rewrite (proj1 SF).
      unfold stdv_grows, OrderSpec.both in A. destruct (d_std_fval d1) as [s1|], (d_std_fval d2) as [s2|]; try contradiction; [apply SQ; [apply A, Hp|lra]|].
      specialize (B eq_refl). unfold var_grows, OrderSpec.both in B. destruct (hp_var_fval hp1), (hp_var_fval hp2); try contradiction; lra.
    - intros U i q Hi Hq. unfold obs_noise at 1. destruct (d_noisy d2) eqn:E2; [|apply NN]. destruct (NZ eq_refl) as (E1 & _ & _ & K). destruct (K U) as (A & B). unfold obs_noise. rewrite E1. cbn [noise_variance]. rewrite (proj1 SF), (proj2 SF i Hi).
      unfold std_grows, OrderSpec.both in A. destruct (d_std_grad d1) as [s1|], (d_std_grad d2) as [s2|]; try contradiction; [apply SQ; [apply A; assumption|left; apply Rdiv_lt_0_compat; [exact OP|apply IS, Hi]]|].
      specialize (B eq_refl). unfold var_grows, OrderSpec.both in B. destruct (hp_var_fgrad hp1), (hp_var_fgrad hp2); try contradiction; lra. }
  apply (C75_less_noise_less_uncertainty o d1 d2 condf hp1 hp2 vK b1 b2 cc1 cc2 su1 su2 (fun p => p) (fun q => q) I1 I2 M1 M2 (same_design_in o d1 d2 SD) SF SH LN S1 S2).
  right. apply (const_nugget o d1 d2 hp1 hp2 vK b1 b2 condf cc1 cc2 su1 su2 I1 I2 S1 S2 C). rewrite (proj1 SD). reflexivity.
Qed.
Print Assumptions C75_more_noise_more_uncertainty.

(** the hypotheses are met: three points, gradients at two of them, fitted variances of the noise, twice as large in the first *)
Definition no_hp : hpv := mkhp (hp_beta ev_hp) (hp_theta ev_hp) (hp_kernel ev_hp) (hp_varK ev_hp) (option_map (fun v => v / 2) (hp_var_fval ev_hp)) (option_map (fun v => v / 2) (hp_var_fgrad ev_hp)).
Example C75_hypotheses_met : exists d su1 su2, o_eta_const ex_opt = true /\ eval_input ex_opt d ev_hp 2 (1 / 3) /\ eval_input ex_opt d no_hp 2 (1 / 3) /\ mask_supported ex_opt d /\
  same_design ex_opt d d /\ same_factors ex_opt d d /\ same_covariance ev_hp no_hp /\ d_noisy d = true /\ n_used (d_n_eval d) (d_bvec d) = 2%nat /\
  (stdv_grows (d_n_eval d) (d_std_fval d) (d_std_fval d) /\ (d_std_fval d = None -> var_grows (hp_var_fval ev_hp) (hp_var_fval no_hp)) /\
     (o_use_grad ex_opt = true -> std_grows (n_used (d_n_eval d) (d_bvec d)) (o_dim ex_opt) (d_std_grad d) (d_std_grad d) /\ (d_std_grad d = None -> var_grows (hp_var_fgrad ev_hp) (hp_var_fgrad no_hp)))) /\
  set_up ex_opt d (fun _ => 1) ev_hp true su1 /\ set_up ex_opt d (fun _ => 1) no_hp true su2 /\
  exists v1 v2, hp_var_fval ev_hp = Some v1 /\ hp_var_fval no_hp = Some v2 /\ v2 < v1.
Proof.
  assert (E2 : exists d, set_data ex_opt ex_x ex_f SdNone (Some ex_g) SdNone (Some [true; false; true]) = Ok d /\ d_known_fval d = false /\ d_known_fgrad d = false /\ d_scl d = None /\
     d_bvec d = Some [true; false; true] /\ d_n_eval d = 3%nat /\ d_noisy d = true /\ d_std_fval d = None /\ d_std_grad d = None).
  { eexists; (split; [reflexivity|]); repeat split. }
  destruct E2 as (d & E & L1 & L2 & L3 & L4 & L5 & L6 & L7 & L8).
  assert (EI : forall hp, hp = ev_hp \/ hp = no_hp -> eval_input ex_opt d hp 2 (1 / 3)).
  { intros hp Hhp. split; [split; [simpl; lia|split; simpl; lra]|].
    split. { exists ex_x, ex_f, SdNone, (Some ex_g), SdNone, (Some [true; false; true]). split; [simpl; lia|]. split; [reflexivity|]. split; [reflexivity|]. apply after_set; exact E. }
    split; [reflexivity|]. split.
    { split; [destruct Hhp as [-> | ->]; reflexivity|]. split; [intros i _; destruct Hhp as [-> | ->]; simpl; assert (0 <= INR i) by apply pos_INR; lra|exact I]. }
    split. { split; [rewrite L1; split; [reflexivity|destruct Hhp as [-> | ->]; eexists; reflexivity]|]. intros _. rewrite L2. destruct Hhp as [-> | ->]; eexists; reflexivity. }
    split; [destruct Hhp as [-> | ->]; (split; intros v Ev; injection Ev as <-; lra)|]. split; [destruct Hhp as [-> | ->]; reflexivity|]. split; [lra|]. split; [exists (vconst 1 (1 / 3)); destruct Hhp as [-> | ->]; repeat split|].
    intros i _. unfold in_scale. rewrite L3. lra. }
  assert (I1 := EI ev_hp (or_introl eq_refl)). assert (I2 := EI no_hp (or_intror eq_refl)).
  destruct (C30_setup_succeeds ex_opt d (fun _ => 1) ev_hp 2 (1 / 3) true I1) as (su1 & _ & HS1). destruct (C30_setup_succeeds ex_opt d (fun _ => 1) no_hp 2 (1 / 3) true I2) as (su2 & _ & HS2).
  exists d, su1, su2. split; [reflexivity|]. split; [exact I1|]. split; [exact I2|]. split; [intros _ C; discriminate|].
  split; [repeat split|]. split; [repeat split|]. split; [repeat split|]. split; [exact L6|]. split; [rewrite L4, L5; reflexivity|].
  split. { rewrite L7, L8. split; [exact I|]. split; [intros _; cbn; lra|]. intros _. split; [exact I|]. intros _. cbn. lra. }
  split; [apply HS1; left; reflexivity|]. split; [apply HS2; left; reflexivity|].
  do 2 eexists. split; [reflexivity|]. split; [reflexivity|]. cbn. lra.
Qed.
Print Assumptions C75_hypotheses_met.
