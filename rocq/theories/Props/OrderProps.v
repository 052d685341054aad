(** * Properties C50 and C51: the order of the observations does not matter, and further observations do not
    increase the predicted uncertainty.  Vocabulary: [Spec/OrderSpec.v], [Spec/EvalSpec.v], [Spec/GpSpec.v]. *)
From Coq Require Import Reals List Arith Bool Lia Lra Psatz.
From Coquelicot Require Import Coquelicot.
From Verif.Base Require Import NpLite NpFacts Deriv.
From Verif.Spec Require Import KernelSpec LinAlgSpec GpSpec HpSpec DataSpec LkdSpec RescaleSpec EvalSpec OrderSpec.
From Verif.Model Require Import KernelSqExp KernelMatern KernelRatQuad KernelDispatch CommonFun WellCond Rescaling GpState Chol Cov HpInfo HpGrad MeanFun Lkd EvalModel.
From Verif.Proofs Require Import KernTac KernGradBlocks RadialCalculus KernelExact LinAlg CholCorrect Jets Psd CovStruct ThetaGrad HessX2 StateFacts NoiseFacts DataFacts NuggetCond NuggetMain MinMax RescaleFacts
  LinDeriv LkdCore LkdFacts LkdMain EvalKern EvalFacts EvalMain EvalInterp Reorder.
From Verif.Props Require Import CondProps DataProps LkdProps EvalProps.
Import ListNotations.
Local Open Scope R_scope.

(** kernels depend on differences of points only *)
Definition obs_kind (a b : obs) : Prop := match a, b with Val _, Val _ => True | Der i _, Der j _ => i = j | _, _ => False end.
Definition obs_pt (a : obs) : pt := match a with Val x => x | Der _ x => x end.
Lemma kj_diff k al d th a b a' b' : obs_lt d a -> obs_lt d b -> obs_kind a a' -> obs_kind b b' ->
  (forall i, (i < d)%nat -> obs_pt a' i - obs_pt b' i = obs_pt a i - obs_pt b i) -> kjet k al d th a' b' = kjet k al d th a b.
Proof.
  intros La Lb Ka Kb H.
  assert (S : sqd d th (obs_pt a') (obs_pt b') = sqd d th (obs_pt a) (obs_pt b)) by (apply rsum_ext; intros i Hi; rewrite H by exact Hi; reflexivity).
  destruct a as [x|i x], a' as [x'|i' x']; cbn in Ka; try contradiction; destruct b as [y|j y], b' as [y'|j' y']; cbn in Kb; try contradiction; subst;
    unfold kjet, rjet; cbn [obs_pt] in S, H; cbn [obs_lt] in La, Lb; rewrite ?S, ?H by assumption; reflexivity.
Qed.
(** the nugget of a set-up surrogate *)
Definition nugget_matrix (o : gpopt) (d : gpdata) (hp : hpv) : nat -> nat -> R :=
  if is_precon (o_well o) then kcor (ckf o d hp (fst (get_scl_x_w_dist d))) (noise_fn d hp None) 1 else ckf o d hp (fst (get_scl_x_w_dist d)).
Lemma setup_eta o d hp vK b0 condf cc su : eval_input o d hp vK b0 -> setup_eval_model o d condf hp cc = Ok su -> eta_is o d (cN o d) (nugget_matrix o d hp) (k_eta (su_K su)).
Proof.
  intros HI H. assert (HI' := HI). destruct HI' as (H1 & H2 & H3 & H4 & H5 & H6 & H7 & H8 & _).
  assert (EV := ei_ev o d hp vK b0 HI). assert (NO := ei_noise o d hp vK b0 HI).
  assert (EVK : eff_varK hp None true = Some 1) by (unfold eff_varK; rewrite H7; reflexivity).
  unfold setup_eval_model in H. destruct (get_scl_x_w_dist d) as (X0, Rt) eqn:EX.
  assert (ERt : Rt = d_Rt d) by (rewrite <- (ev_Rt o d EV), EX; reflexivity). subst Rt.
  binv H e1 E1. destruct e1 as (((fv & q1) & g) & q2). binv H be E2. binv H m E3. destruct m as ((mv & mg) & mh). cbv zeta in H. binv H kk E4. binv H fd E5. binv H inv E6. injection H as <-. cbn [su_K].
  unfold nugget_matrix. rewrite EX. cbn [fst]. destruct (is_precon (o_well o)) eqn:WP.
  - assert (WE : o_well o = Wprecon) by (destruct (o_well o); try discriminate; reflexivity).
    destruct (rok_inv _ _ _ (call_precon o d condf hp None true cc None true 1 (ev_gp _ _ EV) H4 NO EVK Rlt_0_1 WE (H3 WE)) E4) as (e & Kc & Kp & Q1 & Q2 & Q3 & _). rewrite EX in Q1. cbn [fst] in Q1. rewrite Q3. exact Q1.
  - assert (WE : o_well o <> Wprecon) by (intros Z; rewrite Z in WP; discriminate).
    destruct (rok_inv _ _ _ (call_plain o d condf hp None true cc None true 1 (ev_gp _ _ EV) H4 NO EVK Rlt_0_1 WE) E4) as (e & Q1 & Q2 & Q3 & _). rewrite EX in Q1. cbn [fst] in Q1. rewrite Q3. exact Q1.
Qed.
(** the scaled points *)
Lemma scaled_rows o d p i : data_set o d -> (p < d_n_eval d)%nat -> (i < o_dim o)%nat -> rows_of (fst (get_scl_x_w_dist d)) p i = (mat_at (d_x d) p i - in_shift d i) * in_scale d i.
Proof.
  intros (x & fv & sf & g & sg & b & D1 & D2 & D3 & D4) Hp Hi. assert (I := data_after_inv _ _ _ _ _ _ _ _ D4).
  destruct I as (I1 & I2 & _ & _ & _ & _ & _ & _ & _ & _ & I3 & _). unfold get_scl_x_w_dist, in_shift, in_scale, rows_of. destruct (d_scl d) as [r|] eqn:E; cbn [fst].
  - destruct (I3 r eq_refl) as (_ & _ & _ & (_ & _ & R4) & _). rewrite R4 by (rewrite ?D2, ?D3; congruence). rewrite I2. reflexivity.
  - ring.
Qed.

(** ** the rows of contained data *)
Section R.
Variables (o : gpopt) (d1 d2 : gpdata) (hp1 hp2 : hpv) (vK b1 b2 : R) (f h : nat -> nat).
Hypothesis I1 : eval_input o d1 hp1 vK b1.
Hypothesis I2 : eval_input o d2 hp2 vK b2.
Hypothesis HO : observations_in o d1 d2 f h.
Hypothesis SF : same_factors o d1 d2.
Hypothesis SH : same_but_beta hp1 hp2.
Notation N1 := (cN o d1).
Notation N2 := (cN o d2).
Definition lmap (l : label) : label := match l with LVal p => LVal (f p) | LDer i q => LDer i (h q) end.
Definition sig (r : nat) : nat := match unradr (d_n_eval d1) (d_n_grad d1) r with F p => f p | G i q => radr (d_n_eval d2) (d_n_grad d2) (G i (h q)) end.
Let D1 : data_set o d1. Proof. apply I1. Qed.
Let D2 : data_set o d2. Proof. apply I2. Qed.
Lemma sig_label r : (r < N1)%nat -> exists l, nth_error (gp_labels o d1) r = Some l /\ nth_error (gp_labels o d2) (sig r) = Some (lmap l) /\
  match l with LVal p => (p < d_n_eval d1)%nat | LDer i q => o_use_grad o = true /\ (i < o_dim o)%nat /\ (q < n_used (d_n_eval d1) (d_bvec d1))%nat end.
Proof.
  intros Hr. destruct (gp_mask o d1 D1) as (M1 & EN1 & EG1 & EB1). destruct (gp_mask o d2 D2) as (M2 & EN2 & EG2 & EB2).
  unfold cN in Hr. destruct (unradr_ok _ _ _ _ Hr) as (V & ER). exists (rix_lab (unradr (d_n_eval d1) (d_n_grad d1) r)). unfold sig, gp_labels. destruct (unradr (d_n_eval d1) (d_n_grad d1) r) as [p|i q]; cbn [rvalid radr rix_lab lmap] in *.
  - subst r. split; [apply (DataFacts.labels_nth _ _ _ (F p)); exact V|]. split; [|exact V]. apply (DataFacts.labels_nth _ _ _ (F (f p))). apply (oi_point _ _ _ _ _ HO p V).
  - destruct V as (Vi & Vq). assert (U : o_use_grad o = true).
    { destruct (o_use_grad o) eqn:U; [reflexivity|]. unfold gp_dim in EN1. rewrite U in EN1. exfalso. assert (d_n_grad d1 * o_dim o = 0)%nat by lia. nia. }
    rewrite !n_used_count by assumption. rewrite <- EG1, <- EG2 by exact U. unfold gp_dim. rewrite U.
    assert (Hq : (q < n_used (d_n_eval d1) (d_bvec d1))%nat) by (rewrite n_used_count, <- EG1 by assumption; exact Vq).
    split; [rewrite <- ER; apply (DataFacts.labels_nth _ _ _ (G i q)); split; assumption|]. split; [|auto].
    apply (DataFacts.labels_nth _ _ _ (G i (h q))). split; [exact Vi|]. rewrite EG2, <- n_used_count by assumption. apply (oi_gpoint _ _ _ _ _ HO U q Hq).
Qed.
Lemma sig_lt r : (r < N1)%nat -> (sig r < N2)%nat.
Proof. intros Hr. destruct (sig_label r Hr) as (l & _ & E & _). apply (label_row o d2 hp2 vK b2 I2 _ _ E). Qed.
Lemma sig_inj r s : (r < N1)%nat -> (s < N1)%nat -> sig r = sig s -> r = s.
Proof.
  intros Hr Hs E. destruct (sig_label r Hr) as (l & L1 & L2 & L3). destruct (sig_label s Hs) as (l' & L1' & L2' & L3'). rewrite E, L2' in L2. injection L2 as E2.
  assert (EL : l = l').
  { destruct l as [p|i q], l' as [p'|i' q']; cbn [lmap] in E2; try discriminate; injection E2; intros.
    - f_equal. apply (oi_inj _ _ _ _ _ HO); auto.
    - subst. f_equal. destruct L3 as (U & _ & L3), L3' as (_ & _ & L3'). apply (oi_ginj _ _ _ _ _ HO U); auto. }
  subst l'. unfold gp_labels in L1, L1'. apply labels_inv in L1. apply labels_inv in L1'. destruct L1 as (_ & ->), L1' as (_ & ->). reflexivity.
Qed.
Lemma gpt_lt q : o_use_grad o = true -> (q < n_used (d_n_eval d1) (d_bvec d1))%nat -> (nth q (grad_points (d_n_eval d1) (d_bvec d1)) 0%nat < d_n_eval d1)%nat.
Proof.
  intros U Hq. assert (I : In (nth q (grad_points (d_n_eval d1) (d_bvec d1)) 0%nat) (grad_points (d_n_eval d1) (d_bvec d1))) by (apply nth_In, Hq).
  unfold grad_points in I at 2. destruct (d_bvec d1) as [m|]; [apply filter_In in I; destruct I as (I & _)|]; apply in_seq in I; lia.
Qed.
(** the observations differ by a translation *)
Lemma sig_obs r : (r < N1)%nat -> obs_kind (cobs d1 (fst (get_scl_x_w_dist d1)) r) (cobs d2 (fst (get_scl_x_w_dist d2)) (sig r)) /\
  forall i, (i < o_dim o)%nat -> obs_pt (cobs d2 (fst (get_scl_x_w_dist d2)) (sig r)) i = obs_pt (cobs d1 (fst (get_scl_x_w_dist d1)) r) i + (in_shift d1 i - in_shift d2 i) * in_scale d1 i.
Proof.
  intros Hr. destruct (sig_label r Hr) as (l & L1 & L2 & L3). destruct (label_row o d1 hp1 vK b1 I1 _ _ L1) as (_ & -> & _). destruct (label_row o d2 hp2 vK b2 I2 _ _ L2) as (_ & -> & _).
  assert (PT : forall p i, (p < d_n_eval d1)%nat -> (i < o_dim o)%nat -> rows_of (fst (get_scl_x_w_dist d2)) (f p) i = rows_of (fst (get_scl_x_w_dist d1)) p i + (in_shift d1 i - in_shift d2 i) * in_scale d1 i).
  { intros p i Hp Hi. destruct (oi_point _ _ _ _ _ HO p Hp) as (P1 & _ & P3). rewrite (scaled_rows o d2 _ _ D2 P1 Hi), (scaled_rows o d1 _ _ D1 Hp Hi), P3, (proj2 SF i Hi) by exact Hi. ring. }
  destruct l as [p|i q]; cbn [lmap label_obs obs_kind obs_pt]; (split; [reflexivity || exact I|]); intros j Hj.
  - apply PT; assumption.
  - destruct L3 as (U & Hi & Hq). destruct (oi_gpoint _ _ _ _ _ HO U q Hq) as (_ & ->). apply PT; [apply gpt_lt; assumption|exact Hj].
Qed.
Lemma sig_y r : (r < N1)%nat -> vat (ydata d2) (sig r) = vat (ydata d1) r + basis d1 r * ((out_shift d1 - out_shift d2) * out_scale d1).
Proof.
  intros Hr. destruct (sig_label r Hr) as (l & L1 & L2 & L3). destruct (label_row o d1 hp1 vK b1 I1 _ _ L1) as (_ & _ & -> & _). destruct (label_row o d2 hp2 vK b2 I2 _ _ L2) as (_ & _ & -> & _).
  apply labels_inv in L1. destruct L1 as (V & E). destruct SF as (SF1 & SF2). unfold basis.
  destruct l as [p|i q]; cbn [lmap scaled_value lab_rix radr] in *.
  - subst r. destruct (Nat.ltb_spec p (d_n_eval d1)) as [C|C]; [|lia]. destruct (oi_point _ _ _ _ _ HO p L3) as (_ & -> & _). rewrite SF1. ring.
  - destruct (Nat.ltb_spec r (d_n_eval d1)) as [C|C]; [lia|]. destruct L3 as (U & Hi & Hq). assert (Z := oi_grad _ _ _ _ _ HO U). unfold both in Z. destruct (d_grad d1), (d_grad d2); try contradiction; [|ring].
    rewrite Z, SF1, SF2 by assumption. ring.
Qed.
Lemma sig_basis r : (r < N1)%nat -> basis d2 (sig r) = basis d1 r.
Proof.
  intros Hr. destruct (sig_label r Hr) as (l & L1 & L2 & L3). apply labels_inv in L1. destruct L1 as (V1 & E1). apply labels_inv in L2. destruct L2 as (V2 & E2).
  unfold basis. rewrite E2, E1. destruct l as [p|i q]; cbn [lmap lab_rix radr rvalid] in *.
  - destruct (Nat.ltb_spec p (d_n_eval d1)), (Nat.ltb_spec (f p) (d_n_eval d2)); try lia; reflexivity.
  - match goal with |- (if ?a then _ else _) = (if ?b then _ else _) => destruct (Nat.ltb_spec (d_n_eval d2 + i * n_used (d_n_eval d2) (d_bvec d2) + h q) (d_n_eval d2)), (Nat.ltb_spec (d_n_eval d1 + i * n_used (d_n_eval d1) (d_bvec d1) + q) (d_n_eval d1)) end; try lia; reflexivity.
Qed.
Lemma sig_noise r : (r < N1)%nat -> noise_fn d2 hp2 None (sig r) = noise_fn d1 hp1 None r.
Proof.
  intros Hr. destruct (sig_label r Hr) as (l & L1 & L2 & L3). destruct (label_row o d1 hp1 vK b1 I1 _ _ L1) as (_ & _ & _ & ->). destruct (label_row o d2 hp2 vK b2 I2 _ _ L2) as (_ & _ & _ & ->).
  destruct SF as (SF1 & SF2). destruct SH as (_ & _ & _ & S4 & S5). unfold obs_noise. rewrite (oi_noisy _ _ _ _ _ HO). destruct (d_noisy d1); [|reflexivity].
  destruct l as [p|i q]; cbn [lmap noise_variance].
  - assert (Z := oi_std _ _ _ _ _ HO). unfold both in Z. destruct (d_std_fval d1), (d_std_fval d2); try contradiction; [rewrite Z, SF1 by exact L3; reflexivity|rewrite S4; reflexivity].
  - destruct L3 as (U & Hi & Hq). assert (Z := oi_stdg _ _ _ _ _ HO U). unfold both in Z. destruct (d_std_grad d1), (d_std_grad d2); try contradiction; [rewrite Z, SF1, SF2 by assumption; reflexivity|rewrite S5; reflexivity].
Qed.
Lemma sig_kf r s : (r < N1)%nat -> (s < N1)%nat -> ckf o d2 hp2 (fst (get_scl_x_w_dist d2)) (sig r) (sig s) = ckf o d1 hp1 (fst (get_scl_x_w_dist d1)) r s.
Proof.
  intros Hr Hs. destruct SH as (S1 & S2 & _). unfold ckf. rewrite S1, S2. destruct (sig_obs r Hr) as (K1 & T1). destruct (sig_obs s Hs) as (K2 & T2).
  apply kj_diff; auto; try (apply (cobs_lt o d1 hp1 (ei_noise _ _ _ _ _ I1)); assumption). intros i Hi. rewrite T1, T2 by exact Hi. ring.
Qed.
(** covariances with a point *)
Lemma to_scl2 x i : (i < o_dim o)%nat -> to_scl d2 x i = to_scl d1 x i + (in_shift d1 i - in_shift d2 i) * in_scale d1 i.
Proof. intros Hi. unfold to_scl. rewrite (proj2 SF i Hi). ring. Qed.
Lemma sig_kx x r : (r < N1)%nat -> kxf o d2 hp2 (to_scl d2 x) (sig r) = kxf o d1 hp1 (to_scl d1 x) r.
Proof.
  intros Hr. destruct SH as (S1 & S2 & _). unfold kxf. rewrite S1, S2. destruct (sig_obs r Hr) as (K1 & T1).
  apply kj_diff; cbn [obs_lt obs_kind obs_pt]; auto; try exact I; [apply (cobs_lt o d1 hp1 (ei_noise _ _ _ _ _ I1)); assumption|]. intros i Hi. rewrite T1, to_scl2 by exact Hi. ring.
Qed.
Lemma sig_dk x j r : (r < N1)%nat -> (j < o_dim o)%nat -> dkf o d2 hp2 j (to_scl d2 x) (sig r) = dkf o d1 hp1 j (to_scl d1 x) r.
Proof.
  intros Hr Hj. destruct SH as (S1 & S2 & _). unfold dkf. rewrite S1, S2. destruct (sig_obs r Hr) as (K1 & T1).
  apply kj_diff; cbn [obs_lt obs_kind obs_pt]; auto; [apply (cobs_lt o d1 hp1 (ei_noise _ _ _ _ _ I1)); assumption|]. intros i Hi. rewrite T1, to_scl2 by exact Hi. ring.
Qed.
Lemma sig_sdiag e1 e2 r : (r < N1)%nat -> (e2 = e1 -> sdiag o d2 hp2 e2 (sig r) = sdiag o d1 hp1 e1 r) /\ (0 <= e2 <= e1 -> sdiag o d2 hp2 e2 (sig r) <= sdiag o d1 hp1 e1 r).
Proof.
  intros Hr. unfold sdiag. rewrite (sig_noise r Hr), (sig_kf r r Hr Hr). split.
  - intros ->. reflexivity.
  - intros He. destruct (is_precon (o_well o)); [|lra].
    assert (P1 := ckf_pos o d1 hp1 (fst (get_scl_x_w_dist d1)) ltac:(apply I1) r Hr).
    assert (P2 : 0 <= noise_fn d1 hp1 None r) by (apply (f_nn o d1 hp1 (ei_ev _ _ _ _ _ I1) ltac:(apply I1) (ei_noise _ _ _ _ _ I1) r Hr)).
    nra.
Qed.
Lemma sig_smat e r s : (r < N1)%nat -> (s < N1)%nat -> smat o d2 hp2 e (sig r) (sig s) = smat o d1 hp1 e r s.
Proof.
  intros Hr Hs. unfold smat. rewrite (sig_kf r s Hr Hs). destruct (Nat.eqb_spec (sig r) (sig s)) as [E|E], (Nat.eqb_spec r s) as [E'|E']; try reflexivity.
  - subst. rewrite (proj1 (sig_sdiag e e s Hs) eq_refl). reflexivity.
  - exfalso. apply E', sig_inj; assumption.
  - subst. congruence.
Qed.
Lemma sig_nugget_matrix r s : (r < N1)%nat -> (s < N1)%nat -> nugget_matrix o d2 hp2 (sig r) (sig s) = nugget_matrix o d1 hp1 r s.
Proof.
  intros Hr Hs. unfold nugget_matrix. destruct (is_precon (o_well o)); [|apply sig_kf; assumption]. unfold kcor, kn, dl.
  rewrite !sig_kf, !sig_noise by assumption. rewrite !Nat.eqb_refl.
  destruct (Nat.eqb_spec (sig r) (sig s)) as [E|E], (Nat.eqb_spec r s) as [E'|E']; try reflexivity; [exfalso; apply E', sig_inj; assumption|subst; congruence].
Qed.
(** the posterior variance with the larger data *)
Lemma sig_var e1 e2 x : 0 <= e2 <= e1 -> pdf N1 (smat o d1 hp1 e1) -> pdf N2 (smat o d2 hp2 e2) -> Pv o d2 hp2 e2 (to_scl d2 x) <= Pv o d1 hp1 e1 (to_scl d1 x).
Proof.
  intros He P1 P2. unfold Pv, pv, pz. apply (var_mono N1 N2 sig); auto using sig_lt.
  - intros r Hr. apply sig_kx, Hr.
  - intros r s Hr Hs Hne. unfold smat. rewrite (sig_kf r s Hr Hs). destruct (Nat.eqb_spec (sig r) (sig s)) as [E|E]; [exfalso; apply Hne, sig_inj; assumption|]. destruct (Nat.eqb_spec r s); [contradiction|reflexivity].
  - intros r Hr. unfold smat. rewrite !Nat.eqb_refl, (sig_kf r r Hr Hr). assert (Z := proj2 (sig_sdiag e1 e2 r Hr) He). lra.
Qed.
End R.

(** ** C51.  Every observation of d1 is one of d2: then the predicted standard deviation with d2 is at no point
    larger, provided the nugget is not larger.  Missing: the proviso; without it the property fails
    (C51_additional_point_refuted). *)
Theorem C51_more_observations_partial :
  forall (o : gpopt) (d1 d2 : gpdata) (condf : mat -> R) (hp1 hp2 : hpv) (vK b1 b2 : R) (cc1 cc2 : bool) (su1 su2 : surr) (f h : nat -> nat),
  eval_input o d1 hp1 vK b1 -> eval_input o d2 hp2 vK b2 -> mask_supported o d1 -> mask_supported o d2 ->
  observations_in o d1 d2 f h -> same_factors o d1 d2 -> same_but_beta hp1 hp2 ->
  set_up o d1 condf hp1 cc1 su1 -> set_up o d2 condf hp2 cc2 su2 -> k_eta (su_K su2) <= k_eta (su_K su1) ->
  forall x2 : mat, nc x2 = o_dim o -> (0 < nr x2)%nat ->
  exists ev1 ev2, eval_model o d1 hp1 su1 x2 false false = Ok ev1 /\ eval_model o d2 hp2 su2 x2 false false = Ok ev2 /\
    vlen (e_sig ev1) = nr x2 /\ vlen (e_sig ev2) = nr x2 /\
    forall p, (p < nr x2)%nat -> 0 <= vat (e_sig ev2) p <= vat (e_sig ev1) p.
Proof.
  intros o d1 d2 condf hp1 hp2 vK b1 b2 cc1 cc2 su1 su2 f h I1 I2 M1 M2 HO SF SH S1 S2 HE x2 Hx Hn.
  destruct (ei_main o d1 hp1 vK b1 I1 condf cc1 su1 S1) as (e1 & c1 & inv1 & Q1 & Q2 & Q3 & Q4 & Q5 & Q6 & Q7 & Q8 & Q9).
  destruct (ei_eval o d1 hp1 vK b1 I1 condf cc1 su1 e1 c1 inv1 x2 false false S1 M1 Q1 Q3 Q4 Q5 Q6 Q7 Q8 Q9 Hx Hn ltac:(discriminate)) as (ev1 & E1 & _ & (V1 & W1) & _).
  destruct (ei_main o d2 hp2 vK b2 I2 condf cc2 su2 S2) as (e2 & c2 & inv2 & P1 & P2 & P3 & P4 & P5 & P6 & P7 & P8 & P9).
  destruct (ei_eval o d2 hp2 vK b2 I2 condf cc2 su2 e2 c2 inv2 x2 false false S2 M2 P1 P3 P4 P5 P6 P7 P8 P9 Hx Hn ltac:(discriminate)) as (ev2 & E2 & _ & (V2 & W2) & _).
  exists ev1, ev2. split; [exact E1|]. split; [exact E2|]. split; [exact V1|]. split; [exact V2|]. intros p Hp. rewrite W1, W2 by exact Hp.
  assert (OP : 0 < out_scale d1) by (apply (out_scale_pos o); apply I1). unfold Si, Psig. rewrite (proj1 SF).
  assert (MV := sig_var o d1 d2 hp1 hp2 vK b1 b2 f h I1 I2 HO SF SH e1 e2 (rows_of x2 p) ltac:(lra) Q3 P3).
  assert (IV : 0 < / out_scale d1) by (apply Rinv_0_lt_compat, OP). unfold Rdiv. split.
  - apply Rmult_le_pos; [apply Rmult_le_pos; apply sqrt_pos|lra].
  - apply Rmult_le_compat_r; [lra|]. apply Rmult_le_compat_r; [apply sqrt_pos|]. apply sqrt_le_1_alt, MV.
Qed.
Print Assumptions C51_more_observations_partial.

Lemma etaK_of o d : data_set o d -> exists ek eg, calc_nugget (o_ncfg o) (d_n_eval d) = Ok (ek, eg) /\ d_etaK d = if o_use_grad o then eg else Some ek.
Proof.
  intros (x & fv & sf & g & sg & b & _ & _ & _ & H). destruct (data_after_inv _ _ _ _ _ _ _ _ H) as (-> & _ & _ & _ & _ & (ek & eg & E & _ & _ & E') & _). eauto.
Qed.
Lemma const_nugget o d1 d2 hp1 hp2 vK b1 b2 condf cc1 cc2 su1 su2 :
  eval_input o d1 hp1 vK b1 -> eval_input o d2 hp2 vK b2 -> set_up o d1 condf hp1 cc1 su1 -> set_up o d2 condf hp2 cc2 su2 -> o_eta_const o = true ->
  calc_nugget (o_ncfg o) (d_n_eval d1) = calc_nugget (o_ncfg o) (d_n_eval d2) -> k_eta (su_K su2) = k_eta (su_K su1).
Proof.
  intros I1 I2 (S1 & _) (S2 & _) C E. assert (E1 := setup_eta _ _ _ _ _ _ _ _ I1 S1). assert (E2 := setup_eta _ _ _ _ _ _ _ _ I2 S2). unfold eta_is in E1, E2. rewrite C in E1, E2.
  destruct (etaK_of o d1 ltac:(apply I1)) as (k1 & g1 & A1 & B1). destruct (etaK_of o d2 ltac:(apply I2)) as (k2 & g2 & A2 & B2). rewrite E, A2 in A1. injection A1 as <- <-. rewrite B2 in E2. congruence.
Qed.
(** With a constant nugget (the default): gradients at some of the same points, in addition, never increase the
    predicted standard deviation. *)
Theorem C51_more_gradients :
  forall (o : gpopt) (d1 d2 : gpdata) (condf : mat -> R) (hp1 hp2 : hpv) (vK b1 b2 : R) (cc1 cc2 : bool) (su1 su2 : surr) (f h : nat -> nat),
  o_eta_const o = true -> d_n_eval d2 = d_n_eval d1 ->
  eval_input o d1 hp1 vK b1 -> eval_input o d2 hp2 vK b2 -> mask_supported o d1 -> mask_supported o d2 ->
  observations_in o d1 d2 f h -> same_factors o d1 d2 -> same_but_beta hp1 hp2 ->
  set_up o d1 condf hp1 cc1 su1 -> set_up o d2 condf hp2 cc2 su2 ->
  forall x2 : mat, nc x2 = o_dim o -> (0 < nr x2)%nat ->
  exists ev1 ev2, eval_model o d1 hp1 su1 x2 false false = Ok ev1 /\ eval_model o d2 hp2 su2 x2 false false = Ok ev2 /\
    vlen (e_sig ev1) = nr x2 /\ vlen (e_sig ev2) = nr x2 /\
    forall p, (p < nr x2)%nat -> 0 <= vat (e_sig ev2) p <= vat (e_sig ev1) p.
Proof.
  intros o d1 d2 condf hp1 hp2 vK b1 b2 cc1 cc2 su1 su2 f h C EN I1 I2 M1 M2 HO SF SH S1 S2.
  apply (C51_more_observations_partial o d1 d2 condf hp1 hp2 vK b1 b2 cc1 cc2 su1 su2 f h I1 I2 M1 M2 HO SF SH S1 S2).
  right. apply (const_nugget o d1 d2 hp1 hp2 vK b1 b2 condf cc1 cc2 su1 su2 I1 I2 S1 S2 C). rewrite EN. reflexivity.
Qed.
Print Assumptions C51_more_gradients.
(** With the nugget of the user (cond_eta_set_mtd = 'dflt_eta'): no further observation ever does. *)
Theorem C51_given_nugget :
  forall (o : gpopt) (d1 d2 : gpdata) (condf : mat -> R) (hp1 hp2 : hpv) (vK b1 b2 : R) (cc1 cc2 : bool) (su1 su2 : surr) (f h : nat -> nat),
  o_eta_const o = true -> nc_eta_mtd (o_ncfg o) = Edflt ->
  eval_input o d1 hp1 vK b1 -> eval_input o d2 hp2 vK b2 -> mask_supported o d1 -> mask_supported o d2 ->
  observations_in o d1 d2 f h -> same_factors o d1 d2 -> same_but_beta hp1 hp2 ->
  set_up o d1 condf hp1 cc1 su1 -> set_up o d2 condf hp2 cc2 su2 ->
  forall x2 : mat, nc x2 = o_dim o -> (0 < nr x2)%nat ->
  exists ev1 ev2, eval_model o d1 hp1 su1 x2 false false = Ok ev1 /\ eval_model o d2 hp2 su2 x2 false false = Ok ev2 /\
    vlen (e_sig ev1) = nr x2 /\ vlen (e_sig ev2) = nr x2 /\
    forall p, (p < nr x2)%nat -> 0 <= vat (e_sig ev2) p <= vat (e_sig ev1) p.
Proof.
  intros o d1 d2 condf hp1 hp2 vK b1 b2 cc1 cc2 su1 su2 f h C EM I1 I2 M1 M2 HO SF SH S1 S2.
  apply (C51_more_observations_partial o d1 d2 condf hp1 hp2 vK b1 b2 cc1 cc2 su1 su2 f h I1 I2 M1 M2 HO SF SH S1 S2).
  right. apply (const_nugget o d1 d2 hp1 hp2 vK b1 b2 condf cc1 cc2 su1 su2 I1 I2 S1 S2 C). unfold calc_nugget. rewrite EM. reflexivity.
Qed.
Print Assumptions C51_given_nugget.

(** ** C50.  The results of an evaluation do not depend on the order of the data. *)
Section O.
Variables (o : gpopt) (d1 d2 : gpdata) (hp1 hp2 : hpv) (vK b1 b2 : R) (f h : nat -> nat).
Hypothesis I1 : eval_input o d1 hp1 vK b1.
Hypothesis I2 : eval_input o d2 hp2 vK b2.
Hypothesis HR : reordered o d1 d2 f h.
Hypothesis SF : same_factors o d1 d2.
Hypothesis SH : same_but_beta hp1 hp2.
Let HO : observations_in o d1 d2 f h. Proof. apply HR. Qed.
Let D1 : data_set o d1. Proof. apply I1. Qed.
Let D2 : data_set o d2. Proof. apply I2. Qed.
Lemma ro_grad : d_n_grad d2 = d_n_grad d1.
Proof.
  destruct HR as (_ & EN & _ & EG). destruct D1 as (x & fv & sf & g & sg & b & A1 & A2 & A3 & A4). destruct D2 as (x' & fv' & sf' & g' & sg' & b' & B1 & B2 & B3 & B4).
  assert (J1 := data_after_inv _ _ _ _ _ _ _ _ A4). assert (J2 := data_after_inv _ _ _ _ _ _ _ _ B4).
  destruct J1 as (N1 & _ & X1 & _ & _ & _ & G1 & _ & K1 & _). destruct J2 as (N2 & _ & X2 & _ & _ & _ & G2 & _ & K2 & _). rewrite G1, G2.
  destruct (o_use_grad o); [|reflexivity]. destruct (EG eq_refl) as (E & _). rewrite X1, X2, N1, N2, !n_used_count in E by assumption. exact E.
Qed.
Lemma ro_N : cN o d2 = cN o d1.
Proof. unfold cN. rewrite ro_grad. destruct HR as (_ & -> & _). reflexivity. Qed.
Notation N := (cN o d1).
Notation sg := (sig d1 d2 f h).
Lemma ro_surj : exists tau, (forall r, (r < N)%nat -> (sg r < N)%nat /\ tau (sg r) = r) /\ (forall s, (s < N)%nat -> (tau s < N)%nat /\ sg (tau s) = s).
Proof.
  destruct HR as (_ & EN & (f' & F1 & F2) & EG). destruct (gp_mask o d1 D1) as (M1 & EN1 & EG1 & EB1).
  assert (EH : exists h', o_use_grad o = true -> inverse_below (d_n_grad d1) h h').
  { destruct (o_use_grad o) eqn:U; [|exists h; discriminate]. destruct (EG eq_refl) as (_ & h' & H). exists h'. intros _. rewrite n_used_count, <- EG1 in H by auto. exact H. }
  destruct EH as (h' & EH).
  set (tau := fun s => match unradr (d_n_eval d1) (d_n_grad d1) s with F p => f' p | G i q => radr (d_n_eval d1) (d_n_grad d1) (G i (h' q)) end).
  assert (UG : forall i q, rvalid (d_n_eval d1) (d_n_grad d1) (o_dim o) (G i q) -> o_use_grad o = true).
  { intros i q (Vi & Vq). destruct (o_use_grad o) eqn:U; [reflexivity|]. unfold gp_dim in EN1. rewrite U in EN1. exfalso. assert (d_n_grad d1 * o_dim o = 0)%nat by lia. nia. }
  assert (R2 := ro_grad). exists tau. split; intros r Hr; unfold cN in *; destruct (unradr_ok _ _ _ _ Hr) as (V & ER); unfold sig, tau; destruct (unradr (d_n_eval d1) (d_n_grad d1) r) as [p|i q]; rewrite ?EN, ?R2.
  - cbn [radr rvalid] in *. subst r. destruct (F1 p V) as (A & B). split; [lia|]. rewrite (unradr_radr _ _ (o_dim o) (F (f p))) by exact A || (change (f p) with (radr (d_n_eval d1) (d_n_grad d1) (F (f p))); rewrite (unradr_radr _ _ (o_dim o) (F (f p))) by exact A). exact B.
  - assert (U := UG _ _ V). destruct (EH U) as (H1 & H2). destruct V as (Vi & Vq). destruct (H1 q Vq) as (A & B). split; [apply radr_lt; split; assumption|].
    rewrite (unradr_radr _ _ (o_dim o) (G i (h q))) by (split; assumption). rewrite B. exact ER.
  - cbn [radr rvalid] in *. subst r. destruct (F2 p V) as (A & B). split; [lia|]. change (f' p) with (radr (d_n_eval d1) (d_n_grad d1) (F (f' p))). rewrite (unradr_radr _ _ (o_dim o) (F (f' p))) by exact A. exact B.
  - assert (U := UG _ _ V). destruct (EH U) as (H1 & H2). destruct V as (Vi & Vq). destruct (H2 q Vq) as (A & B). split; [apply radr_lt; split; assumption|].
    rewrite (unradr_radr _ _ (o_dim o) (G i (h' q))) by (split; assumption). rewrite B. exact ER.
Qed.
(** the nugget is the same *)
Lemma ro_eta e1 e2 : eta_is o d1 N (nugget_matrix o d1 hp1) e1 -> eta_is o d2 (cN o d2) (nugget_matrix o d2 hp2) e2 -> e2 = e1.
Proof.
  rewrite ro_N. destruct ro_surj as (tau & T1 & T2). unfold eta_is. destruct (o_eta_const o).
  - intros E1 E2. destruct (etaK_of o d1 D1) as (k1 & g1 & A1 & B1). destruct (etaK_of o d2 D2) as (k2 & g2 & A2 & B2). destruct HR as (_ & EN & _). rewrite EN, A1 in A2. injection A2 as <- <-. congruence.
  - assert (RS : forall r, (r < N)%nat -> rsum N (fun j => Rabs (nugget_matrix o d2 hp2 (sg r) j)) = rsum N (fun j => Rabs (nugget_matrix o d1 hp1 r j))).
    { intros r Hr. rewrite (rsum_reidx N sg tau T1 T2). apply rsum_ext; intros j Hj. f_equal. apply (sig_nugget_matrix o d1 d2 hp1 hp2 vK b1 b2 f h I1 I2 HO SF SH); assumption. }
    intros (i & Hi & -> & M1) (j & Hj & -> & M2). f_equal. apply Rle_antisym.
    + destruct (T2 j Hj) as (A & B). rewrite <- B, RS by exact A. apply M1, A.
    + rewrite <- (RS i Hi). apply M2. apply T1, Hi.
Qed.
Variable (e : R).
Hypothesis P2 : pdf N (smat o d2 hp2 e).
Hypothesis HB : mean_in_units d2 b2 = mean_in_units d1 b1.
Lemma ro_beta : b2 = b1 + (out_shift d1 - out_shift d2) * out_scale d1.
Proof.
  assert (OP : 0 < out_scale d1) by (apply (out_scale_pos o); apply I1). unfold mean_in_units in HB. rewrite (proj1 SF) in HB.
  apply (Rmult_eq_reg_r (/ out_scale d1)); [|apply Rinv_neq_0_compat; lra]. rewrite Rmult_plus_distr_r, (Rmult_assoc _ (out_scale d1)), Rinv_r by lra. unfold Rdiv in HB. lra.
Qed.
Lemma ro_res r : (r < N)%nat -> sres d2 b2 (sg r) = sres d1 b1 r.
Proof.
  intros Hr. unfold sres, gres. rewrite (sig_y o d1 d2 hp1 hp2 vK b1 b2 f h I1 I2 HO SF r Hr), (sig_basis o d1 d2 vK b1 b2 f h hp1 hp2 I1 I2 HO r Hr) || rewrite (sig_y o d1 d2 hp1 hp2 vK b1 b2 f h I1 I2 HO SF r Hr), (sig_basis o d1 d2 hp1 hp2 vK b1 b2 f h I1 I2 HO r Hr). rewrite ro_beta. ring.
Qed.
Lemma ro_pv x : Pv o d2 hp2 e (to_scl d2 x) = Pv o d1 hp1 e (to_scl d1 x).
Proof.
  destruct ro_surj as (tau & T1 & T2). unfold Pv, pv, pz. rewrite ro_N. f_equal.
  apply (dotp_ksol_reidx N sg tau T1 T2 (smat o d1 hp1 e) (smat o d2 hp2 e)); auto.
  - intros r s Hr Hs. apply (sig_smat o d1 d2 hp1 hp2 vK b1 b2 f h I1 I2 HO SF SH); assumption.
  - intros r Hr. apply (sig_kx o d1 d2 hp1 hp2 vK b1 b2 f h I1 I2 HO SF SH), Hr.
  - intros r Hr. apply (sig_kx o d1 d2 hp1 hp2 vK b1 b2 f h I1 I2 HO SF SH), Hr.
Qed.
Lemma ro_si x : Si o d2 hp2 vK e x = Si o d1 hp1 vK e x.
Proof. unfold Si, Psig. rewrite ro_pv, (proj1 SF). reflexivity. Qed.
Lemma ro_dsig x i : (i < o_dim o)%nat -> Pdsig o d2 hp2 vK e i (to_scl d2 x) = Pdsig o d1 hp1 vK e i (to_scl d1 x).
Proof.
  intros Hi. unfold Pdsig, Psig. rewrite ro_pv. do 2 f_equal. destruct ro_surj as (tau & T1 & T2). unfold Pdv, pdv, pz. rewrite ro_N.
  apply (dotp_ksol_reidx N sg tau T1 T2 (smat o d1 hp1 e) (smat o d2 hp2 e)); auto.
  - intros r s Hr Hs. apply (sig_smat o d1 d2 hp1 hp2 vK b1 b2 f h I1 I2 HO SF SH); assumption.
  - intros r Hr. apply (sig_dk o d1 d2 hp1 hp2 vK b1 b2 f h I1 I2 HO SF SH); assumption.
  - intros r Hr. apply (sig_kx o d1 d2 hp1 hp2 vK b1 b2 f h I1 I2 HO SF SH), Hr.
Qed.
Lemma ro_mi x : Mi o d2 hp2 b2 e x = Mi o d1 hp1 b1 e x.
Proof.
  assert (OP : 0 < out_scale d1) by (apply (out_scale_pos o); apply I1).
  destruct ro_surj as (tau & T1 & T2). unfold Mi, Pmu, pmu, pw. rewrite ro_N.
  rewrite (dotp_ksol_reidx N sg tau T1 T2 (smat o d1 hp1 e) (smat o d2 hp2 e)) with (f1 := kxf o d1 hp1 (to_scl d1 x)) (b1 := sres d1 b1); auto.
  - rewrite (proj1 SF). rewrite ro_beta. field. lra.
  - intros r s Hr Hs. apply (sig_smat o d1 d2 hp1 hp2 vK b1 b2 f h I1 I2 HO SF SH); assumption.
  - intros r Hr. apply (sig_kx o d1 d2 hp1 hp2 vK b1 b2 f h I1 I2 HO SF SH), Hr.
  - apply ro_res.
Qed.
Lemma ro_dmu x i : (i < o_dim o)%nat -> Pdmu o d2 hp2 b2 e i (to_scl d2 x) = Pdmu o d1 hp1 b1 e i (to_scl d1 x).
Proof.
  intros Hi. destruct ro_surj as (tau & T1 & T2). unfold Pdmu, pdmu, pw. rewrite ro_N.
  apply (dotp_ksol_reidx N sg tau T1 T2 (smat o d1 hp1 e) (smat o d2 hp2 e)); auto.
  - intros r s Hr Hs. apply (sig_smat o d1 d2 hp1 hp2 vK b1 b2 f h I1 I2 HO SF SH); assumption.
  - intros r Hr. apply (sig_dk o d1 d2 hp1 hp2 vK b1 b2 f h I1 I2 HO SF SH); assumption.
  - apply ro_res.
Qed.
End O.

Lemma is_partial_same (A B : pt -> R) i x v w : (forall y, A y = B y) -> is_partial A i x v -> is_partial B i x w -> v = w.
Proof. intros E H1 H2. unfold is_partial in *. apply (dR_unique (fun t => B (upd x i t)) (x i)); [|exact H2]. apply (dR_ext (fun t => A (upd x i t))); [intros; apply E|exact H1]. Qed.
Lemma is_partial2_same (A B : pt -> R) l i x v w : (forall y, A y = B y) -> is_partial2 A l i x v -> is_partial2 B l i x w -> v = w.
Proof. intros E (g & G1 & G2) (g' & G1' & G2'). apply (is_partial_same g g' l x v w); auto. intros y. apply (is_partial_same A B i y); auto. Qed.
Lemma is_partial2_near_same (A B : pt -> R) l i x v w : (forall y, A y = B y) -> is_partial2_near A l i x v -> is_partial2_near B l i x w -> v = w.
Proof.
  intros E (g & del & P & G1 & G2) (g' & del' & P' & G1' & G2'). apply (dR_unique g' (x l)); [|exact G2']. apply (is_derive_ext_loc g); [|exact G2].
  assert (D0 : 0 < Rmin del del') by (apply Rmin_pos; assumption). exists (mkposreal _ D0). intros t Ht. change (Rabs (t - x l) < Rmin del del') in Ht.
  assert (M1 := Rmin_l del del'). assert (M2 := Rmin_r del del'). apply (is_partial_same A B i (upd x l t)); [exact E| |]; [apply G1|apply G1']; lra.
Qed.

(** The same observations in another order, the same hyperparameters and (in the units of the data) the same mean:
    every evaluation returns the same values, standard deviations, gradients and Hessians. *)
Theorem C50_order_of_the_data :
  forall (o : gpopt) (d1 d2 : gpdata) (condf : mat -> R) (hp1 hp2 : hpv) (vK b1 b2 : R) (cc1 cc2 : bool) (su1 su2 : surr) (f h : nat -> nat),
  eval_input o d1 hp1 vK b1 -> eval_input o d2 hp2 vK b2 -> mask_supported o d1 -> mask_supported o d2 ->
  reordered o d1 d2 f h -> same_factors o d1 d2 -> same_but_beta hp1 hp2 -> mean_in_units d2 b2 = mean_in_units d1 b1 ->
  set_up o d1 condf hp1 cc1 su1 -> set_up o d2 condf hp2 cc2 su2 ->
  k_eta (su_K su2) = k_eta (su_K su1) /\
  forall (x2 : mat) (cg ch : bool), nc x2 = o_dim o -> (0 < nr x2)%nat ->
  (ch = true -> cg = true /\ hess_supported o d1 hp1 x2 /\ hess_supported o d2 hp2 x2) ->
  exists ev1 ev2, eval_model o d1 hp1 su1 x2 cg ch = Ok ev1 /\ eval_model o d2 hp2 su2 x2 cg ch = Ok ev2 /\
    same_vec (nr x2) (e_mu ev1) (e_mu ev2) /\ same_vec (nr x2) (e_sig ev1) (e_sig ev2) /\
    both (same_mat (nr x2) (o_dim o)) (e_dmu ev1) (e_dmu ev2) /\ both (same_mat (nr x2) (o_dim o)) (e_dsig ev1) (e_dsig ev2) /\
    both (same_ten 1 (o_dim o)) (e_d2mu ev1) (e_d2mu ev2) /\ both (both (same_ten 1 (o_dim o))) (e_d2sig ev1) (e_d2sig ev2) /\
    (cg = true -> e_dmu ev1 <> None /\ e_dsig ev1 <> None) /\ (ch = true -> e_d2mu ev1 <> None).
Proof.
  intros o d1 d2 condf hp1 hp2 vK b1 b2 cc1 cc2 su1 su2 f h I1 I2 M1 M2 HR SF SH HB S1 S2.
  destruct (ei_main o d1 hp1 vK b1 I1 condf cc1 su1 S1) as (e1 & c1 & inv1 & Q1 & Q2 & Q3 & Q4 & Q5 & Q6 & Q7 & Q8 & Q9).
  destruct (ei_main o d2 hp2 vK b2 I2 condf cc2 su2 S2) as (e2 & c2 & inv2 & P1 & P2 & P3 & P4 & P5 & P6 & P7 & P8 & P9).
  assert (EE : e2 = e1).
  { apply (ro_eta o d1 d2 hp1 hp2 vK b1 b2 f h I1 I2 HR SF SH); [rewrite <- Q2; apply (setup_eta _ _ _ _ _ _ _ _ I1 (proj1 S1))|rewrite <- P2; apply (setup_eta _ _ _ _ _ _ _ _ I2 (proj1 S2))]. }
  split; [congruence|]. rewrite EE in P1, P2, P3, P4, P5, P9. clear EE e2. intros x2 cg ch Hx Hn Hch.
  destruct (ei_eval o d1 hp1 vK b1 I1 condf cc1 su1 e1 c1 inv1 x2 cg ch S1 M1 Q1 Q3 Q4 Q5 Q6 Q7 Q8 Q9 Hx Hn ltac:(intros E; destruct (Hch E); tauto)) as (ev1 & E1 & (A1 & A2) & (A3 & A4) & A5 & A6).
  destruct (ei_eval o d2 hp2 vK b2 I2 condf cc2 su2 e1 c2 inv2 x2 cg ch S2 M2 P1 P3 P4 P5 P6 P7 P8 P9 Hx Hn ltac:(intros E; destruct (Hch E); tauto)) as (ev2 & E2 & (B1 & B2) & (B3 & B4) & B5 & B6).
  assert (PD : pdf (cN o d1) (smat o d2 hp2 e1)) by (replace (cN o d1) with (cN o d2); [exact P3|eapply ro_N; eassumption]).
  assert (RM := ro_mi o d1 d2 hp1 hp2 vK b1 b2 f h I1 I2 HR SF SH e1 PD HB).
  assert (RS := ro_si o d1 d2 hp1 hp2 vK b1 b2 f h I1 I2 HR SF SH e1 PD).
  assert (RDM := ro_dmu o d1 d2 hp1 hp2 vK b1 b2 f h I1 I2 HR SF SH e1 PD HB).
  assert (RDS := ro_dsig o d1 d2 hp1 hp2 vK b1 b2 f h I1 I2 HR SF SH e1 PD).
  assert (GS : forall i, (i < o_dim o)%nat -> gscl d2 i = gscl d1 i) by (intros i Hi; unfold gscl; rewrite (proj2 SF i Hi), (proj1 SF); reflexivity).
  exists ev1, ev2. split; [exact E1|]. split; [exact E2|].
  split. { split; [exact A1|]. split; [exact B1|]. intros p Hp. rewrite A2, B2 by exact Hp. symmetry. apply RM. }
  split. { split; [exact A3|]. split; [exact B3|]. intros p Hp. rewrite A4, B4 by exact Hp. symmetry. apply RS. }
  assert (G0 : both (same_mat (nr x2) (o_dim o)) (e_dmu ev1) (e_dmu ev2) /\ both (same_mat (nr x2) (o_dim o)) (e_dsig ev1) (e_dsig ev2) /\ (cg = true -> e_dmu ev1 <> None /\ e_dsig ev1 <> None)).
  { destruct cg.
    - destruct A5 as (G1 & T1 & -> & (a1 & a2 & a3) & -> & (a4 & a5 & a6)). destruct B5 as (G2 & T2 & -> & (c4 & c5 & c3) & -> & (c7 & c8 & c6)). cbn [both].
      split; [|split; [|split; discriminate]]; (split; [assumption|split; [assumption|split; [assumption|split; [assumption|]]]]); intros p i Hp Hi.
      + rewrite a3, c3, RDM, GS by assumption. reflexivity.
      + rewrite a6, c6, RDS, GS by assumption. reflexivity.
    - destruct A5 as (-> & ->), B5 as (-> & ->). cbn [both]. split; [exact I|]. split; [exact I|]. discriminate. }
  destruct G0 as (G1 & G2 & G3). split; [exact G1|]. split; [exact G2|].
  assert (H0 : both (same_ten 1 (o_dim o)) (e_d2mu ev1) (e_d2mu ev2) /\ both (both (same_ten 1 (o_dim o))) (e_d2sig ev1) (e_d2sig ev2) /\ (ch = true -> e_d2mu ev1 <> None)).
  { destruct ch; [|destruct A6 as (-> & ->), B6 as (-> & ->); cbn [both]; split; [exact I|]; split; [exact I|]; discriminate].
    destruct A6 as (Hm1 & Hs1 & -> & -> & a1 & a2 & a3 & a4 & a5). destruct B6 as (Hm2 & Hs2 & -> & -> & c3 & c4 & c5 & c6 & c7). cbn [both].
    split; [|split; [|discriminate]].
    - repeat (split; [assumption|]). intros p i j Hp Hi Hj. replace p with 0%nat by lia. destruct (a4 i j Hi Hj) as (v & V1 & ->). destruct (c6 i j Hi Hj) as (w & W1 & ->).
      rewrite (is_partial2_same _ _ _ _ _ _ _ RM W1 V1). rewrite !(proj2 SF) by assumption. reflexivity.
    - rewrite RS in c7. destruct (Req_EM_T (Si o d1 hp1 vK e1 (rows_of x2 0%nat)) 0) as [Z|Z]; [rewrite a5, c7; exact I|].
      destruct a5 as (T1 & -> & a5 & a6 & a7 & a8). destruct c7 as (T2 & -> & c8 & c9 & c10 & c11). cbn [both].
      repeat (split; [assumption|]). intros p i j Hp Hi Hj. replace p with 0%nat by lia. destruct (a8 i j Hi Hj) as (v & V1 & ->). destruct (c11 i j Hi Hj) as (w & W1 & ->).
      rewrite (is_partial2_near_same _ _ _ _ _ _ _ RS W1 V1). rewrite !(proj2 SF) by assumption. reflexivity. }
  tauto.
Qed.
Print Assumptions C50_order_of_the_data.

(** ** Right after set_data the factors do not depend on the order of the data: the hypothesis [same_factors] of
    C50 holds. *)
Lemma dist_same D X1 X2 p q p' q' : nc X1 = D -> nc X2 = D -> (forall i, (i < D)%nat -> mat_at X2 p' i - mat_at X2 q' i = mat_at X1 p i - mat_at X1 q i) ->
  dist (nc X2) (rows_of X2 p') (rows_of X2 q') = dist (nc X1) (rows_of X1 p) (rows_of X1 q).
Proof. intros -> -> H. unfold dist, rows_of. f_equal. apply rsum_ext; intros i Hi. rewrite H by exact Hi. reflexivity. Qed.
Lemma scale_reidx X1 X2 n D f f' best1 best2 us m ds sin sh1 sh2 sc1 sc2 :
  nr X1 = n -> nr X2 = n -> nc X1 = D -> nc X2 = D -> inverse_below n f f' ->
  (forall p i, (p < n)%nat -> (i < D)%nat -> mat_at X2 (f p) i = mat_at X1 p i) ->
  calc_x_shift_n_scale X1 best1 us m ds None sin = Ok (sh1, sc1) -> calc_x_shift_n_scale X2 best2 us m ds None sin = Ok (sh2, sc2) ->
  (0 < n)%nat -> forall i, vat sc2 i = vat sc1 i.
Proof.
  intros R1 R2 C1 C2 (F1 & F2) HX H1 H2 Hn i.
  assert (L1 := proj1 (calc_x_shift_n_scale_inv _ _ _ _ _ _ _ _ _ H1)). assert (L2 := proj1 (calc_x_shift_n_scale_inv _ _ _ _ _ _ _ _ _ H2)).
  unfold calc_x_shift_n_scale in H1, H2. cbv zeta in H1, H2. rewrite C1 in H1. rewrite C2 in H2.
  binv H1 s1 E1. binv H1 si1 E2. binv H1 Y1 E3. binv H1 c1 E4. injection H1 as <- <-.
  binv H2 s2 E5. binv H2 si2 E6. binv H2 Y2 E7. binv H2 c2 E8. injection H2 as <- <-.
  assert (ES : si2 = si1) by (rewrite E6 in E2; injection E2; auto). subst si2.
  assert (LS : vlen si1 = D). { destruct sin as [v|]; [|injection E2 as <-; reflexivity]. binv_assert E2. binv_assert E2. injection E2 as <-. apply Nat.eqb_eq; assumption. }
  rewrite C1 in L1. rewrite C2 in L2.
  assert (Z1 := rok_inv _ _ _ (x_scl_ok _ _ s1 si1 X1 _ _ _ (mspec_refl _) (conj (eq_trans L1 (eq_sym C1)) (fun i _ => eq_refl)) (conj (eq_trans LS (eq_sym C1)) (fun i _ => eq_refl))) E3).
  assert (Z2 := rok_inv _ _ _ (x_scl_ok _ _ s2 si1 X2 _ _ _ (mspec_refl _) (conj (eq_trans L2 (eq_sym C2)) (fun i _ => eq_refl)) (conj (eq_trans LS (eq_sym C2)) (fun i _ => eq_refl))) E7).
  destruct Z1 as (A1 & A2 & A3), Z2 as (B1 & B2 & B3). rewrite R1, C1 in *. rewrite R2, C2 in *.
  cbn [vmap vat]. f_equal.
  destruct (Nat.eqb_spec n 1) as [N1|N1]; [injection E4 as <-; injection E8 as <-; reflexivity|].
  assert (DS : forall p q, (p < n)%nat -> (q < n)%nat -> dist (nc Y2) (rows_of Y2 (f p)) (rows_of Y2 (f q)) = dist (nc Y1) (rows_of Y1 p) (rows_of Y1 q)).
  { intros p q Hp Hq. apply (dist_same D); auto. intros k Hk. rewrite !A3, !B3, !HX by (auto; apply F1; assumption). ring. }
  assert (FI : forall p q, (p < n)%nat -> (q < n)%nat -> p <> q -> f p <> f q) by (intros p q Hp Hq Hne E; apply Hne; rewrite <- (proj2 (F1 p Hp)), E; apply F1, Hq).
  assert (SUR : forall p, (p < n)%nat -> exists p0, (p0 < n)%nat /\ p = f p0) by (intros p Hp; exists (f' p); destruct (F2 p Hp); auto).
  destruct m; [injection E4 as <-; injection E8 as <-; reflexivity| |]; unfold isoscaling in E4, E8.
  - destruct (dist_min_ok Y1 ltac:(lia)) as (m1 & M1 & M2). destruct (dist_min_ok Y2 ltac:(lia)) as (m2 & M3 & M4). rewrite M1 in E4. rewrite M3 in E8. cbn [bind] in E4, E8. injection E4 as <-. injection E8 as <-.
    replace m2 with m1; [reflexivity|]. unfold is_dist_min in M2, M4. rewrite A1 in M2. rewrite B1 in M4. destruct M2 as ((p & q & Hp & Hq & Hne & ->) & K1), M4 as ((p2 & q2 & Hp2 & Hq2 & Hne2 & ->) & K2). apply Rle_antisym.
    + destruct (SUR p2 Hp2) as (p0 & G1 & ->), (SUR q2 Hq2) as (q0 & G2 & ->). rewrite DS by assumption. apply K1; auto; intros EE; apply Hne2; rewrite EE; reflexivity.
    + rewrite <- DS by assumption. apply K2; auto; apply F1; assumption.
  - destruct (dist_max_ok Y1 ltac:(lia)) as (m1 & M1 & M2). destruct (dist_max_ok Y2 ltac:(lia)) as (m2 & M3 & M4). rewrite M1 in E4. rewrite M3 in E8. cbn [bind] in E4, E8. injection E4 as <-. injection E8 as <-.
    replace m2 with m1; [reflexivity|]. unfold is_dist_max in M2, M4. rewrite A1 in M2. rewrite B1 in M4. destruct M2 as ((p & q & Hp & Hq & ->) & K1), M4 as ((p2 & q2 & Hp2 & Hq2 & ->) & K2). apply Rle_antisym.
    + rewrite <- DS by assumption. apply K2; auto; apply F1; assumption.
    + destruct (SUR p2 Hp2) as (p0 & G1 & ->), (SUR q2 Hq2) as (q0 & G2 & ->). rewrite DS by assumption. apply K1; auto.
Qed.
Lemma maxmin_reidx n f f' v1 v2 : vlen v1 = n -> vlen v2 = n -> inverse_below n f f' -> (forall p, (p < n)%nat -> vat v2 (f p) = vat v1 p) -> vmaxmin v2 = vmaxmin v1.
Proof.
  intros L1 L2 (F1 & F2) HV. unfold vmaxmin. rewrite L1, L2.
  assert (IN : forall x, In x (map (vat v1) (seq 0 n)) <-> In x (map (vat v2) (seq 0 n))).
  { intros x. rewrite !in_map_iff. split; intros (p & <- & Hp); apply in_seq in Hp.
    - exists (f p). split; [apply HV; lia|]. apply in_seq. destruct (F1 p ltac:(lia)). lia.
    - exists (f' p). destruct (F2 p ltac:(lia)) as (A & B). split; [rewrite <- HV, B by exact A; reflexivity|]. apply in_seq. lia. }
  destruct n as [|n]; [reflexivity|].
  destruct (rok_ex _ _ (lmax_ok (map (vat v1) (seq 0 (S n))) ltac:(discriminate))) as (a1 & -> & P1 & P2). destruct (rok_ex _ _ (lmax_ok (map (vat v2) (seq 0 (S n))) ltac:(discriminate))) as (a2 & -> & Q1 & Q2).
  destruct (rok_ex _ _ (lmin_ok (map (vat v1) (seq 0 (S n))) ltac:(discriminate))) as (c1 & -> & P3 & P4). destruct (rok_ex _ _ (lmin_ok (map (vat v2) (seq 0 (S n))) ltac:(discriminate))) as (c2 & -> & Q3 & Q4).
  cbn [bind]. do 2 f_equal; apply Rle_antisym; [apply P2|apply Q2|apply Q4|apply P4]; apply IN; assumption.
Qed.
Theorem C50_same_factors_after_set_data :
  forall (o : gpopt) (x1 x2 : mat) (fv1 fv2 : vec) (sf1 sf2 : stdarg vec) (G1 G2 : option mat) (sg1 sg2 : stdarg mat) (m1 m2 : option (list bool)) (d1 d2 : gpdata) (f h : nat -> nat),
  (0 < vlen fv1)%nat -> nr x1 = vlen fv1 -> nc x1 = o_dim o -> nr x2 = vlen fv2 -> nc x2 = o_dim o ->
  set_data o x1 fv1 sf1 G1 sg1 m1 = Ok d1 -> set_data o x2 fv2 sf2 G2 sg2 m2 = Ok d2 ->
  reordered o d1 d2 f h -> same_factors o d1 d2.
Proof.
  intros o x1 x2 fv1 fv2 sf1 sf2 G1 G2 sg1 sg2 m1 m2 d1 d2 f h Hn A1 A2 A3 A4 H1 H2 (HO & EN & (f' & HF) & _).
  assert (J1 := set_data_inv _ _ _ _ _ _ _ _ H1). assert (J2 := set_data_inv _ _ _ _ _ _ _ _ H2).
  destruct J1 as (N1 & X1 & _ & V1 & _). destruct J2 as (N2 & X2 & _ & V2 & _).
  assert (EL : vlen fv2 = vlen fv1) by congruence. rewrite N1 in HF.
  assert (PX : forall p i, (p < vlen fv1)%nat -> (i < o_dim o)%nat -> mat_at x2 (f p) i = mat_at x1 p i) by (intros p i Hp Hi; rewrite <- X1, <- X2; apply (oi_point _ _ _ _ _ HO p); [rewrite N1; exact Hp|exact Hi]).
  assert (PV : forall p, (p < vlen fv1)%nat -> vat fv2 (f p) = vat fv1 p) by (intros p Hp; rewrite <- V1, <- V2; apply (oi_point _ _ _ _ _ HO p); rewrite N1; exact Hp).
  unfold same_factors, out_scale, in_scale.
  unfold set_data in H1, H2. cbv zeta in H1, H2. binv H1 ng Eng. binv H1 stf Estf. binv H1 stg Estg. binv H1 fz Efz. binv H1 gz Egz. binv H1 eta Eeta. binv H1 dm Edm. binv H1 scl Escl. binv H1 Rt ERt. injection H1 as E1.
  binv H2 ng' Eng'. binv H2 stf' Estf'. binv H2 stg' Estg'. binv H2 fz' Efz'. binv H2 gz' Egz'. binv H2 eta' Eeta'. binv H2 dm' Edm'. binv H2 scl' Escl'. binv H2 Rt' ERt'. injection H2 as E2.
  assert (T1 : d_scl d1 = scl) by (rewrite <- E1; reflexivity). assert (T2 : d_scl d2 = scl') by (rewrite <- E2; reflexivity). rewrite T1, T2. clear E1 E2 ERt ERt' Estg Estg' Estf Estf' Egz Egz' Efz Efz' Eng Eng' Edm Edm' T1 T2 Eeta Eeta'.
  destruct (o_use_scl o); [|injection Escl as <-; injection Escl' as <-; split; reflexivity].
  binv Escl md Emd. binv Escl r1 Er1. binv Escl r2 Er2. injection Escl as <-. binv Escl' md' Emd'. binv Escl' r1' Er1'. binv Escl' r2' Er2'. injection Escl' as <-.
  assert (EM : md' = md) by (rewrite EL, Emd in Emd'; injection Emd'; auto). subst md'.
  destruct (set_obj_data_inv _ _ _ _ _ Er2) as (Z1 & Z2 & Z3 & Z4 & Z5 & _ & _ & Z6). destruct (set_obj_data_inv _ _ _ _ _ Er2') as (W1 & W2 & W3 & W4 & W5 & _ & _ & W6). cbn [ob_val] in Z6, W6.
  apply set_xscale_data_inv in Er1. destruct Er1 as (_ & Y4 & _). apply set_xscale_data_inv in Er1'. destruct Er1' as (_ & Y4' & _). cbn [r_x r_best r_use_shift r_mtd r_dist] in Y4, Y4'.
  rewrite Z3, W3. split.
  - unfold calc_obj_scaling in Z6, W6. binv Z6 a1 Q1. binv Z6 c1 Q2. injection Z6 as _ <-. binv W6 a2 Q3. binv W6 c2 Q4. injection W6 as _ <-.
    rewrite EL, (maxmin_reidx (vlen fv1) f f' fv1 fv2 eq_refl EL HF PV), Q2 in Q4. injection Q4; auto.
  - intros i _. apply (scale_reidx x1 x2 (vlen fv1) (o_dim o) f f' _ _ _ _ _ _ _ _ _ _ A1 (eq_trans A3 EL) A2 A4 HF PX Y4 Y4' Hn).
Qed.
Print Assumptions C50_same_factors_after_set_data.
