(** * Property C53: with fixed hyperparameters the predicted mean is linear in the observations and the predicted
    uncertainty does not depend on them.  Vocabulary: [Spec/LinearSpec.v]. *)
From Coq Require Import Reals List Arith Bool Lia Lra Psatz.
From Coquelicot Require Import Coquelicot.
From Verif.Base Require Import NpLite NpFacts Deriv.
From Verif.Spec Require Import KernelSpec LinAlgSpec GpSpec HpSpec DataSpec LkdSpec RescaleSpec EvalSpec OrderSpec LinearSpec.
From Verif.Model Require Import KernelSqExp KernelMatern KernelRatQuad KernelDispatch CommonFun WellCond Rescaling GpState Chol Cov HpInfo HpGrad MeanFun Lkd EvalModel.
From Verif.Proofs Require Import KernTac KernGradBlocks RadialCalculus KernelExact LinAlg CholCorrect Jets Psd CovStruct ThetaGrad HessX2 StateFacts NoiseFacts DataFacts NuggetCond NuggetMain MinMax RescaleFacts
  LinDeriv LkdCore LkdFacts LkdMain EvalKern EvalFacts EvalMain EvalInterp Reorder.
From Verif.Props Require Import CondProps DataProps LkdProps EvalProps OrderProps UnitProps UnitProps2.
Import ListNotations.
Local Open Scope R_scope.

Section L.
Variables (o : gpopt) (d1 d2 : gpdata) (hp1 hp2 : hpv) (vK b1 b2 : R).
Hypothesis I1 : eval_input o d1 hp1 vK b1.
Hypothesis I2 : eval_input o d2 hp2 vK b2.
Hypothesis HS : same_sites o d1 d2.
Hypothesis SH : same_but_beta hp1 hp2.
Notation N := (cN o d1).
Let D1 : data_set o d1. Proof. apply I1. Qed.
Let D2 : data_set o d2. Proof. apply I2. Qed.
Lemma l_grad : d_n_grad d2 = d_n_grad d1.
Proof.
  destruct D1 as (x & fv & sf & g & sg & m & A1 & A2 & A3 & A4). destruct D2 as (x' & fv' & sf' & g' & sg' & m' & B1 & B2 & B3 & B4).
  assert (J1 := data_after_inv _ _ _ _ _ _ _ _ A4). assert (J2 := data_after_inv _ _ _ _ _ _ _ _ B4).
  destruct J1 as (N1 & _ & X1 & _ & _ & _ & G1 & _). destruct J2 as (N2 & _ & X2 & _ & _ & _ & G2 & _). rewrite G1, G2.
  assert (E := ss_n _ _ _ HS). assert (M := ss_mask _ _ _ HS). rewrite N1, N2 in E. rewrite X1, X2 in M. rewrite E, M. reflexivity.
Qed.
Lemma l_N : cN o d2 = N.
Proof. unfold cN. rewrite l_grad, (ss_n _ _ _ HS). reflexivity. Qed.
Lemma l_label r : (r < N)%nat -> exists l, nth_error (gp_labels o d1) r = Some l /\ nth_error (gp_labels o d2) r = Some l /\
  match l with LVal p => (p < d_n_eval d1)%nat | LDer i q => o_use_grad o = true /\ (i < o_dim o)%nat /\ (q < n_used (d_n_eval d1) (d_bvec d1))%nat end.
Proof.
  intros Hr. assert (HO : observations_in o d1 d1 (fun p => p) (fun q => q)).
  { constructor; auto; try (intros p q _ _ E; exact E); try (intros _ p q _ _ E; exact E); try (intros; unfold both; destruct (d_std_fval d1), (d_std_grad d1), (d_grad d1); auto). }
  destruct (sig_label o d1 d1 hp1 hp1 vK b1 b1 (fun p => p) (fun q => q) I1 I1 HO r Hr) as (l & L1 & _ & L3). exists l. split; [exact L1|]. split; [|exact L3].
  unfold gp_labels in *. rewrite (ss_n _ _ _ HS), (ss_mask _ _ _ HS). exact L1.
Qed.
Lemma l_rows p i : (p < d_n_eval d1)%nat -> (i < o_dim o)%nat -> rows_of (fst (get_scl_x_w_dist d2)) p i = rows_of (fst (get_scl_x_w_dist d1)) p i / 1 + (in_shift d1 i - in_shift d2 i) * in_scale d1 i.
Proof.
  intros Hp Hi. rewrite (scaled_rows o d2 p i D2) by (rewrite ?(ss_n _ _ _ HS); assumption). rewrite (scaled_rows o d1 p i D1 Hp Hi), (ss_x _ _ _ HS p i Hp Hi), (proj2 (ss_factors _ _ _ HS) i Hi). field.
Qed.
Lemma l_obs r : (r < N)%nat -> obs_kind (cobs d1 (fst (get_scl_x_w_dist d1)) r) (cobs d2 (fst (get_scl_x_w_dist d2)) r) /\
  forall i, (i < o_dim o)%nat -> obs_pt (cobs d2 (fst (get_scl_x_w_dist d2)) r) i = obs_pt (cobs d1 (fst (get_scl_x_w_dist d1)) r) i / 1 + (in_shift d1 i - in_shift d2 i) * in_scale d1 i.
Proof.
  intros Hr. destruct (l_label r Hr) as (l & L1 & L2 & L3). destruct (label_row o d1 hp1 vK b1 I1 _ _ L1) as (_ & -> & _). destruct (label_row o d2 hp2 vK b2 I2 _ _ L2) as (_ & -> & _).
  rewrite (ss_n _ _ _ HS), (ss_mask _ _ _ HS).
  destruct l as [p|i q]; cbn [label_obs obs_kind obs_pt]; (split; [reflexivity || exact I|]); intros j Hj.
  - apply l_rows; assumption.
  - destruct L3 as (U & Hi & Hq). apply l_rows; [|exact Hj]. apply (gpt_lt o d1); assumption.
Qed.
Lemma l_to x i : (i < o_dim o)%nat -> to_scl d2 x i = to_scl d1 x i / 1 + (in_shift d1 i - in_shift d2 i) * in_scale d1 i.
Proof. intros Hi. unfold to_scl. rewrite (proj2 (ss_factors _ _ _ HS) i Hi). field. Qed.
Let W1 a : owt (fun _ => 1) a = 1. Proof. destruct a; reflexivity. Qed.
Lemma l_kf r q : (r < N)%nat -> (q < N)%nat -> ckf o d2 hp2 (fst (get_scl_x_w_dist d2)) r q = ckf o d1 hp1 (fst (get_scl_x_w_dist d1)) r q.
Proof.
  intros Hr Hq. unfold ckf. destruct SH as (-> & -> & _). destruct (l_obs r Hr) as (K1 & T1). destruct (l_obs q Hq) as (K2 & T2).
  rewrite (kj_scale _ _ _ (fun _ => 1) (cut (o_dim o) (vat (hp_theta hp1))) (cut (o_dim o) (vat (hp_theta hp1))) (cobs d1 (fst (get_scl_x_w_dist d1)) r) (cobs d1 (fst (get_scl_x_w_dist d1)) q)); auto;
    try (apply (cobs_lt o d1 hp1 (ei_noise _ _ _ _ _ I1)); assumption); [rewrite !W1; ring|].
  intros i Hi. split; [lra|]. split; [ring|]. rewrite T1, T2 by exact Hi. field.
Qed.
Lemma l_kx x r : (r < N)%nat -> kxf o d2 hp2 (to_scl d2 x) r = kxf o d1 hp1 (to_scl d1 x) r.
Proof.
  intros Hr. unfold kxf. destruct SH as (-> & -> & _). destruct (l_obs r Hr) as (K1 & T1).
  rewrite (kj_scale _ _ _ (fun _ => 1) (cut (o_dim o) (vat (hp_theta hp1))) (cut (o_dim o) (vat (hp_theta hp1))) (cobs d1 (fst (get_scl_x_w_dist d1)) r) (Val (to_scl d1 x))); cbn [obs_lt obs_kind]; auto;
    try (apply (cobs_lt o d1 hp1 (ei_noise _ _ _ _ _ I1)); assumption); [rewrite !W1; ring|].
  intros i Hi. split; [lra|]. split; [ring|]. cbn [obs_pt]. rewrite T1, l_to by exact Hi. field.
Qed.
Lemma l_dk x j r : (r < N)%nat -> (j < o_dim o)%nat -> dkf o d2 hp2 j (to_scl d2 x) r = dkf o d1 hp1 j (to_scl d1 x) r.
Proof.
  intros Hr Hj. unfold dkf. destruct SH as (-> & -> & _). destruct (l_obs r Hr) as (K1 & T1).
  rewrite (kj_scale _ _ _ (fun _ => 1) (cut (o_dim o) (vat (hp_theta hp1))) (cut (o_dim o) (vat (hp_theta hp1))) (cobs d1 (fst (get_scl_x_w_dist d1)) r) (Der j (to_scl d1 x))); cbn [obs_lt obs_kind]; auto;
    try (apply (cobs_lt o d1 hp1 (ei_noise _ _ _ _ _ I1)); assumption); [rewrite !W1; ring|].
  intros i Hi. split; [lra|]. split; [ring|]. cbn [obs_pt]. rewrite T1, l_to by exact Hi. field.
Qed.
Lemma l_noise r : (r < N)%nat -> noise_fn d2 hp2 None r = noise_fn d1 hp1 None r.
Proof.
  intros Hr. destruct (l_label r Hr) as (l & L1 & L2 & L3). destruct (label_row o d1 hp1 vK b1 I1 _ _ L1) as (_ & _ & _ & ->). destruct (label_row o d2 hp2 vK b2 I2 _ _ L2) as (_ & _ & _ & ->).
  destruct (ss_factors _ _ _ HS) as (SF1 & SF2). destruct SH as (_ & _ & _ & S4 & S5). unfold obs_noise. rewrite (ss_noisy _ _ _ HS). destruct (d_noisy d1); [|reflexivity].
  destruct l as [p|i q]; cbn [noise_variance].
  - assert (Z := ss_std _ _ _ HS). unfold both in Z. destruct (d_std_fval d1), (d_std_fval d2); try contradiction; [rewrite Z, SF1 by exact L3; reflexivity|rewrite S4; reflexivity].
  - destruct L3 as (U & Hi & Hq). assert (Z := ss_stdg _ _ _ HS U). unfold both in Z. destruct (d_std_grad d1), (d_std_grad d2); try contradiction; [rewrite Z, SF1, SF2 by assumption; reflexivity|rewrite S5; reflexivity].
Qed.
Lemma l_smat e r q : (r < N)%nat -> (q < N)%nat -> smat o d2 hp2 e r q = smat o d1 hp1 e r q.
Proof. intros Hr Hq. unfold smat, sdiag. rewrite !l_kf, !l_noise by assumption. reflexivity. Qed.
Lemma l_nugget_matrix r q : (r < N)%nat -> (q < N)%nat -> nugget_matrix o d2 hp2 r q = nugget_matrix o d1 hp1 r q.
Proof.
  intros Hr Hq. unfold nugget_matrix. destruct (is_precon (o_well o)) eqn:W.
  - unfold kcor, kn, dl. rewrite !l_kf, !l_noise by assumption. reflexivity.
  - rewrite l_kf by assumption. reflexivity.
Qed.
Lemma l_eta e1 e2 : eta_is o d1 N (nugget_matrix o d1 hp1) e1 -> eta_is o d2 (cN o d2) (nugget_matrix o d2 hp2) e2 -> e2 = e1.
Proof.
  rewrite l_N. unfold eta_is. destruct (o_eta_const o).
  - intros E1 E2. destruct (etaK_of o d1 D1) as (k1 & g1 & A1 & B1). destruct (etaK_of o d2 D2) as (k2 & g2 & A2 & B2). rewrite (ss_n _ _ _ HS), A1 in A2. injection A2 as <- <-. congruence.
  - assert (RS : forall r, (r < N)%nat -> rsum N (fun j => Rabs (nugget_matrix o d2 hp2 r j)) = rsum N (fun j => Rabs (nugget_matrix o d1 hp1 r j))) by (intros r Hr; apply rsum_ext; intros j Hj; rewrite l_nugget_matrix by assumption; reflexivity).
    intros (i & Hi & -> & M1) (j & Hj & -> & M2). f_equal. apply Rle_antisym; [rewrite RS by exact Hj; apply M1, Hj|rewrite <- (RS i Hi); apply M2, Hi].
Qed.
Variable (e : R).
Hypothesis P1 : pdf N (smat o d1 hp1 e).
Lemma l_pdf : pdf N (smat o d2 hp2 e).
Proof. apply (pdf_ext N (smat o d1 hp1 e)); [|exact P1]. intros r q Hr Hq. rewrite l_smat by assumption. reflexivity. Qed.
Lemma l_ksol b b' r : (forall r, (r < N)%nat -> b' r = b r) -> (r < N)%nat -> ksol N (smat o d2 hp2 e) b' r = ksol N (smat o d1 hp1 e) b r.
Proof.
  intros Hb Hr. symmetry. apply ksol_unique; [exact l_pdf| |exact Hr]. intros i Hi. unfold mv. rewrite Hb by exact Hi. rewrite <- (ksol_ok N (smat o d1 hp1 e) b P1 i Hi). unfold mv. apply rsum_ext; intros j Hj. rewrite l_smat by assumption. reflexivity.
Qed.
Lemma l_pv x : Pv o d2 hp2 e (to_scl d2 x) = Pv o d1 hp1 e (to_scl d1 x).
Proof. unfold Pv, pv, pz. rewrite l_N. f_equal. apply dotp_ext; intros r Hr; [apply l_kx, Hr|]. apply l_ksol; [|exact Hr]. intros; apply l_kx; assumption. Qed.
Lemma l_psig x : Psig o d2 hp2 vK e (to_scl d2 x) = Psig o d1 hp1 vK e (to_scl d1 x).
Proof. unfold Psig. rewrite l_pv. reflexivity. Qed.
Lemma l_si x : Si o d2 hp2 vK e x = Si o d1 hp1 vK e x.
Proof. unfold Si. rewrite l_psig, (proj1 (ss_factors _ _ _ HS)). reflexivity. Qed.
Lemma l_gscl i : (i < o_dim o)%nat -> gscl d2 i = gscl d1 i.
Proof. intros Hi. unfold gscl. rewrite (proj2 (ss_factors _ _ _ HS) i Hi), (proj1 (ss_factors _ _ _ HS)). reflexivity. Qed.
Lemma l_dsig i x : (i < o_dim o)%nat -> Pdsig o d2 hp2 vK e i (to_scl d2 x) = Pdsig o d1 hp1 vK e i (to_scl d1 x).
Proof.
  intros Hi. unfold Pdsig. rewrite l_psig. unfold Pdv, pdv, pz. rewrite l_N. f_equal. f_equal. apply dotp_ext; intros r Hr; [apply l_dk; assumption|]. apply l_ksol; [|exact Hr]. intros; apply l_kx; assumption.
Qed.
End L.

(** the residual of an observation, in the scaled units *)
Lemma l_sres o d hp vK b (HI : eval_input o d hp vK b) r l : nth_error (gp_labels o d) r = Some l ->
  match l with LVal p => (p < d_n_eval d)%nat | LDer i q => True end ->
  sres d b r = match l with LVal p => out_scale d * (vat (d_fval d) p - mean_in_units d b) | LDer i q => out_scale d / in_scale d i * grad_rows d q i end.
Proof.
  intros L1 L3. unfold sres, gres. destruct (label_row o d hp vK b HI _ _ L1) as (_ & _ & -> & _). assert (0 < out_scale d) by (apply (out_scale_pos o); apply HI).
  apply labels_inv in L1. destruct L1 as (V & E). unfold basis, mean_in_units.
  destruct l as [p|i q]; cbn [scaled_value lab_rix radr] in *.
  - subst r. destruct (Nat.ltb_spec p (d_n_eval d)) as [C|C]; [|lia]. field. lra.
  - destruct (Nat.ltb_spec r (d_n_eval d)) as [C|C]; [lia|]. unfold grad_rows. destruct (d_grad d); unfold Rdiv; ring.
Qed.
Section L3.
Variables (o : gpopt) (d1 d2 d3 : gpdata) (hp1 hp2 hp3 : hpv) (vK b1 b2 b3 c1 c2 : R).
Hypothesis I1 : eval_input o d1 hp1 vK b1.
Hypothesis I2 : eval_input o d2 hp2 vK b2.
Hypothesis I3 : eval_input o d3 hp3 vK b3.
Hypothesis HS2 : same_sites o d1 d2.
Hypothesis HS3 : same_sites o d1 d3.
Hypothesis SH2 : same_but_beta hp1 hp2.
Hypothesis SH3 : same_but_beta hp1 hp3.
Hypothesis SP : superposed o d1 d2 d3 c1 c2.
Hypothesis SB : mean_in_units d3 b3 = c1 * mean_in_units d1 b1 + c2 * mean_in_units d2 b2.
Notation N := (cN o d1).
Lemma s_res r : (r < N)%nat -> sres d3 b3 r = c1 * sres d1 b1 r + c2 * sres d2 b2 r.
Proof.
  intros Hr. destruct (l_label o d1 d2 hp1 vK b1 I1 HS2 r Hr) as (l & L1 & L2 & L). destruct (l_label o d1 d3 hp1 vK b1 I1 HS3 r Hr) as (l' & L1' & L3 & _). rewrite L1 in L1'. injection L1' as <-.
  rewrite (l_sres o d1 hp1 vK b1 I1 r l L1) by (destruct l; [exact L|exact I]).
  rewrite (l_sres o d2 hp2 vK b2 I2 r l L2) by (destruct l; [rewrite (ss_n _ _ _ HS2); exact L|exact I]).
  rewrite (l_sres o d3 hp3 vK b3 I3 r l L3) by (destruct l; [rewrite (ss_n _ _ _ HS3); exact L|exact I]).
  destruct (ss_factors _ _ _ HS2) as (F2 & G2). destruct (ss_factors _ _ _ HS3) as (F3 & G3).
  destruct l as [p|i q].
  - rewrite F2, F3, SB, (sp_f _ _ _ _ _ _ SP p L). ring.
  - destruct L as (U & Hi & Hq). rewrite F2, F3, G2, G3, (sp_g _ _ _ _ _ _ SP U q i Hq Hi) by exact Hi. unfold Rdiv. ring.
Qed.
Variable (e : R).
Hypothesis P1 : pdf N (smat o d1 hp1 e).
Lemma s_w r : (r < N)%nat -> ksol N (smat o d3 hp3 e) (sres d3 b3) r = c1 * ksol N (smat o d1 hp1 e) (sres d1 b1) r + c2 * ksol N (smat o d2 hp2 e) (sres d2 b2) r.
Proof.
  intros Hr. rewrite (l_ksol o d1 d3 hp1 hp3 vK b1 b3 I1 I3 HS3 SH3 e P1 (fun r => c1 * sres d1 b1 r + c2 * sres d2 b2 r) _ r s_res Hr).
  rewrite (l_ksol o d1 d2 hp1 hp2 vK b1 b2 I1 I2 HS2 SH2 e P1 (sres d2 b2) (sres d2 b2) r (fun _ _ => eq_refl) Hr).
  symmetry. apply (ksol_unique N (smat o d1 hp1 e) (fun r => c1 * ksol N (smat o d1 hp1 e) (sres d1 b1) r + c2 * ksol N (smat o d1 hp1 e) (sres d2 b2) r) (fun r => c1 * sres d1 b1 r + c2 * sres d2 b2 r) P1); [|exact Hr].
  intros i Hi. rewrite <- (ksol_ok N (smat o d1 hp1 e) (sres d1 b1) P1 i Hi), <- (ksol_ok N (smat o d1 hp1 e) (sres d2 b2) P1 i Hi). unfold mv. rewrite <- !rsum_scal, <- rsum_plus. apply rsum_ext; intros j Hj. ring.
Qed.
Lemma s_mi x : Mi o d3 hp3 b3 e x = c1 * Mi o d1 hp1 b1 e x + c2 * Mi o d2 hp2 b2 e x.
Proof.
  assert (0 < out_scale d1) by (apply (out_scale_pos o); apply I1).
  assert (MM : forall d hp b, Mi o d hp b e x = mean_in_units d b + dotp (cN o d) (kxf o d hp (to_scl d x)) (ksol (cN o d) (smat o d hp e) (sres d b)) / out_scale d).
  { intros d hp b. unfold Mi, mean_in_units, Pmu, pmu, pw, Rdiv. ring. }
  rewrite !MM. rewrite SB, (l_N o d1 d2 hp1 hp2 vK b1 b2 I1 I2 HS2), (l_N o d1 d3 hp1 hp3 vK b1 b3 I1 I3 HS3), (proj1 (ss_factors _ _ _ HS2)), (proj1 (ss_factors _ _ _ HS3)).
  replace (dotp N (kxf o d3 hp3 (to_scl d3 x)) (ksol N (smat o d3 hp3 e) (sres d3 b3))) with (c1 * dotp N (kxf o d1 hp1 (to_scl d1 x)) (ksol N (smat o d1 hp1 e) (sres d1 b1)) + c2 * dotp N (kxf o d2 hp2 (to_scl d2 x)) (ksol N (smat o d2 hp2 e) (sres d2 b2))); [unfold Rdiv; ring|].
  unfold dotp. rewrite <- !rsum_scal, <- rsum_plus. apply rsum_ext; intros r Hr. rewrite s_w by exact Hr. rewrite (l_kx o d1 d2 hp1 hp2 vK b1 b2 I1 I2 HS2 SH2 x r Hr), (l_kx o d1 d3 hp1 hp3 vK b1 b3 I1 I3 HS3 SH3 x r Hr). ring.
Qed.
Lemma s_dmu i x : (i < o_dim o)%nat -> Pdmu o d3 hp3 b3 e i (to_scl d3 x) = c1 * Pdmu o d1 hp1 b1 e i (to_scl d1 x) + c2 * Pdmu o d2 hp2 b2 e i (to_scl d2 x).
Proof.
  intros Hi. unfold Pdmu, pdmu, pw. rewrite (l_N o d1 d2 hp1 hp2 vK b1 b2 I1 I2 HS2), (l_N o d1 d3 hp1 hp3 vK b1 b3 I1 I3 HS3).
  unfold dotp. rewrite <- !rsum_scal, <- rsum_plus. apply rsum_ext; intros r Hr. rewrite s_w by exact Hr. rewrite (l_dk o d1 d2 hp1 hp2 vK b1 b2 I1 I2 HS2 SH2 x i r Hr Hi), (l_dk o d1 d3 hp1 hp3 vK b1 b3 I1 I3 HS3 SH3 x i r Hr Hi). ring.
Qed.
End L3.
Lemma is_partial2_lin (A B C : pt -> R) c1 c2 l i x u v w : (forall y, C y = c1 * A y + c2 * B y) -> is_partial2 A l i x u -> is_partial2 B l i x v -> is_partial2 C l i x w -> w = c1 * u + c2 * v.
Proof.
  assert (P1 : forall (A B C : pt -> R) l x u v w, (forall y, C y = c1 * A y + c2 * B y) -> is_partial A l x u -> is_partial B l x v -> is_partial C l x w -> w = c1 * u + c2 * v).
  { clear. intros A B C l x u v w E HA HB HC. unfold is_partial in *. apply (dR_unique (fun t => C (upd x l t)) (x l)); [exact HC|].
    apply (dR_ext (fun t => c1 * A (upd x l t) + c2 * B (upd x l t))); [intros t; symmetry; apply E|]. apply (dR_plus (fun t => c1 * A (upd x l t)) (fun t => c2 * B (upd x l t))); apply dR_scal; assumption. }
  intros E (g & G1 & G2) (g' & G1' & G2') (g'' & G1'' & G2''). apply (P1 g g' g'' l x u v w); auto. intros y. apply (P1 A B C i y); auto.
Qed.

(** ** C53, the uncertainty: other values and gradients observed at the same sites give the same standard deviations. *)
Theorem C53_uncertainty_ignores_the_observations :
  forall (o : gpopt) (d1 d2 : gpdata) (condf : mat -> R) (hp1 hp2 : hpv) (vK b1 b2 : R) (cc1 cc2 : bool) (su1 su2 : surr),
  eval_input o d1 hp1 vK b1 -> eval_input o d2 hp2 vK b2 -> mask_supported o d1 -> mask_supported o d2 ->
  same_sites o d1 d2 -> same_but_beta hp1 hp2 ->
  set_up o d1 condf hp1 cc1 su1 -> set_up o d2 condf hp2 cc2 su2 ->
  k_eta (su_K su2) = k_eta (su_K su1) /\
  forall (x2 : mat) (cg ch : bool), nc x2 = o_dim o -> (0 < nr x2)%nat -> (ch = true -> cg = true /\ hess_supported o d1 hp1 x2 /\ hess_supported o d2 hp2 x2) ->
  exists ev1 ev2, eval_model o d1 hp1 su1 x2 cg ch = Ok ev1 /\ eval_model o d2 hp2 su2 x2 cg ch = Ok ev2 /\
    same_vec (nr x2) (e_sig ev1) (e_sig ev2) /\ both (same_mat (nr x2) (o_dim o)) (e_dsig ev1) (e_dsig ev2) /\ both (both (same_ten 1 (o_dim o))) (e_d2sig ev1) (e_d2sig ev2) /\
    (cg = true -> e_dsig ev1 <> None).
Proof.
  intros o d1 d2 condf hp1 hp2 vK b1 b2 cc1 cc2 su1 su2 I1 I2 M1 M2 HS SH S1 S2.
  destruct (ei_main o d1 hp1 vK b1 I1 condf cc1 su1 S1) as (e1 & c1 & inv1 & Q1 & Q2 & Q3 & Q4 & Q5 & Q6 & Q7 & Q8 & Q9).
  destruct (ei_main o d2 hp2 vK b2 I2 condf cc2 su2 S2) as (e2 & c2 & inv2 & P1 & P2 & P3 & P4 & P5 & P6 & P7 & P8 & P9).
  assert (EE : e2 = e1).
  { eapply (l_eta o d1 d2 hp1 hp2 vK b1 b2 I1 I2 HS SH); [rewrite <- Q2; apply (setup_eta _ _ _ _ _ _ _ _ I1 (proj1 S1))|rewrite <- P2; apply (setup_eta _ _ _ _ _ _ _ _ I2 (proj1 S2))]. }
  split; [congruence|]. rewrite EE in P1, P2, P3, P4, P5, P9. clear EE e2. intros x2 cg ch Hx Hn Hch.
  destruct (ei_eval o d1 hp1 vK b1 I1 condf cc1 su1 e1 c1 inv1 x2 cg ch S1 M1 Q1 Q3 Q4 Q5 Q6 Q7 Q8 Q9 Hx Hn ltac:(intros E; destruct (Hch E); tauto)) as (ev1 & E1 & _ & (A3 & A4) & A5 & A6).
  destruct (ei_eval o d2 hp2 vK b2 I2 condf cc2 su2 e1 c2 inv2 x2 cg ch S2 M2 P1 P3 P4 P5 P6 P7 P8 P9 Hx Hn ltac:(intros E; destruct (Hch E); tauto)) as (ev2 & E2 & _ & (B3 & B4) & B5 & B6).
  assert (RS := l_si o d1 d2 hp1 hp2 vK b1 b2 I1 I2 HS SH e1 Q3). assert (RDS := l_dsig o d1 d2 hp1 hp2 vK b1 b2 I1 I2 HS SH e1 Q3). assert (SF := ss_factors _ _ _ HS).
  exists ev1, ev2. split; [exact E1|]. split; [exact E2|].
  split. { split; [exact A3|]. split; [exact B3|]. intros p Hp. rewrite A4, B4 by exact Hp. symmetry. apply RS. }
  assert (G0 : both (same_mat (nr x2) (o_dim o)) (e_dsig ev1) (e_dsig ev2) /\ (cg = true -> e_dsig ev1 <> None)).
  { destruct cg.
    - destruct A5 as (G1 & T1 & _ & _ & -> & (a4 & a5 & a6)). destruct B5 as (G2 & T2 & _ & _ & -> & (c7 & c8 & c6)). cbn [both]. split; [|discriminate].
      split; [assumption|split; [assumption|split; [assumption|split; [assumption|]]]]. intros p i Hp Hi. rewrite a6, c6, RDS, (l_gscl o d1 d2 HS) by assumption. reflexivity.
    - destruct A5 as (_ & ->), B5 as (_ & ->). cbn [both]. split; [exact I|]. discriminate. }
  destruct G0 as (G1 & G3). split; [exact G1|]. split; [|exact G3].
  destruct ch; [|destruct A6 as (_ & ->), B6 as (_ & ->); exact I].
  destruct A6 as (Hm1 & Hs1 & _ & -> & a1 & a2 & a3 & a4 & a5). destruct B6 as (Hm2 & Hs2 & _ & -> & c3 & c4 & c5 & c6 & c7). cbn [both].
  rewrite RS in c7. destruct (Req_EM_T (Si o d1 hp1 vK e1 (rows_of x2 0%nat)) 0) as [Z|Z]; [rewrite a5, c7; exact I|].
  destruct a5 as (T1 & -> & a5 & a6 & a7 & a8). destruct c7 as (T2 & -> & c8 & c9 & c10 & c11). cbn [both].
  repeat (split; [assumption|]). intros p i j Hp Hi Hj. replace p with 0%nat by lia. destruct (a8 i j Hi Hj) as (v & V1 & ->). destruct (c11 i j Hi Hj) as (w & W1 & ->).
  rewrite (is_partial2_near_same _ _ _ _ _ _ _ RS W1 V1). rewrite !(proj2 SF) by assumption. reflexivity.
Qed.
Print Assumptions C53_uncertainty_ignores_the_observations.

(** ** C53, the mean: observations that are a combination of two sets of observations at the same sites give the same
    combination of the predictions. *)
Theorem C53_mean_is_linear_in_the_observations :
  forall (o : gpopt) (d1 d2 d3 : gpdata) (condf : mat -> R) (hp1 hp2 hp3 : hpv) (vK b1 b2 b3 c1 c2 : R) (cc1 cc2 cc3 : bool) (su1 su2 su3 : surr),
  eval_input o d1 hp1 vK b1 -> eval_input o d2 hp2 vK b2 -> eval_input o d3 hp3 vK b3 -> mask_supported o d1 -> mask_supported o d2 -> mask_supported o d3 ->
  same_sites o d1 d2 -> same_sites o d1 d3 -> same_but_beta hp1 hp2 -> same_but_beta hp1 hp3 ->
  superposed o d1 d2 d3 c1 c2 -> mean_in_units d3 b3 = c1 * mean_in_units d1 b1 + c2 * mean_in_units d2 b2 ->
  set_up o d1 condf hp1 cc1 su1 -> set_up o d2 condf hp2 cc2 su2 -> set_up o d3 condf hp3 cc3 su3 ->
  forall (x2 : mat) (cg ch : bool), nc x2 = o_dim o -> (0 < nr x2)%nat -> (ch = true -> cg = true /\ hess_supported o d1 hp1 x2 /\ hess_supported o d2 hp2 x2 /\ hess_supported o d3 hp3 x2) ->
  exists ev1 ev2 ev3, eval_model o d1 hp1 su1 x2 cg ch = Ok ev1 /\ eval_model o d2 hp2 su2 x2 cg ch = Ok ev2 /\ eval_model o d3 hp3 su3 x2 cg ch = Ok ev3 /\
    vec_sup (nr x2) c1 c2 (e_mu ev1) (e_mu ev2) (e_mu ev3) /\ all3 (mat_sup (nr x2) (o_dim o) c1 c2) (e_dmu ev1) (e_dmu ev2) (e_dmu ev3) /\
    all3 (ten_sup 1 (o_dim o) c1 c2) (e_d2mu ev1) (e_d2mu ev2) (e_d2mu ev3) /\ (cg = true -> e_dmu ev1 <> None) /\ (ch = true -> e_d2mu ev1 <> None).
Proof.
  intros o d1 d2 d3 condf hp1 hp2 hp3 vK b1 b2 b3 c1 c2 cc1 cc2 cc3 su1 su2 su3 I1 I2 I3 M1 M2 M3 HS2 HS3 SH2 SH3 SP SB S1 S2 S3 x2 cg ch Hx Hn Hch.
  destruct (ei_main o d1 hp1 vK b1 I1 condf cc1 su1 S1) as (e1 & f1 & inv1 & Q1 & Q2 & Q3 & Q4 & Q5 & Q6 & Q7 & Q8 & Q9).
  destruct (ei_main o d2 hp2 vK b2 I2 condf cc2 su2 S2) as (e2 & f2 & inv2 & P1 & P2 & P3 & P4 & P5 & P6 & P7 & P8 & P9).
  destruct (ei_main o d3 hp3 vK b3 I3 condf cc3 su3 S3) as (e3 & f3 & inv3 & T1 & T2 & T3 & T4 & T5 & T6 & T7 & T8 & T9).
  assert (E2 : e2 = e1).
  { eapply (l_eta o d1 d2 hp1 hp2 vK b1 b2 I1 I2 HS2 SH2); [rewrite <- Q2; apply (setup_eta _ _ _ _ _ _ _ _ I1 (proj1 S1))|rewrite <- P2; apply (setup_eta _ _ _ _ _ _ _ _ I2 (proj1 S2))]. }
  assert (E3 : e3 = e1).
  { eapply (l_eta o d1 d3 hp1 hp3 vK b1 b3 I1 I3 HS3 SH3); [rewrite <- Q2; apply (setup_eta _ _ _ _ _ _ _ _ I1 (proj1 S1))|rewrite <- T2; apply (setup_eta _ _ _ _ _ _ _ _ I3 (proj1 S3))]. }
  rewrite E2 in P1, P2, P3, P4, P5, P9. rewrite E3 in T1, T2, T3, T4, T5, T9. clear E2 E3 e2 e3.
  destruct (ei_eval o d1 hp1 vK b1 I1 condf cc1 su1 e1 f1 inv1 x2 cg ch S1 M1 Q1 Q3 Q4 Q5 Q6 Q7 Q8 Q9 Hx Hn ltac:(intros E; destruct (Hch E); tauto)) as (ev1 & E1 & (A1 & A2) & _ & A5 & A6).
  destruct (ei_eval o d2 hp2 vK b2 I2 condf cc2 su2 e1 f2 inv2 x2 cg ch S2 M2 P1 P3 P4 P5 P6 P7 P8 P9 Hx Hn ltac:(intros E; destruct (Hch E); tauto)) as (ev2 & E2 & (B1 & B2) & _ & B5 & B6).
  destruct (ei_eval o d3 hp3 vK b3 I3 condf cc3 su3 e1 f3 inv3 x2 cg ch S3 M3 T1 T3 T4 T5 T6 T7 T8 T9 Hx Hn ltac:(intros E; destruct (Hch E); tauto)) as (ev3 & E3 & (C1 & C2) & _ & C5 & C6).
  assert (RM := s_mi o d1 d2 d3 hp1 hp2 hp3 vK b1 b2 b3 c1 c2 I1 I2 I3 HS2 HS3 SH2 SH3 SP SB e1 Q3).
  assert (RD := s_dmu o d1 d2 d3 hp1 hp2 hp3 vK b1 b2 b3 c1 c2 I1 I2 I3 HS2 HS3 SH2 SH3 SP SB e1 Q3).
  assert (SF2 := ss_factors _ _ _ HS2). assert (SF3 := ss_factors _ _ _ HS3).
  exists ev1, ev2, ev3. do 3 (split; [assumption|]).
  split. { do 3 (split; [assumption|]). intros p Hp. rewrite A2, B2, C2 by exact Hp. apply RM. }
  assert (G0 : all3 (mat_sup (nr x2) (o_dim o) c1 c2) (e_dmu ev1) (e_dmu ev2) (e_dmu ev3) /\ (cg = true -> e_dmu ev1 <> None)).
  { destruct cg.
    - destruct A5 as (G1 & _ & -> & (a4 & a5 & a6) & _). destruct B5 as (G2 & _ & -> & (c7 & c8 & c6) & _). destruct C5 as (G3 & _ & -> & (d7 & d8 & d6) & _). cbn [all3]. split; [|discriminate].
      do 6 (split; [assumption|]). intros p i Hp Hi. rewrite a6, c6, d6, RD, (l_gscl o d1 d2 HS2), (l_gscl o d1 d3 HS3) by assumption. ring.
    - destruct A5 as (-> & _), B5 as (-> & _), C5 as (-> & _). cbn [all3]. split; [exact I|]. discriminate. }
  destruct G0 as (G1 & G3). split; [exact G1|]. assert (G4 : all3 (ten_sup 1 (o_dim o) c1 c2) (e_d2mu ev1) (e_d2mu ev2) (e_d2mu ev3) /\ (ch = true -> e_d2mu ev1 <> None)); [|tauto].
  destruct ch; [|destruct A6 as (-> & _), B6 as (-> & _), C6 as (-> & _); split; [exact I|discriminate]].
  destruct A6 as (Hm1 & _ & -> & _ & a1 & a2 & a3 & a4 & _). destruct B6 as (Hm2 & _ & -> & _ & c3 & c4 & c5 & c6 & _). destruct C6 as (Hm3 & _ & -> & _ & d4 & d5 & d6 & d7 & _). cbn [all3]. split; [|discriminate].
  do 9 (split; [assumption|]). intros p i j Hp Hi Hj. replace p with 0%nat by lia. destruct (a4 i j Hi Hj) as (u & U1 & ->). destruct (c6 i j Hi Hj) as (v & V1 & ->). destruct (d7 i j Hi Hj) as (w & W1 & ->).
  rewrite (is_partial2_lin _ _ _ _ _ _ _ _ _ _ _ RM U1 V1 W1). rewrite !(proj2 SF2), !(proj2 SF3) by assumption. ring.
Qed.
Print Assumptions C53_mean_is_linear_in_the_observations.

(** ** C53, constant data: when every observed value is the mean of the process and every observed gradient is zero, the
    prediction is that value, with zero gradient, at every point. *)
Theorem C53_constant_data :
  forall (o : gpopt) (d : gpdata) (condf : mat -> R) (hp : hpv) (vK b c : R) (cc : bool) (su : surr),
  eval_input o d hp vK b -> mask_supported o d -> set_up o d condf hp cc su ->
  (forall p, (p < d_n_eval d)%nat -> vat (d_fval d) p = c) ->
  (o_use_grad o = true -> forall q i, (q < n_used (d_n_eval d) (d_bvec d))%nat -> (i < o_dim o)%nat -> grad_rows d q i = 0) ->
  mean_in_units d b = c ->
  forall (x2 : mat), nc x2 = o_dim o -> (0 < nr x2)%nat ->
  exists ev G, eval_model o d hp su x2 true false = Ok ev /\ e_dmu ev = Some G /\ vlen (e_mu ev) = nr x2 /\ nr G = nr x2 /\ nc G = o_dim o /\
    forall p, (p < nr x2)%nat -> vat (e_mu ev) p = c /\ forall i, (i < o_dim o)%nat -> mat_at G p i = 0.
Proof.
  intros o d condf hp vK b c cc su HI MS SU HF HG HM x2 Hx Hn.
  destruct (ei_main o d hp vK b HI condf cc su SU) as (e & f & inv & Q1 & Q2 & Q3 & Q4 & Q5 & Q6 & Q7 & Q8 & Q9).
  destruct (ei_eval o d hp vK b HI condf cc su e f inv x2 true false SU MS Q1 Q3 Q4 Q5 Q6 Q7 Q8 Q9 Hx Hn ltac:(discriminate)) as (ev & E1 & (A1 & A2) & _ & (G & _ & A3 & (A4 & A5 & A6) & _) & _).
  assert (SS : same_sites o d d).
  { constructor; auto; try (split; reflexivity); intros; unfold both; destruct (d_std_fval d), (d_std_grad d); auto. }
  assert (RS : forall r, (r < cN o d)%nat -> sres d b r = 0).
  { intros r Hr. destruct (l_label o d d hp vK b HI SS r Hr) as (l & L1 & _ & L). rewrite (l_sres o d hp vK b HI r l L1) by (destruct l; [exact L|exact I]).
    destruct l as [p|i q]; [rewrite HM, (HF p L); ring|]. destruct L as (U & Hi & Hq). rewrite (HG U q i Hq Hi). ring. }
  assert (W0 : forall r, (r < cN o d)%nat -> ksol (cN o d) (smat o d hp e) (sres d b) r = 0).
  { intros r Hr. symmetry. apply (ksol_unique (cN o d) (smat o d hp e) (fun _ => 0) (sres d b) Q3); [|exact Hr]. intros i Hi. rewrite (RS i Hi). unfold mv. apply rsum_0. intros; ring. }
  assert (D0 : forall g, dotp (cN o d) g (ksol (cN o d) (smat o d hp e) (sres d b)) = 0) by (intros g; unfold dotp; apply rsum_0; intros r Hr; rewrite (W0 r Hr); ring).
  exists ev, G. do 5 (split; [assumption|]). intros p Hp. split.
  - rewrite A2 by exact Hp. unfold Mi, Pmu, pmu, pw. rewrite D0. unfold mean_in_units in HM. rewrite <- HM. unfold Rdiv. ring.
  - intros i Hi. rewrite A6 by assumption. unfold Pdmu, pdmu, pw. rewrite D0. ring.
Qed.
Print Assumptions C53_constant_data.

(** ** The hypotheses are met: three points in the plane with gradients, 'precon', 3 times one set of observations minus 2
    times another. *)
Definition le_f2 : vec := mkvec 3 (fun i => 5 - INR i).
Definition le_g2 : mat := mkmat 3 2 (fun i j => 1 + INR i * INR j).
Example C53_hypotheses_met : exists d1 d2 d3 hp1 hp2 hp3 v b1 b2 b3 su1 su2 su3,
  eval_input ue_opt d1 hp1 v b1 /\ eval_input ue_opt d2 hp2 v b2 /\ eval_input ue_opt d3 hp3 v b3 /\ mask_supported ue_opt d1 /\ mask_supported ue_opt d2 /\ mask_supported ue_opt d3 /\
  same_sites ue_opt d1 d2 /\ same_sites ue_opt d1 d3 /\ same_but_beta hp1 hp2 /\ same_but_beta hp1 hp3 /\ superposed ue_opt d1 d2 d3 3 (-2) /\
  mean_in_units d3 b3 = 3 * mean_in_units d1 b1 + (-2) * mean_in_units d2 b2 /\
  set_up ue_opt d1 (fun _ => 1) hp1 true su1 /\ set_up ue_opt d2 (fun _ => 1) hp2 true su2 /\ set_up ue_opt d3 (fun _ => 1) hp3 true su3 /\
  d_fval d1 = ex_f /\ d_fval d2 = le_f2.
Proof.
  assert (TH : forall i, (i < 2)%nat -> 0 < 1 / 2 + INR i) by (intros i _; assert (Z := pos_INR i); lra).
  destruct (ue_data ex_x ex_f ue_g (fun i => 1 / 2 + INR i) 2 (1 / 3) eq_refl eq_refl eq_refl eq_refl eq_refl TH ltac:(lra)) as (d1 & I1 & A1 & A2 & A3 & A4 & A5 & A6 & A7 & A8 & A9).
  destruct (ue_data ex_x le_f2 le_g2 (fun i => 1 / 2 + INR i) 2 (1 / 2) eq_refl eq_refl eq_refl eq_refl eq_refl TH ltac:(lra)) as (d2 & I2 & B1 & B2 & B3 & B4 & B5 & B6 & B7 & B8 & B9).
  destruct (ue_data ex_x (mkvec 3 (fun i => 3 * vat ex_f i + (-2) * vat le_f2 i)) (mkmat 3 2 (fun i j => 3 * mat_at ue_g i j + (-2) * mat_at le_g2 i j)) (fun i => 1 / 2 + INR i) 2 0 eq_refl eq_refl eq_refl eq_refl eq_refl TH ltac:(lra)) as (d3 & I3 & C1 & C2 & C3 & C4 & C5 & C6 & C7 & C8 & C9).
  destruct (C30_setup_succeeds ue_opt d1 (fun _ => 1) _ _ _ true I1) as (su1 & _ & HS1). destruct (C30_setup_succeeds ue_opt d2 (fun _ => 1) _ _ _ true I2) as (su2 & _ & HS2). destruct (C30_setup_succeeds ue_opt d3 (fun _ => 1) _ _ _ true I3) as (su3 & _ & HS3).
  exists d1, d2, d3. do 3 eexists. exists 2. do 3 eexists. exists su1, su2, su3. do 3 (split; [eassumption|]). do 3 (split; [intros _ C; discriminate|]).
  assert (SS : forall d d', d_scl d = None -> d_scl d' = None -> d_n_eval d = 3%nat -> d_n_eval d' = 3%nat -> d_bvec d = None -> d_bvec d' = None -> d_noisy d = false -> d_noisy d' = false -> d_x d = ex_x -> d_x d' = ex_x ->
     d_std_fval d = Some (vconst 3 0) -> d_std_fval d' = Some (vconst 3 0) -> d_std_grad d = Some (mconst 3 2 0) -> d_std_grad d' = Some (mconst 3 2 0) -> same_sites ue_opt d d').
  { intros d d' X1 X2 X3 X4 X5 X6 X7 X8 X9 X10 X11 X12 X13 X14. constructor; try congruence.
    - rewrite X11, X12. cbn. reflexivity.
    - intros _. rewrite X13, X14. cbn. reflexivity.
    - split; [unfold out_scale; rewrite X1, X2; reflexivity|]. intros; unfold in_scale; rewrite X1, X2; reflexivity. }
  split; [apply SS; assumption|]. split; [apply SS; assumption|]. do 2 (split; [repeat split|]). split.
  { constructor; [intros p Hp; rewrite A6, B6, C6; reflexivity|]. intros _ q i Hq Hi. unfold grad_rows. rewrite A8, B8, C8. reflexivity. }
  split. { unfold mean_in_units, out_scale, out_shift. rewrite A1, B1, C1. lra. }
  split; [apply HS1; left; reflexivity|]. split; [apply HS2; left; reflexivity|]. split; [apply HS3; left; reflexivity|]. split; assumption.
Qed.
Example C53_constant_met : exists d hp v su,
  eval_input ue_opt d hp v 7 /\ mask_supported ue_opt d /\ set_up ue_opt d (fun _ => 1) hp true su /\ (forall p, (p < d_n_eval d)%nat -> vat (d_fval d) p = 7) /\
  (forall q i, (q < n_used (d_n_eval d) (d_bvec d))%nat -> (i < 2)%nat -> grad_rows d q i = 0) /\ mean_in_units d 7 = 7 /\ d_n_eval d = 3%nat.
Proof.
  destruct (ue_data ex_x (vconst 3 7) (mconst 3 2 0) (fun i => 1 / 2 + INR i) 2 7 eq_refl eq_refl eq_refl eq_refl eq_refl ltac:(intros i _; assert (Z := pos_INR i); lra) ltac:(lra)) as (d & I1 & A1 & A2 & A3 & A4 & A5 & A6 & A7 & A8 & A9).
  destruct (C30_setup_succeeds ue_opt d (fun _ => 1) _ _ _ true I1) as (su & _ & HS1). exists d. do 2 eexists. exists su. split; [exact I1|]. split; [intros _ C; discriminate|]. split; [apply HS1; left; reflexivity|].
  split; [intros; rewrite A6; reflexivity|]. split; [intros; unfold grad_rows; rewrite A8; reflexivity|]. split; [|exact A2]. unfold mean_in_units, out_scale, out_shift. rewrite A1. lra.
Qed.
