(** * Property C56: the order of the coordinates does not matter.  Vocabulary: [Spec/CoordSpec.v], [Spec/OrderSpec.v], [Spec/EvalSpec.v]. *)
From Coq Require Import Reals List Arith Bool Lia Lra Psatz.
From Coquelicot Require Import Coquelicot.
From Verif.Base Require Import NpLite NpFacts Deriv.
From Verif.Spec Require Import KernelSpec LinAlgSpec GpSpec HpSpec DataSpec LkdSpec RescaleSpec EvalSpec OrderSpec CoordSpec.
From Verif.Model Require Import KernelSqExp KernelMatern KernelRatQuad KernelDispatch CommonFun WellCond Rescaling GpState Chol Cov HpInfo HpGrad MeanFun Lkd EvalModel.
From Verif.Proofs Require Import KernTac KernGradBlocks RadialCalculus KernelExact LinAlg CholCorrect Jets Psd CovStruct ThetaGrad HessX2 StateFacts NoiseFacts DataFacts NuggetCond NuggetMain MinMax RescaleFacts
  LinDeriv LkdCore LkdFacts LkdMain EvalKern EvalFacts EvalMain EvalInterp HpInfoFacts Reorder.
From Verif.Props Require Import CondProps DataProps LkdProps EvalProps EvalProps2 OrderProps OrderLkd.
Import ListNotations.
Local Open Scope R_scope.

(** observations whose coordinates are renamed *)
Definition obs_ren (pi : nat -> nat) (a b : obs) : Prop := match a, b with Val _, Val _ => True | Der i _, Der j _ => j = pi i | _, _ => False end.
Lemma pi_eqb d pi pi' i j : inverse_below d pi pi' -> (i < d)%nat -> (j < d)%nat -> (pi i =? pi j)%nat = (i =? j)%nat.
Proof.
  intros (P & _) Hi Hj. destruct (Nat.eqb_spec (pi i) (pi j)) as [E|E], (Nat.eqb_spec i j) as [E'|E']; try reflexivity; [|subst; congruence].
  exfalso. apply E'. rewrite <- (proj2 (P i Hi)), E. apply P, Hj.
Qed.
Lemma kj_ren k al d pi pi' th1 th2 a b a' b' : inverse_below d pi pi' -> (forall i, (i < d)%nat -> th2 (pi i) = th1 i) ->
  obs_lt d a -> obs_lt d b -> obs_ren pi a a' -> obs_ren pi b b' ->
  (forall i, (i < d)%nat -> obs_pt a' (pi i) - obs_pt b' (pi i) = obs_pt a i - obs_pt b i) -> kjet k al d (cut d th2) a' b' = kjet k al d (cut d th1) a b.
Proof.
  intros PI HT La Lb Ka Kb H. assert (P := proj1 PI).
  assert (CT : forall i, (i < d)%nat -> cut d th2 (pi i) = cut d th1 i) by (intros i Hi; rewrite !cut_lt by (try apply P; exact Hi); apply HT, Hi).
  assert (S : sqd d (cut d th2) (obs_pt a') (obs_pt b') = sqd d (cut d th1) (obs_pt a) (obs_pt b)).
  { unfold sqd. rewrite (rsum_reidx d pi pi' (proj1 PI) (proj2 PI)). apply rsum_ext; intros i Hi. rewrite H, CT by exact Hi. reflexivity. }
  destruct a as [x|i x], a' as [x'|i' x']; cbn in Ka; try contradiction; destruct b as [y|j y], b' as [y'|j' y']; cbn in Kb; try contradiction; subst;
    unfold kjet, rjet; cbn [obs_pt] in S, H; cbn [obs_lt] in La, Lb; rewrite ?S, ?H, ?CT, ?(pi_eqb d pi pi') by assumption; reflexivity.
Qed.

Section R.
Variables (o : gpopt) (d1 d2 : gpdata) (hp1 hp2 : hpv) (vK b1 b2 : R) (pi pi' : nat -> nat).
Hypothesis I1 : eval_input o d1 hp1 vK b1.
Hypothesis I2 : eval_input o d2 hp2 vK b2.
Hypothesis HO : coords_renamed o d1 d2 pi.
Hypothesis PI : inverse_below (o_dim o) pi pi'.
Hypothesis SF : renamed_factors o d1 d2 pi.
Hypothesis SH : renamed_hp o pi hp1 hp2.
Notation N := (cN o d1).
Definition clmap (l : label) : label := match l with LVal p => LVal p | LDer i q => LDer (pi i) q end.
Definition csig (r : nat) : nat := match unradr (d_n_eval d1) (d_n_grad d1) r with F p => p | G i q => radr (d_n_eval d1) (d_n_grad d1) (G (pi i) q) end.
Let D1 : data_set o d1. Proof. apply I1. Qed.
Let D2 : data_set o d2. Proof. apply I2. Qed.
Lemma c_grad : d_n_grad d2 = d_n_grad d1.
Proof.
  destruct (gp_mask o d1 D1) as (M1 & EN1 & EG1 & EB1). destruct (gp_mask o d2 D2) as (M2 & EN2 & EG2 & EB2).
  destruct D1 as (x & fv & sf & g & sg & b & A1 & A2 & A3 & A4). destruct D2 as (x' & fv' & sf' & g' & sg' & b' & B1 & B2 & B3 & B4).
  assert (J1 := data_after_inv _ _ _ _ _ _ _ _ A4). assert (J2 := data_after_inv _ _ _ _ _ _ _ _ B4).
  destruct J1 as (_ & _ & _ & _ & _ & _ & G1 & _). destruct J2 as (_ & _ & _ & _ & _ & _ & G2 & _).
  destruct (o_use_grad o); [|congruence]. rewrite EG1, EG2 by reflexivity. rewrite (cr_n _ _ _ _ HO), (cr_mask _ _ _ _ HO). reflexivity.
Qed.
Lemma c_N : cN o d2 = cN o d1.
Proof. unfold cN. rewrite c_grad, (cr_n _ _ _ _ HO). reflexivity. Qed.
Lemma c_label r : (r < N)%nat -> exists l, nth_error (gp_labels o d1) r = Some l /\ nth_error (gp_labels o d2) (csig r) = Some (clmap l) /\
  match l with LVal p => (p < d_n_eval d1)%nat | LDer i q => o_use_grad o = true /\ (i < o_dim o)%nat /\ (q < n_used (d_n_eval d1) (d_bvec d1))%nat end.
Proof.
  intros Hr. destruct (gp_mask o d1 D1) as (M1 & EN1 & EG1 & EB1).
  unfold cN in Hr. destruct (unradr_ok _ _ _ _ Hr) as (V & ER). exists (rix_lab (unradr (d_n_eval d1) (d_n_grad d1) r)). unfold csig, gp_labels. rewrite (cr_n _ _ _ _ HO), (cr_mask _ _ _ _ HO).
  destruct (unradr (d_n_eval d1) (d_n_grad d1) r) as [p|i q]; cbn [rvalid radr rix_lab clmap] in *.
  - subst r. split; [apply (DataFacts.labels_nth _ _ _ (F p)); exact V|]. split; [|exact V]. apply (DataFacts.labels_nth _ _ _ (F p)). exact V.
  - destruct V as (Vi & Vq). assert (U : o_use_grad o = true).
    { destruct (o_use_grad o) eqn:U; [reflexivity|]. unfold gp_dim in EN1. rewrite U in EN1. exfalso. assert (d_n_grad d1 * o_dim o = 0)%nat by lia. nia. }
    rewrite !n_used_count by assumption. rewrite <- EG1 by exact U. unfold gp_dim. rewrite U.
    split; [rewrite <- ER; apply (DataFacts.labels_nth _ _ _ (G i q)); split; assumption|]. split; [|auto].
    apply (DataFacts.labels_nth _ _ _ (G (pi i) q)). split; [apply PI, Vi|exact Vq].
Qed.
Lemma c_surj : exists tau, (forall r, (r < N)%nat -> (csig r < N)%nat /\ tau (csig r) = r) /\ (forall s, (s < N)%nat -> (tau s < N)%nat /\ csig (tau s) = s).
Proof.
  destruct PI as (P1 & P2).
  exists (fun s => match unradr (d_n_eval d1) (d_n_grad d1) s with F p => p | G i q => radr (d_n_eval d1) (d_n_grad d1) (G (pi' i) q) end).
  split; intros r Hr; unfold cN in *; destruct (unradr_ok _ _ _ _ Hr) as (V & ER); unfold csig; destruct (unradr (d_n_eval d1) (d_n_grad d1) r) as [p|i q].
  - cbn [radr] in ER. subst r. split; [exact Hr|]. change p with (radr (d_n_eval d1) (d_n_grad d1) (F p)) at 1. rewrite (unradr_radr _ _ (o_dim o) (F p)) by exact V. reflexivity.
  - destruct V as (Vi & Vq). destruct (P1 i Vi) as (A & B). split; [apply radr_lt; split; assumption|]. rewrite (unradr_radr _ _ (o_dim o) (G (pi i) q)) by (split; assumption). rewrite B. exact ER.
  - cbn [radr] in ER. subst r. split; [exact Hr|]. change p with (radr (d_n_eval d1) (d_n_grad d1) (F p)) at 1. rewrite (unradr_radr _ _ (o_dim o) (F p)) by exact V. reflexivity.
  - destruct V as (Vi & Vq). destruct (P2 i Vi) as (A & B). split; [apply radr_lt; split; assumption|]. rewrite (unradr_radr _ _ (o_dim o) (G (pi' i) q)) by (split; assumption). rewrite B. exact ER.
Qed.
Lemma c_inj r s : (r < N)%nat -> (s < N)%nat -> csig r = csig s -> r = s.
Proof. intros Hr Hs E. destruct c_surj as (tau & T & _). rewrite <- (proj2 (T r Hr)), E. apply T, Hs. Qed.
Lemma c_gpt q : (q < n_used (d_n_eval d1) (d_bvec d1))%nat -> (nth q (grad_points (d_n_eval d1) (d_bvec d1)) 0%nat < d_n_eval d1)%nat.
Proof.
  intros Hq. assert (I : In (nth q (grad_points (d_n_eval d1) (d_bvec d1)) 0%nat) (grad_points (d_n_eval d1) (d_bvec d1))) by (apply nth_In, Hq).
  unfold grad_points in I at 2. destruct (d_bvec d1) as [m|]; [apply filter_In in I; destruct I as (I & _)|]; apply in_seq in I; lia.
Qed.
Lemma c_obs r : (r < N)%nat -> obs_ren pi (cobs d1 (fst (get_scl_x_w_dist d1)) r) (cobs d2 (fst (get_scl_x_w_dist d2)) (csig r)) /\
  forall i, (i < o_dim o)%nat -> obs_pt (cobs d2 (fst (get_scl_x_w_dist d2)) (csig r)) (pi i) = obs_pt (cobs d1 (fst (get_scl_x_w_dist d1)) r) i + (in_shift d1 i - in_shift d2 (pi i)) * in_scale d1 i.
Proof.
  intros Hr. destruct (c_label r Hr) as (l & L1 & L2 & L3). destruct (label_row o d1 hp1 vK b1 I1 _ _ L1) as (_ & -> & _). destruct (label_row o d2 hp2 vK b2 I2 _ _ L2) as (_ & -> & _).
  assert (PT : forall p i, (p < d_n_eval d1)%nat -> (i < o_dim o)%nat -> rows_of (fst (get_scl_x_w_dist d2)) p (pi i) = rows_of (fst (get_scl_x_w_dist d1)) p i + (in_shift d1 i - in_shift d2 (pi i)) * in_scale d1 i).
  { intros p i Hp Hi. rewrite (scaled_rows o d2 p (pi i) D2), (scaled_rows o d1 p i D1 Hp Hi), (cr_x _ _ _ _ HO), (proj2 SF i Hi); auto; [ring|rewrite (cr_n _ _ _ _ HO); exact Hp|apply PI, Hi]. }
  rewrite (cr_n _ _ _ _ HO), (cr_mask _ _ _ _ HO).
  destruct l as [p|i q]; cbn [clmap label_obs obs_ren obs_pt]; (split; [reflexivity || exact I|]); intros j Hj.
  - apply PT; assumption.
  - apply PT; [apply c_gpt; apply L3|exact Hj].
Qed.
Lemma c_y r : (r < N)%nat -> vat (ydata d2) (csig r) = vat (ydata d1) r + basis d1 r * ((out_shift d1 - out_shift d2) * out_scale d1).
Proof.
  intros Hr. destruct (c_label r Hr) as (l & L1 & L2 & L3). destruct (label_row o d1 hp1 vK b1 I1 _ _ L1) as (_ & _ & -> & _). destruct (label_row o d2 hp2 vK b2 I2 _ _ L2) as (_ & _ & -> & _).
  apply labels_inv in L1. destruct L1 as (V & E). destruct SF as (SF1 & SF2). unfold basis.
  destruct l as [p|i q]; cbn [clmap scaled_value lab_rix radr] in *.
  - subst r. destruct (Nat.ltb_spec p (d_n_eval d1)) as [C|C]; [|lia]. rewrite (cr_val _ _ _ _ HO p L3), SF1. ring.
  - destruct (Nat.ltb_spec r (d_n_eval d1)) as [C|C]; [lia|]. destruct L3 as (U & Hi & Hq). assert (Z := cr_grad _ _ _ _ HO U). unfold OrderSpec.both in Z. destruct (d_grad d1), (d_grad d2); try contradiction; [|ring].
    rewrite Z, SF1, SF2 by assumption. ring.
Qed.
Lemma c_basis r : (r < N)%nat -> basis d2 (csig r) = basis d1 r.
Proof.
  intros Hr. destruct (c_label r Hr) as (l & L1 & L2 & L3). apply labels_inv in L1. destruct L1 as (V1 & E1). apply labels_inv in L2. destruct L2 as (V2 & E2).
  unfold basis. rewrite E2, E1, (cr_n _ _ _ _ HO), (cr_mask _ _ _ _ HO). destruct l as [p|i q]; cbn [clmap lab_rix radr rvalid] in *; [reflexivity|].
  destruct (Nat.ltb_spec (d_n_eval d1 + pi i * n_used (d_n_eval d1) (d_bvec d1) + q) (d_n_eval d1)), (Nat.ltb_spec (d_n_eval d1 + i * n_used (d_n_eval d1) (d_bvec d1) + q) (d_n_eval d1)); try lia; reflexivity.
Qed.
Lemma c_noise r : (r < N)%nat -> noise_fn d2 hp2 None (csig r) = noise_fn d1 hp1 None r.
Proof.
  intros Hr. destruct (c_label r Hr) as (l & L1 & L2 & L3). destruct (label_row o d1 hp1 vK b1 I1 _ _ L1) as (_ & _ & _ & ->). destruct (label_row o d2 hp2 vK b2 I2 _ _ L2) as (_ & _ & _ & ->).
  destruct SF as (SF1 & SF2). destruct SH as (_ & _ & _ & S4 & S5). unfold obs_noise. rewrite (cr_noisy _ _ _ _ HO). destruct (d_noisy d1); [|reflexivity].
  destruct l as [p|i q]; cbn [clmap noise_variance].
  - assert (Z := cr_std _ _ _ _ HO). unfold OrderSpec.both in Z. destruct (d_std_fval d1), (d_std_fval d2); try contradiction; [rewrite Z, SF1 by exact L3; reflexivity|rewrite S4; reflexivity].
  - destruct L3 as (U & Hi & Hq). assert (Z := cr_stdg _ _ _ _ HO U). unfold OrderSpec.both in Z. destruct (d_std_grad d1), (d_std_grad d2); try contradiction; [rewrite Z, SF1, SF2 by assumption; reflexivity|rewrite S5; reflexivity].
Qed.
Lemma c_kf r s : (r < N)%nat -> (s < N)%nat -> ckf o d2 hp2 (fst (get_scl_x_w_dist d2)) (csig r) (csig s) = ckf o d1 hp1 (fst (get_scl_x_w_dist d1)) r s.
Proof.
  intros Hr Hs. destruct SH as (S1 & S2 & _). unfold ckf. rewrite S2. destruct (c_obs r Hr) as (K1 & T1). destruct (c_obs s Hs) as (K2 & T2).
  apply (kj_ren _ _ _ pi pi'); auto; try (apply (cobs_lt o d1 hp1 (ei_noise _ _ _ _ _ I1)); assumption). intros i Hi. rewrite T1, T2 by exact Hi. ring.
Qed.
(** covariances with a point: point y has the coordinates of x in the other order *)
Definition crel (x y : pt) : Prop := forall i, (i < o_dim o)%nat -> y (pi i) = x i.
Lemma c_to_scl x y i : crel x y -> (i < o_dim o)%nat -> to_scl d2 y (pi i) = to_scl d1 x i + (in_shift d1 i - in_shift d2 (pi i)) * in_scale d1 i.
Proof. intros X Hi. unfold to_scl. rewrite X, (proj2 SF i Hi) by exact Hi. ring. Qed.
Lemma c_kx x y r : crel x y -> (r < N)%nat -> kxf o d2 hp2 (to_scl d2 y) (csig r) = kxf o d1 hp1 (to_scl d1 x) r.
Proof.
  intros X Hr. destruct SH as (S1 & S2 & _). unfold kxf. rewrite S2. destruct (c_obs r Hr) as (K1 & T1).
  apply (kj_ren _ _ _ pi pi'); cbn [obs_lt obs_ren obs_pt]; auto; try exact I; [apply (cobs_lt o d1 hp1 (ei_noise _ _ _ _ _ I1)); assumption|]. intros i Hi. rewrite T1, (c_to_scl x y) by assumption. ring.
Qed.
Lemma c_dk x y j r : crel x y -> (r < N)%nat -> (j < o_dim o)%nat -> dkf o d2 hp2 (pi j) (to_scl d2 y) (csig r) = dkf o d1 hp1 j (to_scl d1 x) r.
Proof.
  intros X Hr Hj. destruct SH as (S1 & S2 & _). unfold dkf. rewrite S2. destruct (c_obs r Hr) as (K1 & T1).
  apply (kj_ren _ _ _ pi pi'); cbn [obs_lt obs_ren obs_pt]; auto; [apply (cobs_lt o d1 hp1 (ei_noise _ _ _ _ _ I1)); assumption|]. intros i Hi. rewrite T1, (c_to_scl x y) by assumption. ring.
Qed.
Lemma c_sdiag e r : (r < N)%nat -> sdiag o d2 hp2 e (csig r) = sdiag o d1 hp1 e r.
Proof. intros Hr. unfold sdiag. rewrite (c_noise r Hr), (c_kf r r Hr Hr). reflexivity. Qed.
Lemma c_smat e r s : (r < N)%nat -> (s < N)%nat -> smat o d2 hp2 e (csig r) (csig s) = smat o d1 hp1 e r s.
Proof.
  intros Hr Hs. unfold smat. rewrite (c_kf r s Hr Hs). destruct (Nat.eqb_spec (csig r) (csig s)) as [E|E], (Nat.eqb_spec r s) as [E'|E']; try reflexivity.
  - subst. rewrite (c_sdiag e s Hs). reflexivity.
  - exfalso. apply E', c_inj; assumption.
  - subst. congruence.
Qed.
Lemma c_nugget_matrix r s : (r < N)%nat -> (s < N)%nat -> nugget_matrix o d2 hp2 (csig r) (csig s) = nugget_matrix o d1 hp1 r s.
Proof.
  intros Hr Hs. unfold nugget_matrix. destruct (is_precon (o_well o)); [|apply c_kf; assumption]. unfold kcor, kn, dl.
  rewrite !c_kf, !c_noise by assumption. rewrite !Nat.eqb_refl.
  destruct (Nat.eqb_spec (csig r) (csig s)) as [E|E], (Nat.eqb_spec r s) as [E'|E']; try reflexivity; [exfalso; apply E', c_inj; assumption|subst; congruence].
Qed.
Lemma c_etaK e1 e2 (A1 A2 : nat -> nat -> R) : (forall r s, (r < N)%nat -> (s < N)%nat -> A2 (csig r) (csig s) = A1 r s) ->
  eta_is o d1 N A1 e1 -> eta_is o d2 (cN o d2) A2 e2 -> e2 = e1.
Proof.
  intros HA. rewrite c_N. destruct c_surj as (tau & T1 & T2). unfold eta_is. destruct (o_eta_const o).
  - intros E1 E2. destruct (etaK_of o d1 D1) as (k1 & g1 & F1 & B1). destruct (etaK_of o d2 D2) as (k2 & g2 & F2 & B2). rewrite (cr_n _ _ _ _ HO), F1 in F2. injection F2 as <- <-. congruence.
  - assert (RS : forall r, (r < N)%nat -> rsum N (fun j => Rabs (A2 (csig r) j)) = rsum N (fun j => Rabs (A1 r j))).
    { intros r Hr. rewrite (rsum_reidx N csig tau T1 T2). apply rsum_ext; intros j Hj. f_equal. apply HA; assumption. }
    intros (i & Hi & -> & M1) (j & Hj & -> & M2). f_equal. apply Rle_antisym.
    + destruct (T2 j Hj) as (A & B). rewrite <- B, RS by exact A. apply M1, A.
    + rewrite <- (RS i Hi). apply M2. apply T1, Hi.
Qed.
Lemma c_mask_supported : mask_supported o d1 -> mask_supported o d2.
Proof. unfold mask_supported. rewrite (cr_mask _ _ _ _ HO). auto. Qed.
Variable (e : R).
Hypothesis P2 : pdf N (smat o d2 hp2 e).
Hypothesis HB : mean_in_units d2 b2 = mean_in_units d1 b1.
Lemma c_beta : b2 = b1 + (out_shift d1 - out_shift d2) * out_scale d1.
Proof.
  assert (OP : 0 < out_scale d1) by (apply (out_scale_pos o); apply I1). unfold mean_in_units in HB. rewrite (proj1 SF) in HB.
  apply (Rmult_eq_reg_r (/ out_scale d1)); [|apply Rinv_neq_0_compat; lra]. rewrite Rmult_plus_distr_r, (Rmult_assoc _ (out_scale d1)), Rinv_r by lra. unfold Rdiv in HB. lra.
Qed.
Lemma c_res r : (r < N)%nat -> sres d2 b2 (csig r) = sres d1 b1 r.
Proof. intros Hr. unfold sres, gres. rewrite (c_y r Hr), (c_basis r Hr), c_beta. ring. Qed.
Lemma c_pv x y : crel x y -> Pv o d2 hp2 e (to_scl d2 y) = Pv o d1 hp1 e (to_scl d1 x).
Proof.
  intros X. destruct c_surj as (tau & T1 & T2). unfold Pv, pv, pz. rewrite c_N. f_equal.
  apply (dotp_ksol_reidx N csig tau T1 T2 (smat o d1 hp1 e) (smat o d2 hp2 e)); auto; [apply c_smat| |]; intros r Hr; apply c_kx; assumption.
Qed.
Lemma c_si x y : crel x y -> Si o d2 hp2 vK e y = Si o d1 hp1 vK e x.
Proof. intros X. unfold Si, Psig. rewrite (c_pv x y X), (proj1 SF). reflexivity. Qed.
Lemma c_dsig x y i : crel x y -> (i < o_dim o)%nat -> Pdsig o d2 hp2 vK e (pi i) (to_scl d2 y) = Pdsig o d1 hp1 vK e i (to_scl d1 x).
Proof.
  intros X Hi. unfold Pdsig, Psig. rewrite (c_pv x y X). do 2 f_equal. destruct c_surj as (tau & T1 & T2). unfold Pdv, pdv, pz. rewrite c_N.
  apply (dotp_ksol_reidx N csig tau T1 T2 (smat o d1 hp1 e) (smat o d2 hp2 e)); auto; [apply c_smat| |]; intros r Hr; [apply c_dk|apply c_kx]; assumption.
Qed.
Lemma c_mi x y : crel x y -> Mi o d2 hp2 b2 e y = Mi o d1 hp1 b1 e x.
Proof.
  intros X. assert (OP : 0 < out_scale d1) by (apply (out_scale_pos o); apply I1).
  destruct c_surj as (tau & T1 & T2). unfold Mi, Pmu, pmu, pw. rewrite c_N.
  rewrite (dotp_ksol_reidx N csig tau T1 T2 (smat o d1 hp1 e) (smat o d2 hp2 e)) with (f1 := kxf o d1 hp1 (to_scl d1 x)) (b1 := sres d1 b1); auto.
  - rewrite (proj1 SF). rewrite c_beta. field. lra.
  - apply c_smat.
  - intros r Hr. apply c_kx; assumption.
  - apply c_res.
Qed.
Lemma c_dmu x y i : crel x y -> (i < o_dim o)%nat -> Pdmu o d2 hp2 b2 e (pi i) (to_scl d2 y) = Pdmu o d1 hp1 b1 e i (to_scl d1 x).
Proof.
  intros X Hi. destruct c_surj as (tau & T1 & T2). unfold Pdmu, pdmu, pw. rewrite c_N.
  apply (dotp_ksol_reidx N csig tau T1 T2 (smat o d1 hp1 e) (smat o d2 hp2 e)); auto; [apply c_smat| |apply c_res]. intros r Hr. apply c_dk; assumption.
Qed.
(** partial derivatives of renamed functions *)
Lemma crel_upd x y i t : crel x y -> (i < o_dim o)%nat -> crel (upd x i t) (upd y (pi i) t).
Proof. intros X Hi k Hk. unfold upd. rewrite (pi_eqb (o_dim o) pi pi') by assumption. destruct (k =? i)%nat; [reflexivity|apply X, Hk]. Qed.
Lemma part_ren (A B : pt -> R) x y i v w : (forall x y, crel x y -> B y = A x) -> crel x y -> (i < o_dim o)%nat -> is_partial B (pi i) y w -> is_partial A i x v -> w = v.
Proof.
  intros E X Hi H1 H2. unfold is_partial in *. rewrite (X i Hi) in H1. apply (dR_unique (fun t => A (upd x i t)) (x i)); [|exact H2].
  apply (dR_ext (fun t => B (upd y (pi i) t))); [|exact H1]. intros t. apply E, crel_upd; assumption.
Qed.
Lemma part2_ren (A B : pt -> R) x y l i v w : (forall x y, crel x y -> B y = A x) -> crel x y -> (i < o_dim o)%nat -> (l < o_dim o)%nat -> is_partial2 B (pi l) (pi i) y w -> is_partial2 A l i x v -> w = v.
Proof. intros E X Hi Hl (g & G1 & G2) (g' & G1' & G2'). apply (part_ren g' g x y l); auto. intros x' y' X'. apply (part_ren A B x' y' i); auto. Qed.
Lemma part2_near_ren (A B : pt -> R) x y l i v w : (forall x y, crel x y -> B y = A x) -> crel x y -> (i < o_dim o)%nat -> (l < o_dim o)%nat -> is_partial2_near B (pi l) (pi i) y w -> is_partial2_near A l i x v -> w = v.
Proof.
  intros E X Hi Hl (g & del & P & G1 & G2) (g' & del' & P' & G1' & G2'). rewrite (X l Hl) in G1, G2. apply (dR_unique g' (x l)); [|exact G2']. apply (is_derive_ext_loc g); [|exact G2].
  assert (D0 : 0 < Rmin del del') by (apply Rmin_pos; assumption). exists (mkposreal _ D0). intros t Ht. change (Rabs (t - x l) < Rmin del del') in Ht.
  assert (Q1 := Rmin_l del del'). assert (Q2 := Rmin_r del del'). apply (part_ren A B (upd x l t) (upd y (pi l) t) i); auto using crel_upd; [apply G1|apply G1']; lra.
Qed.
End R.

(** The same problem with its coordinates in another order: every evaluation returns the same values and standard
    deviations, and the gradients and Hessians in the other order. *)
Theorem C56_order_of_the_coordinates :
  forall (o : gpopt) (d1 d2 : gpdata) (condf : mat -> R) (hp1 hp2 : hpv) (vK b1 b2 : R) (cc1 cc2 : bool) (su1 su2 : surr) (pi : nat -> nat),
  eval_input o d1 hp1 vK b1 -> eval_input o d2 hp2 vK b2 -> mask_supported o d1 ->
  coords_renamed o d1 d2 pi -> renamed_factors o d1 d2 pi -> renamed_hp o pi hp1 hp2 -> mean_in_units d2 b2 = mean_in_units d1 b1 ->
  set_up o d1 condf hp1 cc1 su1 -> set_up o d2 condf hp2 cc2 su2 ->
  k_eta (su_K su2) = k_eta (su_K su1) /\
  forall (x y : mat) (cg ch : bool), (0 < nr x)%nat -> cols_renamed (nr x) (o_dim o) pi x y ->
  (ch = true -> cg = true /\ hess_supported o d1 hp1 x /\ hess_supported o d2 hp2 y) ->
  exists ev1 ev2, eval_model o d1 hp1 su1 x cg ch = Ok ev1 /\ eval_model o d2 hp2 su2 y cg ch = Ok ev2 /\
    same_vec (nr x) (e_mu ev1) (e_mu ev2) /\ same_vec (nr x) (e_sig ev1) (e_sig ev2) /\
    OrderSpec.both (cols_renamed (nr x) (o_dim o) pi) (e_dmu ev1) (e_dmu ev2) /\ OrderSpec.both (cols_renamed (nr x) (o_dim o) pi) (e_dsig ev1) (e_dsig ev2) /\
    OrderSpec.both (hess_renamed 1 (o_dim o) pi) (e_d2mu ev1) (e_d2mu ev2) /\ OrderSpec.both (OrderSpec.both (hess_renamed 1 (o_dim o) pi)) (e_d2sig ev1) (e_d2sig ev2) /\
    (cg = true -> e_dmu ev1 <> None /\ e_dsig ev1 <> None) /\ (ch = true -> e_d2mu ev1 <> None).
Proof.
  intros o d1 d2 condf hp1 hp2 vK b1 b2 cc1 cc2 su1 su2 pi I1 I2 M1 HO SF SH HB S1 S2. destruct (cr_perm _ _ _ _ HO) as (pi' & PI).
  assert (M2 := c_mask_supported o d1 d2 pi HO M1).
  destruct (ei_main o d1 hp1 vK b1 I1 condf cc1 su1 S1) as (e1 & c1 & inv1 & Q1 & Q2 & Q3 & Q4 & Q5 & Q6 & Q7 & Q8 & Q9).
  destruct (ei_main o d2 hp2 vK b2 I2 condf cc2 su2 S2) as (e2 & c2 & inv2 & P1 & P2 & P3 & P4 & P5 & P6 & P7 & P8 & P9).
  assert (EE : e2 = e1).
  { apply (c_etaK o d1 d2 hp1 hp2 vK b1 b2 pi pi' I1 I2 HO PI e1 e2 (nugget_matrix o d1 hp1) (nugget_matrix o d2 hp2)).
    - apply (c_nugget_matrix o d1 d2 hp1 hp2 vK b1 b2 pi pi'); assumption.
    - rewrite <- Q2; apply (setup_eta _ _ _ _ _ _ _ _ I1 (proj1 S1)).
    - rewrite <- P2; apply (setup_eta _ _ _ _ _ _ _ _ I2 (proj1 S2)). }
  split; [congruence|]. rewrite EE in P1, P2, P3, P4, P5, P9. clear EE e2. intros x y cg ch Hn (X1 & X2 & X3 & X4 & X5) Hch.
  destruct (ei_eval o d1 hp1 vK b1 I1 condf cc1 su1 e1 c1 inv1 x cg ch S1 M1 Q1 Q3 Q4 Q5 Q6 Q7 Q8 Q9 X3 Hn ltac:(intros E; destruct (Hch E); tauto)) as (ev1 & E1 & (A1 & A2) & (A3 & A4) & A5 & A6).
  destruct (ei_eval o d2 hp2 vK b2 I2 condf cc2 su2 e1 c2 inv2 y cg ch S2 M2 P1 P3 P4 P5 P6 P7 P8 P9 X4 ltac:(lia) ltac:(intros E; destruct (Hch E); tauto)) as (ev2 & E2 & (B1 & B2) & (B3 & B4) & B5 & B6).
  rewrite X2 in B1, B2, B3, B4, B5.
  assert (PD : pdf (cN o d1) (smat o d2 hp2 e1)) by (replace (cN o d1) with (cN o d2); [exact P3|eapply c_N; eassumption]).
  assert (CR : forall p, (p < nr x)%nat -> crel o pi (rows_of x p) (rows_of y p)) by (intros p Hp i Hi; apply X5; assumption).
  assert (RM := c_mi o d1 d2 hp1 hp2 vK b1 b2 pi pi' I1 I2 HO PI SF SH e1 PD HB).
  assert (RS := c_si o d1 d2 hp1 hp2 vK b1 b2 pi pi' I1 I2 HO PI SF SH e1 PD).
  assert (RDM := c_dmu o d1 d2 hp1 hp2 vK b1 b2 pi pi' I1 I2 HO PI SF SH e1 PD HB).
  assert (RDS := c_dsig o d1 d2 hp1 hp2 vK b1 b2 pi pi' I1 I2 HO PI SF SH e1 PD).
  assert (GS : forall i, (i < o_dim o)%nat -> gscl d2 (pi i) = gscl d1 i) by (intros i Hi; unfold gscl; rewrite (proj2 SF i Hi), (proj1 SF); reflexivity).
  assert (LT : forall i, (i < o_dim o)%nat -> (pi i < o_dim o)%nat) by (intros i Hi; apply PI, Hi).
  exists ev1, ev2. split; [exact E1|]. split; [exact E2|].
  split. { split; [exact A1|]. split; [exact B1|]. intros p Hp. rewrite A2, B2 by exact Hp. symmetry. apply RM, CR, Hp. }
  split. { split; [exact A3|]. split; [exact B3|]. intros p Hp. rewrite A4, B4 by exact Hp. symmetry. apply RS, CR, Hp. }
  assert (G0 : OrderSpec.both (cols_renamed (nr x) (o_dim o) pi) (e_dmu ev1) (e_dmu ev2) /\ OrderSpec.both (cols_renamed (nr x) (o_dim o) pi) (e_dsig ev1) (e_dsig ev2) /\ (cg = true -> e_dmu ev1 <> None /\ e_dsig ev1 <> None)).
  { destruct cg.
    - destruct A5 as (G1 & T1 & -> & (a1 & a2 & a3) & -> & (a4 & a5 & a6)). destruct B5 as (G2 & T2 & -> & (c4 & c5 & c3) & -> & (c7 & c8 & c6)). cbn [OrderSpec.both].
      split; [|split; [|split; discriminate]]; (split; [assumption|split; [assumption|split; [assumption|split; [assumption|]]]]); intros p i Hp Hi.
      + rewrite a3, c3, (RDM (rows_of x p)), GS by auto. reflexivity.
      + rewrite a6, c6, (RDS (rows_of x p)), GS by auto. reflexivity.
    - destruct A5 as (-> & ->), B5 as (-> & ->). cbn [OrderSpec.both]. split; [exact I|]. split; [exact I|]. discriminate. }
  destruct G0 as (G1 & G2 & G3). split; [exact G1|]. split; [exact G2|].
  assert (H0 : OrderSpec.both (hess_renamed 1 (o_dim o) pi) (e_d2mu ev1) (e_d2mu ev2) /\ OrderSpec.both (OrderSpec.both (hess_renamed 1 (o_dim o) pi)) (e_d2sig ev1) (e_d2sig ev2) /\ (ch = true -> e_d2mu ev1 <> None)).
  { destruct ch; [|destruct A6 as (-> & ->), B6 as (-> & ->); cbn [OrderSpec.both]; split; [exact I|]; split; [exact I|]; discriminate].
    destruct A6 as (Hm1 & Hs1 & -> & -> & a1 & a2 & a3 & a4 & a5). destruct B6 as (Hm2 & Hs2 & -> & -> & c3 & c4 & c5 & c6 & c7). cbn [OrderSpec.both].
    split; [|split; [|discriminate]].
    - repeat (split; [assumption|]). intros p i j Hp Hi Hj. replace p with 0%nat by lia. destruct (a4 i j Hi Hj) as (v & V1 & ->). destruct (c6 (pi i) (pi j) (LT i Hi) (LT j Hj)) as (w & W1 & ->).
      rewrite (part2_ren o pi pi' PI _ _ _ _ _ _ _ _ RM (CR 0%nat Hn) Hj Hi W1 V1). rewrite !(proj2 SF) by assumption. reflexivity.
    - rewrite (RS _ _ (CR 0%nat Hn)) in c7. destruct (Req_EM_T (Si o d1 hp1 vK e1 (rows_of x 0%nat)) 0) as [Z|Z]; [rewrite a5, c7; exact I|].
      destruct a5 as (T1 & -> & a5 & a6 & a7 & a8). destruct c7 as (T2 & -> & c8 & c9 & c10 & c11). cbn [OrderSpec.both].
      repeat (split; [assumption|]). intros p i j Hp Hi Hj. replace p with 0%nat by lia. destruct (a8 i j Hi Hj) as (v & V1 & ->). destruct (c11 (pi i) (pi j) (LT i Hi) (LT j Hj)) as (w & W1 & ->).
      rewrite (part2_near_ren o pi pi' PI _ _ _ _ _ _ _ _ RS (CR 0%nat Hn) Hj Hi W1 V1). rewrite !(proj2 SF) by assumption. reflexivity. }
  tauto.
Qed.
Print Assumptions C56_order_of_the_coordinates.

(** ** Right after set_data the factors are the same, in the other order: the hypothesis [renamed_factors] holds. *)
Lemma dist_ren D pi pi' X1 X2 p q : inverse_below D pi pi' -> nc X1 = D -> nc X2 = D -> (forall i, (i < D)%nat -> mat_at X2 p (pi i) - mat_at X2 q (pi i) = mat_at X1 p i - mat_at X1 q i) ->
  dist (nc X2) (rows_of X2 p) (rows_of X2 q) = dist (nc X1) (rows_of X1 p) (rows_of X1 q).
Proof. intros PI -> -> H. unfold dist, rows_of. f_equal. rewrite (rsum_reidx D pi pi' (proj1 PI) (proj2 PI)). apply rsum_ext; intros i Hi. rewrite H by exact Hi. reflexivity. Qed.
Lemma scale_ren X1 X2 n D pi pi' best1 best2 us m ds sin1 sin2 sh1 sh2 sc1 sc2 :
  nr X1 = n -> nr X2 = n -> nc X1 = D -> nc X2 = D -> inverse_below D pi pi' ->
  (forall p i, (p < n)%nat -> (i < D)%nat -> mat_at X2 p (pi i) = mat_at X1 p i) ->
  OrderSpec.both (fun s1 s2 => forall i, (i < D)%nat -> vat s2 (pi i) = vat s1 i) sin1 sin2 ->
  calc_x_shift_n_scale X1 best1 us m ds None sin1 = Ok (sh1, sc1) -> calc_x_shift_n_scale X2 best2 us m ds None sin2 = Ok (sh2, sc2) ->
  (0 < n)%nat -> forall i, (i < D)%nat -> vat sc2 (pi i) = vat sc1 i.
Proof.
  intros R1 R2 C1 C2 PI HX HS H1 H2 Hn i Hi.
  assert (L1 := proj1 (calc_x_shift_n_scale_inv _ _ _ _ _ _ _ _ _ H1)). assert (L2 := proj1 (calc_x_shift_n_scale_inv _ _ _ _ _ _ _ _ _ H2)).
  unfold calc_x_shift_n_scale in H1, H2. cbv zeta in H1, H2. rewrite C1 in H1. rewrite C2 in H2.
  binv H1 s1 E1. binv H1 si1 E2. binv H1 Y1 E3. binv H1 c1 E4. injection H1 as <- <-.
  binv H2 s2 E5. binv H2 si2 E6. binv H2 Y2 E7. binv H2 c2 E8. injection H2 as <- <-.
  assert (LS : vlen si1 = D /\ vlen si2 = D /\ forall i, (i < D)%nat -> vat si2 (pi i) = vat si1 i).
  { unfold OrderSpec.both in HS. destruct sin1 as [v1|], sin2 as [v2|]; try contradiction.
    - binv_assert E2. binv_assert E2. injection E2 as <-. binv_assert E6. binv_assert E6. injection E6 as <-. split; [apply Nat.eqb_eq; assumption|]. split; [apply Nat.eqb_eq; assumption|]. exact HS.
    - injection E2 as <-. injection E6 as <-. repeat split. }
  destruct LS as (LS1 & LS2 & ES).
  rewrite C1 in L1. rewrite C2 in L2.
  assert (Z1 := rok_inv _ _ _ (x_scl_ok _ _ s1 si1 X1 _ _ _ (mspec_refl _) (conj (eq_trans L1 (eq_sym C1)) (fun i _ => eq_refl)) (conj (eq_trans LS1 (eq_sym C1)) (fun i _ => eq_refl))) E3).
  assert (Z2 := rok_inv _ _ _ (x_scl_ok _ _ s2 si2 X2 _ _ _ (mspec_refl _) (conj (eq_trans L2 (eq_sym C2)) (fun i _ => eq_refl)) (conj (eq_trans LS2 (eq_sym C2)) (fun i _ => eq_refl))) E7).
  destruct Z1 as (A1 & A2 & A3), Z2 as (B1 & B2 & B3). rewrite R1, C1 in *. rewrite R2, C2 in *.
  cbn [vmap vat]. rewrite ES by exact Hi. f_equal.
  destruct (Nat.eqb_spec n 1) as [N1|N1]; [injection E4 as <-; injection E8 as <-; reflexivity|].
  assert (DS : forall p q, (p < n)%nat -> (q < n)%nat -> dist (nc Y2) (rows_of Y2 p) (rows_of Y2 q) = dist (nc Y1) (rows_of Y1 p) (rows_of Y1 q)).
  { intros p q Hp Hq. apply (dist_ren D pi pi'); auto. intros k Hk. assert (K := proj1 (proj1 PI k Hk)). rewrite !A3, !B3, !HX, !ES by assumption. ring. }
  destruct m; [injection E4 as <-; injection E8 as <-; reflexivity| |]; unfold isoscaling in E4, E8.
  - destruct (dist_min_ok Y1 ltac:(lia)) as (m1 & M1 & M2). destruct (dist_min_ok Y2 ltac:(lia)) as (m2 & M3 & M4). rewrite M1 in E4. rewrite M3 in E8. cbn [bind] in E4, E8. injection E4 as <-. injection E8 as <-.
    replace m2 with m1; [reflexivity|]. unfold is_dist_min in M2, M4. rewrite A1 in M2. rewrite B1 in M4. destruct M2 as ((p & q & Hp & Hq & Hne & ->) & K1), M4 as ((p2 & q2 & Hp2 & Hq2 & Hne2 & ->) & K2). apply Rle_antisym.
    + rewrite DS by assumption. apply K1; auto.
    + rewrite <- DS by assumption. apply K2; auto.
  - destruct (dist_max_ok Y1 ltac:(lia)) as (m1 & M1 & M2). destruct (dist_max_ok Y2 ltac:(lia)) as (m2 & M3 & M4). rewrite M1 in E4. rewrite M3 in E8. cbn [bind] in E4, E8. injection E4 as <-. injection E8 as <-.
    replace m2 with m1; [reflexivity|]. unfold is_dist_max in M2, M4. rewrite A1 in M2. rewrite B1 in M4. destruct M2 as ((p & q & Hp & Hq & ->) & K1), M4 as ((p2 & q2 & Hp2 & Hq2 & ->) & K2). apply Rle_antisym.
    + rewrite <- DS by assumption. apply K2; auto.
    + rewrite DS by assumption. apply K1; auto.
Qed.
Lemma best_ren n v1 v2 : vlen v1 = n -> vlen v2 = n -> (forall p, (p < n)%nat -> vat v2 p = vat v1 p) -> vmaxmin v2 = vmaxmin v1.
Proof. intros L1 L2 H. apply (maxmin_reidx n (fun p => p) (fun p => p)); auto. split; auto. Qed.
Theorem C56_same_factors_after_set_data :
  forall (o : gpopt) (x1 x2 : mat) (fv1 fv2 : vec) (sf1 sf2 : stdarg vec) (G1 G2 : option mat) (sg1 sg2 : stdarg mat) (m1 m2 : option (list bool)) (d1 d2 : gpdata) (pi : nat -> nat),
  (0 < vlen fv1)%nat -> nr x1 = vlen fv1 -> nc x1 = o_dim o -> nr x2 = vlen fv2 -> nc x2 = o_dim o ->
  set_data o x1 fv1 sf1 G1 sg1 m1 = Ok d1 -> set_data o x2 fv2 sf2 G2 sg2 m2 = Ok d2 ->
  coords_renamed o d1 d2 pi -> renamed_factors o d1 d2 pi.
Proof.
  intros o x1 x2 fv1 fv2 sf1 sf2 G1 G2 sg1 sg2 m1 m2 d1 d2 pi Hn A1 A2 A3 A4 H1 H2 HO. destruct (cr_perm _ _ _ _ HO) as (pi' & PI). assert (EN := cr_n _ _ _ _ HO).
  assert (J1 := set_data_inv _ _ _ _ _ _ _ _ H1). assert (J2 := set_data_inv _ _ _ _ _ _ _ _ H2).
  destruct J1 as (N1 & X1 & _ & V1 & _). destruct J2 as (N2 & X2 & _ & V2 & _).
  assert (EL : vlen fv2 = vlen fv1) by congruence.
  assert (PX : forall p i, (p < vlen fv1)%nat -> (i < o_dim o)%nat -> mat_at x2 p (pi i) = mat_at x1 p i) by (intros p i Hp Hi; rewrite <- X1, <- X2; apply (cr_x _ _ _ _ HO p); [rewrite N1; exact Hp|exact Hi]).
  assert (PV : forall p, (p < vlen fv1)%nat -> vat fv2 p = vat fv1 p) by (intros p Hp; rewrite <- V1, <- V2; apply (cr_val _ _ _ _ HO p); rewrite N1; exact Hp).
  unfold renamed_factors, out_scale, in_scale.
  unfold set_data in H1, H2. cbv zeta in H1, H2. binv H1 ng Eng. binv H1 stf Estf. binv H1 stg Estg. binv H1 fz Efz. binv H1 gz Egz. binv H1 eta Eeta. binv H1 dm Edm. binv H1 scl Escl. binv H1 Rt ERt. injection H1 as E1.
  binv H2 ng' Eng'. binv H2 stf' Estf'. binv H2 stg' Estg'. binv H2 fz' Efz'. binv H2 gz' Egz'. binv H2 eta' Eeta'. binv H2 dm' Edm'. binv H2 scl' Escl'. binv H2 Rt' ERt'. injection H2 as E2.
  assert (T1 : d_scl d1 = scl) by (rewrite <- E1; reflexivity). assert (T2 : d_scl d2 = scl') by (rewrite <- E2; reflexivity). rewrite T1, T2. clear E1 E2 ERt ERt' Estg Estg' Estf Estf' Egz Egz' Efz Efz' Eng Eng' Edm Edm' T1 T2 Eeta Eeta'.
  destruct (o_use_scl o); [|injection Escl as <-; injection Escl' as <-; split; reflexivity].
  binv Escl md Emd. binv Escl r1 Er1. binv Escl r2 Er2. injection Escl as <-. binv Escl' md' Emd'. binv Escl' r1' Er1'. binv Escl' r2' Er2'. injection Escl' as <-.
  assert (EM : md' = md) by (rewrite EL, Emd in Emd'; injection Emd'; auto). subst md'.
  destruct (set_obj_data_inv _ _ _ _ _ Er2) as (Z1 & Z2 & Z3 & Z4 & Z5 & _ & _ & Z6). destruct (set_obj_data_inv _ _ _ _ _ Er2') as (W1 & W2 & W3 & W4 & W5 & _ & _ & W6). cbn [ob_val] in Z6, W6.
  apply set_xscale_data_inv in Er1. destruct Er1 as (_ & Y4 & _). apply set_xscale_data_inv in Er1'. destruct Er1' as (_ & Y4' & _). cbn [r_x r_best r_use_shift r_mtd r_dist] in Y4, Y4'.
  rewrite Z3, W3. split.
  - unfold calc_obj_scaling in Z6, W6. binv Z6 a1 Q1. binv Z6 c1 Q2. injection Z6 as _ <-. binv W6 a2 Q3. binv W6 c2 Q4. injection W6 as _ <-.
    rewrite EL, (best_ren (vlen fv1) fv1 fv2 eq_refl EL PV), Q2 in Q4. injection Q4; auto.
  - intros i Hi. apply (scale_ren x1 x2 (vlen fv1) (o_dim o) pi pi' _ _ _ _ _ None None _ _ _ _ A1 (eq_trans A3 EL) A2 A4 PI PX I Y4 Y4' Hn i Hi).
Qed.
Print Assumptions C56_same_factors_after_set_data.

(** ** The likelihood, its closed-form variance and the mean *)
Theorem C56_likelihood :
  forall (la : npla) (o : gpopt) (d1 d2 : gpdata) (lo : lkopt) (ht hk hv hf hg : bool) (info1 info2 : hpinfo) (hp1 hp2 : hpv) (cnd1 cnd2 adj1 adj2 : bool) (l1 l2 : lkdinfo) (pi : nat -> nat),
  lkd_input o d1 hp1 -> lkd_input o d2 hp2 -> (forall i, (i < o_dim o)%nat -> 0 < in_scale d1 i) ->
  coords_renamed o d1 d2 pi -> renamed_factors o d1 d2 pi -> renamed_hp o pi hp1 hp2 ->
  set_hp_optz_info o d1 lo ht hk hv hf hg = Ok info1 -> set_hp_optz_info o d2 lo ht hk hv hf hg = Ok info2 ->
  calc_lkd_all la o d1 lo info1 hp1 cnd1 false adj1 = Ok (l1, true) -> calc_lkd_all la o d2 lo info2 hp2 cnd2 false adj2 = Ok (l2, true) ->
  l_ln l2 = l_ln l1 /\ l_lndet l2 = l_lndet l1 /\ l_varK l2 = l_varK l1 /\
  exists beta1 beta2, l_beta l1 = Some beta1 /\ l_beta l2 = Some beta2 /\ vlen beta1 = 1%nat /\ vlen beta2 = 1%nat /\
    mean_in_units d2 (vat beta2 0) = mean_in_units d1 (vat beta1 0).
Proof.
  intros la o d1 d2 lo ht hk hv hf hg info1 info2 hp1 hp2 cnd1 cnd2 adj1 adj2 l1 l2 pi L1 L2 SP HO SF SH Hi1 Hi2 H1 H2. destruct (cr_perm _ _ _ _ HO) as (pi' & PI).
  destruct (lkd_call_eta _ _ _ _ _ _ _ _ _ _ _ _ _ _ L1 Hi1 H1) as (vK & e1 & VP & V1 & ET1 & PD1 & T1 & Q1).
  destruct (lkd_call_eta _ _ _ _ _ _ _ _ _ _ _ _ _ _ L2 Hi2 H2) as (vK2 & e2 & _ & V2 & ET2 & PD2 & T2 & Q2).
  assert (NZ := cr_noisy _ _ _ _ HO). rewrite NZ in V2, Q2.
  assert (EV : vK2 = vK) by (destruct (d_noisy d1); [rewrite (proj1 (proj2 (proj2 SH))), V1 in V2; injection V2; auto|congruence]). subst vK2.
  set (g1 := mkhp (Some (vconst 1 0)) (hp_theta hp1) (hp_kernel hp1) (Some vK) (hp_var_fval hp1) (hp_var_fgrad hp1)).
  set (g2 := mkhp (Some (vconst 1 0)) (hp_theta hp2) (hp_kernel hp2) (Some vK) (hp_var_fval hp2) (hp_var_fgrad hp2)).
  assert (I1 : eval_input o d1 g1 vK 0).
  { destruct L1 as (A1 & A2 & A3 & A4 & A5 & A6 & _). repeat (split; [assumption|]). split; [reflexivity|]. split; [exact VP|]. split; [exists (vconst 1 0); auto|exact SP]. }
  assert (I2 : eval_input o d2 g2 vK 0).
  { destruct L2 as (A1 & A2 & A3 & A4 & A5 & A6 & _). repeat (split; [assumption|]). split; [reflexivity|]. split; [exact VP|]. split; [exists (vconst 1 0); auto|].
    intros i Hi. destruct (proj2 PI i Hi) as (B1 & B2). rewrite <- B2, (proj2 SF _ B1). apply SP, B1. }
  assert (SG : renamed_hp o pi g1 g2) by (destruct SH as (S1 & S2 & _ & S4 & S5); repeat split; assumption).
  assert (EN := c_N o d1 d2 g1 g2 vK 0 0 pi I1 I2 HO). set (N := cN o d1) in *.
  destruct (c_surj o d1 pi pi' PI) as (tau & U1 & U2). fold N in U1, U2. set (sg := csig d1 pi) in *.
  assert (KF := c_kf o d1 d2 g1 g2 vK 0 0 pi pi' I1 I2 HO PI SF SG). assert (KN := c_noise o d1 d2 g1 g2 vK 0 0 pi pi' I1 I2 HO PI SF SG). fold N sg in KF, KN.
  change (ckf o d1 g1) with (ckf o d1 hp1) in KF. change (ckf o d2 g2) with (ckf o d2 hp2) in KF. change (noise_fn d1 g1) with (noise_fn d1 hp1) in KN. change (noise_fn d2 g2) with (noise_fn d2 hp2) in KN.
  assert (DL : forall r s x, (r < N)%nat -> (s < N)%nat -> dl (sg r) (sg s) x = dl r s x).
  { intros r s x Hr Hs. unfold dl. destruct (Nat.eqb_spec (sg r) (sg s)) as [E|E], (Nat.eqb_spec r s) as [E'|E']; try reflexivity; [|subst; congruence].
    exfalso. apply E'. rewrite <- (proj2 (U1 r Hr)), E. apply U1, Hs. }
  assert (KK : forall r s, (r < N)%nat -> (s < N)%nat -> kn (ckf o d2 hp2 (fst (get_scl_x_w_dist d2))) (noise_fn d2 hp2 None) vK (sg r) (sg s) = kn (ckf o d1 hp1 (fst (get_scl_x_w_dist d1))) (noise_fn d1 hp1 None) vK r s).
  { intros r s Hr Hs. unfold kn. rewrite KF, KN, DL by assumption. reflexivity. }
  assert (NM : forall r s, (r < N)%nat -> (s < N)%nat -> lkd_nugget_matrix o d2 hp2 vK (sg r) (sg s) = lkd_nugget_matrix o d1 hp1 vK r s).
  { intros r s Hr Hs. unfold lkd_nugget_matrix. destruct (is_precon (o_well o)); [|apply KF; assumption]. unfold kcor. rewrite !KK by assumption. reflexivity. }
  assert (EE : e2 = e1) by (apply (c_etaK o d1 d2 g1 g2 vK 0 0 pi pi' I1 I2 HO PI e1 e2 _ _ NM ET1 ET2)).
  subst e2. rewrite EN in PD2.
  assert (KM : forall r s, (r < N)%nat -> (s < N)%nat -> lkd_mat o d2 hp2 vK e1 (sg r) (sg s) = lkd_mat o d1 hp1 vK e1 r s).
  { intros r s Hr Hs. unfold lkd_mat. cbv zeta. rewrite DL, !KK by assumption. reflexivity. }
  assert (LD := lndet_reidx N sg tau _ _ U1 U2 KM PD2).
  set (c := (out_shift d1 - out_shift d2) * out_scale d1).
  assert (HY := c_y o d1 d2 g1 g2 vK 0 0 pi pi' I1 I2 HO PI SF). fold N sg c in HY.
  assert (HB := c_basis o d1 d2 g1 vK 0 pi pi' I1 HO PI). fold N sg in HB.
  destruct (gls_reidx N sg tau U1 U2 _ _ KM PD2 (basis d1) (basis d2) (fun r => vat (ydata d1) r + basis d1 r * c) (vat (ydata d2)) HB HY) as (G1 & G2).
  assert (NV := basis_nz o d1 (li_ready o d1 hp1 L1)). destruct (gls_shift N (basis d1) (vat (ydata d1)) _ c NV PD1) as (G3 & G4). rewrite G3 in G1. rewrite G4 in G2.
  assert (VF : vvar (nfval d2) = vvar (nfval d1)).
  { assert (EL := cr_n _ _ _ _ HO). assert (NE : (0 < d_n_eval d1)%nat) by (apply (gr_n _ _ (li_ready o d1 hp1 L1))).
    apply (vvar_reidx (d_n_eval d1) (fun p => p) (fun p => p) c); auto.
    - apply (nfval_at o d1 hp1 0 L1 NE).
    - rewrite <- EL. apply (nfval_at o d2 hp2 0 L2). lia.
    - split; auto.
    - intros p Hp. rewrite (proj2 (nfval_at o d1 hp1 p L1 Hp)). rewrite (proj2 (nfval_at o d2 hp2 p L2 ltac:(lia))).
      assert (PN : (p < N)%nat) by (unfold N, cN; lia). specialize (HY p PN). unfold sg, csig, unradr in HY. destruct (Nat.ltb_spec p (d_n_eval d1)) as [C|C]; [|lia]. rewrite HY. unfold basis.
      destruct (Nat.ltb_spec p (d_n_eval d1)) as [C'|C']; [ring|lia]. }
  assert (OP : 0 < out_scale d1) by (apply (out_scale_pos o); apply I1).
  assert (MU : forall x, mean_in_units d2 (x + c) = mean_in_units d1 x) by (intros x; unfold mean_in_units, c; rewrite (proj1 SF); field; lra).
  unfold noisy_post, free_post in Q1, Q2. rewrite EN in Q2. fold N in Q1. destruct (d_noisy d1).
  - destruct Q1 as (-> & -> & -> & _ & (be1 & -> & B1 & B2) & _). destruct Q2 as (-> & -> & -> & _ & (be2 & -> & B3 & B4) & _). rewrite LD, G2.
    repeat (split; [reflexivity|]). exists be1, be2. repeat (split; [reflexivity || assumption|]). rewrite B2, B4 by lia. rewrite G1. apply MU.
  - destruct Q1 as (-> & -> & -> & (be1 & -> & B1 & B2) & _). destruct Q2 as (-> & -> & -> & (be2 & -> & B3 & B4) & _). unfold nlkd, nvarK. rewrite EN. fold N. rewrite LD, G2.
    unfold calc_lkd_varK_pnlt. rewrite VF.
    repeat (split; [reflexivity|]). exists be1, be2. repeat (split; [reflexivity || assumption|]). rewrite B2, B4 by lia. rewrite G1. apply MU.
Qed.
Print Assumptions C56_likelihood.

(** ** A concrete case: two coordinates exchanged *)
Definition co_pi (i : nat) : nat := nth i [1; 0]%nat i.
Definition co_x : mat := mkmat 3 2 (fun p j => mat_at ex_x p (co_pi j)).
Definition co_g : mat := mkmat 2 2 (fun q j => mat_at ex_g q (co_pi j)).
Definition co_hp : hpv := mkhp (hp_beta ev_hp) (mkvec 2 (fun i => vat (hp_theta ev_hp) (co_pi i))) (hp_kernel ev_hp) (hp_varK ev_hp) (hp_var_fval ev_hp) (hp_var_fgrad ev_hp).
Example C56_hypotheses_met : exists d1 d2 su1 su2,
  set_data ex_opt ex_x ex_f SdNone (Some ex_g) SdNone (Some [true; false; true]) = Ok d1 /\
  set_data ex_opt co_x ex_f SdNone (Some co_g) SdNone (Some [true; false; true]) = Ok d2 /\
  eval_input ex_opt d1 ev_hp 2 (1 / 3) /\ eval_input ex_opt d2 co_hp 2 (1 / 3) /\ lkd_input ex_opt d1 ev_hp /\ lkd_input ex_opt d2 co_hp /\ mask_supported ex_opt d1 /\
  coords_renamed ex_opt d1 d2 co_pi /\ renamed_factors ex_opt d1 d2 co_pi /\ renamed_hp ex_opt co_pi ev_hp co_hp /\ mean_in_units d2 (1 / 3) = mean_in_units d1 (1 / 3) /\
  set_up ex_opt d1 (fun _ => 1) ev_hp true su1 /\ set_up ex_opt d2 (fun _ => 1) co_hp true su2 /\ co_pi 0 <> 0%nat /\ vat (hp_theta ev_hp) 0 <> vat (hp_theta ev_hp) 1.
Proof.
  assert (E1 : exists d, set_data ex_opt ex_x ex_f SdNone (Some ex_g) SdNone (Some [true; false; true]) = Ok d /\ d_known_fval d = false /\ d_known_fgrad d = false /\ d_scl d = None /\
     d_bvec d = Some [true; false; true] /\ d_n_eval d = 3%nat /\ d_noisy d = true /\ d_x d = ex_x /\ d_fval d = ex_f /\ d_grad d = Some ex_g /\ d_std_fval d = None /\ d_std_grad d = None).
  { eexists; (split; [reflexivity|]); repeat split. }
  assert (E2 : exists d, set_data ex_opt co_x ex_f SdNone (Some co_g) SdNone (Some [true; false; true]) = Ok d /\ d_known_fval d = false /\ d_known_fgrad d = false /\ d_scl d = None /\
     d_bvec d = Some [true; false; true] /\ d_n_eval d = 3%nat /\ d_noisy d = true /\ d_x d = co_x /\ d_fval d = ex_f /\ d_grad d = Some co_g /\ d_std_fval d = None /\ d_std_grad d = None).
  { eexists; (split; [reflexivity|]); repeat split. }
  destruct E1 as (d1 & E1 & K1 & K2 & K3 & K4 & K5 & K6 & K7 & K8 & K9 & K10 & K11). destruct E2 as (d2 & E2 & L1 & L2 & L3 & L4 & L5 & L6 & L7 & L8 & L9 & L10 & L11).
  assert (EI : forall d x fv g m hp, hp = ev_hp \/ hp = co_hp -> set_data ex_opt x fv SdNone (Some g) SdNone m = Ok d -> vlen fv = 3%nat -> nr x = 3%nat -> nc x = 2%nat -> d_known_fval d = false -> d_known_fgrad d = false -> d_scl d = None -> eval_input ex_opt d hp 2 (1 / 3)).
  { intros d x fv g m hp Hh E M1 M2 M3 M4 M5 M6. split; [split; [simpl; lia|split; simpl; lra]|].
    split. { exists x, fv, SdNone, (Some g), SdNone, m. rewrite M1, M2, M3. split; [lia|]. split; [reflexivity|]. split; [reflexivity|]. apply after_set; exact E. }
    split; [reflexivity|]. split.
    { destruct Hh as [-> | ->]; (split; [reflexivity|]); (split; [|exact I]); intros i Hi.
      - simpl; assert (0 <= INR i) by apply pos_INR; lra.
      - unfold co_hp; cbn [hp_theta vat ev_hp]. assert (0 <= INR (co_pi i)) by apply pos_INR. lra. }
    split. { split; [rewrite M4; split; [reflexivity|destruct Hh as [-> | ->]; eexists; reflexivity]|]. intros _. rewrite M5. destruct Hh as [-> | ->]; eexists; reflexivity. }
    split; [destruct Hh as [-> | ->]; (split; intros v Ev; injection Ev as <-; lra)|]. split; [destruct Hh as [-> | ->]; reflexivity|]. split; [lra|]. split; [destruct Hh as [-> | ->]; exists (vconst 1 (1 / 3)); repeat split|].
    intros i _. unfold in_scale. rewrite M6. lra. }
  assert (I1 : eval_input ex_opt d1 ev_hp 2 (1 / 3)) by (eapply EI; eauto). assert (I2 : eval_input ex_opt d2 co_hp 2 (1 / 3)) by (eapply EI; eauto).
  assert (LI : forall d hp, hp = ev_hp \/ hp = co_hp -> eval_input ex_opt d hp 2 (1 / 3) -> lkd_input ex_opt d hp).
  { intros d hp Hh (A1 & A2 & A3 & A4 & A5 & A6 & _). repeat (split; [assumption|]). intros _. exists 2. split; [destruct Hh as [-> | ->]; reflexivity|lra]. }
  destruct (C30_setup_succeeds ex_opt d1 (fun _ => 1) ev_hp 2 (1 / 3) true I1) as (su1 & _ & HS1). destruct (C30_setup_succeeds ex_opt d2 (fun _ => 1) co_hp 2 (1 / 3) true I2) as (su2 & _ & HS2).
  assert (CR : coords_renamed ex_opt d1 d2 co_pi).
  { assert (U1 : n_used (d_n_eval d1) (d_bvec d1) = 2%nat) by (rewrite K4, K5; reflexivity). constructor.
    - exists co_pi. split; intros [|[|i]] Hi; cbn in *; lia.
    - congruence.
    - congruence.
    - congruence.
    - rewrite K7, L7. intros p [|[|i]] Hp Hi; [reflexivity|reflexivity|cbn in Hi; lia].
    - rewrite K8, L8. reflexivity.
    - rewrite K10, L10. exact I.
    - intros _. rewrite K9, L9. cbn [OrderSpec.both]. intros q [|[|i]] Hq Hi; [reflexivity|reflexivity|cbn in Hi; lia].
    - intros _. rewrite K11, L11. exact I. }
  exists d1, d2, su1, su2. split; [exact E1|]. split; [exact E2|]. split; [exact I1|]. split; [exact I2|]. split; [apply LI; auto|]. split; [apply LI; auto|]. split; [intros _ C; discriminate|].
  split; [exact CR|]. split; [apply (C56_same_factors_after_set_data ex_opt _ _ _ _ _ _ _ _ _ _ _ _ d1 d2 co_pi) with (6 := E1) (7 := E2) (8 := CR); cbn; try lia; reflexivity|].
  split; [split; [intros [|[|i]] Hi; [reflexivity|reflexivity|cbn in Hi; lia]|repeat split]|].
  split; [unfold mean_in_units, out_scale, out_shift; rewrite K3, L3; reflexivity|]. split; [apply HS1; left; reflexivity|]. split; [apply HS2; left; reflexivity|]. split; [vm_compute; discriminate|]. cbn. lra.
Qed.
