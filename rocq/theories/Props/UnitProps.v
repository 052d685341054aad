(** * Property C52: the units of the data do not matter.  Vocabulary: [Spec/UnitSpec.v]. *)
From Coq Require Import Reals List Arith Bool Lia Lra Psatz.
From Coquelicot Require Import Coquelicot.
From Verif.Base Require Import NpLite NpFacts Deriv.
From Verif.Spec Require Import KernelSpec LinAlgSpec GpSpec HpSpec DataSpec LkdSpec RescaleSpec EvalSpec OrderSpec UnitSpec.
From Verif.Model Require Import KernelSqExp KernelMatern KernelRatQuad KernelDispatch CommonFun WellCond Rescaling GpState Chol Cov HpInfo HpGrad MeanFun Lkd EvalModel.
From Verif.Proofs Require Import KernTac KernGradBlocks RadialCalculus KernelExact LinAlg CholCorrect Jets Psd CovStruct ThetaGrad HessX2 StateFacts NoiseFacts DataFacts NuggetCond NuggetMain MinMax RescaleFacts
  LinDeriv LkdCore LkdFacts LkdMain EvalKern EvalFacts EvalMain EvalInterp Reorder.
From Verif.Props Require Import CondProps DataProps LkdProps EvalProps OrderProps.
Import ListNotations.
Local Open Scope R_scope.

(** congruence by a positive diagonal matrix *)
Lemma ksol_scale n W A1 A2 b1 b2 : (forall r, (r < n)%nat -> 0 < W r) -> (forall r s, (r < n)%nat -> (s < n)%nat -> A2 r s = W r * W s * A1 r s) ->
  (forall r, (r < n)%nat -> b2 r = W r * b1 r) -> pdf n A1 -> pdf n A2 -> forall r, (r < n)%nat -> ksol n A2 b2 r = ksol n A1 b1 r / W r.
Proof.
  intros HW HA Hb P1 P2 r Hr. symmetry. apply (ksol_unique n A2 (fun r => ksol n A1 b1 r / W r)); [exact P2| |exact Hr].
  intros i Hi. unfold mv. rewrite Hb by exact Hi. rewrite <- (ksol_ok n A1 b1 P1 i Hi). unfold mv. rewrite <- rsum_scal. apply rsum_ext; intros j Hj.
  rewrite HA by assumption. assert (Z := HW j Hj). field. lra.
Qed.
Lemma dotp_ksol_scale n W c1 c2 A1 A2 f1 f2 b1 b2 : (forall r, (r < n)%nat -> 0 < W r) -> (forall r s, (r < n)%nat -> (s < n)%nat -> A2 r s = W r * W s * A1 r s) ->
  (forall r, (r < n)%nat -> f2 r = c1 * W r * f1 r) -> (forall r, (r < n)%nat -> b2 r = c2 * W r * b1 r) -> pdf n A1 -> pdf n A2 -> dotp n f2 (ksol n A2 b2) = c1 * c2 * dotp n f1 (ksol n A1 b1).
Proof.
  intros HW HA Hf Hb P1 P2. unfold dotp. rewrite <- rsum_scal. apply rsum_ext; intros r Hr. assert (Z := HW r Hr).
  rewrite (ksol_scale n W A1 A2 (fun r => c2 * b1 r) b2 HW HA) by (auto; intros; rewrite Hb by assumption; ring).
  replace (ksol n A1 (fun r => c2 * b1 r) r) with (c2 * ksol n A1 b1 r).
  - rewrite Hf by exact Hr. field. lra.
  - apply (ksol_unique n A1 (fun r => c2 * ksol n A1 b1 r)); [exact P1| |exact Hr]. intros i Hi. unfold mv. rewrite (rsum_ext n _ (fun j => c2 * (A1 i j * ksol n A1 b1 j))) by (intros; ring). rewrite rsum_scal. f_equal. apply (ksol_ok n A1 b1 P1 i Hi).
Qed.
(** kernels after a change of lengths *)
Definition owt (w : nat -> R) (a : obs) : R := match a with Val _ => 1 | Der i _ => w i end.
Lemma kj_scale k al d w th th' a b a' b' : obs_lt d a -> obs_lt d b -> obs_kind a a' -> obs_kind b b' ->
  (forall i, (i < d)%nat -> w i <> 0 /\ th' i = th i * w i ^ 2 /\ obs_pt a' i - obs_pt b' i = (obs_pt a i - obs_pt b i) / w i) -> kjet k al d th' a' b' = owt w a * owt w b * kjet k al d th a b.
Proof.
  intros La Lb Ka Kb H.
  assert (S : sqd d th' (obs_pt a') (obs_pt b') = sqd d th (obs_pt a) (obs_pt b)).
  { apply rsum_ext; intros i Hi. destruct (H i Hi) as (Z & -> & ->). field. exact Z. }
  destruct a as [x|i x], a' as [x'|i' x']; cbn in Ka; try contradiction; destruct b as [y|j y], b' as [y'|j' y']; cbn in Kb; try contradiction; subst;
    unfold kjet, rjet; cbn [obs_pt] in S, H; cbn [obs_lt] in La, Lb; cbn [owt]; rewrite S.
  - ring.
  - destruct (H _ Lb) as (Z & -> & ->). field. exact Z.
  - destruct (H _ La) as (Z & -> & ->). field. exact Z.
  - destruct (H _ La) as (Z & -> & ->). destruct (H _ Lb) as (Z' & -> & ->). destruct (Nat.eqb_spec i' j') as [->|]; field; auto.
Qed.

Section U.
Variables (o : gpopt) (d1 d2 : gpdata) (hp1 hp2 : hpv) (v1 v2 b1 b2 : R) (s t : nat -> R) (a b : R).
Hypothesis I1 : eval_input o d1 hp1 v1 b1.
Hypothesis I2 : eval_input o d2 hp2 v2 b2.
Hypothesis HU : other_units o d1 d2 s t a b.
Hypothesis HH : hp_other_units o d1 d2 hp1 hp2 b1 b2 s a b.
Notation N := (cN o d1).
Let D1 : data_set o d1. Proof. apply I1. Qed.
Let D2 : data_set o d2. Proof. apply I2. Qed.
Definition uw (i : nat) : R := in_scale d1 i / (s i * in_scale d2 i).
Definition ur : R := a * out_scale d2 / out_scale d1.
Lemma uw_pos i : (i < o_dim o)%nat -> 0 < uw i.
Proof. intros Hi. unfold uw. apply Rdiv_lt_0_compat; [apply I1, Hi|]. apply Rmult_lt_0_compat; [apply HU|apply I2, Hi]. Qed.
Lemma ur_pos : 0 < ur.
Proof.
  assert (0 < out_scale d1) by (apply (out_scale_pos o); apply I1). assert (0 < out_scale d2) by (apply (out_scale_pos o); apply I2).
  unfold ur. apply Rdiv_lt_0_compat; [apply Rmult_lt_0_compat; [apply HU|]|]; assumption.
Qed.
Lemma u_grad : d_n_grad d2 = d_n_grad d1.
Proof.
  destruct D1 as (x & fv & sf & g & sg & m & A1 & A2 & A3 & A4). destruct D2 as (x' & fv' & sf' & g' & sg' & m' & B1 & B2 & B3 & B4).
  assert (J1 := data_after_inv _ _ _ _ _ _ _ _ A4). assert (J2 := data_after_inv _ _ _ _ _ _ _ _ B4).
  destruct J1 as (N1 & _ & X1 & _ & _ & _ & G1 & _). destruct J2 as (N2 & _ & X2 & _ & _ & _ & G2 & _). rewrite G1, G2.
  assert (E := ou_n _ _ _ _ _ _ _ HU). assert (M := ou_mask _ _ _ _ _ _ _ HU). rewrite N1, N2 in E. rewrite X1, X2 in M. rewrite E, M. reflexivity.
Qed.
Lemma u_N : cN o d2 = N.
Proof. unfold cN. rewrite u_grad, (ou_n _ _ _ _ _ _ _ HU). reflexivity. Qed.
Lemma u_label r : (r < N)%nat -> exists l, nth_error (gp_labels o d1) r = Some l /\ nth_error (gp_labels o d2) r = Some l /\
  match l with LVal p => (p < d_n_eval d1)%nat | LDer i q => o_use_grad o = true /\ (i < o_dim o)%nat /\ (q < n_used (d_n_eval d1) (d_bvec d1))%nat end.
Proof.
  intros Hr. assert (HO : observations_in o d1 d1 (fun p => p) (fun q => q)).
  { constructor; auto; try (intros p q _ _ E; exact E); try (intros _ p q _ _ E; exact E); try (intros; unfold both; destruct (d_std_fval d1), (d_std_grad d1), (d_grad d1); auto). }
  destruct (sig_label o d1 d1 hp1 hp1 v1 b1 b1 (fun p => p) (fun q => q) I1 I1 HO r Hr) as (l & L1 & _ & L3). exists l. split; [exact L1|]. split; [|exact L3].
  unfold gp_labels in *. rewrite (ou_n _ _ _ _ _ _ _ HU), (ou_mask _ _ _ _ _ _ _ HU). exact L1.
Qed.
Definition lw (l : label) : R := match l with LVal _ => 1 | LDer i _ => uw i end.
Definition rw (r : nat) : R := match nth_error (gp_labels o d1) r with Some l => lw l | None => 1 end.
Lemma rw_pos r : (r < N)%nat -> 0 < rw r.
Proof. intros Hr. unfold rw. destruct (u_label r Hr) as (l & -> & _ & L). destruct l as [p|i q]; cbn [lw]; [lra|]. apply uw_pos, L. Qed.
Lemma u_rows p i : (p < d_n_eval d1)%nat -> (i < o_dim o)%nat -> rows_of (fst (get_scl_x_w_dist d2)) p i = rows_of (fst (get_scl_x_w_dist d1)) p i / uw i + (s i * in_shift d1 i + t i - in_shift d2 i) * in_scale d2 i.
Proof.
  intros Hp Hi. rewrite (scaled_rows o d2 p i D2) by (rewrite ?(ou_n _ _ _ _ _ _ _ HU); assumption). rewrite (scaled_rows o d1 p i D1 Hp Hi), (ou_x _ _ _ _ _ _ _ HU p i Hp Hi). unfold uw.
  assert (0 < in_scale d1 i) by (apply I1, Hi). assert (0 < in_scale d2 i) by (apply I2, Hi). assert (0 < s i) by (apply HU). field. lra.
Qed.
Lemma u_obs r : (r < N)%nat -> obs_kind (cobs d1 (fst (get_scl_x_w_dist d1)) r) (cobs d2 (fst (get_scl_x_w_dist d2)) r) /\ owt uw (cobs d1 (fst (get_scl_x_w_dist d1)) r) = rw r /\
  forall i, (i < o_dim o)%nat -> obs_pt (cobs d2 (fst (get_scl_x_w_dist d2)) r) i = obs_pt (cobs d1 (fst (get_scl_x_w_dist d1)) r) i / uw i + (s i * in_shift d1 i + t i - in_shift d2 i) * in_scale d2 i.
Proof.
  intros Hr. unfold rw. destruct (u_label r Hr) as (l & L1 & L2 & L3). rewrite L1. destruct (label_row o d1 hp1 v1 b1 I1 _ _ L1) as (_ & -> & _). destruct (label_row o d2 hp2 v2 b2 I2 _ _ L2) as (_ & -> & _).
  rewrite (ou_n _ _ _ _ _ _ _ HU), (ou_mask _ _ _ _ _ _ _ HU).
  destruct l as [p|i q]; cbn [label_obs obs_kind obs_pt owt lw]; (split; [reflexivity || exact I|]); (split; [reflexivity|]); intros j Hj.
  - apply u_rows; assumption.
  - destruct L3 as (U & Hi & Hq). apply u_rows; [|exact Hj]. apply (gpt_lt o d1); assumption.
Qed.
Lemma u_th i : (i < o_dim o)%nat -> cut (o_dim o) (vat (hp_theta hp2)) i = cut (o_dim o) (vat (hp_theta hp1)) i * uw i ^ 2.
Proof.
  intros Hi. rewrite !cut_lt by exact Hi. assert (Z := hu_theta _ _ _ _ _ _ _ _ _ _ HH i Hi). unfold theta_in_units in Z. unfold uw.
  assert (0 < in_scale d1 i) by (apply I1, Hi). assert (0 < in_scale d2 i) by (apply I2, Hi). assert (0 < s i) by (apply HU).
  apply (Rmult_eq_reg_r (in_scale d2 i ^ 2)); [|apply pow_nonzero; lra]. rewrite Z. field. lra.
Qed.
Lemma u_kf r q : (r < N)%nat -> (q < N)%nat -> ckf o d2 hp2 (fst (get_scl_x_w_dist d2)) r q = rw r * rw q * ckf o d1 hp1 (fst (get_scl_x_w_dist d1)) r q.
Proof.
  intros Hr Hq. unfold ckf. rewrite (hu_kernel _ _ _ _ _ _ _ _ _ _ HH). destruct (u_obs r Hr) as (K1 & W1 & T1). destruct (u_obs q Hq) as (K2 & W2 & T2). rewrite <- W1, <- W2.
  apply kj_scale; auto; try (apply (cobs_lt o d1 hp1 (ei_noise _ _ _ _ _ I1)); assumption). intros i Hi. assert (P := uw_pos i Hi). split; [lra|]. split; [apply u_th, Hi|]. rewrite T1, T2 by exact Hi. field. lra.
Qed.
(** evaluation points *)
Definition ux (x y : pt) : Prop := forall i, (i < o_dim o)%nat -> y i = s i * x i + t i.
Lemma u_to_scl x y i : ux x y -> (i < o_dim o)%nat -> to_scl d2 y i = to_scl d1 x i / uw i + (s i * in_shift d1 i + t i - in_shift d2 i) * in_scale d2 i.
Proof.
  intros H Hi. unfold to_scl, uw. rewrite (H i Hi). assert (0 < in_scale d1 i) by (apply I1, Hi). assert (0 < in_scale d2 i) by (apply I2, Hi). assert (0 < s i) by (apply HU). field. lra.
Qed.
Lemma u_kx x y r : ux x y -> (r < N)%nat -> kxf o d2 hp2 (to_scl d2 y) r = rw r * kxf o d1 hp1 (to_scl d1 x) r.
Proof.
  intros H Hr. unfold kxf. rewrite (hu_kernel _ _ _ _ _ _ _ _ _ _ HH). destruct (u_obs r Hr) as (K1 & W1 & T1). rewrite <- W1, <- (Rmult_1_r (owt uw _)). change 1 with (owt uw (Val (to_scl d1 x))) at 1.
  apply kj_scale; cbn [obs_lt obs_kind obs_pt]; auto; try exact I; [apply (cobs_lt o d1 hp1 (ei_noise _ _ _ _ _ I1)); assumption|]. intros i Hi. assert (P := uw_pos i Hi). split; [lra|]. split; [apply u_th, Hi|].
  rewrite T1, (u_to_scl x y) by assumption. field. lra.
Qed.
Lemma u_dk x y j r : ux x y -> (r < N)%nat -> (j < o_dim o)%nat -> dkf o d2 hp2 j (to_scl d2 y) r = uw j * rw r * dkf o d1 hp1 j (to_scl d1 x) r.
Proof.
  intros H Hr Hj. unfold dkf. rewrite (hu_kernel _ _ _ _ _ _ _ _ _ _ HH). destruct (u_obs r Hr) as (K1 & W1 & T1). rewrite <- W1, (Rmult_comm (uw j)). change (uw j) with (owt uw (Der j (to_scl d1 x))).
  apply kj_scale; cbn [obs_lt obs_kind obs_pt]; auto; [apply (cobs_lt o d1 hp1 (ei_noise _ _ _ _ _ I1)); assumption|]. intros i Hi. assert (P := uw_pos i Hi). split; [lra|]. split; [apply u_th, Hi|].
  rewrite T1, (u_to_scl x y) by assumption. field. lra.
Qed.
(** the data *)
Lemma u_b2 : b2 = ur * b1 + out_scale d2 * (a * out_shift d1 + b - out_shift d2).
Proof.
  assert (0 < out_scale d1) by (apply (out_scale_pos o); apply I1). assert (0 < out_scale d2) by (apply (out_scale_pos o); apply I2).
  assert (Z := hu_mean _ _ _ _ _ _ _ _ _ _ HH). unfold mean_in_units in Z. unfold ur. replace b2 with (out_scale d2 * (b2 / out_scale d2 + out_shift d2 - out_shift d2)) by (field; lra). rewrite Z. field. lra.
Qed.
Lemma u_basis r : basis d2 r = basis d1 r.
Proof. unfold basis. rewrite (ou_n _ _ _ _ _ _ _ HU). reflexivity. Qed.
Lemma u_res r : (r < N)%nat -> sres d2 b2 r = ur * rw r * sres d1 b1 r.
Proof.
  intros Hr. unfold sres, gres, rw. destruct (u_label r Hr) as (l & L1 & L2 & L3). rewrite L1. destruct (label_row o d1 hp1 v1 b1 I1 _ _ L1) as (_ & _ & -> & _). destruct (label_row o d2 hp2 v2 b2 I2 _ _ L2) as (_ & _ & -> & _).
  assert (0 < out_scale d1) by (apply (out_scale_pos o); apply I1). assert (0 < out_scale d2) by (apply (out_scale_pos o); apply I2).
  rewrite u_basis, u_b2. apply labels_inv in L1. destruct L1 as (V & E). unfold basis.
  destruct l as [p|i q]; cbn [scaled_value lab_rix radr lw] in *.
  - subst r. destruct (Nat.ltb_spec p (d_n_eval d1)) as [C|C]; [|lia]. rewrite (ou_f _ _ _ _ _ _ _ HU p L3). unfold ur. field. lra.
  - destruct (Nat.ltb_spec r (d_n_eval d1)) as [C|C]; [lia|]. destruct L3 as (U & Hi & Hq). assert (Z := ou_grad _ _ _ _ _ _ _ HU U). unfold both in Z. destruct (d_grad d1), (d_grad d2); try contradiction; [|ring].
    rewrite Z by assumption. unfold ur, uw. assert (0 < in_scale d1 i) by (apply I1, Hi). assert (0 < in_scale d2 i) by (apply I2, Hi). assert (0 < s i) by (apply HU). field. lra.
Qed.
Lemma u_noise r : (r < N)%nat -> noise_fn d2 hp2 None r = (ur * rw r) ^ 2 * noise_fn d1 hp1 None r.
Proof.
  intros Hr. unfold rw. destruct (u_label r Hr) as (l & L1 & L2 & L3). rewrite L1. destruct (label_row o d1 hp1 v1 b1 I1 _ _ L1) as (_ & _ & _ & ->). destruct (label_row o d2 hp2 v2 b2 I2 _ _ L2) as (_ & _ & _ & ->).
  assert (0 < out_scale d1) by (apply (out_scale_pos o); apply I1). assert (0 < out_scale d2) by (apply (out_scale_pos o); apply I2).
  unfold obs_noise. rewrite (ou_noisy _ _ _ _ _ _ _ HU). destruct (d_noisy d1); [|ring].
  destruct l as [p|i q]; cbn [noise_variance lw].
  - assert (Z := ou_std _ _ _ _ _ _ _ HU). assert (Z' := hu_var_f _ _ _ _ _ _ _ _ _ _ HH). unfold both in Z, Z'. destruct (d_std_fval d1), (d_std_fval d2); try contradiction; [rewrite Z by exact L3; unfold ur; field; lra|].
    destruct (hp_var_fval hp1), (hp_var_fval hp2); try contradiction; [|ring]. unfold var_in_units in Z'. unfold ur. apply (Rmult_eq_reg_r (/ out_scale d2 ^ 2)); [|apply Rinv_neq_0_compat, pow_nonzero; lra]. unfold Rdiv in Z'. rewrite Z'. field. lra.
  - destruct L3 as (U & Hi & Hq). assert (0 < in_scale d1 i) by (apply I1, Hi). assert (0 < in_scale d2 i) by (apply I2, Hi). assert (0 < s i) by (apply HU).
    assert (Z := ou_stdg _ _ _ _ _ _ _ HU U). assert (Z' := hu_var_g _ _ _ _ _ _ _ _ _ _ HH). unfold both in Z, Z'. destruct (d_std_grad d1), (d_std_grad d2); try contradiction; [rewrite Z by assumption; unfold ur, uw; field; lra|].
    destruct (hp_var_fgrad hp1), (hp_var_fgrad hp2); try contradiction; [|ring]. specialize (Z' i Hi). unfold gvar_in_units in Z'. unfold ur, uw.
    apply (Rmult_eq_reg_r ((in_scale d2 i / out_scale d2) ^ 2)); [|apply pow_nonzero; assert (0 < in_scale d2 i / out_scale d2) by (apply Rdiv_lt_0_compat; assumption); lra]. rewrite Z'. field. lra.
Qed.
(** the conditions: the nugget is relative, or the scaled lengths are the same; no noise, or the scaled values are the same *)
Hypothesis HN : is_precon (o_well o) = true \/ o_use_grad o = false \/ forall i, (i < o_dim o)%nat -> in_scale d2 i * s i = in_scale d1 i.
Hypothesis HZ : d_noisy d1 = false \/ out_scale d2 * a = out_scale d1.
Lemma u_noise1 r : (r < N)%nat -> noise_fn d2 hp2 None r = rw r ^ 2 * noise_fn d1 hp1 None r.
Proof.
  intros Hr. destruct HZ as [Z|Z].
  - destruct (u_label r Hr) as (l & L1 & L2 & L3). destruct (label_row o d1 hp1 v1 b1 I1 _ _ L1) as (_ & _ & _ & ->). destruct (label_row o d2 hp2 v2 b2 I2 _ _ L2) as (_ & _ & _ & ->).
    unfold obs_noise. rewrite (ou_noisy _ _ _ _ _ _ _ HU), Z. ring.
  - rewrite u_noise by exact Hr. assert (0 < out_scale d1) by (apply (out_scale_pos o); apply I1). assert (E : ur = 1) by (unfold ur; rewrite Rmult_comm, Z; field; lra). rewrite E. ring.
Qed.
Lemma u_rw1 r : is_precon (o_well o) = false -> (r < N)%nat -> rw r = 1.
Proof.
  intros W Hr. unfold rw. destruct (u_label r Hr) as (l & -> & _ & L3). destruct l as [p|i q]; [reflexivity|]. cbn [lw]. destruct L3 as (U & Hi & _). destruct HN as [H|[H|H]]; try congruence.
  unfold uw. rewrite Rmult_comm, H by exact Hi. assert (0 < in_scale d1 i) by (apply I1, Hi). field. lra.
Qed.
Lemma u_smat e r q : (r < N)%nat -> (q < N)%nat -> smat o d2 hp2 e r q = rw r * rw q * smat o d1 hp1 e r q.
Proof.
  intros Hr Hq. assert (W0 := u_rw1). unfold smat, sdiag. rewrite !u_kf, !u_noise1 by assumption. destruct (is_precon (o_well o)) eqn:W.
  - destruct (Nat.eqb_spec r q) as [->|]; ring.
  - rewrite !(W0 _ eq_refl) by assumption. destruct (Nat.eqb_spec r q) as [->|]; ring.
Qed.
Lemma u_nugget_matrix r q : (r < N)%nat -> (q < N)%nat -> nugget_matrix o d2 hp2 r q = nugget_matrix o d1 hp1 r q.
Proof.
  intros Hr Hq. assert (W0 := u_rw1). unfold nugget_matrix. destruct (is_precon (o_well o)) eqn:W.
  - unfold kcor, kn, dl. rewrite !Nat.eqb_refl. rewrite !u_kf, !u_noise1 by assumption.
    assert (K0 : forall i, (i < N)%nat -> 0 < ckf o d1 hp1 (fst (get_scl_x_w_dist d1)) i i + noise_fn d1 hp1 None i / 1).
    { intros i Hi. assert (P1 := ckf_pos o d1 hp1 (fst (get_scl_x_w_dist d1)) ltac:(apply I1) i Hi).
      assert (P2 : 0 <= noise_fn d1 hp1 None i) by (apply (f_nn o d1 hp1 (ei_ev _ _ _ _ _ I1) ltac:(apply I1) (ei_noise _ _ _ _ _ I1) i Hi)). lra. }
    assert (W1 := rw_pos r Hr). assert (W2 := rw_pos q Hq). assert (K1 := K0 r Hr). assert (K2 := K0 q Hq).
    assert (SQ : forall w x, 0 < w -> 0 < x -> sqrt (w * w * x) = w * sqrt x) by (intros w x Hw Hx; rewrite sqrt_mult by nra; rewrite sqrt_square by lra; reflexivity).
    replace (rw r * rw r * ckf o d1 hp1 (fst (get_scl_x_w_dist d1)) r r + rw r ^ 2 * noise_fn d1 hp1 None r / 1) with (rw r * rw r * (ckf o d1 hp1 (fst (get_scl_x_w_dist d1)) r r + noise_fn d1 hp1 None r / 1)) by field.
    replace (rw q * rw q * ckf o d1 hp1 (fst (get_scl_x_w_dist d1)) q q + rw q ^ 2 * noise_fn d1 hp1 None q / 1) with (rw q * rw q * (ckf o d1 hp1 (fst (get_scl_x_w_dist d1)) q q + noise_fn d1 hp1 None q / 1)) by field.
    rewrite !SQ by assumption. assert (S1 := sqrt_lt_R0 _ K1). assert (S2 := sqrt_lt_R0 _ K2). destruct (Nat.eqb_spec r q) as [->|]; field; lra.
  - rewrite u_kf, !(W0 _ eq_refl) by assumption. ring.
Qed.
Lemma u_eta e1 e2 : eta_is o d1 N (nugget_matrix o d1 hp1) e1 -> eta_is o d2 (cN o d2) (nugget_matrix o d2 hp2) e2 -> e2 = e1.
Proof.
  rewrite u_N. unfold eta_is. destruct (o_eta_const o).
  - intros E1 E2. destruct (etaK_of o d1 D1) as (k1 & g1 & A1 & B1). destruct (etaK_of o d2 D2) as (k2 & g2 & A2 & B2). rewrite (ou_n _ _ _ _ _ _ _ HU), A1 in A2. injection A2 as <- <-. congruence.
  - assert (RS : forall r, (r < N)%nat -> rsum N (fun j => Rabs (nugget_matrix o d2 hp2 r j)) = rsum N (fun j => Rabs (nugget_matrix o d1 hp1 r j))) by (intros r Hr; apply rsum_ext; intros j Hj; rewrite u_nugget_matrix by assumption; reflexivity).
    intros (i & Hi & -> & M1) (j & Hj & -> & M2). f_equal. apply Rle_antisym; [rewrite RS by exact Hj; apply M1, Hj|rewrite <- (RS i Hi); apply M2, Hi].
Qed.
Variable (e : R).
Hypothesis P1 : pdf N (smat o d1 hp1 e).
Hypothesis P2 : pdf N (smat o d2 hp2 e).
Lemma u_pv x y : ux x y -> Pv o d2 hp2 e (to_scl d2 y) = Pv o d1 hp1 e (to_scl d1 x).
Proof.
  intros H. unfold Pv, pv, pz. rewrite u_N. f_equal. rewrite (dotp_ksol_scale N rw 1 1 (smat o d1 hp1 e) (smat o d2 hp2 e) (kxf o d1 hp1 (to_scl d1 x)) _ (kxf o d1 hp1 (to_scl d1 x))); auto using rw_pos, u_smat.
  - ring.
  - intros r Hr. rewrite (u_kx x y) by assumption. ring.
  - intros r Hr. rewrite (u_kx x y) by assumption. ring.
Qed.
Lemma u_vK : v2 = ur ^ 2 * v1.
Proof.
  assert (0 < out_scale d1) by (apply (out_scale_pos o); apply I1). assert (0 < out_scale d2) by (apply (out_scale_pos o); apply I2).
  assert (Z := hu_varK _ _ _ _ _ _ _ _ _ _ HH). destruct I1 as (_ & _ & _ & _ & _ & _ & V1 & _). destruct I2 as (_ & _ & _ & _ & _ & _ & V2 & _). rewrite V1, V2 in Z. cbn [both] in Z. unfold var_in_units in Z. unfold ur.
  apply (Rmult_eq_reg_r (/ out_scale d2 ^ 2)); [|apply Rinv_neq_0_compat, pow_nonzero; lra]. unfold Rdiv in Z. rewrite Z. field. lra.
Qed.
Lemma u_sq : sqrt v2 = ur * sqrt v1.
Proof. assert (Z := ur_pos). assert (0 < v1) by apply I1. rewrite u_vK. rewrite sqrt_mult by (try apply pow2_ge_0; lra). rewrite sqrt_pow2 by lra. reflexivity. Qed.
Lemma u_psig x y : ux x y -> Psig o d2 hp2 v2 e (to_scl d2 y) = ur * Psig o d1 hp1 v1 e (to_scl d1 x).
Proof. intros H. unfold Psig. rewrite (u_pv x y H), u_sq. ring. Qed.
Lemma u_si x y : ux x y -> Si o d2 hp2 v2 e y = a * Si o d1 hp1 v1 e x.
Proof.
  assert (0 < out_scale d1) by (apply (out_scale_pos o); apply I1). assert (0 < out_scale d2) by (apply (out_scale_pos o); apply I2).
  intros Hx. unfold Si. rewrite (u_psig x y Hx). unfold ur. field. lra.
Qed.
Lemma u_mi x y : ux x y -> Mi o d2 hp2 b2 e y = a * Mi o d1 hp1 b1 e x + b.
Proof.
  assert (0 < out_scale d1) by (apply (out_scale_pos o); apply I1). assert (0 < out_scale d2) by (apply (out_scale_pos o); apply I2).
  intros Hx. unfold Mi, Pmu, pmu, pw. rewrite u_N.
  rewrite (dotp_ksol_scale N rw 1 ur (smat o d1 hp1 e) (smat o d2 hp2 e) (kxf o d1 hp1 (to_scl d1 x)) _ (sres d1 b1)); auto using rw_pos, u_smat, u_res.
  - rewrite u_b2. unfold ur. field. lra.
  - intros r Hr. rewrite (u_kx x y) by assumption. ring.
Qed.
Lemma u_dmu x y i : ux x y -> (i < o_dim o)%nat -> Pdmu o d2 hp2 b2 e i (to_scl d2 y) * gscl d2 i = a / s i * (Pdmu o d1 hp1 b1 e i (to_scl d1 x) * gscl d1 i).
Proof.
  assert (0 < out_scale d1) by (apply (out_scale_pos o); apply I1). assert (0 < out_scale d2) by (apply (out_scale_pos o); apply I2).
  intros Hx Hi. assert (0 < in_scale d1 i) by (apply I1, Hi). assert (0 < in_scale d2 i) by (apply I2, Hi). assert (0 < s i) by (apply HU).
  unfold Pdmu, pdmu, pw, gscl. rewrite u_N.
  rewrite (dotp_ksol_scale N rw (uw i) ur (smat o d1 hp1 e) (smat o d2 hp2 e) (dkf o d1 hp1 i (to_scl d1 x)) _ (sres d1 b1)); auto using rw_pos, u_smat, u_res, u_dk.
  unfold ur, uw. field. lra.
Qed.
Lemma u_dsig x y i : ux x y -> (i < o_dim o)%nat -> Pdsig o d2 hp2 v2 e i (to_scl d2 y) * gscl d2 i = a / s i * (Pdsig o d1 hp1 v1 e i (to_scl d1 x) * gscl d1 i).
Proof.
  assert (0 < out_scale d1) by (apply (out_scale_pos o); apply I1). assert (0 < out_scale d2) by (apply (out_scale_pos o); apply I2).
  intros Hx Hi. assert (0 < in_scale d1 i) by (apply I1, Hi). assert (0 < in_scale d2 i) by (apply I2, Hi). assert (0 < s i) by (apply HU). assert (0 < a) by apply HU.
  unfold Pdsig. rewrite (u_psig x y Hx). unfold Pdv, pdv, pz, gscl. rewrite u_N.
  rewrite (dotp_ksol_scale N rw (uw i) 1 (smat o d1 hp1 e) (smat o d2 hp2 e) (dkf o d1 hp1 i (to_scl d1 x)) _ (kxf o d1 hp1 (to_scl d1 x))); auto using rw_pos, u_smat, u_dk.
  2: { intros r Hr. rewrite (u_kx x y) by assumption. ring. }
  rewrite u_vK. assert (R0 := ur_pos). destruct (Req_EM_T (Psig o d1 hp1 v1 e (to_scl d1 x)) 0) as [Z|Z], (Req_EM_T (ur * Psig o d1 hp1 v1 e (to_scl d1 x)) 0) as [Z'|Z'].
  - field. lra.
  - exfalso. apply Z'. rewrite Z. ring.
  - exfalso. apply Rmult_integral in Z'. destruct Z'; lra.
  - unfold uw. unfold ur in *. field. repeat match goal with |- _ /\ _ => split end; try exact Z; lra.
Qed.
End U.

(** ** C52.  The same data and hyperparameters in other units give the same model in other units.  What is missing
    in the proved form: the nugget has to be relative ('precon'), or there are no gradients, or the scaled coordinates
    are the same; and noisy data need the same scaled values (C52_lengths_refuted, C52_noise_refuted). *)
Theorem C52_other_units_partial :
  forall (o : gpopt) (d1 d2 : gpdata) (condf : mat -> R) (hp1 hp2 : hpv) (v1 v2 b1 b2 : R) (cc1 cc2 : bool) (su1 su2 : surr) (s t : nat -> R) (a b : R),
  eval_input o d1 hp1 v1 b1 -> eval_input o d2 hp2 v2 b2 -> mask_supported o d1 -> mask_supported o d2 ->
  other_units o d1 d2 s t a b -> hp_other_units o d1 d2 hp1 hp2 b1 b2 s a b ->
  (is_precon (o_well o) = true \/ o_use_grad o = false \/ forall i, (i < o_dim o)%nat -> in_scale d2 i * s i = in_scale d1 i) ->
  (d_noisy d1 = false \/ out_scale d2 * a = out_scale d1) ->
  set_up o d1 condf hp1 cc1 su1 -> set_up o d2 condf hp2 cc2 su2 ->
  k_eta (su_K su2) = k_eta (su_K su1) /\
  forall (x1 x2 : mat) (cg : bool), (0 < nr x1)%nat -> points_in_units (o_dim o) s t x1 x2 ->
  exists ev1 ev2, eval_model o d1 hp1 su1 x1 cg false = Ok ev1 /\ eval_model o d2 hp2 su2 x2 cg false = Ok ev2 /\
    vec_units (nr x1) a b (e_mu ev1) (e_mu ev2) /\ vec_units (nr x1) a 0 (e_sig ev1) (e_sig ev2) /\
    both (grad_units (nr x1) (o_dim o) s a) (e_dmu ev1) (e_dmu ev2) /\ both (grad_units (nr x1) (o_dim o) s a) (e_dsig ev1) (e_dsig ev2) /\
    (cg = true -> e_dmu ev1 <> None /\ e_dsig ev1 <> None).
Proof.
  intros o d1 d2 condf hp1 hp2 v1 v2 b1 b2 cc1 cc2 su1 su2 s t a b I1 I2 M1 M2 HU HH HN HZ S1 S2.
  destruct (ei_main o d1 hp1 v1 b1 I1 condf cc1 su1 S1) as (e1 & c1 & inv1 & Q1 & Q2 & Q3 & Q4 & Q5 & Q6 & Q7 & Q8 & Q9).
  destruct (ei_main o d2 hp2 v2 b2 I2 condf cc2 su2 S2) as (e2 & c2 & inv2 & P1 & P2 & P3 & P4 & P5 & P6 & P7 & P8 & P9).
  assert (EE : e2 = e1).
  { eapply (u_eta o d1 d2 hp1 hp2 v1 v2 b1 b2 s t a b I1 I2 HU HH HN HZ); [rewrite <- Q2; apply (setup_eta _ _ _ _ _ _ _ _ I1 (proj1 S1))|rewrite <- P2; apply (setup_eta _ _ _ _ _ _ _ _ I2 (proj1 S2))]. }
  split; [congruence|]. rewrite EE in P1, P2, P3, P4, P5, P9. clear EE e2. intros x1 x2 cg Hn (X1 & X2 & X3 & X4).
  destruct (ei_eval o d1 hp1 v1 b1 I1 condf cc1 su1 e1 c1 inv1 x1 cg false S1 M1 Q1 Q3 Q4 Q5 Q6 Q7 Q8 Q9 X2 Hn ltac:(discriminate)) as (ev1 & E1 & (A1 & A2) & (A3 & A4) & A5 & _).
  destruct (ei_eval o d2 hp2 v2 b2 I2 condf cc2 su2 e1 c2 inv2 x2 cg false S2 M2 P1 P3 P4 P5 P6 P7 P8 P9 X3 ltac:(lia) ltac:(discriminate)) as (ev2 & E2 & (B1 & B2) & (B3 & B4) & B5 & _).
  assert (PD : pdf (cN o d1) (smat o d2 hp2 e1)) by (replace (cN o d1) with (cN o d2); [exact P3|eapply u_N; eassumption]).
  assert (UX : forall p, (p < nr x1)%nat -> ux o s t (rows_of x1 p) (rows_of x2 p)) by (intros p Hp i Hi; apply X4; assumption). rewrite X1 in *.
  exists ev1, ev2. split; [exact E1|]. split; [exact E2|].
  split. { split; [exact A1|]. split; [exact B1|]. intros p Hp. rewrite A2, B2 by exact Hp. apply (u_mi o d1 d2 hp1 hp2 v1 v2 b1 b2 s t a b I1 I2 HU HH HN HZ e1 Q3 PD), UX, Hp. }
  split. { split; [exact A3|]. split; [exact B3|]. intros p Hp. rewrite A4, B4, Rplus_0_r by exact Hp. apply (u_si o d1 d2 hp1 hp2 v1 v2 b1 b2 s t a b I1 I2 HU HH HN HZ e1 Q3 PD), UX, Hp. }
  destruct cg.
  - destruct A5 as (G1 & T1 & -> & (a1 & a2 & a3) & -> & (a4 & a5 & a6)). destruct B5 as (G2 & T2 & -> & (c4 & c5 & c3) & -> & (c7 & c8 & c6)). cbn [both].
    split; [|split; [|split; discriminate]]; (split; [assumption|split; [assumption|split; [assumption|split; [assumption|]]]]); intros p i Hp Hi.
    + rewrite a3, c3 by assumption. apply (u_dmu o d1 d2 hp1 hp2 v1 v2 b1 b2 s t a b I1 I2 HU HH HN HZ e1 Q3 PD); auto.
    + rewrite a6, c6 by assumption. apply (u_dsig o d1 d2 hp1 hp2 v1 v2 b1 b2 s t a b I1 I2 HU HH HN HZ e1 Q3 PD); auto.
  - destruct A5 as (-> & ->), B5 as (-> & ->). cbn [both]. split; [exact I|]. split; [exact I|]. discriminate.
Qed.
Print Assumptions C52_other_units_partial.
