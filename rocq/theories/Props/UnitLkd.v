(** * Property C52, continued: the likelihood and the units of the data.  Vocabulary: [Spec/UnitSpec.v], [Spec/LkdSpec.v]. *)
From Coq Require Import Reals List Arith Bool Lia Lra Psatz.
From Coquelicot Require Import Coquelicot.
From Verif.Base Require Import NpLite NpFacts Deriv.
From Verif.Spec Require Import KernelSpec LinAlgSpec GpSpec HpSpec DataSpec LkdSpec RescaleSpec EvalSpec OrderSpec UnitSpec.
From Verif.Model Require Import KernelSqExp KernelMatern KernelRatQuad KernelDispatch CommonFun WellCond Rescaling GpState Chol Cov HpInfo HpGrad MeanFun Lkd EvalModel.
From Verif.Proofs Require Import KernTac KernGradBlocks RadialCalculus KernelExact LinAlg CholCorrect Det Jets Psd CovStruct ThetaGrad HessX2 StateFacts NoiseFacts DataFacts NuggetCond NuggetMain MinMax RescaleFacts
  LinDeriv LkdCore LkdFacts LkdMain EvalKern EvalFacts EvalMain EvalInterp HpInfoFacts HpGradFacts HpGradMain HpGradFree Reorder.
From Verif.Props Require Import CondProps DataProps LkdProps EvalProps EvalProps2 OrderProps OrderLkd UnitProps UnitProps2.
Import ListNotations.
Local Open Scope R_scope.

(** determinants after a congruence by a diagonal matrix *)
Lemma det_rows n : forall u A, det n (fun i j => u i * A i j) = rprod n u * det n A.
Proof.
  induction n as [|m IH]; intros u A; [cbn; ring|]. rewrite !det_S, rprod_S, <- rsum_scal. apply rsum_ext; intros j Hj.
  change (minor (fun i j => u i * A i j) j) with (fun i k => u (S i) * minor A j i k). rewrite (IH (fun i => u (S i))). ring.
Qed.
Lemma rprod_ext n f g : (forall i, (i < n)%nat -> f i = g i) -> rprod n f = rprod n g.
Proof. induction n as [|m IH]; intros H; [reflexivity|]. cbn [rprod]. rewrite IH by (intros; apply H; lia). rewrite H by lia. reflexivity. Qed.
Lemma rprod_skip m u j : (j < S m)%nat -> rprod (S m) u = u j * rprod m (fun k => u (if (k <? j)%nat then k else S k)).
Proof.
  revert j; induction m as [|m IH]; intros j Hj; [replace j with 0%nat by lia; cbn; ring|].
  destruct (Nat.eq_dec j (S m)) as [->|Hn].
  - cbn [rprod]. rewrite (rprod_ext m (fun k => u (if (k <? S m)%nat then k else S k)) u) by (intros i Hi; destruct (Nat.ltb_spec i (S m)); [reflexivity|lia]).
    destruct (Nat.ltb_spec m (S m)); [|lia]. ring.
  - change (rprod (S (S m)) u) with (rprod (S m) u * u (S m)). rewrite (IH j ltac:(lia)). cbn [rprod]. destruct (Nat.ltb_spec m j); [lia|]. ring.
Qed.
Lemma det_cols n : forall u A, det n (fun i j => u j * A i j) = rprod n u * det n A.
Proof.
  induction n as [|m IH]; intros u A; [cbn; ring|]. rewrite !det_S, <- rsum_scal. apply rsum_ext; intros j Hj. rewrite (rprod_skip m u j Hj).
  change (minor (fun i j => u j * A i j) j) with (fun i k => u (if (k <? j)%nat then k else S k) * minor A j i k). rewrite (IH (fun k => u (if (k <? j)%nat then k else S k))). ring.
Qed.
Lemma lndet_congr n W A1 A2 : (forall r, (r < n)%nat -> 0 < W r) -> (forall r s, (r < n)%nat -> (s < n)%nat -> A2 r s = W r * W s * A1 r s) -> pdf n A1 ->
  ln (det n A2) = ln (det n A1) + 2 * rsum n (fun r => ln (W r)).
Proof.
  intros HW HA P. rewrite (det_ext n A2 (fun i j => W i * (W j * A1 i j))) by (intros; rewrite HA by assumption; ring).
  rewrite (det_rows n W (fun i j => W j * A1 i j)), (det_cols n W A1). assert (D := pdf_det_pos n A1 P). assert (R := rprod_pos n W HW).
  rewrite !ln_mult by (try apply Rmult_lt_0_compat; assumption). rewrite (ln_rprod n W HW). ring.
Qed.
(** generalised least squares after a congruence *)
Lemma gls_congr n W c1 c2 A1 A2 v y1 y2 : c1 <> 0 -> nonzero n v -> (forall r, (r < n)%nat -> 0 < W r) -> (forall r s, (r < n)%nat -> (s < n)%nat -> A2 r s = W r * W s * A1 r s) ->
  (forall r, (r < n)%nat -> v r = c1 * W r * v r) -> (forall r, (r < n)%nat -> y2 r = c2 * W r * y1 r) -> pdf n A1 -> pdf n A2 ->
  gb n v y2 A2 = c2 / c1 * gb n v y1 A1 /\ gq n v y2 A2 = c2 ^ 2 * gq n v y1 A1.
Proof.
  intros C1 Hv HW HA HV HY P1 P2.
  assert (B : gb n v y2 A2 = c2 / c1 * gb n v y1 A1).
  { unfold gb, gw. rewrite (dotp_sym n (ksol n A2 v) y2), (dotp_sym n (ksol n A1 v) y1). rewrite (dotp_ksol_scale n W c2 c1 A1 A2 y1 y2 v v HW HA HY HV P1 P2), (dotp_ksol_scale n W c1 c1 A1 A2 v v v v HW HA HV HV P1 P2).
    assert (Z := gw_pos n v Hv A1 P1). unfold gw in Z. field. split; lra. }
  split; [exact B|]. unfold gq, gs. rewrite B.
  rewrite (dotp_ksol_scale n W c2 c2 A1 A2 (gres v y1 (gb n v y1 A1)) (gres v y2 (c2 / c1 * gb n v y1 A1)) (gres v y1 (gb n v y1 A1)) (gres v y2 (c2 / c1 * gb n v y1 A1)) HW HA); auto; try ring;
    intros r Hr; unfold gres; rewrite HY by exact Hr; rewrite (HV r Hr) at 1; field; exact C1.
Qed.
Lemma gls_data_ext n v y y' A : pdf n A -> (forall r, (r < n)%nat -> y r = y' r) -> gb n v y A = gb n v y' A /\ gq n v y A = gq n v y' A.
Proof.
  intros P H. assert (B : gb n v y A = gb n v y' A) by (unfold gb; f_equal; apply dotp_ext; auto). split; [exact B|].
  unfold gq, gs. rewrite B. apply dotp_ext; [|apply ksol_ext; auto]; intros r Hr; unfold gres; rewrite H by exact Hr; reflexivity.
Qed.
Section L.
Variables (o : gpopt) (d1 d2 : gpdata) (hp1 hp2 : hpv) (v1 v2 b1 b2 : R) (s t : nat -> R) (a b : R).
Hypothesis I1 : eval_input o d1 hp1 v1 b1.
Hypothesis I2 : eval_input o d2 hp2 v2 b2.
Hypothesis HU : other_units o d1 d2 s t a b.
Hypothesis HH : hp_other_units o d1 d2 hp1 hp2 b1 b2 s a b.
Hypothesis HN : is_precon (o_well o) = true \/ o_use_grad o = false \/ forall i, (i < o_dim o)%nat -> in_scale d2 i * s i = in_scale d1 i.
Variables (w1 w2 : R).
Hypothesis W1 : 0 < w1.
Hypothesis HW : if d_noisy d1 then w2 = ur d1 d2 a ^ 2 * w1 else True.
Notation N := (cN o d1).
Notation rw := (rw o d1 d2 s).
Notation ur := (ur d1 d2 a).
Let RP r : (r < N)%nat -> 0 < rw r. Proof. apply (rw_pos o d1 d2 hp1 hp2 v1 v2 b1 b2 s t a b I1 I2 HU). Qed.
Let UP : 0 < ur. Proof. apply (ur_pos o d1 d2 hp1 hp2 v1 v2 b1 b2 s t a b I1 I2 HU). Qed.
Lemma ul_noise r : (r < N)%nat -> noise_fn d2 hp2 None r / w2 = rw r ^ 2 * (noise_fn d1 hp1 None r / w1).
Proof.
  intros Hr. destruct (d_noisy d1) eqn:Z.
  - rewrite (u_noise o d1 d2 hp1 hp2 v1 v2 b1 b2 s t a b I1 I2 HU HH r Hr), HW. field. lra.
  - destruct (u_label o d1 d2 hp1 v1 b1 s t a b I1 HU r Hr) as (l & L1 & L2 & L3). destruct (label_row o d1 hp1 v1 b1 I1 _ _ L1) as (_ & _ & _ & ->). destruct (label_row o d2 hp2 v2 b2 I2 _ _ L2) as (_ & _ & _ & ->).
    unfold obs_noise. rewrite (ou_noisy _ _ _ _ _ _ _ HU), Z. unfold Rdiv. ring.
Qed.
Lemma ul_kn r q : (r < N)%nat -> (q < N)%nat -> kn (ckf o d2 hp2 (fst (get_scl_x_w_dist d2))) (noise_fn d2 hp2 None) w2 r q = rw r * rw q * kn (ckf o d1 hp1 (fst (get_scl_x_w_dist d1))) (noise_fn d1 hp1 None) w1 r q.
Proof.
  intros Hr Hq. unfold kn, dl. rewrite (u_kf o d1 d2 hp1 hp2 v1 v2 b1 b2 s t a b I1 I2 HU HH r q Hr Hq). destruct (Nat.eqb_spec r q) as [->|]; [|ring]. rewrite ul_noise by exact Hq. ring.
Qed.
Lemma ul_mat e r q : (r < N)%nat -> (q < N)%nat -> w1 * lkd_mat o d2 hp2 w2 e r q = w2 * (rw r * rw q * lkd_mat o d1 hp1 w1 e r q).
Proof.
  intros Hr Hq. unfold lkd_mat. cbv zeta. rewrite !ul_kn by assumption. assert (U1 := u_rw1 o d1 d2 hp1 v1 b1 s t a b I1 HU HN). destruct (is_precon (o_well o)).
  - unfold dl. destruct (Nat.eqb_spec r q) as [->|]; ring.
  - rewrite !U1 by auto. ring.
Qed.
Lemma ul_nugget r q : (r < N)%nat -> (q < N)%nat -> lkd_nugget_matrix o d2 hp2 w2 r q = lkd_nugget_matrix o d1 hp1 w1 r q.
Proof.
  intros Hr Hq. unfold lkd_nugget_matrix. assert (U1 := u_rw1 o d1 d2 hp1 v1 b1 s t a b I1 HU HN). destruct (is_precon (o_well o)).
  - unfold kcor. rewrite !ul_kn by assumption. set (k := kn (ckf o d1 hp1 (fst (get_scl_x_w_dist d1))) (noise_fn d1 hp1 None) w1).
    assert (K0 : forall i, (i < N)%nat -> 0 < k i i).
    { intros i Hi. assert (P1 := ckf_pos o d1 hp1 (fst (get_scl_x_w_dist d1)) ltac:(apply I1) i Hi).
      assert (P2 : 0 <= noise_fn d1 hp1 None i) by (apply (f_nn o d1 hp1 (ei_ev _ _ _ _ _ I1) ltac:(apply I1) (ei_noise _ _ _ _ _ I1) i Hi)).
      assert (P3 : 0 <= noise_fn d1 hp1 None i / w1) by (apply Rmult_le_pos; [exact P2|apply Rlt_le, Rinv_0_lt_compat, W1]). unfold k, kn, dl. rewrite Nat.eqb_refl. lra. }
    assert (A1 := RP r Hr). assert (A2 := RP q Hq). assert (K1 := K0 r Hr). assert (K2 := K0 q Hq).
    assert (SQ : forall w x, 0 < w -> 0 < x -> sqrt (w * w * x) = w * sqrt x) by (intros w x Hw Hx; rewrite sqrt_mult by nra; rewrite sqrt_square by lra; reflexivity).
    rewrite !SQ by assumption. assert (S1 := sqrt_lt_R0 _ K1). assert (S2 := sqrt_lt_R0 _ K2). field. lra.
  - rewrite (u_kf o d1 d2 hp1 hp2 v1 v2 b1 b2 s t a b I1 I2 HU HH r q Hr Hq), !U1 by auto. ring.
Qed.
Lemma ul_eta e1 e2 : eta_is o d1 N (lkd_nugget_matrix o d1 hp1 w1) e1 -> eta_is o d2 (cN o d2) (lkd_nugget_matrix o d2 hp2 w2) e2 -> e2 = e1.
Proof.
  rewrite (u_N o d1 d2 hp1 hp2 v1 v2 b1 b2 s t a b I1 I2 HU). unfold eta_is. destruct (o_eta_const o).
  - intros E1 E2. destruct (etaK_of o d1 ltac:(apply I1)) as (k1 & g1 & A1 & B1). destruct (etaK_of o d2 ltac:(apply I2)) as (k2 & g2 & A2 & B2). rewrite (ou_n _ _ _ _ _ _ _ HU), A1 in A2. injection A2 as <- <-. congruence.
  - assert (RS : forall r, (r < N)%nat -> rsum N (fun j => Rabs (lkd_nugget_matrix o d2 hp2 w2 r j)) = rsum N (fun j => Rabs (lkd_nugget_matrix o d1 hp1 w1 r j))) by (intros r Hr; apply rsum_ext; intros j Hj; rewrite ul_nugget by assumption; reflexivity).
    intros (i & Hi & -> & M1) (j & Hj & -> & M2). f_equal. apply Rle_antisym; [rewrite RS by exact Hj; apply M1, Hj|rewrite <- (RS i Hi); apply M2, Hi].
Qed.
End L.
(** ** C52, likelihood.  In other units the log-likelihood of all hyperparameters moves by the same constant, so the
    best hyperparameters are the same; the closed-form varK and mean are the same in the units of the data.  What is
    missing: the conditions on the nugget as above; the penalty on varK has to be off unless the scaled values are the
    same; and the closed-form varK has to be above its floor 1e-32. *)
Theorem C52_likelihood_partial :
  forall (o : gpopt) (d1 d2 : gpdata) (lo : lkopt) (s t : nat -> R) (a b : R),
  (forall i, (i < o_dim o)%nat -> 0 < in_scale d1 i /\ 0 < in_scale d2 i) -> other_units o d1 d2 s t a b ->
  (is_precon (o_well o) = true \/ o_use_grad o = false \/ forall i, (i < o_dim o)%nat -> in_scale d2 i * s i = in_scale d1 i) ->
  (lk_pnlt lo = false \/ out_scale d2 * a = out_scale d1) ->
  exists c, forall (la : npla) (ht hk hv hf hg : bool) (info1 info2 : hpinfo) (hp1 hp2 : hpv) (b1 b2 : R) (cnd1 cnd2 adj1 adj2 : bool) (l1 l2 : lkdinfo),
  lkd_input o d1 hp1 -> lkd_input o d2 hp2 -> hp_other_units o d1 d2 hp1 hp2 b1 b2 s a b ->
  set_hp_optz_info o d1 lo ht hk hv hf hg = Ok info1 -> set_hp_optz_info o d2 lo ht hk hv hf hg = Ok info2 ->
  calc_lkd_all la o d1 lo info1 hp1 cnd1 false adj1 = Ok (l1, true) -> calc_lkd_all la o d2 lo info2 hp2 cnd2 false adj2 = Ok (l2, true) ->
  (forall v, l_varK l1 = Some v -> / 10 ^ 32 < v /\ / 10 ^ 32 < v * (a * out_scale d2 / out_scale d1) ^ 2) ->
  (exists x, l_ln l1 = Some x /\ l_ln l2 = Some (x + c)) /\
  OrderSpec.both (fun v1 v2 => var_in_units d2 v2 = a ^ 2 * var_in_units d1 v1) (l_varK l1) (l_varK l2) /\
  exists beta1 beta2, l_beta l1 = Some beta1 /\ l_beta l2 = Some beta2 /\ vlen beta1 = 1%nat /\ vlen beta2 = 1%nat /\
    mean_in_units d2 (vat beta2 0) = a * mean_in_units d1 (vat beta1 0) + b.
Proof.
  intros o d1 d2 lo s t a b SP HU HN HP.
  exists (- rsum (cN o d1) (fun r => ln (ur d1 d2 a * rw o d1 d2 s r))).
  intros la ht hk hv hf hg info1 info2 hp1 hp2 b1 b2 cnd1 cnd2 adj1 adj2 l1 l2 L1 L2 HH0 Hi1 Hi2 H1 H2 HF.
  destruct (lkd_call_eta _ _ _ _ _ _ _ _ _ _ _ _ _ _ L1 Hi1 H1) as (w1 & e1 & WP1 & V1 & ET1 & PD1 & T1 & Q1).
  destruct (lkd_call_eta _ _ _ _ _ _ _ _ _ _ _ _ _ _ L2 Hi2 H2) as (w2 & e2 & WP2 & V2 & ET2 & PD2 & T2 & Q2).
  rewrite (ou_noisy _ _ _ _ _ _ _ HU) in V2, Q2.
  assert (DS1 : data_set o d1) by apply L1. assert (DS2 : data_set o d2) by apply L2.
  assert (OP1 := out_scale_pos o d1 DS1). assert (OP2 := out_scale_pos o d2 DS2). assert (AP : 0 < a) by apply HU.
  assert (UP : 0 < ur d1 d2 a) by (unfold ur; apply Rdiv_lt_0_compat; [apply Rmult_lt_0_compat|]; assumption).
  set (U := ur d1 d2 a) in *.
  set (B := out_scale d2 * (a * out_shift d1 + b - out_shift d2)).
  set (g1 := mkhp (Some (vconst 1 0)) (hp_theta hp1) (hp_kernel hp1) (Some 1) (hp_var_fval hp1) (hp_var_fgrad hp1)).
  set (g2 := mkhp (Some (vconst 1 B)) (hp_theta hp2) (hp_kernel hp2) (Some (U ^ 2)) (hp_var_fval hp2) (hp_var_fgrad hp2)).
  assert (I1 : eval_input o d1 g1 1 0).
  { destruct L1 as (A1 & A2 & A3 & A4 & A5 & A6 & _). repeat (split; [assumption|]). split; [reflexivity|]. split; [lra|]. split; [exists (vconst 1 0); auto|]. intros i Hi. apply SP, Hi. }
  assert (I2 : eval_input o d2 g2 (U ^ 2) B).
  { destruct L2 as (A1 & A2 & A3 & A4 & A5 & A6 & _). repeat (split; [assumption|]). split; [reflexivity|]. split; [apply pow_lt, UP|]. split; [exists (vconst 1 B); auto|]. intros i Hi. apply SP, Hi. }
  assert (HH : hp_other_units o d1 d2 g1 g2 0 B s a b).
  { destruct HH0 as [h1 h2 h3 h4 h5 h6]. constructor; auto.
    - cbn [g1 g2 hp_varK OrderSpec.both]. unfold var_in_units, U, ur. field. lra.
    - unfold mean_in_units, B. field. lra. }
  assert (HW : if d_noisy d1 then w2 = U ^ 2 * w1 else True).
  { destruct (d_noisy d1); [|exact I]. assert (Z := hu_varK _ _ _ _ _ _ _ _ _ _ HH0). rewrite V1, V2 in Z. cbn [OrderSpec.both] in Z. unfold var_in_units in Z. unfold U, ur.
    apply (Rmult_eq_reg_r (/ out_scale d2 ^ 2)); [|apply Rinv_neq_0_compat, pow_nonzero; lra]. unfold Rdiv in Z. rewrite Z. field. lra. }
  assert (EN := u_N o d1 d2 g1 g2 1 (U ^ 2) 0 B s t a b I1 I2 HU). set (N := cN o d1) in *.
  assert (EE : e2 = e1) by (apply (ul_eta o d1 d2 g1 g2 1 (U ^ 2) 0 B s t a b I1 I2 HU HH HN w1 w2 WP1 HW); assumption). subst e2.
  assert (KM : forall r q, (r < N)%nat -> (q < N)%nat -> w1 * lkd_mat o d2 hp2 w2 e1 r q = w2 * (rw o d1 d2 s r * rw o d1 d2 s q * lkd_mat o d1 hp1 w1 e1 r q)) by (intros r q; apply (ul_mat o d1 d2 g1 g2 1 (U ^ 2) 0 B s t a b I1 I2 HU HH HN w1 w2 WP1 HW)).
  assert (RP : forall r, (r < N)%nat -> 0 < rw o d1 d2 s r) by apply (rw_pos o d1 d2 g1 g2 1 (U ^ 2) 0 B s t a b I1 I2 HU).
  rewrite EN in PD2.
  assert (BW : forall r, (r < N)%nat -> basis d1 r = rw o d1 d2 s r * basis d1 r).
  { intros r Hr. unfold rw. destruct (u_label o d1 d2 g1 1 0 s t a b I1 HU r Hr) as (l & E & _ & _). rewrite E. destruct l as [p|i q]; cbn [lw]; [ring|].
    assert (Z := labels_inv _ _ _ _ _ E). destruct Z as (_ & Z). cbn [lab_rix radr] in Z. unfold basis. destruct (Nat.ltb_spec r (d_n_eval d1)); [|ring]. exfalso. lia. }
  assert (YW : forall r, (r < N)%nat -> vat (ydata d2) r = U * rw o d1 d2 s r * vat (ydata d1) r + basis d1 r * B).
  { intros r Hr. assert (Z := u_res o d1 d2 g1 g2 1 (U ^ 2) 0 B s t a b I1 I2 HU HH r Hr). unfold sres, gres in Z. rewrite (u_basis o d1 d2 s t a b HU) in Z. fold U in Z. lra. }
  assert (NV := basis_nz o d1 (li_ready o d1 hp1 L1)). change (nonzero N (basis d1)) in NV.
  assert (BB : forall r, basis d2 r = basis d1 r) by (intros r; apply (u_basis o d1 d2 s t a b HU)).
  assert (ROWS : forall y A, pdf N A -> gb N (basis d2) y A = gb N (basis d1) y A /\ gq N (basis d2) y A = gq N (basis d1) y A).
  { intros y A P. replace (basis d2) with (basis d1); [split; reflexivity|]. apply FunctionalExtensionality.functional_extensionality. intros r; symmetry; apply BB. }
  destruct (ROWS (vat (ydata d2)) _ PD2) as (R1 & R2).
  set (y' := fun r => U * rw o d1 d2 s r * vat (ydata d1) r).
  assert (YS : gb N (basis d1) (vat (ydata d2)) (lkd_mat o d2 hp2 w2 e1) = gb N (basis d1) y' (lkd_mat o d2 hp2 w2 e1) + B /\ gq N (basis d1) (vat (ydata d2)) (lkd_mat o d2 hp2 w2 e1) = gq N (basis d1) y' (lkd_mat o d2 hp2 w2 e1)).
  { destruct (gls_shift N (basis d1) y' _ B NV PD2) as (S1 & S2). rewrite <- S1, <- S2. apply gls_data_ext; [exact PD2|]. intros r Hr. apply YW, Hr. }
  destruct YS as (Y1 & Y2).
  assert (MU : forall x, mean_in_units d2 (U * x + B) = a * mean_in_units d1 x + b) by (intros x; unfold mean_in_units, B, U, ur; field; lra).
  assert (SL : rsum N (fun r => ln (U * rw o d1 d2 s r)) = INR N * ln U + rsum N (fun r => ln (rw o d1 d2 s r))).
  { rewrite (rsum_ext N _ (fun r => ln U + ln (rw o d1 d2 s r))) by (intros r Hr; apply ln_mult; auto). rewrite rsum_plus, rsum_const. reflexivity. }
  unfold noisy_post, free_post in Q1, Q2. rewrite EN in Q2. fold N in Q1. destruct (d_noisy d1) eqn:Z.
  - assert (HA : forall r q, (r < N)%nat -> (q < N)%nat -> lkd_mat o d2 hp2 w2 e1 r q = (U * rw o d1 d2 s r) * (U * rw o d1 d2 s q) * lkd_mat o d1 hp1 w1 e1 r q).
    { intros r q Hr Hq. apply (Rmult_eq_reg_l w1); [|lra]. rewrite KM by assumption. rewrite HW. ring. }
    assert (WW : forall r, (r < N)%nat -> 0 < U * rw o d1 d2 s r) by (intros r Hr; apply Rmult_lt_0_compat; auto).
    assert (LD := lndet_congr N _ _ _ WW HA PD1).
    destruct (gls_congr N (fun r => U * rw o d1 d2 s r) (/ U) 1 (lkd_mat o d1 hp1 w1 e1) (lkd_mat o d2 hp2 w2 e1) (basis d1) (vat (ydata d1)) y' ltac:(apply Rinv_neq_0_compat; lra) NV WW HA) as (G1 & G2); auto.
    { intros r Hr. rewrite (BW r Hr) at 1. field. lra. }
    { intros r Hr. unfold y'. ring. }
    destruct Q1 as (-> & _ & -> & _ & (be1 & -> & B1 & B2) & _). destruct Q2 as (-> & _ & -> & _ & (be2 & -> & B3 & B4) & _).
    split; [eexists; split; [reflexivity|]; f_equal; rewrite R2, Y2, G2, LD; field|]. split; [exact I|].
    exists be1, be2. repeat (split; [reflexivity || assumption|]). rewrite B2, B4 by lia. rewrite R1, Y1, G1. replace (1 / / U) with U by (field; lra). apply MU.
  - subst w1 w2. assert (HA : forall r q, (r < N)%nat -> (q < N)%nat -> lkd_mat o d2 hp2 1 e1 r q = rw o d1 d2 s r * rw o d1 d2 s q * lkd_mat o d1 hp1 1 e1 r q).
    { intros r q Hr Hq. specialize (KM r q Hr Hq). lra. }
    assert (LD := lndet_congr N _ _ _ RP HA PD1).
    destruct (gls_congr N (rw o d1 d2 s) 1 U (lkd_mat o d1 hp1 1 e1) (lkd_mat o d2 hp2 1 e1) (basis d1) (vat (ydata d1)) y' ltac:(lra) NV RP HA) as (G1 & G2); auto.
    { intros r Hr. rewrite (BW r Hr) at 1. ring. }
    destruct Q1 as (-> & _ & EV1 & (be1 & -> & B1 & B2) & _). destruct Q2 as (-> & _ & EV2 & (be2 & -> & B3 & B4) & _). rewrite EV1, EV2 in *. clear EV1 EV2.
    assert (NP : 0 < INR N) by (apply (INRN_pos o d1), (li_ready o d1 hp1 L1)).
    destruct (HF _ eq_refl) as (F1 & F2). clear HF. fold U in F2. change (a * out_scale d2 / out_scale d1) with U in F2.
    unfold nlkd. unfold nvarK in *. rewrite EN in *. fold N in F1 |- *. fold varK_min in F1, F2.
    rewrite R2, Y2, G2 in *. set (q1 := gq N (basis d1) (vat (ydata d1)) (lkd_mat o d1 hp1 1 e1)) in *.
    assert (M1 : varK_min < q1 / INR N) by (destruct (Rle_lt_dec (q1 / INR N) varK_min) as [C|C]; [rewrite Rmax_left in F1 by lra; lra|exact C]).
    rewrite Rmax_right in F2 by (apply Rlt_le, M1). assert (M2 : varK_min < U ^ 2 * q1 / INR N) by (replace (U ^ 2 * q1 / INR N) with (q1 / INR N * U ^ 2) by (field; lra); exact F2).
    rewrite !Rmax_right by lra. assert (VM : 0 < varK_min) by (unfold varK_min; apply Rinv_0_lt_compat, pow_lt; lra).
    assert (E2 : U ^ 2 * q1 / INR N = U * U * (q1 / INR N)) by (field; lra).
    assert (LN : ln (U ^ 2 * q1 / INR N) = 2 * ln U + ln (q1 / INR N)) by (rewrite E2, !ln_mult by nra; ring).
    assert (PN : fst (calc_lkd_varK_pnlt lo (U ^ 2 * q1 / INR N) (nfval d2)) = fst (calc_lkd_varK_pnlt lo (q1 / INR N) (nfval d1))).
    { unfold calc_lkd_varK_pnlt. destruct HP as [->|E]; [reflexivity|]. destruct (lk_pnlt lo); [|reflexivity].
      assert (U1 : U = 1) by (unfold U, ur; rewrite Rmult_comm, E; field; lra). rewrite U1 in *.
      assert (VF : vvar (nfval d2) = vvar (nfval d1)).
      { assert (NE : (0 < d_n_eval d1)%nat) by (apply (gr_n _ _ (li_ready o d1 hp1 L1))).
        apply (vvar_reidx (d_n_eval d1) (fun p => p) (fun p => p) B); auto.
        - apply (nfval_at o d1 hp1 0 L1 NE).
        - rewrite <- (ou_n _ _ _ _ _ _ _ HU). apply (nfval_at o d2 hp2 0 L2). rewrite (ou_n _ _ _ _ _ _ _ HU); exact NE.
        - split; intros; auto.
        - intros p Hp. rewrite (proj2 (nfval_at o d1 hp1 p L1 Hp)). rewrite (proj2 (nfval_at o d2 hp2 p L2 ltac:(rewrite (ou_n _ _ _ _ _ _ _ HU); exact Hp))).
          assert (PN : (p < N)%nat) by (unfold N, cN; lia). rewrite (YW p PN). assert (BP : basis d1 p = 1) by (unfold basis; destruct (Nat.ltb_spec p (d_n_eval d1)); [reflexivity|lia]).
          assert (RW := BW p PN). rewrite BP, Rmult_1_r in RW. rewrite BP, <- RW. ring. }
      rewrite VF. replace (1 ^ 2 * q1 / INR N) with (q1 / INR N) by (field; lra). reflexivity. }
    split; [eexists; split; [reflexivity|]; f_equal; rewrite LN, PN, LD, SL; field|].
    split; [cbn [OrderSpec.both]; rewrite E2; unfold var_in_units, U, ur; field; lra|].
    exists be1, be2. repeat (split; [reflexivity || assumption|]). rewrite B2, B4 by lia. rewrite R1, Y1, G1. replace (U / 1) with U by field. apply MU.
Qed.
Print Assumptions C52_likelihood_partial.

(** ** Concrete cases *)
Lemma nz_data x f g : exists d, set_data nf_opt (mconst 1 1 x) (vconst 1 f) (SdOk (vconst 1 0)) (Some (mconst 1 1 g)) (SdOk (mconst 1 1 0)) None = Ok d /\ data_set nf_opt d /\
  d_known_fval d = true /\ d_known_fgrad d = true /\ d_noisy d = false /\ d_bvec d = None /\ d_scl d = None /\
  d_n_eval d = 1%nat /\ d_n_grad d = 1%nat /\ d_etaK d = Some (1 / (10 ^ 10 - 1)) /\ vat (ydata d) 1 = g /\ (forall hp r, (r < 2)%nat -> noise_fn d hp None r = 0) /\
  d_x d = mconst 1 1 x /\ d_fval d = vconst 1 f /\ d_std_fval d = Some (vconst 1 0) /\ d_grad d = Some (mconst 1 1 g) /\ d_std_grad d = Some (mconst 1 1 0).
Proof.
  assert (E : exists d, set_data nf_opt (mconst 1 1 x) (vconst 1 f) (SdOk (vconst 1 0)) (Some (mconst 1 1 g)) (SdOk (mconst 1 1 0)) None = Ok d /\
  d_known_fval d = true /\ d_known_fgrad d = true /\ d_noisy d = false /\ d_bvec d = None /\ d_scl d = None /\
  d_n_eval d = 1%nat /\ d_n_grad d = 1%nat /\ d_etaK d = Some (1 / (10 ^ 10 - 1)) /\ vat (ydata d) 1 = g /\ (forall hp r, (r < 2)%nat -> noise_fn d hp None r = 0) /\
  d_x d = mconst 1 1 x /\ d_fval d = vconst 1 f /\ d_std_fval d = Some (vconst 1 0) /\ d_grad d = Some (mconst 1 1 g) /\ d_std_grad d = Some (mconst 1 1 0)).
  { unfold set_data. cbv zeta. cbn. unfold vmax_lt, mmax_lt. cbn. destruct (Rlt_dec 0 (/ _)) as [L|L]; [|exfalso; apply L; apply Rinv_0_lt_compat; lra].
    cbn. eexists. split; [reflexivity|]. cbn [d_known_fval d_known_fgrad d_noisy d_bvec d_scl d_n_eval d_n_grad d_etaK d_x d_fval d_grad d_std_fval d_std_grad].
    do 9 (split; [reflexivity|]). split; [|repeat (split; [reflexivity|]); reflexivity]. intros hp r Hr. destruct r as [|[|r]]; [| |lia]; cbn; ring. }
  destruct E as (d & E & R). exists d. split; [exact E|]. split; [|exact R]. do 6 eexists. split; [|split; [|split; [|apply after_set; exact E]]]; simpl; try reflexivity; lia.
Qed.
Definition nz_hp (th : R) : hpv := mkhp None (vconst 1 th) None None None None.
(** without noise: one point in metres and in millimetres *)
Example C52_likelihood_hypotheses_met_noise_free : exists d1 d2 info1 info2,
  (forall i, (i < o_dim nf_opt)%nat -> 0 < in_scale d1 i /\ 0 < in_scale d2 i) /\ other_units nf_opt d1 d2 (fun _ => 1000) (fun _ => 7) 3 5 /\ is_precon (o_well nf_opt) = true /\ lk_pnlt lk_default = false /\
  lkd_input nf_opt d1 (nz_hp 1) /\ lkd_input nf_opt d2 (nz_hp (/ 1000 ^ 2)) /\ hp_other_units nf_opt d1 d2 (nz_hp 1) (nz_hp (/ 1000 ^ 2)) 0 5 (fun _ => 1000) 3 5 /\
  set_hp_optz_info nf_opt d1 lk_default true false false false false = Ok info1 /\ set_hp_optz_info nf_opt d2 lk_default true false false false false = Ok info2 /\
  forall la, exists l1 l2 v, calc_lkd_all la nf_opt d1 lk_default info1 (nz_hp 1) false false false = Ok (l1, true) /\ calc_lkd_all la nf_opt d2 lk_default info2 (nz_hp (/ 1000 ^ 2)) false false false = Ok (l2, true) /\
    l_varK l1 = Some v /\ / 10 ^ 32 < v /\ / 10 ^ 32 < v * (3 * out_scale d2 / out_scale d1) ^ 2.
Proof.
  destruct (nz_data 0 3 1) as (d1 & E1 & D1 & A1 & A2 & A3 & A4 & A5 & A6 & A7 & A8 & A9 & A10 & A11 & A12 & A13 & A14 & A15).
  destruct (nz_data 7 14 (3 / 1000)) as (d2 & E2 & D2 & B1 & B2 & B3 & B4 & B5 & B6 & B7 & B8 & B9 & B10 & B11 & B12 & B13 & B14 & B15).
  destruct (info_total nf_opt d1 lk_default true false false false false) as (i1 & J1); auto; try discriminate. destruct (info_total nf_opt d2 lk_default true false false false false) as (i2 & J2); auto; try discriminate.
  assert (LI : forall d th, data_set nf_opt d -> d_known_fval d = true -> d_known_fgrad d = true -> d_noisy d = false -> 0 < th -> lkd_input nf_opt d (nz_hp th)).
  { intros d th D K1 K2 Z Ht. split; [split; [simpl; lia|split; simpl; lra]|]. split; [exact D|]. split; [reflexivity|]. split; [split; [reflexivity|]; split; [intros; exact Ht|exact I]|].
    split; [split; [rewrite K1; reflexivity|rewrite K2; reflexivity]|]. split; [split; discriminate|rewrite Z; discriminate]. }
  assert (L1 := LI d1 1 D1 A1 A2 A3 Rlt_0_1). assert (L2 := LI d2 (/ 1000 ^ 2) D2 B1 B2 B3 ltac:(apply Rinv_0_lt_compat, pow_lt; lra)).
  exists d1, d2, i1, i2. split; [intros i _; unfold in_scale; rewrite A5, B5; lra|]. split.
  { constructor; try congruence.
    - split; intros; lra.
    - intros p i Hp Hi. rewrite A11, B11. cbn. ring.
    - intros p Hp. rewrite A12, B12. cbn. ring.
    - rewrite A13, B13. cbn. intros. ring.
    - intros _. rewrite A14, B14. cbn. intros. ring.
    - intros _. rewrite A15, B15. cbn. intros. ring. }
  split; [reflexivity|]. split; [reflexivity|]. split; [exact L1|]. split; [exact L2|]. split.
  { constructor; unfold theta_in_units, var_in_units, mean_in_units, in_scale, out_scale, out_shift; rewrite ?A5, ?B5; cbn; try reflexivity; try exact I; try lra. intros i Hi. field. }
  split; [exact J1|]. split; [exact J2|]. intros la.
  destruct (C23_evaluation_succeeds la nf_opt d1 lk_default _ _ _ _ _ i1 (nz_hp 1) false L1 J1) as (l1 & P1). destruct (C23_evaluation_succeeds la nf_opt d2 lk_default _ _ _ _ _ i2 (nz_hp (/ 1000 ^ 2)) false L2 J2) as (l2 & P2).
  assert (V : exists v, l_varK l1 = Some v /\ / 10 ^ 32 < v).
  { destruct (at_call la nf_opt d1 lk_default true false false false false i1 (nz_hp 1) (1 / (10 ^ 10 - 1)) 1 false false L1 eq_refl J1 A8 ltac:(discriminate) ltac:(auto) ltac:(rewrite A3; reflexivity)) as (T & _ & Q).
    destruct (Q false) as (Q1 & _). assert (P := Q1 l1 P1). rewrite A3 in P. destruct P as (_ & _ & P & _). eexists. split; [exact P|]. clear Q Q1 P T.
    assert (RD := li_ready _ _ _ L1). assert (N : cN nf_opt d1 = 2%nat) by (unfold cN; rewrite A6, A7; reflexivity).
    set (K := kcovE nf_opt d1 (nz_hp 1) (1 / (10 ^ 10 - 1)) 1).
    assert (HK : pdf (cN nf_opt d1) K).
    { destruct (rok_ex _ _ (kcov_call nf_opt d1 (la_cond la) true false RD eq_refl (fun _ => eq_refl) (nz_hp 1) (Some 1) false 1 _ ltac:(apply L1) (li_noise _ _ _ L1) eq_refl Rlt_0_1 A8)) as (out & _ & _ & KC & PD & _).
      apply (pd_pdf _ _ _ KC PD). }
    assert (BD := gls_row_bound _ K (gres (basis d1) (vat (ydata d1)) (gb (cN nf_opt d1) (basis d1) (vat (ydata d1)) K)) 1 HK ltac:(rewrite N; lia)).
    fold (gs (cN nf_opt d1) (basis d1) (vat (ydata d1)) K) in BD. fold (gq (cN nf_opt d1) (basis d1) (vat (ydata d1)) K) in BD.
    unfold gres at 1 in BD. rewrite A9 in BD. unfold basis at 1 in BD. rewrite A6 in BD. cbn [Nat.ltb Nat.leb] in BD.
    assert (EK : K 1%nat 1%nat = 2 + 2 / (10 ^ 10 - 1)).
    { unfold K, kcovE. cbn [o_well nf_opt gp_init set_wellcond_mtd o_use_grad]. rewrite (A10 (nz_hp 1) 1%nat) by lia. unfold dl. cbn [Nat.eqb].
      rewrite (ckf_diag nf_opt d1 (nz_hp 1) (fst (get_scl_x_w_dist d1))) by (rewrite ?N; try lia; try apply L1; try apply RD). rewrite A6, A7. cbn. lra. }
    rewrite EK in BD. unfold nvarK, varK_min. eapply Rlt_le_trans; [|apply Rmax_r]. set (q := gq _ _ _ K) in *. clearbody q. rewrite N. replace (INR 2) with 2 by (simpl; lra).
    assert (0 < / (10 ^ 10 - 1) < 1). { split; [apply Rinv_0_lt_compat; lra|]. rewrite <- Rinv_1 at 2. apply Rinv_lt_contravar; lra. }
    assert (1 / 4 < q). { assert (2 / (10 ^ 10 - 1) < 2) by lra. destruct (Rlt_dec (1/4) q) as [|C]; [assumption|]. exfalso.
      assert ((2 + 2 / (10 ^ 10 - 1)) * q <= (2 + 2 / (10 ^ 10 - 1)) * (1/4)) by (apply Rmult_le_compat_l; lra). lra. }
    assert (/ 10 ^ 32 < / 10). { apply Rinv_lt_contravar; lra. }
    lra. }
  destruct V as (v & V1 & V2). exists l1, l2, v. repeat (split; [assumption|]). unfold out_scale. rewrite A5, B5. replace (3 * 1 / 1) with 3 by field. assert (0 < / 10 ^ 32) by (apply Rinv_0_lt_compat, pow_lt; lra). lra.
Qed.
(** noisy values in another unit: here the model depends on the unit (C52_noise_refuted), the likelihood does not *)
Example C52_likelihood_hypotheses_met_noisy : exists d1 d2 info1 info2,
  (forall i, (i < o_dim ap_opt)%nat -> 0 < in_scale d1 i /\ 0 < in_scale d2 i) /\ other_units ap_opt d1 d2 (fun _ => 1) (fun _ => 0) 2 0 /\ o_use_grad ap_opt = false /\ lk_pnlt lk_default = false /\
  d_noisy d1 = true /\ out_scale d2 * 2 <> out_scale d1 /\
  lkd_input ap_opt d1 (un_hp 1) /\ lkd_input ap_opt d2 (un_hp 4) /\ hp_other_units ap_opt d1 d2 (un_hp 1) (un_hp 4) 0 0 (fun _ => 1) 2 0 /\
  set_hp_optz_info ap_opt d1 lk_default true false true false false = Ok info1 /\ set_hp_optz_info ap_opt d2 lk_default true false true false false = Ok info2 /\
  forall la, exists l1 l2, calc_lkd_all la ap_opt d1 lk_default info1 (un_hp 1) false false false = Ok (l1, true) /\ calc_lkd_all la ap_opt d2 lk_default info2 (un_hp 4) false false false = Ok (l2, true) /\ l_varK l1 = None.
Proof.
  destruct (un_data 1 ltac:(lra)) as (d & I1 & A1 & A2 & A3 & A4 & A5 & A6 & A7 & A8 & A9 & A10). destruct (un_data 2 ltac:(lra)) as (d' & I2 & B1 & B2 & B3 & B4 & B5 & B6 & B7 & B8 & B9 & B10).
  replace (1 ^ 2) with 1 in I1 by ring. replace (2 ^ 2) with 4 in I2 by ring.
  assert (LI : forall d v, 0 < v -> eval_input ap_opt d (un_hp v) v 0 -> lkd_input ap_opt d (un_hp v)).
  { intros d0 v Hv (H1 & H2 & H3 & H4 & H5 & H6 & _). repeat (split; [assumption|]). intros _. exists v. split; [reflexivity|exact Hv]. }
  assert (L1 := LI _ _ Rlt_0_1 I1). assert (L2 := LI d' 4 ltac:(lra) I2).
  destruct (info_total ap_opt d lk_default true false true false false) as (i1 & J1); auto; try discriminate. destruct (info_total ap_opt d' lk_default true false true false false) as (i2 & J2); auto; try discriminate.
  exists d, d', i1, i2. split; [intros i Hi; split; [apply I1, Hi|apply I2, Hi]|]. split.
  { constructor; try congruence; try discriminate.
    - split; intros; lra.
    - intros p i Hp Hi. rewrite A6, B6. ring.
    - intros p Hp. rewrite A7, B7. cbn. ring.
    - rewrite A8, B8. cbn. intros p Hp. ring. }
  split; [reflexivity|]. split; [reflexivity|]. split; [exact A5|]. split; [unfold out_scale; rewrite A1, B1; lra|]. split; [exact L1|]. split; [exact L2|]. split.
  { constructor; unfold theta_in_units, var_in_units, mean_in_units, in_scale, out_scale, out_shift; rewrite ?A1, ?B1; cbn; try reflexivity; try exact I; try lra. intros i Hi. lra. }
  split; [exact J1|]. split; [exact J2|]. intros la.
  destruct (C23_evaluation_succeeds la ap_opt d lk_default _ _ _ _ _ i1 (un_hp 1) false L1 J1) as (l1 & P1). destruct (C23_evaluation_succeeds la ap_opt d' lk_default _ _ _ _ _ i2 (un_hp 4) false L2 J2) as (l2 & P2).
  exists l1, l2. split; [exact P1|]. split; [exact P2|].
  destruct (lkd_call_eta _ _ _ _ _ _ _ _ _ _ _ _ _ _ L1 J1 P1) as (w1 & e1 & _ & _ & _ & _ & T & Q). rewrite A5 in Q. apply Q.
Qed.
