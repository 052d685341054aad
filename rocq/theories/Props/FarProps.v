(** * Property C54: far from the data the model returns to the prior. *)
From Coq Require Import Reals List Arith Bool Lia Lra Psatz.
From Verif.Base Require Import NpLite NpFacts.
From Verif.Spec Require Import KernelSpec LinAlgSpec GpSpec HpSpec DataSpec LkdSpec RescaleSpec EvalSpec OrderSpec UnitSpec LinearSpec.
From Verif.Model Require Import KernelSqExp KernelMatern KernelRatQuad KernelDispatch CommonFun WellCond Rescaling GpState Chol Cov HpInfo HpGrad MeanFun Lkd EvalModel.
From Verif.Proofs Require Import KernTac KernGradBlocks KernelExact LinAlg CholCorrect Jets Psd CovStruct StateFacts NoiseFacts DataFacts NuggetCond NuggetMain MinMax RescaleFacts
  LinDeriv LkdCore LkdFacts LkdMain EvalKern EvalFacts EvalMain EvalInterp FarFacts.
From Verif.Props Require Import CondProps DataProps LkdProps EvalProps OrderProps UnitProps UnitProps2 LinearProps.
Import ListNotations.
Local Open Scope R_scope.

Lemma min_pos n (f : nat -> R) : (forall i, (i < n)%nat -> 0 < f i) -> exists m, 0 < m /\ forall i, (i < n)%nat -> m <= f i.
Proof.
  induction n as [|n IH]; intros H; [exists 1; split; [lra|intros i Hi; lia]|].
  destruct IH as (m & M1 & M2); [intros; apply H; lia|]. exists (Rmin m (f n)). split; [apply Rmin_pos; [exact M1|apply H; lia]|].
  intros i Hi. destruct (Nat.eq_dec i n) as [->|]; [apply Rmin_r|]. eapply Rle_trans; [apply Rmin_l|]. apply M2. lia.
Qed.
Lemma dotp_abs n u w e : (forall i, (i < n)%nat -> Rabs (u i) <= e) -> Rabs (dotp n u w) <= e * rsum n (fun i => Rabs (w i)).
Proof.
  intros H. unfold dotp. eapply Rle_trans; [apply rsum_abs|]. rewrite <- rsum_scal. apply rsum_le; intros i Hi. rewrite Rabs_mult. apply Rmult_le_compat_r; [apply Rabs_pos|apply H, Hi].
Qed.
Section F.
Variables (o : gpopt) (d : gpdata) (hp : hpv) (vK b : R).
Hypothesis HI : eval_input o d hp vK b.
Notation N := (cN o d).
Let D : data_set o d. Proof. apply HI. Qed.
Let Hth : forall i, (i < o_dim o)%nat -> 0 < vat (hp_theta hp) i.
Proof. destruct HI as (_ & _ & _ & (_ & H & _) & _). exact H. Qed.
Let Hhp : hp_ok (o_kernel o) (hp_kernel hp).
Proof. destruct HI as (_ & _ & _ & (_ & _ & H) & _). exact H. Qed.
(** distance in the units of the data, and the distance the kernel sees *)
Lemma far_sqd S : 0 < S -> exists r, 0 < r /\ forall x q, (q < d_n_eval d)%nat -> r <= dist (o_dim o) x (rows_of (d_x d) q) ->
  S <= sqd (o_dim o) (cut (o_dim o) (vat (hp_theta hp))) (rows_of (fst (get_scl_x_w_dist d)) q) (to_scl d x).
Proof.
  intros HS. destruct (min_pos (o_dim o) (fun i => vat (hp_theta hp) i * in_scale d i ^ 2)) as (m & M1 & M2).
  { intros i Hi. assert (0 < in_scale d i) by (apply HI, Hi). apply Rmult_lt_0_compat; [apply Hth, Hi|apply pow_lt; assumption]. }
  assert (SM : 0 < S / m) by (apply Rdiv_lt_0_compat; assumption). exists (1 + S / m). split; [lra|]. intros x q Hq Hr.
  set (t := dist (o_dim o) x (rows_of (d_x d) q)) in *.
  assert (T2 : t * t = rsum (o_dim o) (fun i => (x i - rows_of (d_x d) q i) ^ 2)) by (apply sqrt_sqrt, rsum_nonneg; intros; apply pow2_ge_0).
  apply Rle_trans with (m * (t * t)).
  - assert (S / m <= t * t) by nra. apply (Rmult_le_compat_l m) in H; [|lra]. replace (m * (S / m)) with S in H by (field; lra). exact H.
  - rewrite T2. unfold sqd. rewrite <- rsum_scal. apply rsum_le; intros i Hi. rewrite cut_lt by exact Hi. rewrite (scaled_rows o d q i D Hq Hi). unfold to_scl, rows_of.
    replace (vat (hp_theta hp) i * ((mat_at (d_x d) q i - in_shift d i) * in_scale d i - (x i - in_shift d i) * in_scale d i) ^ 2) with (vat (hp_theta hp) i * in_scale d i ^ 2 * (x i - mat_at (d_x d) q i) ^ 2) by ring.
    apply Rmult_le_compat_r; [apply pow2_ge_0|apply M2, Hi].
Qed.
Lemma far_k e : 0 < e -> exists r, 0 < r /\ forall x, (forall q, (q < d_n_eval d)%nat -> r <= dist (o_dim o) x (rows_of (d_x d) q)) ->
  forall c, (c < N)%nat -> Rabs (kxf o d hp (to_scl d x) c) <= e /\ forall j, (j < o_dim o)%nat -> Rabs (dkf o d hp j (to_scl d x) c) <= e.
Proof.
  intros He. destruct (kj_small (o_kernel o) (hp_kernel hp) (o_dim o) (cut (o_dim o) (vat (hp_theta hp))) Hhp) with (e := e) as (S & S1 & S2).
  { intros i. unfold cut. destruct (Nat.ltb_spec i (o_dim o)); [left; apply Hth; assumption|lra]. }
  { exact He. }
  destruct (far_sqd S S1) as (r & R1 & R2). exists r. split; [exact R1|]. intros x Hx c Hc.
  assert (SS : same_sites o d d) by (constructor; auto; try (split; reflexivity); intros; unfold OrderSpec.both; destruct (d_std_fval d), (d_std_grad d); auto).
  destruct (l_label o d d hp vK b HI SS c Hc) as (l & L1 & _ & L). destruct (label_row o d hp vK b HI _ _ L1) as (_ & EO & _).
  assert (OL := cobs_lt o d hp (ei_noise _ _ _ _ _ HI) c Hc).
  assert (AT : exists q, (q < d_n_eval d)%nat /\ at_of (cobs d (fst (get_scl_x_w_dist d)) c) = rows_of (fst (get_scl_x_w_dist d)) q).
  { rewrite EO. destruct l as [p|i q]; cbn [label_obs at_of]; eexists; (split; [|reflexivity]); [exact L|]. destruct L as (U & _ & Hq). apply (gpt_lt o d); assumption. }
  destruct AT as (q & Hq & AT). assert (Z := R2 x q Hq (Hx q Hq)). unfold kxf, dkf. split; [|intros j Hj]; apply S2; cbn [obs_lt at_of]; auto; rewrite AT; exact Z.
Qed.
Variable (e : R).
Hypothesis HP : pdf N (smat o d hp e).
(** everything the prediction depends on is small *)
Lemma far_all eps : 0 < eps -> exists r, 0 < r /\ forall x, (forall q, (q < d_n_eval d)%nat -> r <= dist (o_dim o) x (rows_of (d_x d) q)) ->
  Rabs (dotp N (kxf o d hp (to_scl d x)) (ksol N (smat o d hp e) (sres d b))) <= eps /\ 0 <= 1 - Pv o d hp e (to_scl d x) <= eps /\
  forall j, (j < o_dim o)%nat -> Rabs (Pdmu o d hp b e j (to_scl d x)) <= eps /\ Rabs (Pdv o d hp e j (to_scl d x)) <= eps.
Proof.
  intros He. set (W := rsum N (fun i => Rabs (ksol N (smat o d hp e) (sres d b) i))). set (Z := rsum N (fun i => rsum N (fun j => Rabs (kinv N (smat o d hp e) i j)))).
  assert (W0 : 0 <= W) by (apply rsum_nonneg; intros; apply Rabs_pos). assert (Z0 : 0 <= Z) by (apply rsum_nonneg; intros; apply rsum_nonneg; intros; apply Rabs_pos).
  set (t := Rmin 1 (eps / (1 + W + Z))). assert (T0 : 0 < t) by (apply Rmin_pos; [lra|apply Rdiv_lt_0_compat; lra]). assert (T1 : t <= 1) by apply Rmin_l.
  assert (T2 : t * (1 + W + Z) <= eps). { apply Rle_trans with (eps / (1 + W + Z) * (1 + W + Z)); [apply Rmult_le_compat_r; [lra|apply Rmin_r]|]. right. field. lra. }
  destruct (far_k t T0) as (r & R1 & R2). exists r. split; [exact R1|]. intros x Hx. assert (K := R2 x Hx). clear R2.
  assert (TW : t * W <= eps) by nra. assert (TZ : t * Z <= eps) by nra.
  assert (PZ : forall c, (c < N)%nat -> Rabs (ksol N (smat o d hp e) (kxf o d hp (to_scl d x)) c) <= t * rsum N (fun j => Rabs (kinv N (smat o d hp e) c j))).
  { intros c Hc. rewrite (kinv_apply N (smat o d hp e) (kxf o d hp (to_scl d x)) HP c Hc). rewrite <- rsum_scal. eapply Rle_trans; [apply rsum_abs|]. apply rsum_le; intros j Hj. rewrite Rabs_mult, Rmult_comm. apply Rmult_le_compat_r; [apply Rabs_pos|apply K, Hj]. }
  assert (PQ : forall u, (forall c, (c < N)%nat -> Rabs (u c) <= t) -> Rabs (dotp N u (ksol N (smat o d hp e) (kxf o d hp (to_scl d x)))) <= eps).
  { intros u Hu. eapply Rle_trans; [apply (dotp_abs N u _ t Hu)|]. apply Rle_trans with (t * (t * Z)); [|nra]. apply Rmult_le_compat_l; [lra|]. unfold Z. rewrite <- rsum_scal. apply rsum_le; intros c Hc. apply PZ, Hc. }
  split; [|split].
  - eapply Rle_trans; [apply (dotp_abs N _ _ t)|exact TW]. intros c Hc. apply K, Hc.
  - unfold Pv, pv. replace (1 - (1 - dotp N (kxf o d hp (to_scl d x)) (pz N (smat o d hp e) (kxf o d hp) (to_scl d x)))) with (dotp N (kxf o d hp (to_scl d x)) (pz N (smat o d hp e) (kxf o d hp) (to_scl d x))) by ring. unfold pz.
    split; [apply ksol_quad_nn, HP|]. eapply Rle_trans; [apply Rle_abs|]. apply PQ. intros c Hc. apply K, Hc.
  - intros j Hj. split.
    + unfold Pdmu, pdmu, pw. eapply Rle_trans; [apply (dotp_abs N _ _ t)|exact TW]. intros c Hc. apply K; assumption.
    + unfold Pdv, pdv, pz. apply PQ. intros c Hc. apply K; assumption.
Qed.
End F.

(** ** C54: for every tolerance there is a distance from which on the predicted mean is the mean of the process, the standard
    deviation that of the prior, and the gradients of both are zero, all up to the tolerance. *)
Theorem C54_far_from_the_data :
  forall (o : gpopt) (d : gpdata) (condf : mat -> R) (hp : hpv) (vK b : R) (cc : bool) (su : surr),
  eval_input o d hp vK b -> mask_supported o d -> set_up o d condf hp cc su ->
  forall eps, 0 < eps -> exists r, 0 < r /\
  forall x2 : mat, nc x2 = o_dim o -> (0 < nr x2)%nat ->
  (forall p q, (p < nr x2)%nat -> (q < d_n_eval d)%nat -> r <= dist (o_dim o) (rows_of x2 p) (rows_of (d_x d) q)) ->
  exists ev G S, eval_model o d hp su x2 true false = Ok ev /\ e_dmu ev = Some G /\ e_dsig ev = Some S /\
    forall p, (p < nr x2)%nat ->
      Rabs (vat (e_mu ev) p - mean_in_units d b) <= eps /\ Rabs (vat (e_sig ev) p - sqrt (var_in_units d vK)) <= eps /\
      forall i, (i < o_dim o)%nat -> Rabs (mat_at G p i) <= eps /\ Rabs (mat_at S p i) <= eps.
Proof.
  intros o d condf hp vK b cc su HI MS SU eps He.
  destruct (ei_main o d hp vK b HI condf cc su SU) as (e & f & inv & Q1 & Q2 & Q3 & Q4 & Q5 & Q6 & Q7 & Q8 & Q9).
  assert (OP : 0 < out_scale d) by (apply (out_scale_pos o); apply HI). assert (VP : 0 < vK) by apply HI. assert (SV : 0 < sqrt vK) by (apply sqrt_lt_R0, VP). assert (SV2 : sqrt vK * sqrt vK = vK) by (apply sqrt_sqrt; lra).
  set (g := rsum (o_dim o) (fun i => gscl d i)). assert (GP : forall i, (i < o_dim o)%nat -> 0 < gscl d i) by (intros i Hi; assert (0 < in_scale d i) by (apply HI, Hi); apply Rdiv_lt_0_compat; assumption).
  assert (G0 : 0 <= g) by (apply rsum_nonneg; intros i Hi; left; apply GP, Hi). assert (GL : forall i, (i < o_dim o)%nat -> gscl d i <= g) by (intros i Hi; apply (rsum_le_term (o_dim o) (fun i => gscl d i)); [intros j Hj; left; apply GP, Hj|exact Hi]).
  (* the tolerance for the ingredients *)
  set (c := / out_scale d + sqrt vK / out_scale d + g + 2 * sqrt vK * g). assert (IO : 0 < / out_scale d) by (apply Rinv_0_lt_compat, OP).
  assert (SO : 0 < sqrt vK / out_scale d) by (apply Rdiv_lt_0_compat; assumption). assert (SG0 : 0 <= sqrt vK * g) by nra. assert (C0 : 0 < c) by (unfold c; lra).
  set (t := Rmin (1 / 2) (eps / c)). assert (T0 : 0 < t) by (apply Rmin_pos; [lra|apply Rdiv_lt_0_compat; lra]). assert (T1 : t <= 1 / 2) by apply Rmin_l.
  assert (T2 : t * c <= eps). { apply Rle_trans with (eps / c * c); [apply Rmult_le_compat_r; [lra|apply Rmin_r]|]. right. field. lra. }
  assert (U1 : t * / out_scale d <= eps) by (unfold c in T2; nra). assert (U2 : t * (sqrt vK / out_scale d) <= eps) by (unfold c in T2; nra). assert (U3 : t * g <= eps) by (unfold c in T2; nra). assert (U4 : t * (2 * sqrt vK * g) <= eps) by (unfold c in T2; nra).
  destruct (far_all o d hp vK b HI e Q3 t T0) as (r & R1 & R2). exists r. split; [exact R1|]. intros x2 Hx Hn Hfar.
  destruct (ei_eval o d hp vK b HI condf cc su e f inv x2 true false SU MS Q1 Q3 Q4 Q5 Q6 Q7 Q8 Q9 Hx Hn ltac:(discriminate)) as (ev & E1 & (A1 & A2) & (B1 & B2) & (G & S & A3 & (A4 & A5 & A6) & B3 & (B4 & B5 & B6)) & _).
  exists ev, G, S. do 3 (split; [assumption|]). intros p Hp. destruct (R2 (rows_of x2 p) (fun q Hq => Hfar p q Hp Hq)) as (K1 & K2 & K3). clear R2.
  set (u := to_scl d (rows_of x2 p)) in *. set (q := Pv o d hp e u) in *.
  assert (SQ : 1 / 2 <= sqrt q <= 1 /\ 1 - t <= sqrt q).
  { assert (sqrt q <= 1) by (rewrite <- sqrt_1; apply sqrt_le_1_alt; lra). assert (QQ : sqrt q * sqrt q = q) by (apply sqrt_sqrt; lra). assert (0 <= sqrt q) by apply sqrt_pos. assert (q <= sqrt q) by nra. lra. }
  split; [|split].
  - rewrite A2 by exact Hp. unfold Mi, Pmu, pmu, pw, mean_in_units. fold u. set (z := dotp _ _ _) in *. replace ((b + z) / out_scale d + out_shift d - (b / out_scale d + out_shift d)) with (z * / out_scale d) by (field; lra).
    rewrite Rabs_mult, (Rabs_pos_eq (/ out_scale d)) by lra. nra.
  - rewrite B2 by exact Hp. unfold Si, Psig, var_in_units. fold u q. rewrite sqrt_div by (try lra; apply pow_lt; lra). rewrite sqrt_pow2 by lra.
    replace (sqrt q * sqrt vK / out_scale d - sqrt vK / out_scale d) with (- ((1 - sqrt q) * (sqrt vK / out_scale d))) by (field; lra). rewrite Rabs_Ropp, Rabs_pos_eq by nra. nra.
  - intros i Hi. destruct (K3 i Hi) as (K4 & K5). assert (Gi := GP i Hi). assert (Gl := GL i Hi). split.
    + rewrite A6 by assumption. fold u. rewrite Rabs_mult, (Rabs_pos_eq (gscl d i)) by lra. assert (0 <= Rabs (Pdmu o d hp b e i u)) by apply Rabs_pos. nra.
    + rewrite B6 by assumption. fold u. unfold Pdsig, Psig. fold q. destruct (Req_EM_T (sqrt q * sqrt vK) 0) as [X|X]; [nra|].
      replace (Pdv o d hp e i u * vK) with (Pdv o d hp e i u * (sqrt vK * sqrt vK)) by (rewrite SV2; reflexivity).
      replace (- (1 / (sqrt q * sqrt vK)) * (Pdv o d hp e i u * (sqrt vK * sqrt vK)) * gscl d i) with (- (Pdv o d hp e i u * (/ sqrt q * (sqrt vK * gscl d i)))) by (field; split; lra).
      assert (IQ : 0 < / sqrt q <= 2) by (split; [apply Rinv_0_lt_compat; lra|replace 2 with (/ (1 / 2)) by field; apply Rinv_le_contravar; lra]).
      rewrite Rabs_Ropp, Rabs_mult. rewrite (Rabs_pos_eq (_ * _)) by (apply Rmult_le_pos; [lra|apply Rmult_le_pos; lra]).
      apply Rle_trans with (t * (2 * sqrt vK * g)); [|exact U4]. apply Rmult_le_compat; [apply Rabs_pos|apply Rmult_le_pos; [lra|apply Rmult_le_pos; lra]|exact K5|].
      rewrite Rmult_assoc. apply Rmult_le_compat; [lra|apply Rmult_le_pos; lra|lra|]. apply Rmult_le_compat_l; lra.
Qed.
Print Assumptions C54_far_from_the_data.

(** ** There are points that far away, for every data set and distance *)
Lemma far_points_exist (n D : nat) (X : mat) (r : R) : (0 < D)%nat -> exists x2, nc x2 = D /\ nr x2 = 1%nat /\ forall p q, (p < nr x2)%nat -> (q < n)%nat -> r <= dist D (rows_of x2 p) (rows_of X q).
Proof.
  intros HD. set (s := rsum n (fun q => Rabs (mat_at X q 0))). exists (mkmat 1 D (fun _ _ => s + Rabs r)). split; [reflexivity|]. split; [reflexivity|]. intros p q _ Hq.
  assert (Z : Rabs (mat_at X q 0) <= s) by (apply (rsum_le_term n (fun q => Rabs (mat_at X q 0))); [intros; apply Rabs_pos|exact Hq]). assert (Y := Rle_abs (mat_at X q 0)). assert (Y' := Rle_abs r). assert (Y'' := Rabs_pos r).
  apply Rle_trans with (s + Rabs r - mat_at X q 0); [lra|]. unfold dist. rewrite <- (sqrt_pow2 (s + Rabs r - mat_at X q 0)) by lra. apply sqrt_le_1_alt.
  apply (rsum_le_term D (fun i => (rows_of (mkmat 1 D (fun _ _ => s + Rabs r)) p i - rows_of X q i) ^ 2)); [intros; apply pow2_ge_0|exact HD].
Qed.
Example C54_hypotheses_met : exists d hp v b su, eval_input ue_opt d hp v b /\ mask_supported ue_opt d /\ set_up ue_opt d (fun _ => 1) hp true su /\ d_n_eval d = 3%nat /\
  forall r, exists x2, nc x2 = o_dim ue_opt /\ (0 < nr x2)%nat /\ forall p q, (p < nr x2)%nat -> (q < d_n_eval d)%nat -> r <= dist (o_dim ue_opt) (rows_of x2 p) (rows_of (d_x d) q).
Proof.
  destruct (ue_data ex_x ex_f ue_g (fun i => 1 / 2 + INR i) 2 (1 / 3) eq_refl eq_refl eq_refl eq_refl eq_refl ltac:(intros i _; assert (Z := pos_INR i); lra) ltac:(lra)) as (d & I1 & A1 & A2 & _).
  destruct (C30_setup_succeeds ue_opt d (fun _ => 1) _ _ _ true I1) as (su & _ & HS1). exists d. do 3 eexists. exists su. split; [exact I1|]. split; [intros _ C; discriminate|]. split; [apply HS1; left; reflexivity|].
  split; [exact A2|]. intros r. destruct (far_points_exist (d_n_eval d) (o_dim ue_opt) (d_x d) r ltac:(simpl; lia)) as (x2 & X1 & X2 & X3). exists x2. split; [exact X1|]. split; [lia|exact X3].
Qed.
