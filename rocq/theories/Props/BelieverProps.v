(** * Property C76: an observation that agrees with its prediction does not change the predictions.
    Vocabulary: [Spec/BelieverSpec.v], [Spec/OrderSpec.v]. *)
From Coq Require Import Reals List Arith Bool Lia Lra Psatz.
From Coquelicot Require Import Coquelicot.
From Verif.Base Require Import NpLite NpFacts Deriv.
From Verif.Spec Require Import KernelSpec LinAlgSpec GpSpec HpSpec DataSpec LkdSpec RescaleSpec EvalSpec OrderSpec BelieverSpec.
From Verif.Model Require Import KernelSqExp KernelMatern KernelRatQuad KernelDispatch CommonFun WellCond Rescaling GpState Chol Cov HpInfo HpGrad MeanFun Lkd EvalModel.
From Verif.Proofs Require Import KernTac KernGradBlocks RadialCalculus KernelExact LinAlg CholCorrect Jets Psd CovStruct ThetaGrad HessX2 StateFacts NoiseFacts DataFacts NuggetCond NuggetMain MinMax RescaleFacts
  LinDeriv LkdCore LkdFacts LkdMain EvalKern EvalFacts EvalMain EvalInterp Reorder.
From Verif.Props Require Import CondProps DataProps LkdProps EvalProps EvalProps2 OrderProps OrderLkd.
Import ListNotations.
Local Open Scope R_scope.

Lemma hit_dec (f : nat -> nat) n y : {p | (p < n)%nat /\ f p = y} + {forall p, (p < n)%nat -> f p <> y}.
Proof.
  induction n as [|n IH]; [right; intros; lia|]. destruct IH as [(p & A & B)|N]; [left; exists p; split; [lia|exact B]|].
  destruct (Nat.eq_dec (f n) y) as [E|E]; [left; exists n; split; [lia|exact E]|]. right. intros p Hp. destruct (Nat.eq_dec p n) as [->|D]; [exact E|apply N; lia].
Qed.

Section B.
Variables (o : gpopt) (d1 d2 : gpdata) (hp1 hp2 : hpv) (vK b1 b2 e : R) (f h : nat -> nat).
Hypothesis I1 : eval_input o d1 hp1 vK b1.
Hypothesis I2 : eval_input o d2 hp2 vK b2.
Hypothesis HO : observations_in o d1 d2 f h.
Hypothesis SF : same_factors o d1 d2.
Hypothesis SH : same_but_beta hp1 hp2.
Hypothesis HB : mean_in_units d2 b2 = mean_in_units d1 b1.
Notation N1 := (cN o d1).
Notation N2 := (cN o d2).
Notation sg := (sig d1 d2 f h).
Hypothesis P1 : pdf N1 (smat o d1 hp1 e).
Hypothesis P2 : pdf N2 (smat o d2 hp2 e).
Notation w1 := (ksol N1 (smat o d1 hp1 e) (sres d1 b1)).
Hypothesis AV : forall p2, (p2 < d_n_eval d2)%nat -> (forall p, (p < d_n_eval d1)%nat -> f p <> p2) -> vat (d_fval d2) p2 = Mi o d1 hp1 b1 e (rows_of (d_x d2) p2).
Variable G2 : mat.
Hypothesis AG : o_use_grad o = true -> d_grad d2 = Some G2 /\
  forall q2 i, (q2 < n_used (d_n_eval d2) (d_bvec d2))%nat -> (i < o_dim o)%nat -> (forall q, (q < n_used (d_n_eval d1) (d_bvec d1))%nat -> h q <> q2) ->
    mat_at G2 q2 i = Pdmu o d1 hp1 b1 e i (to_scl d1 (rows_of (d_x d2) (nth q2 (grad_points (d_n_eval d2) (d_bvec d2)) 0%nat))) * gscl d1 i.
Let D1 : data_set o d1. Proof. apply I1. Qed.
Let D2 : data_set o d2. Proof. apply I2. Qed.
Let OP : 0 < out_scale d1. Proof. apply (out_scale_pos o), D1. Qed.
Lemma bel_b : b2 = b1 + (out_shift d1 - out_shift d2) * out_scale d1.
Proof.
  assert (H := HB). unfold mean_in_units in H. rewrite (proj1 SF) in H. apply (f_equal (fun x => x * out_scale d1)) in H.
  replace ((b2 / out_scale d1 + out_shift d2) * out_scale d1) with (b2 + out_shift d2 * out_scale d1) in H by (field; lra).
  replace ((b1 / out_scale d1 + out_shift d1) * out_scale d1) with (b1 + out_shift d1 * out_scale d1) in H by (field; lra). lra.
Qed.
Lemma bel_row s : (s < N2)%nat -> rsum N1 (fun r => smat o d2 hp2 e s (sg r) * w1 r) = sres d2 b2 s.
Proof.
  intros Hs.
  destruct (hit_dec sg N1 s) as [(r0 & Hr0 & <-)|NH].
  { rewrite (rsum_ext N1 _ (fun r => smat o d1 hp1 e r0 r * w1 r)) by (intros r Hr; f_equal; apply (sig_smat o d1 d2 hp1 hp2 vK b1 b2 f h I1 I2 HO SF SH); assumption).
    rewrite (ksol_ok _ _ _ P1 r0 Hr0). unfold sres, gres.
    rewrite (sig_y o d1 d2 hp1 hp2 vK b1 b2 f h I1 I2 HO SF r0 Hr0), (sig_basis o d1 d2 hp1 hp2 vK b1 b2 f h I1 I2 HO r0 Hr0).
    rewrite bel_b. ring. }
  assert (PT : forall p i, (p < d_n_eval d2)%nat -> (i < o_dim o)%nat -> rows_of (fst (get_scl_x_w_dist d2)) p i = to_scl d2 (rows_of (d_x d2) p) i).
  { intros p i Hp Hi. rewrite (scaled_rows o d2 p i D2 Hp Hi). reflexivity. }
  assert (OFF : forall r, (r < N1)%nat -> smat o d2 hp2 e s (sg r) = ckf o d2 hp2 (fst (get_scl_x_w_dist d2)) (sg r) s).
  { intros r Hr. unfold smat. destruct (Nat.eqb_spec s (sg r)) as [E|_]; [exfalso; exact (NH r Hr (eq_sym E))|]. rewrite Rplus_0_r. unfold ckf. apply kjet_sym. }
  rewrite (rsum_ext N1 _ (fun r => ckf o d2 hp2 (fst (get_scl_x_w_dist d2)) (sg r) s * w1 r)) by (intros r Hr; rewrite OFF by exact Hr; reflexivity).
  assert (LT := fun r (Hr : (r < N1)%nat) => cobs_lt o d2 hp2 (ei_noise o d2 hp2 vK b2 I2) (sg r) (sig_lt o d1 d2 hp1 hp2 vK b1 b2 f h I1 I2 HO r Hr)).
  destruct (gp_mask o d2 D2) as (M2 & EN2 & EG2 & EB2). destruct (gp_mask o d1 D1) as (M1 & EN1 & EG1 & EB1).
  unfold cN in Hs. destruct (unradr_ok _ _ _ _ Hs) as (V & ER). 
  destruct (unradr (d_n_eval d2) (d_n_grad d2) s) as [p|i q]; cbn [rvalid radr] in *.
  - assert (L2 : nth_error (gp_labels o d2) s = Some (LVal p)) by (rewrite <- ER; apply (DataFacts.labels_nth _ _ _ (F p)); exact V).
    destruct (label_row o d2 hp2 vK b2 I2 _ _ L2) as (_ & CO & YE & _). cbn [label_obs scaled_value] in CO, YE.
    assert (NF : forall p0, (p0 < d_n_eval d1)%nat -> f p0 <> p).
    { intros p0 Hp0 E. apply (NH p0); [unfold cN; lia|]. unfold sig. assert (HU : (p0 < N1)%nat) by (unfold cN; lia). destruct (sig_label o d1 d2 hp1 hp2 vK b1 b2 f h I1 I2 HO p0 HU) as (l & A1 & A2 & _).
      assert (B1 : nth_error (gp_labels o d1) p0 = Some (LVal p0)) by (apply (DataFacts.labels_nth _ _ _ (F p0)); exact Hp0). rewrite B1 in A1. injection A1 as <-. cbn [lmap] in A2. rewrite E in A2.
      apply labels_inv in A2. apply labels_inv in L2. destruct A2 as (_ & A2), L2 as (_ & L2). unfold sig in A2. rewrite A2, L2. reflexivity. }
    assert (KE : forall r, (r < N1)%nat -> ckf o d2 hp2 (fst (get_scl_x_w_dist d2)) (sg r) s = kxf o d1 hp1 (to_scl d1 (rows_of (d_x d2) p)) r).
    { intros r Hr. rewrite <- (sig_kx o d1 d2 hp1 hp2 vK b1 b2 f h I1 I2 HO SF SH _ r Hr). unfold ckf, kxf. rewrite CO. symmetry.
      apply kj_diff; cbn [obs_lt obs_kind obs_pt]; auto; try exact I; [destruct (cobs d2 _ (sg r)); reflexivity || exact I|]. intros j Hj. rewrite PT by assumption. reflexivity. }
    rewrite (rsum_ext N1 _ (fun r => kxf o d1 hp1 (to_scl d1 (rows_of (d_x d2) p)) r * w1 r)) by (intros r Hr; rewrite KE by exact Hr; reflexivity).
    assert (SR : sres d2 b2 s = vat (ydata d2) s - basis d2 s * b2) by reflexivity. rewrite SR. clear SR. unfold basis. rewrite YE. subst s. destruct (Nat.ltb_spec p (d_n_eval d2)); [|lia]. rewrite (AV p V NF), bel_b, (proj1 SF). unfold Mi, Pmu, pmu, pw, dotp.
    field. lra.
  - destruct V as (Vi & Vq). assert (U : o_use_grad o = true).
    { destruct (o_use_grad o) eqn:U; [reflexivity|]. unfold gp_dim in EN2. rewrite U in EN2. exfalso. assert (d_n_grad d2 * o_dim o = 0)%nat by lia. nia. }
    assert (Hq : (q < n_used (d_n_eval d2) (d_bvec d2))%nat) by (rewrite n_used_count, <- EG2 by assumption; exact Vq).
    assert (L2 : nth_error (gp_labels o d2) s = Some (LDer i q)).
    { unfold gp_labels, gp_dim. rewrite U. rewrite n_used_count by assumption. rewrite <- EG2 by exact U. rewrite <- ER. apply (DataFacts.labels_nth _ _ _ (G i q)). split; assumption. }
    destruct (label_row o d2 hp2 vK b2 I2 _ _ L2) as (_ & CO & YE & _). cbn [label_obs scaled_value] in CO, YE. destruct (AG U) as (EG & AG').
    set (p := nth q (grad_points (d_n_eval d2) (d_bvec d2)) 0%nat) in *.
    assert (Hp : (p < d_n_eval d2)%nat).
    { assert (I : In p (grad_points (d_n_eval d2) (d_bvec d2))) by (apply nth_In, Hq). unfold grad_points in I. destruct (d_bvec d2) as [m|]; [apply filter_In in I; destruct I as (I & _)|]; apply in_seq in I; lia. }
    assert (NF : forall q0, (q0 < n_used (d_n_eval d1) (d_bvec d1))%nat -> h q0 <> q).
    { intros q0 Hq0 E. set (r0 := (d_n_eval d1 + i * d_n_grad d1 + q0)%nat). assert (G1 : d_n_grad d1 = n_used (d_n_eval d1) (d_bvec d1)) by (rewrite n_used_count by assumption; apply EG1, U).
      assert (B1 : nth_error (gp_labels o d1) r0 = Some (LDer i q0)).
      { unfold gp_labels, gp_dim, r0. rewrite U. rewrite <- G1. apply (DataFacts.labels_nth _ _ _ (G i q0)). split; [exact Vi|rewrite G1; exact Hq0]. }
      assert (HU : (r0 < N1)%nat) by apply (label_row o d1 hp1 vK b1 I1 _ _ B1).
      destruct (sig_label o d1 d2 hp1 hp2 vK b1 b2 f h I1 I2 HO r0 HU) as (l & A1 & A2 & _). rewrite B1 in A1. injection A1 as <-. cbn [lmap] in A2. rewrite E in A2.
      apply (NH r0 HU). apply labels_inv in A2. apply labels_inv in L2. destruct A2 as (_ & A2), L2 as (_ & L2). rewrite A2, L2. reflexivity. }
    assert (KE : forall r, (r < N1)%nat -> ckf o d2 hp2 (fst (get_scl_x_w_dist d2)) (sg r) s = dkf o d1 hp1 i (to_scl d1 (rows_of (d_x d2) p)) r).
    { intros r Hr. rewrite <- (sig_dk o d1 d2 hp1 hp2 vK b1 b2 f h I1 I2 HO SF SH _ i r Hr Vi). unfold ckf, dkf. rewrite CO. symmetry.
      apply kj_diff; cbn [obs_lt obs_kind obs_pt]; auto; [destruct (cobs d2 _ (sg r)); reflexivity || exact I|]. intros j Hj. rewrite PT by assumption. reflexivity. }
    rewrite (rsum_ext N1 _ (fun r => dkf o d1 hp1 i (to_scl d1 (rows_of (d_x d2) p)) r * w1 r)) by (intros r Hr; rewrite KE by exact Hr; reflexivity).
    assert (SR : sres d2 b2 s = vat (ydata d2) s - basis d2 s * b2) by reflexivity. rewrite SR. clear SR. unfold basis. rewrite YE, EG, (AG' q i Hq Vi NF). subst s. destruct (Nat.ltb_spec (d_n_eval d2 + i * d_n_grad d2 + q) (d_n_eval d2)); [lia|].
    assert (IS : 0 < in_scale d1 i) by (apply I1; exact Vi). rewrite (proj1 SF), (proj2 SF i Vi). unfold gscl, Pdmu, pdmu, pw, dotp. fold p. field. lra.
Qed.
Lemma bel_w s : (s < N2)%nat -> ksol N2 (smat o d2 hp2 e) (sres d2 b2) s = emb N1 sg w1 s.
Proof.
  intros Hs. symmetry. apply (ksol_unique N2 _ (emb N1 sg w1) _ P2); [|exact Hs]. intros i Hi.
  rewrite (emb_sum N1 N2 sg (sig_lt o d1 d2 hp1 hp2 vK b1 b2 f h I1 I2 HO) (smat o d2 hp2 e i)). apply bel_row, Hi.
Qed.
Lemma bel_dot k2 k1 : (forall r, (r < N1)%nat -> k2 (sg r) = k1 r) -> dotp N2 k2 (ksol N2 (smat o d2 hp2 e) (sres d2 b2)) = dotp N1 k1 w1.
Proof.
  intros H. unfold dotp at 1. rewrite (rsum_ext N2 _ (fun s => k2 s * emb N1 sg w1 s)) by (intros s Hs; rewrite bel_w by exact Hs; reflexivity).
  rewrite (emb_sum N1 N2 sg (sig_lt o d1 d2 hp1 hp2 vK b1 b2 f h I1 I2 HO) k2). apply rsum_ext; intros r Hr. rewrite H by exact Hr. reflexivity.
Qed.
Lemma bel_mu x : Mi o d2 hp2 b2 e x = Mi o d1 hp1 b1 e x.
Proof.
  unfold Mi, Pmu, pmu, pw. rewrite (bel_dot _ (kxf o d1 hp1 (to_scl d1 x))) by (intros r Hr; apply (sig_kx o d1 d2 hp1 hp2 vK b1 b2 f h I1 I2 HO SF SH); exact Hr).
  rewrite bel_b, (proj1 SF). field. lra.
Qed.
Lemma bel_dmu i x : (i < o_dim o)%nat -> Pdmu o d2 hp2 b2 e i (to_scl d2 x) * gscl d2 i = Pdmu o d1 hp1 b1 e i (to_scl d1 x) * gscl d1 i.
Proof.
  intros Hi. unfold Pdmu, pdmu, pw, gscl. rewrite (bel_dot _ (dkf o d1 hp1 i (to_scl d1 x))) by (intros r Hr; apply (sig_dk o d1 d2 hp1 hp2 vK b1 b2 f h I1 I2 HO SF SH); assumption).
  rewrite (proj1 SF), (proj2 SF i Hi). reflexivity.
Qed.
End B.

(** ** C76.  [d2] holds the observations of [d1] and others, whose values and derivatives are those that the surrogate of
    [d1] returns at the points of [d2]: with the same nugget, the same hyperparameters and the same mean, the surrogate of
    [d2] returns, at every point, the mean and the gradient of the mean that the surrogate of [d1] does. *)
Theorem C76_agreeing_observations_change_no_prediction :
  forall (o : gpopt) (d1 d2 : gpdata) (condf : mat -> R) (hp1 hp2 : hpv) (vK b1 b2 : R) (cc1 cc2 : bool) (su1 su2 : surr) (f h : nat -> nat) (evd : evo) (D : mat),
  eval_input o d1 hp1 vK b1 -> eval_input o d2 hp2 vK b2 -> mask_supported o d1 -> mask_supported o d2 ->
  observations_in o d1 d2 f h -> same_factors o d1 d2 -> same_but_beta hp1 hp2 -> mean_in_units d2 b2 = mean_in_units d1 b1 ->
  set_up o d1 condf hp1 cc1 su1 -> set_up o d2 condf hp2 cc2 su2 -> k_eta (su_K su2) = k_eta (su_K su1) ->
  eval_model o d1 hp1 su1 (d_x d2) true false = Ok evd -> e_dmu evd = Some D -> as_predicted o d1 d2 f h (e_mu evd) D ->
  forall x2 : mat, nc x2 = o_dim o -> (0 < nr x2)%nat ->
  exists ev1 ev2 G1 G2, eval_model o d1 hp1 su1 x2 true false = Ok ev1 /\ eval_model o d2 hp2 su2 x2 true false = Ok ev2 /\
    same_vec (nr x2) (e_mu ev2) (e_mu ev1) /\ e_dmu ev1 = Some G1 /\ e_dmu ev2 = Some G2 /\ same_mat (nr x2) (o_dim o) G2 G1.
Proof.
  intros o d1 d2 condf hp1 hp2 vK b1 b2 cc1 cc2 su1 su2 f h evd D I1 I2 M1 M2 HO SF SH HB S1 S2 HE ED DD (AV & AG) x2 Hx Hn.
  destruct (ei_main o d1 hp1 vK b1 I1 condf cc1 su1 S1) as (e1 & c1 & inv1 & Q1 & Q2 & Q3 & Q4 & Q5 & Q6 & Q7 & Q8 & Q9).
  destruct (ei_eval o d1 hp1 vK b1 I1 condf cc1 su1 e1 c1 inv1 x2 true false S1 M1 Q1 Q3 Q4 Q5 Q6 Q7 Q8 Q9 Hx Hn ltac:(discriminate)) as (ev1 & E1 & (U1 & V1) & _ & (G1 & T1 & A1 & (B1 & B1' & B1'') & _) & _).
  destruct (ei_main o d2 hp2 vK b2 I2 condf cc2 su2 S2) as (e2 & c2 & inv2 & P1 & P2 & P3 & P4 & P5 & P6 & P7 & P8 & P9).
  destruct (ei_eval o d2 hp2 vK b2 I2 condf cc2 su2 e2 c2 inv2 x2 true false S2 M2 P1 P3 P4 P5 P6 P7 P8 P9 Hx Hn ltac:(discriminate)) as (ev2 & E2 & (U2 & V2) & _ & (G2 & T2 & A2 & (B2 & B2' & B2'') & _) & _).
  assert (SX : nr (d_x d2) = d_n_eval d2 /\ nc (d_x d2) = o_dim o /\ (0 < d_n_eval d2)%nat).
  { destruct I2 as (_ & (x & fv & sf & g & sg & b & K1 & K2 & K3 & K4) & _). assert (J := data_after_inv _ _ _ _ _ _ _ _ K4). destruct J as (J1 & J2 & _). rewrite J1, J2. repeat split; try assumption; congruence. }
  destruct SX as (X1 & X2 & X3).
  destruct (ei_eval o d1 hp1 vK b1 I1 condf cc1 su1 e1 c1 inv1 (d_x d2) true false S1 M1 Q1 Q3 Q4 Q5 Q6 Q7 Q8 Q9 X2 ltac:(lia) ltac:(discriminate)) as (ev' & E' & (U' & V') & _ & (G' & T' & A' & (B' & B'' & B''') & _) & _).
  rewrite ED in E'. injection E' as <-. rewrite DD in A'. injection A' as <-.
  assert (EE : e2 = e1) by congruence. clear P2 Q2. subst e2.
  assert (AV' : forall p2, (p2 < d_n_eval d2)%nat -> (forall p, (p < d_n_eval d1)%nat -> f p <> p2) -> vat (d_fval d2) p2 = Mi o d1 hp1 b1 e1 (rows_of (d_x d2) p2)).
  { intros p2 Hp NF. rewrite (AV p2 Hp NF). apply V'. lia. }
  assert (AG' : exists Gd, o_use_grad o = true -> d_grad d2 = Some Gd /\
    forall q2 i, (q2 < n_used (d_n_eval d2) (d_bvec d2))%nat -> (i < o_dim o)%nat -> (forall q, (q < n_used (d_n_eval d1) (d_bvec d1))%nat -> h q <> q2) ->
    mat_at Gd q2 i = Pdmu o d1 hp1 b1 e1 i (to_scl d1 (rows_of (d_x d2) (nth q2 (grad_points (d_n_eval d2) (d_bvec d2)) 0%nat))) * gscl d1 i).
  { destruct (o_use_grad o); [|exists D; discriminate]. destruct (AG eq_refl) as (Gd & F1 & F2). exists Gd. intros _. split; [exact F1|]. intros q2 i Hq Hi NF. rewrite (F2 q2 i Hq Hi NF). apply B'''; [|exact Hi].
    assert (I : In (nth q2 (grad_points (d_n_eval d2) (d_bvec d2)) 0%nat) (grad_points (d_n_eval d2) (d_bvec d2))) by (apply nth_In, Hq). unfold grad_points in I at 2.
    destruct (d_bvec d2) as [m|]; [apply filter_In in I; destruct I as (I & _)|]; apply in_seq in I; lia. }
  destruct AG' as (Gd & AG').
  exists ev1, ev2, G1, G2. split; [exact E1|]. split; [exact E2|]. split.
  { split; [exact U2|]. split; [exact U1|]. intros p Hp. rewrite V1, V2 by exact Hp. apply (bel_mu o d1 d2 hp1 hp2 vK b1 b2 e1 f h I1 I2 HO SF SH HB Q3 P3 AV' Gd AG'). }
  split; [exact A1|]. split; [exact A2|]. repeat (split; [assumption|]). intros p i Hp Hi. rewrite B1'', B2'' by assumption.
  apply (bel_dmu o d1 d2 hp1 hp2 vK b1 b2 e1 f h I1 I2 HO SF SH HB Q3 P3 AV' Gd AG' i _ Hi).
Qed.
Print Assumptions C76_agreeing_observations_change_no_prediction.

(** the hypotheses are met: three points, the gradient at the first; then, in addition, the gradient at the third point as it was predicted *)
Definition bel_g (D : mat) : mat := mkmat 2 2 (fun q i => if (q =? 0)%nat then mat_at ex_g 0 i else mat_at D 2 i).
Example C76_hypotheses_met : exists d1 d2 su1 su2 evd D, eval_input ex_opt d1 ev_hp 2 (1 / 3) /\ eval_input ex_opt d2 ev_hp 2 (1 / 3) /\
  mask_supported ex_opt d1 /\ mask_supported ex_opt d2 /\ observations_in ex_opt d1 d2 (fun p => p) (fun q => q) /\ same_factors ex_opt d1 d2 /\ same_but_beta ev_hp ev_hp /\ mean_in_units d2 (1 / 3) = mean_in_units d1 (1 / 3) /\
  set_up ex_opt d1 (fun _ => 1) ev_hp true su1 /\ set_up ex_opt d2 (fun _ => 1) ev_hp true su2 /\ k_eta (su_K su2) = k_eta (su_K su1) /\
  eval_model ex_opt d1 ev_hp su1 (d_x d2) true false = Ok evd /\ e_dmu evd = Some D /\ as_predicted ex_opt d1 d2 (fun p => p) (fun q => q) (e_mu evd) D /\
  n_used (d_n_eval d1) (d_bvec d1) = 1%nat /\ n_used (d_n_eval d2) (d_bvec d2) = 2%nat.
Proof.
  assert (E1 : exists d, set_data ex_opt ex_x ex_f SdNone (Some mg_g) SdNone (Some [true; false; false]) = Ok d /\ d_known_fval d = false /\ d_known_fgrad d = false /\ d_scl d = None /\
     d_bvec d = Some [true; false; false] /\ d_n_eval d = 3%nat /\ d_noisy d = true /\ d_x d = ex_x /\ d_fval d = ex_f /\ d_grad d = Some mg_g /\ d_std_fval d = None /\ d_std_grad d = None).
  { eexists; (split; [reflexivity|]); repeat split. }
  assert (E2 : forall D, exists d, set_data ex_opt ex_x ex_f SdNone (Some (bel_g D)) SdNone (Some [true; false; true]) = Ok d /\ d_known_fval d = false /\ d_known_fgrad d = false /\ d_scl d = None /\
     d_bvec d = Some [true; false; true] /\ d_n_eval d = 3%nat /\ d_noisy d = true /\ d_x d = ex_x /\ d_fval d = ex_f /\ d_grad d = Some (bel_g D) /\ d_std_fval d = None /\ d_std_grad d = None).
  { intros D. eexists; (split; [reflexivity|]); repeat split. }
  assert (EI : forall d x fv g m, set_data ex_opt x fv SdNone (Some g) SdNone m = Ok d -> vlen fv = 3%nat -> nr x = 3%nat -> nc x = 2%nat -> d_known_fval d = false -> d_known_fgrad d = false -> d_scl d = None -> eval_input ex_opt d ev_hp 2 (1 / 3)).
  { intros d x fv g m E M1 M2 M3 M4 M5 M6. split; [split; [simpl; lia|split; simpl; lra]|].
    split. { exists x, fv, SdNone, (Some g), SdNone, m. rewrite M1, M2, M3. split; [lia|]. split; [reflexivity|]. split; [reflexivity|]. apply after_set; exact E. }
    split; [reflexivity|]. split.
    { split; [reflexivity|]. split; [intros i _; simpl; assert (0 <= INR i) by apply pos_INR; lra|exact I]. }
    split. { split; [rewrite M4; split; [reflexivity|eexists; reflexivity]|]. intros _. rewrite M5. eexists; reflexivity. }
    split; [split; intros v Ev; injection Ev as <-; lra|]. split; [reflexivity|]. split; [lra|]. split; [exists (vconst 1 (1 / 3)); repeat split|].
    intros i _. unfold in_scale. rewrite M6. lra. }
  destruct E1 as (d1 & E1 & K1 & K2 & K3 & K4 & K5 & K6 & K7 & K8 & K9 & K10 & K11).
  assert (I1 : eval_input ex_opt d1 ev_hp 2 (1 / 3)) by (eapply EI; eauto).
  assert (MS : forall d, mask_supported ex_opt d) by (intros d _ C; discriminate).
  destruct (C30_setup_succeeds ex_opt d1 (fun _ => 1) ev_hp 2 (1 / 3) true I1) as (su1 & _ & HS1). assert (S1 : set_up ex_opt d1 (fun _ => 1) ev_hp true su1) by (apply HS1; left; reflexivity).
  destruct (ei_main ex_opt d1 ev_hp 2 (1 / 3) I1 _ true su1 S1) as (e1 & c1 & inv1 & Q1 & Q2 & Q3 & Q4 & Q5 & Q6 & Q7 & Q8 & Q9).
  destruct (ei_eval ex_opt d1 ev_hp 2 (1 / 3) I1 (fun _ => 1) true su1 e1 c1 inv1 ex_x true false S1 (MS d1) Q1 Q3 Q4 Q5 Q6 Q7 Q8 Q9 eq_refl ltac:(simpl; lia) ltac:(discriminate)) as (evd & ED & _ & _ & (D & _ & DD & _) & _).
  destruct (E2 D) as (d2 & E2' & L1 & L2 & L3 & L4 & L5 & L6 & L7 & L8 & L9 & L10 & L11).
  assert (I2 : eval_input ex_opt d2 ev_hp 2 (1 / 3)) by (eapply EI; eauto).
  destruct (C30_setup_succeeds ex_opt d2 (fun _ => 1) ev_hp 2 (1 / 3) true I2) as (su2 & _ & HS2). assert (S2 : set_up ex_opt d2 (fun _ => 1) ev_hp true su2) by (apply HS2; left; reflexivity).
  assert (U1 : n_used (d_n_eval d1) (d_bvec d1) = 1%nat) by (rewrite K4, K5; reflexivity). assert (U2 : n_used (d_n_eval d2) (d_bvec d2) = 2%nat) by (rewrite L4, L5; reflexivity).
  exists d1, d2, su1, su2, evd, D. split; [exact I1|]. split; [exact I2|]. split; [apply MS|]. split; [apply MS|]. split; [|split; [|split; [repeat split|split; [|split; [exact S1|split; [exact S2|split; [|split; [|split; [exact DD|split; [|auto]]]]]]]]]].
  - constructor.
    + rewrite K5, L5, K7, K8, L7, L8. auto.
    + intros p q _ _ E; exact E.
    + rewrite K10, L10. exact I.
    + intros _. rewrite U1, U2, K4, K5, L4, L5. intros [|q] Hq; [split; [lia|reflexivity]|lia].
    + intros _ p q _ _ E; exact E.
    + intros _. rewrite K9, L9, U1. cbn [OrderSpec.both]. intros q i Hq Hi. replace q with 0%nat by lia. reflexivity.
    + intros _. rewrite K11, L11. exact I.
    + congruence.
  - unfold same_factors, out_scale, in_scale. rewrite K3, L3. auto.
  - unfold mean_in_units, out_scale, out_shift. rewrite K3, L3. reflexivity.
  - apply (const_nugget ex_opt d1 d2 ev_hp ev_hp 2 (1 / 3) (1 / 3) (fun _ => 1) true true su1 su2 I1 I2 S1 S2 eq_refl). rewrite K5, L5. reflexivity.
  - rewrite L7. exact ED.
  - split.
    + intros p2 Hp NF. exfalso. apply (NF p2); [|reflexivity]. rewrite K5. rewrite L5 in Hp. exact Hp.
    + intros _. exists (bel_g D). split; [exact L9|]. intros q2 i Hq Hi NF. rewrite U2 in Hq. rewrite U1 in NF. destruct q2 as [|[|q2]]; [exfalso; apply (NF 0%nat); [lia|reflexivity]| |lia].
      rewrite L4, L5. reflexivity.
Qed.
Print Assumptions C76_hypotheses_met.
