(** * Property C54 continued: the Hessians far from the data. *)
From Coq Require Import Reals List Arith Bool Lia Lra Psatz.
From Coquelicot Require Import Coquelicot.
From Verif.Base Require Import NpLite NpFacts Deriv.
From Verif.Spec Require Import KernelSpec LinAlgSpec GpSpec HpSpec DataSpec LkdSpec RescaleSpec EvalSpec OrderSpec UnitSpec LinearSpec.
From Verif.Model Require Import KernelSqExp KernelMatern KernelRatQuad KernelDispatch CommonFun WellCond Rescaling GpState Chol Cov HpInfo HpGrad MeanFun Lkd EvalModel.
From Verif.Proofs Require Import KernTac KernGradBlocks RadialCalculus KernelExact HessX HessX2 LinAlg CholCorrect Jets Psd CovStruct StateFacts NoiseFacts DataFacts NuggetCond NuggetMain MinMax RescaleFacts
  LinDeriv LkdCore LkdFacts LkdMain EvalKern EvalFacts EvalMain EvalInterp FarFacts FarHess ThetaGrad.
From Verif.Props Require Import CondProps DataProps LkdProps RescaleProps EvalProps OrderProps UnitProps UnitProps2 LinearProps FarProps.
Import ListNotations.
Local Open Scope R_scope.

Lemma partial_near_unique f l i x v w : is_partial2_near f l i x v -> is_partial2_near f l i x w -> v = w.
Proof.
  intros (g & d1 & D1 & G1 & G2) (h & d2 & D2 & H1 & H2). eapply dR_unique; [exact G2|].
  apply (dR_ext_near h g (x l) w (Rmin d1 d2)); [apply Rmin_pos; assumption| |exact H2].
  intros t Ht. eapply dR_unique; [apply H1|apply G1]; (eapply Rlt_le_trans; [exact Ht|]); [apply Rmin_r|apply Rmin_l].
Qed.
Section F.
Variables (o : gpopt) (d : gpdata) (hp : hpv) (vK b : R).
Hypothesis HI : eval_input o d hp vK b.
Notation N := (cN o d).
Notation X := (fst (get_scl_x_w_dist d)).
Let D : data_set o d. Proof. apply HI. Qed.
Let Hth : forall i, (i < o_dim o)%nat -> 0 < vat (hp_theta hp) i.
Proof. destruct HI as (_ & _ & _ & (_ & H & _) & _). exact H. Qed.
Let Hhp : hp_ok (o_kernel o) (hp_kernel hp).
Proof. destruct HI as (_ & _ & _ & (_ & _ & H) & _). exact H. Qed.
Notation cth := (cut (o_dim o) (vat (hp_theta hp))).
Let Hcut : forall i, 0 <= cth i.
Proof. intros i. unfold cut. destruct (Nat.ltb_spec i (o_dim o)); [left; apply Hth; assumption|lra]. Qed.
Lemma obs_row c : (c < N)%nat -> exists q, (q < d_n_eval d)%nat /\ at_of (cobs d X c) = rows_of X q.
Proof.
  intros Hc. assert (SS : same_sites o d d) by (constructor; auto; try (split; reflexivity); intros; unfold OrderSpec.both; destruct (d_std_fval d), (d_std_grad d); auto).
  destruct (l_label o d d hp vK b HI SS c Hc) as (l & L1 & _ & L). destruct (label_row o d hp vK b HI _ _ L1) as (_ & EO & _).
  rewrite EO. destruct l as [p|i q]; cbn [label_obs at_of]; eexists; (split; [|reflexivity]); [exact L|]. destruct L as (U & _ & Hq). apply (gpt_lt o d); assumption.
Qed.
(** the tensor of the second derivatives of the covariances at a scaled point *)
Definition farT (u : pt) : ten := mkten (o_dim o) (o_dim o) N (fun l i c => kd2 (o_kernel o) (hp_kernel hp) (o_dim o) cth l i (cobs d X c) u).
Lemma far_T e : 0 < e -> exists r, 0 < r /\ forall x, (forall q, (q < d_n_eval d)%nat -> r <= dist (o_dim o) x (rows_of (d_x d) q)) ->
  (forall q, (q < d_n_eval d)%nat -> 1 <= sqd (o_dim o) (vat (hp_theta hp)) (to_scl d x) (rows_of X q)) /\
  forall l i c, (l < o_dim o)%nat -> (i < o_dim o)%nat -> (c < N)%nat ->
    is_derive (fun t => dkf o d hp i (upd (to_scl d x) l t) c) (to_scl d x l) (tat (farT (to_scl d x)) l i c) /\ Rabs (tat (farT (to_scl d x)) l i c) <= e.
Proof.
  intros He. destruct (kd2_small (o_kernel o) (hp_kernel hp) (o_dim o) cth Hhp Hcut e He) as (S & S1 & S2).
  destruct (far_sqd o d hp vK b HI S ltac:(lra)) as (r & R1 & R2). exists r. split; [exact R1|]. intros x Hx. split.
  - intros q Hq. rewrite <- sqd_cut, sqd_sym. eapply Rle_trans; [exact S1|]. apply R2; [exact Hq|apply Hx, Hq].
  - intros l i c Hl Hi Hc. assert (OL := cobs_lt o d hp (ei_noise _ _ _ _ _ HI) c Hc). destruct (obs_row c Hc) as (q & Hq & AT).
    assert (Z : S <= sqd (o_dim o) cth (to_scl d x) (at_of (cobs d X c))) by (rewrite AT, sqd_sym; apply R2; [exact Hq|apply Hx, Hq]).
    cbn [farT tat]. split; [|apply S2; assumption]. unfold dkf. apply kd2_dx; auto; [intros m Hm; left; apply Hth, Hm|lra].
Qed.
End F.
Lemma quad_small n K t (HP : pdf n K) : 0 <= t <= 1 -> forall u w, (forall c, (c < n)%nat -> Rabs (u c) <= t) -> (forall c, (c < n)%nat -> Rabs (w c) <= t) ->
  Rabs (dotp n u (ksol n K w)) <= t * rsum n (fun i => rsum n (fun j => Rabs (kinv n K i j))).
Proof.
  intros (T0 & T1) u w Hu Hw. eapply Rle_trans; [apply (dotp_abs n u _ t Hu)|]. apply Rmult_le_compat_l; [exact T0|]. apply rsum_le; intros c Hc.
  rewrite (kinv_apply n K w HP c Hc). eapply Rle_trans; [apply rsum_abs|]. apply rsum_le; intros j Hj. rewrite Rabs_mult. assert (Z := Hw j Hj). assert (Y := Rabs_pos (kinv n K c j)). nra.
Qed.

(** ** C54, Hessians: from some distance on, the returned second derivatives of the mean and of the standard deviation
    are zero up to the tolerance (and the latter exist: the standard deviation is not zero there). *)
Theorem C54_hessians_far_from_the_data :
  forall (o : gpopt) (d : gpdata) (condf : mat -> R) (hp : hpv) (vK b : R) (cc : bool) (su : surr),
  eval_input o d hp vK b -> mask_supported o d -> set_up o d condf hp cc su -> (o_use_grad o = true -> full_mask (d_n_eval d) (d_bvec d)) ->
  forall eps, 0 < eps -> exists r, 0 < r /\
  forall x2 : mat, nc x2 = o_dim o -> nr x2 = 1%nat ->
  (forall q, (q < d_n_eval d)%nat -> r <= dist (o_dim o) (rows_of x2 0%nat) (rows_of (d_x d) q)) ->
  exists ev H S, eval_model o d hp su x2 true true = Ok ev /\ e_d2mu ev = Some H /\ e_d2sig ev = Some (Some S) /\
    td H = 1%nat /\ tr H = o_dim o /\ tc H = o_dim o /\ td S = 1%nat /\ tr S = o_dim o /\ tc S = o_dim o /\
    forall l i, (l < o_dim o)%nat -> (i < o_dim o)%nat -> Rabs (tat H 0 l i) <= eps /\ Rabs (tat S 0 l i) <= eps.
Proof.
  intros o d condf hp vK b cc su HI MS SU FM eps He.
  destruct (ei_main o d hp vK b HI condf cc su SU) as (e & f & inv & Q1 & Q2 & Q3 & Q4 & Q5 & Q6 & Q7 & Q8 & Q9).
  assert (HI' := HI). destruct HI' as (I1 & I2 & I3 & I4 & I5 & I6 & I7 & I8 & _ & IP). assert (NA := ei_noise o d hp vK b HI).
  assert (OP : 0 < out_scale d) by (apply (out_scale_pos o), I2). assert (SV : 0 < sqrt vK) by (apply sqrt_lt_R0, I8). assert (SV2 : sqrt vK * sqrt vK = vK) by (apply sqrt_sqrt; lra).
  set (A := smat o d hp e) in *. set (n := cN o d) in *.
  set (W := rsum n (fun i => Rabs (ksol n A (sres d b) i))). set (Z := rsum n (fun i => rsum n (fun j => Rabs (kinv n A i j)))).
  assert (W0 : 0 <= W) by (apply rsum_nonneg; intros; apply Rabs_pos). assert (Z0 : 0 <= Z) by (apply rsum_nonneg; intros; apply rsum_nonneg; intros; apply Rabs_pos).
  set (g := rsum (o_dim o) (fun i => in_scale d i ^ 2 / out_scale d)).
  assert (GP : forall i, 0 <= in_scale d i ^ 2 / out_scale d) by (intros i; apply Rmult_le_pos; [apply pow2_ge_0|left; apply Rinv_0_lt_compat, OP]).
  assert (G0 : 0 <= g) by (apply rsum_nonneg; intros; apply GP). assert (GL : forall i, (i < o_dim o)%nat -> in_scale d i ^ 2 / out_scale d <= g) by (intros i Hi; apply (rsum_le_term (o_dim o) (fun i => in_scale d i ^ 2 / out_scale d)); [intros; apply GP|exact Hi]).
  (* tolerance for the covariances *)
  set (m := W * g + 4 * (Z * (sqrt vK * g)) + 8 * (sqrt vK * g)). assert (SG0 : 0 <= sqrt vK * g) by nra. assert (ZG0 : 0 <= Z * (sqrt vK * g)) by nra. assert (WG0 : 0 <= W * g) by nra.
  assert (M0 : 0 <= m) by (unfold m; lra).
  set (t := Rmin (1 / 2) (eps / (1 + m))). assert (T0 : 0 < t) by (apply Rmin_pos; [lra|apply Rdiv_lt_0_compat; lra]). assert (T1 : t <= 1 / 2) by apply Rmin_l.
  assert (T2 : t * (1 + m) <= eps). { apply Rle_trans with (eps / (1 + m) * (1 + m)); [apply Rmult_le_compat_r; [lra|apply Rmin_r]|]. right. field. lra. }
  destruct (far_all o d hp vK b HI e Q3 t T0) as (r1 & R1 & K1). destruct (far_k o d hp vK b HI t T0) as (r2 & R2 & K2). destruct (far_T o d hp vK b HI t T0) as (r3 & R3 & K3).
  exists (Rmax r1 (Rmax r2 r3)). split; [eapply Rlt_le_trans; [exact R1|apply Rmax_l]|]. intros x2 Hx Hn Hfar. set (x := rows_of x2 0%nat) in *.
  specialize (K1 x (fun q Hq => Rle_trans _ _ _ (Rmax_l _ _) (Hfar q Hq))). specialize (K2 x (fun q Hq => Rle_trans _ _ _ (Rle_trans _ _ _ (Rmax_l r2 r3) (Rmax_r r1 _)) (Hfar q Hq))).
  destruct (K3 x (fun q Hq => Rle_trans _ _ _ (Rle_trans _ _ _ (Rmax_r r2 r3) (Rmax_r r1 _)) (Hfar q Hq))) as (K3a & K3b). clear K3. destruct K1 as (_ & KP & KD).
  assert (HS : hess_supported o d hp x2).
  { split; [exact Hn|]. intros U. split; [apply FM, U|]. intros _ p q Hp Hq. right. replace p with 0%nat by lia. fold x.
    assert (E : sqd (o_dim o) (vat (hp_theta hp)) (model_point d x) (rows_of (fst (get_scl_x_w_dist d)) q) = sqd (o_dim o) (vat (hp_theta hp)) (to_scl d x) (rows_of (fst (get_scl_x_w_dist d)) q)) by (apply rsum_ext; intros i _; rewrite to_scl_point; reflexivity).
    rewrite E. apply Rle_trans with 1; [|apply sqrt_le_self, K3a, Hq]. unfold nu_floor. rewrite <- Rinv_1. apply Rinv_le_contravar; [lra|]. apply pow_R1_Rle; lra. }
  destruct (ei_eval o d hp vK b HI condf cc su e f inv x2 true true SU MS Q1 Q3 Q4 Q5 Q6 Q7 Q8 Q9 Hx ltac:(lia) (fun _ => conj eq_refl HS)) as (ev & E1 & _ & _ & _ & (Hm & Hs & E2 & E3 & A1 & A2 & A3 & A4 & A5)).
  fold x in A4, A5. set (u := to_scl d x) in *. set (q := Pv o d hp e u) in *. set (T := farT o d hp u) in *.
  assert (HT : forall l i r, (l < o_dim o)%nat -> (i < o_dim o)%nat -> (r < n)%nat -> is_derive (fun t0 => dkf o d hp i (upd u l t0) r) (u l) (tat T l i r)) by (intros l i r Hl Hi Hr; apply (K3b l i r Hl Hi Hr)).
  assert (SQ : 1 / 2 <= sqrt q <= 1).
  { assert (sqrt q <= 1) by (rewrite <- sqrt_1; apply sqrt_le_1_alt; lra). assert (QQ : sqrt q * sqrt q = q) by (apply sqrt_sqrt; lra). assert (0 <= sqrt q) by apply sqrt_pos. nra. }
  assert (SP : 0 < Psig o d hp vK e u) by (unfold Psig; fold q; nra). assert (SI : 0 < Si o d hp vK e x) by (unfold Si; fold u; apply Rdiv_lt_0_compat; assumption).
  destruct (Req_EM_T (Si o d hp vK e x) 0) as [C|_]; [lra|]. destruct A5 as (M & -> & B1 & B2 & B3 & B4).
  exists ev, Hm, M. do 9 (split; [assumption|]). intros l i Hl Hi.
  assert (Sl := IP l Hl). assert (Sii := IP i Hi). assert (Gi := GL i Hi). assert (Gp := GP i). split.
  - destruct (A4 l i Hl Hi) as (h & P & ->). rewrite (partial2_unique _ _ _ _ _ _ P (M_dx2 o d hp b e I4 NA Q3 x T HT l i Hl Hi)).
    replace (Phmu o d hp b e T l i * (in_scale d l * in_scale d i / out_scale d) * (in_scale d i / in_scale d l)) with (Phmu o d hp b e T l i * (in_scale d i ^ 2 / out_scale d)) by (field; lra).
    rewrite Rabs_mult, (Rabs_pos_eq (in_scale d i ^ 2 / out_scale d)) by exact Gp. unfold Phmu. fold n A.
    assert (B : Rabs (dotp n (tat T l i) (ksol n A (sres d b))) <= t * W) by (apply dotp_abs; intros c Hc; apply (K3b l i c Hl Hi Hc)).
    apply Rle_trans with (t * W * g); [apply Rmult_le_compat; auto using Rabs_pos|]. unfold m in T2. nra.
  - destruct (B4 l i Hl Hi) as (h & P & ->). rewrite (partial_near_unique _ _ _ _ _ _ P (S_dx2 o d hp vK b e I2 I4 I8 NA Q3 x T HT l i Hl Hi SI)). fold u n A.
    set (hv := dotp n (tat T l i) _ + _). set (sl := Pdsig o d hp vK e l u). set (si := Pdsig o d hp vK e i u). set (sg := Psig o d hp vK e u) in *.
    replace (1 / (2 * sg) * (-2 * sqrt vK ^ 2 * hv - 2 * (sl * si)) * (in_scale d l * in_scale d i / out_scale d) * (in_scale d i / in_scale d l))
      with (- (1 / sg * (sqrt vK ^ 2 * hv + sl * si) * (in_scale d i ^ 2 / out_scale d))) by (field; lra).
    assert (BH : Rabs hv <= 2 * t * Z).
    { unfold hv. eapply Rle_trans; [apply Rabs_triang|]. assert (Y1 : Rabs (dotp n (tat T l i) (pz n A (kxf o d hp) u)) <= t * Z) by (apply quad_small; [exact Q3|lra|intros c Hc; apply (K3b l i c Hl Hi Hc)|intros c Hc; apply (K2 c Hc)]).
      assert (Y2 : Rabs (dotp n (dkf o d hp l u) (ksol n A (dkf o d hp i u))) <= t * Z) by (apply quad_small; [exact Q3|lra|intros c Hc; apply (K2 c Hc); assumption|intros c Hc; apply (K2 c Hc); assumption]). lra. }
    assert (IS : 0 < 1 / sg /\ 1 / sg * sqrt vK <= 2).
    { split; [apply Rdiv_lt_0_compat; lra|]. unfold sg, Psig. fold q. replace (1 / (sqrt q * sqrt vK) * sqrt vK) with (/ sqrt q) by (field; lra). replace 2 with (/ (1 / 2)) by field. apply Rinv_le_contravar; lra. }
    destruct IS as (IS1 & IS2).
    assert (BS : forall j, (j < o_dim o)%nat -> Rabs (Pdsig o d hp vK e j u) <= 2 * sqrt vK * t).
    { intros j Hj. destruct (KD j Hj) as (_ & KV). unfold Pdsig. fold sg. destruct (Req_EM_T sg 0) as [C|C]; [lra|].
      replace (- (1 / sg) * (Pdv o d hp e j u * vK)) with (- (1 / sg * sqrt vK * (sqrt vK * Pdv o d hp e j u))) by (rewrite <- SV2 at 3; ring).
      rewrite Rabs_Ropp, !Rabs_mult, (Rabs_pos_eq (1 / sg)), (Rabs_pos_eq (sqrt vK)) by lra. rewrite (Rmult_assoc 2). apply Rmult_le_compat; [nra|apply Rmult_le_pos; [lra|apply Rabs_pos]|exact IS2|apply Rmult_le_compat_l; lra]. }
    assert (Bl := BS l Hl). assert (Bi := BS i Hi). fold sl in Bl. fold si in Bi.
    assert (BB : Rabs (sl * si) <= 2 * sqrt vK * t * (2 * sqrt vK * t)) by (rewrite Rabs_mult; apply Rmult_le_compat; auto using Rabs_pos).
    assert (BT : Rabs (sqrt vK ^ 2 * hv + sl * si) <= sqrt vK * (sqrt vK * (2 * t * Z + 4 * t * t))).
    { eapply Rle_trans; [apply Rabs_triang|]. rewrite (Rabs_mult (sqrt vK ^ 2)), (Rabs_pos_eq (sqrt vK ^ 2)) by apply pow2_ge_0. assert (Y : sqrt vK ^ 2 * Rabs hv <= sqrt vK ^ 2 * (2 * t * Z)) by (apply Rmult_le_compat_l; [apply pow2_ge_0|exact BH]).
      replace (sqrt vK * (sqrt vK * (2 * t * Z + 4 * t * t))) with (sqrt vK ^ 2 * (2 * t * Z) + 2 * sqrt vK * t * (2 * sqrt vK * t)) by ring. lra. }
    rewrite Rabs_Ropp, !Rabs_mult, (Rabs_pos_eq (1 / sg)), (Rabs_pos_eq (in_scale d i ^ 2 / out_scale d)) by lra.
    set (y := sqrt vK * (2 * t * Z + 4 * t * t)) in *. assert (Y0 : 0 <= y) by (unfold y; apply Rmult_le_pos; [lra|nra]).
    assert (C1 : 1 / sg * Rabs (sqrt vK ^ 2 * hv + sl * si) <= 2 * y).
    { apply Rle_trans with (1 / sg * (sqrt vK * y)); [apply Rmult_le_compat_l; lra|]. rewrite <- Rmult_assoc. apply Rmult_le_compat_r; lra. }
    apply Rle_trans with (2 * y * g); [apply Rmult_le_compat; auto; apply Rmult_le_pos; [lra|apply Rabs_pos]|].
    apply Rle_trans with (t * (4 * (Z * (sqrt vK * g)) + 8 * (sqrt vK * g))); [|unfold m in T2; nra].
    replace (2 * y * g) with (t * (4 * (Z * (sqrt vK * g)) + 8 * t * (sqrt vK * g))) by (unfold y; ring). apply Rmult_le_compat_l; [lra|]. nra.
Qed.
Print Assumptions C54_hessians_far_from_the_data.

Example C54_hessian_hypotheses_met : exists d hp v b su, eval_input ue_opt d hp v b /\ mask_supported ue_opt d /\ set_up ue_opt d (fun _ => 1) hp true su /\ d_n_eval d = 3%nat /\
  (o_use_grad ue_opt = true -> full_mask (d_n_eval d) (d_bvec d)) /\
  forall r, exists x2, nc x2 = o_dim ue_opt /\ nr x2 = 1%nat /\ forall q, (q < d_n_eval d)%nat -> r <= dist (o_dim ue_opt) (rows_of x2 0%nat) (rows_of (d_x d) q).
Proof.
  destruct (ue_data ex_x ex_f ue_g (fun i => 1 / 2 + INR i) 2 (1 / 3) eq_refl eq_refl eq_refl eq_refl eq_refl ltac:(intros i _; assert (Z := pos_INR i); lra) ltac:(lra)) as (d & I1 & A1 & A2 & A3 & _).
  destruct (C30_setup_succeeds ue_opt d (fun _ => 1) _ _ _ true I1) as (su & _ & HS1). exists d. do 3 eexists. exists su. split; [exact I1|]. split; [intros _ C; discriminate|]. split; [apply HS1; left; reflexivity|].
  split; [exact A2|]. split; [intros _; rewrite A3; exact I|]. intros r. destruct (far_points_exist (d_n_eval d) (o_dim ue_opt) (d_x d) r ltac:(simpl; lia)) as (x2 & X1 & X2 & X3). exists x2. split; [exact X1|]. split; [exact X2|]. intros q Hq. apply X3; [lia|exact Hq].
Qed.
