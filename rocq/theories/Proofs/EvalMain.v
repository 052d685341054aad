(** The results of an evaluation, as functions of the point in the initial units. *)
From Coq Require Import Reals List Arith Bool Lia Lra Psatz.
From Coquelicot Require Import Coquelicot.
From Verif.Base Require Import NpLite NpFacts Deriv.
From Verif.Spec Require Import KernelSpec LinAlgSpec GpSpec DataSpec RescaleSpec EvalSpec.
From Verif.Model Require Import KernelSqExp KernelMatern KernelRatQuad KernelDispatch CommonFun WellCond Rescaling GpState Chol Cov MeanFun EvalModel.
From Verif.Proofs Require Import KernTac KernGradBlocks RadialCalculus KernelExact LinAlg CholCorrect Jets Psd CovStruct StateFacts NoiseFacts NuggetCond NuggetMain LinDeriv LkdCore LkdFacts LkdMain RescaleFacts EvalKern EvalFacts.
Import ListNotations.
Local Open Scope R_scope.

Lemma data_after_scl o x fv sf g sg b d r : data_after o x fv sf g sg b d -> d_scl d = Some r ->
  vlen (r_shift r) = nc x /\ vlen (r_scale r) = nc x /\ 0 < r_obj_scale r.
Proof.
  intros HA. revert r. induction HA as [d H|d scale d' HA IH H]; intros r E.
  - assert (I := set_data_inv _ _ _ _ _ _ _ _ H). destruct I as (_ & _ & _ & _ & _ & _ & _ & _ & _ & _ & I11 & _). destruct (I11 r E) as (_ & L1 & L2 & _). split; [exact L1|]. split; [exact L2|].
    unfold set_data in H. cbv zeta in H. binv H ng Eng. binv H stf Estf. binv H stg Estg. binv H fz Efz. binv H gz Egz. binv H eta Eeta. binv H dm Edm.
    binv H scl Escl. binv H Rt ERt. injection H as <-. cbn [d_scl] in E. subst scl.
    destruct (o_use_scl o); [|discriminate]. binv Escl md Emd. binv Escl r1 Er1. binv Escl r2 Er2. injection Escl as ->.
    destruct (set_obj_data_inv _ _ _ _ _ Er2) as (Z1 & Z2 & Z3 & Z4 & Z5 & _ & _ & Z6). eapply calc_obj_scale_pos; exact Z6.
  - apply rescale_data_inv in H. destruct H as (r0 & r' & E0 & H & ->). injection E as <-. destruct (IH r0 E0) as (_ & _ & P).
    assert (I := data_after_inv _ _ _ _ _ _ _ _ HA). destruct I as (_ & _ & _ & _ & _ & _ & _ & _ & _ & _ & I11 & _). assert (Ex := proj1 (I11 r0 E0)).
    apply set_xscale_data_inv in H. destruct H as ((_ & L1 & L2 & _) & _ & _ & _ & S). rewrite Ex in L1, L2. rewrite S. auto.
Qed.
Lemma data_set_scl o d r : data_set o d -> d_scl d = Some r ->
  vlen (r_shift r) = o_dim o /\ vlen (r_scale r) = o_dim o /\ 0 < r_obj_scale r.
Proof. intros (x & fv & sf & g & sg & b & _ & _ & Hc & H) E. rewrite <- Hc. exact (data_after_scl _ _ _ _ _ _ _ _ _ H E). Qed.
(** the same factor for every coordinate: always so right after set_data *)
Definition isotropic (o : gpopt) (d : gpdata) : Prop := forall i j, (i < o_dim o)%nat -> (j < o_dim o)%nat -> in_scale d i = in_scale d j.
Lemma set_data_isotropic o x fv sf g sg b d : nc x = o_dim o -> set_data o x fv sf g sg b = Ok d -> isotropic o d.
Proof.
  intros Hc H i j Hi Hj. unfold in_scale. destruct (d_scl d) as [r|] eqn:E; [|reflexivity].
  unfold set_data in H. cbv zeta in H. binv H ng Eng. binv H stf Estf. binv H stg Estg. binv H fz Efz. binv H gz Egz. binv H eta Eeta. binv H dm Edm.
  binv H scl Escl. binv H Rt ERt. injection H as <-. cbn [d_scl] in E. subst scl.
  destruct (o_use_scl o); [|discriminate]. binv Escl md Emd. binv Escl r1 Er1. binv Escl r2 Er2. injection Escl as ->.
  destruct (set_obj_data_inv _ _ _ _ _ Er2) as (Z1 & Z2 & Z3 & Z4 & Z5 & _ & _ & Z6).
  apply set_xscale_data_inv in Er1. destruct Er1 as ((Y1 & Y2 & Y3 & _) & Y4 & _). rewrite Z3. cbn [r_x] in Y4.
  unfold calc_x_shift_n_scale in Y4. cbv zeta in Y4. binv Y4 s1 E1. cbn [bind] in Y4. binv Y4 X1 E3. binv Y4 cf E4. injection Y4 as _ <-. reflexivity.
Qed.
Lemma out_scale_pos o d : data_set o d -> 0 < out_scale d.
Proof. intros H. unfold out_scale. destruct (d_scl d) as [r|] eqn:E; [|lra]. apply (data_set_scl o d r H E). Qed.
Lemma to_scl_point d x i : model_point d x i = to_scl d x i.
Proof. unfold model_point, to_scl, in_shift, in_scale. destruct (d_scl d); [reflexivity|]. ring. Qed.

(** chain rule for the scaled point *)
Lemma chain_scl m d (F : pt -> R) x l v : (forall a b, (forall i, (i < m)%nat -> a i = b i) -> F a = F b) ->
  is_derive (fun t => F (upd (to_scl d x) l t)) (to_scl d x l) v -> is_partial (fun z => F (to_scl d z)) l x (v * in_scale d l).
Proof.
  intros L H. unfold is_partial.
  apply (dR_ext (fun t => F (upd (to_scl d x) l ((t - in_shift d l) * in_scale d l)))).
  { intros t. apply L. intros i _. unfold to_scl, upd. destruct (Nat.eqb_spec i l) as [->|]; reflexivity. }
  assert (U : is_derive (fun t => (t - in_shift d l) * in_scale d l) (x l) (in_scale d l)).
  { refine (dR_val _ _ _ _ (dR_mult _ _ _ _ _ (dR_minus _ _ _ _ _ (dR_id _) (dR_const (in_shift d l) _)) (dR_const (in_scale d l) _)) _). ring. }
  refine (dR_val _ _ _ _ (dR_comp (fun s => F (upd (to_scl d x) l s)) _ _ _ _ U H) _). ring.
Qed.
Lemma partial_affine f l x v c s : is_partial f l x v -> is_partial (fun z => f z / c + s) l x (v / c).
Proof. intros H. unfold is_partial in *. refine (dR_val _ _ _ _ (dR_plus _ _ _ _ _ (dR_mult _ _ _ _ _ H (dR_const (/ c) _)) (dR_const s _)) _). unfold Rdiv. ring. Qed.

Section M.
Variables (o : gpopt) (d : gpdata) (hp : hpv) (vK b0 e : R).
Hypothesis EV : ev_ready o d.
Hypothesis HD : data_set o d.
Hypothesis Hh : hyper_ok o hp.
Hypothesis HvP : 0 < vK.
Hypothesis Hno : noise_arg_ok o d hp None.
Notation X := (fst (get_scl_x_w_dist d)).
Notation N := (cN o d).
Hypothesis HA : pdf N (smat o d hp e).
Hypothesis Hdiag : forall i, (i < N)%nat -> 0 < sdiag o d hp e i.
Notation MU := (Pmu o d hp b0 e).
Notation PV := (Pv o d hp e).
Notation SG := (Psig o d hp vK e).
Notation DMU := (Pdmu o d hp b0 e).
Notation DV := (Pdv o d hp e).
Notation DSG := (Pdsig o d hp vK e).
Definition Mi (x : pt) : R := MU (to_scl d x) / out_scale d + out_shift d.
Definition Si (x : pt) : R := SG (to_scl d x) / out_scale d.
Lemma loc x z : (forall i, (i < o_dim o)%nat -> x i = z i) ->
  MU x = MU z /\ PV x = PV z /\ forall j, (j < o_dim o)%nat -> DMU j x = DMU j z /\ DV j x = DV j z.
Proof. intros E. apply (P_loc o d hp b0); assumption. Qed.
Lemma sig_loc x z : (forall i, (i < o_dim o)%nat -> x i = z i) -> SG x = SG z.
Proof. intros E. unfold Psig. destruct (loc x z E) as (_ & -> & _). reflexivity. Qed.
Lemma dsig_loc x z j : (forall i, (i < o_dim o)%nat -> x i = z i) -> (j < o_dim o)%nat -> DSG j x = DSG j z.
Proof. intros E Hj. unfold Pdsig. rewrite (sig_loc x z E). destruct (loc x z E) as (_ & _ & L). destruct (L j Hj) as (_ & ->). reflexivity. Qed.
Lemma kxf_d x j c : (j < o_dim o)%nat -> (c < N)%nat -> is_derive (fun t => kxf o d hp (upd x j t) c) (x j) (dkf o d hp j x c).
Proof. intros Hj Hc. apply kxf_dx; assumption. Qed.
Lemma kxf_e x y : (forall i, x i = y i) -> forall c, (c < N)%nat -> kxf o d hp x c = kxf o d hp y c.
Proof. intros E c Hc. apply (kj_ext o hp). exact E. Qed.
Lemma dkf_e i x y : (forall i, x i = y i) -> forall c, (c < N)%nat -> dkf o d hp i x c = dkf o d hp i y c.
Proof. intros E c Hc. apply (kj_ext o hp). exact E. Qed.

Lemma M_dx x j : (j < o_dim o)%nat -> is_partial Mi j x (DMU j (to_scl d x) * gscl d j).
Proof.
  intros Hj. unfold gscl. replace (DMU j (to_scl d x) * (in_scale d j / out_scale d)) with (DMU j (to_scl d x) * in_scale d j / out_scale d) by (unfold Rdiv; ring).
  apply (partial_affine (fun z => MU (to_scl d z))). apply (chain_scl (o_dim o)); [intros a b E; apply (loc a b E)|].
  apply (pmu_dx N (smat o d hp e) (sres d b0) b0 (o_dim o)) with (dk := dkf o d hp); [intros; apply kxf_d; assumption|exact Hj].
Qed.
Lemma PV_dx x j : (j < o_dim o)%nat -> is_derive (fun t => PV (upd x j t)) (x j) (-2 * DV j x).
Proof. intros Hj. apply (pv_dx N (smat o d hp e) HA (o_dim o)); [intros; apply kxf_d; assumption|exact kxf_e|exact Hj]. Qed.
Lemma SG_pos x : 0 < SG x -> 0 < PV x.
Proof. intros H. unfold Psig in H. destruct (Rle_lt_dec (PV x) 0) as [Z|Z]; [|exact Z]. rewrite sqrt_neg_0 in H by exact Z. lra. Qed.
Lemma SG_dx x j : (j < o_dim o)%nat -> 0 < SG x -> is_derive (fun t => SG (upd x j t)) (x j) (DSG j x).
Proof.
  intros Hj HP. assert (P := SG_pos x HP). unfold Psig.
  assert (EQ : PV (upd x j (x j)) = PV x) by (apply loc; intros; apply upd_self).
  refine (dR_val _ _ _ _ (dR_mult _ _ _ _ _ (dR_comp sqrt (fun t => PV (upd x j t)) _ _ _ (PV_dx x j Hj) (dR_sqrt _ _)) (dR_const (sqrt vK) _)) _); rewrite EQ; [exact P|].
  unfold Pdsig. destruct (Req_EM_T (SG x) 0) as [Z|Z]; [lra|]. unfold Psig. assert (0 < sqrt (PV x)) by (apply sqrt_lt_R0, P). assert (0 < sqrt vK) by (apply sqrt_lt_R0, HvP).
  replace (vK) with (sqrt vK * sqrt vK) at 3 by (apply sqrt_sqrt; lra). field. lra.
Qed.
Lemma S_dx x j : (j < o_dim o)%nat -> 0 < Si x -> is_partial Si j x (DSG j (to_scl d x) * gscl d j).
Proof.
  intros Hj HP. assert (OP := out_scale_pos o d HD). unfold gscl. replace (DSG j (to_scl d x) * (in_scale d j / out_scale d)) with (DSG j (to_scl d x) * in_scale d j / out_scale d) by (unfold Rdiv; ring).
  assert (HP' : 0 < SG (to_scl d x)). { unfold Si in HP. apply (Rmult_lt_compat_r (out_scale d)) in HP; [|exact OP]. unfold Rdiv in HP. rewrite Rmult_assoc, Rinv_l, Rmult_0_l in HP by lra. lra. }
  apply (dR_ext (fun t => SG (to_scl d (upd x j t)) / out_scale d + 0)); [intros; apply Rplus_0_r|].
  apply (partial_affine (fun z => SG (to_scl d z))). apply (chain_scl (o_dim o)); [intros; apply sig_loc; assumption|]. apply SG_dx; assumption.
Qed.

(** second derivatives *)
Section T.
Variables (x : pt) (T : ten).
Notation u := (to_scl d x).
Hypothesis HT : forall l i r, (l < o_dim o)%nat -> (i < o_dim o)%nat -> (r < N)%nat -> is_derive (fun t => dkf o d hp i (upd u l t) r) (u l) (tat T l i r).
Lemma M_dx2 l i : (l < o_dim o)%nat -> (i < o_dim o)%nat -> is_partial2 Mi l i x (Phmu o d hp b0 e T l i * (in_scale d l * in_scale d i / out_scale d)).
Proof.
  intros Hl Hi. exists (fun y => DMU i (to_scl d y) * gscl d i). split; [intros y; apply M_dx, Hi|].
  assert (C := chain_scl (o_dim o) d (DMU i) x l _ ltac:(intros a b E; destruct (loc a b E) as (_ & _ & L); apply (L i Hi))
    (pdmu_dx N (smat o d hp e) (sres d b0) (dkf o d hp) (fun l i _ c => tat T l i c) u l i (fun c Hc => HT l i c Hl Hi Hc))).
  unfold is_partial in *. refine (dR_val _ _ _ _ (dR_mult _ _ _ _ _ C (dR_const (gscl d i) _)) _).
  unfold gscl, Phmu. unfold pw, Rdiv. simpl. change (dotp N (fun c => tat T l i c)) with (dotp N (tat T l i)). set (z := DMU i _). set (w := dotp N _ _). clearbody z w. lazymatch goal with |- @eq _ ?a ?b => change (@eq R a b) end. ring.
Qed.
Lemma DV_dx l i : (l < o_dim o)%nat -> (i < o_dim o)%nat ->
  is_derive (fun t => DV i (upd u l t)) (u l) (dotp N (tat T l i) (pz N (smat o d hp e) (kxf o d hp) u) + dotp N (dkf o d hp l u) (ksol N (smat o d hp e) (dkf o d hp i u))).
Proof.
  intros Hl Hi. assert (Z := pdv_dx N (smat o d hp e) HA (o_dim o) (kxf o d hp) (dkf o d hp) (fun x j c H1 H2 => kxf_d x j c H1 H2) kxf_e (fun l i _ c => tat T l i c) u l i Hl (fun c Hc => HT l i c Hl Hi Hc) (dkf_e i)).
  cbv beta in Z. rewrite <- (ksol_sym N _ _ _ HA) in Z. refine (dR_val _ _ _ _ Z _). f_equal. apply dotp_sym.
Qed.
Lemma S_dx2 l i : (l < o_dim o)%nat -> (i < o_dim o)%nat -> 0 < Si x ->
  is_partial2_near Si l i x (1 / (2 * SG u) * (-2 * sqrt vK ^ 2 * (dotp N (tat T l i) (pz N (smat o d hp e) (kxf o d hp) u) + dotp N (dkf o d hp l u) (ksol N (smat o d hp e) (dkf o d hp i u)))
     - 2 * (DSG l u * DSG i u)) * (in_scale d l * in_scale d i / out_scale d)).
Proof.
  intros Hl Hi HP. assert (OP := out_scale_pos o d HD).
  assert (PP : forall z, 0 < Si z <-> 0 < SG (to_scl d z)).
  { intros z. unfold Si. split; intros H; [|apply Rdiv_lt_0_compat; lra]. apply (Rmult_lt_compat_r (out_scale d)) in H; [|exact OP]. unfold Rdiv in H. rewrite Rmult_assoc, Rinv_l, Rmult_0_l in H by lra. lra. }
  assert (HP' : 0 < SG u) by (apply PP, HP).
  (* positive nearby *)
  assert (DS : is_partial Si l x (DSG l u * gscl d l)) by (apply S_dx; assumption).
  assert (E0 : Si (upd x l (x l)) = Si x) by (unfold Si; f_equal; apply sig_loc; intros k _; unfold to_scl; rewrite upd_self; reflexivity).
  assert (NE : exists del, 0 < del /\ forall t, Rabs (t - x l) < del -> 0 < Si (upd x l t)).
  { assert (CT : continuous (fun t => Si (upd x l t)) (x l)) by (apply (ex_derive_continuous (fun t => Si (upd x l t))); eexists; exact DS).
    destruct (CT (fun v => 0 < v)) as (del & Hdel).
    - rewrite E0. exists (mkposreal _ HP). intros v Hv. unfold ball in Hv; simpl in Hv. unfold AbsRing_ball, abs, minus, plus, opp in Hv; simpl in Hv. apply Rabs_def2 in Hv. lra.
    - exists del. split; [apply cond_pos|]. intros t Ht. apply Hdel. exact Ht. }
  destruct NE as (del & Hd & HN). exists (fun t => DSG i (to_scl d (upd x l t)) * gscl d i), del. split; [exact Hd|]. split; [intros t Ht; apply S_dx; [exact Hi|apply HN, Ht]|].
  set (hv := dotp N (tat T l i) _ + _).
  assert (DVX : is_partial (fun z => DV i (to_scl d z)) l x (hv * in_scale d l)).
  { apply (chain_scl (o_dim o)); [intros a b E; destruct (loc a b E) as (_ & _ & L); apply (L i Hi)|]. apply DV_dx; assumption. }
  assert (SGX : is_partial (fun z => SG (to_scl d z)) l x (DSG l u * in_scale d l)) by (apply (chain_scl (o_dim o)); [intros; apply sig_loc; assumption|apply SG_dx; assumption]).
  unfold is_partial in DVX, SGX.
  assert (E1 : SG (to_scl d (upd x l (x l))) = SG u) by (apply sig_loc; intros k _; unfold to_scl; rewrite upd_self; reflexivity).
  assert (E2 : DV i (to_scl d (upd x l (x l))) = DV i u). { destruct (loc (to_scl d (upd x l (x l))) u) as (_ & _ & L); [intros k _; unfold to_scl; rewrite upd_self; reflexivity|]. apply (L i Hi). }
  apply (dR_ext_near (fun t => - (/ SG (to_scl d (upd x l t)) * (DV i (to_scl d (upd x l t)) * vK)) * gscl d i) _ _ _ del Hd).
  { intros t Ht. unfold Pdsig. assert (W := proj1 (PP _) (HN t Ht)). destruct (Req_EM_T (SG (to_scl d (upd x l t))) 0); [lra|]. unfold Rdiv. ring. }
  refine (dR_val _ _ _ _ (dR_mult _ _ _ _ _ (dR_opp _ _ _ (dR_mult _ _ _ _ _ (dR_inv _ _ _ SGX _) (dR_mult _ _ _ _ _ DVX (dR_const vK _)))) (dR_const (gscl d i) _)) _).
  { cbv beta. rewrite E1. lra. }
  cbv beta. rewrite E1, E2. unfold gscl. unfold Pdsig. destruct (Req_EM_T (SG u) 0); [lra|].
  replace (sqrt vK ^ 2) with vK by (simpl; rewrite Rmult_1_r, sqrt_sqrt; lra). field. lra.
Qed.
End T.
End M.
