(** * Properties C29 to C32, C34 and C37: the surrogate (setup_eval_model and eval_model).
    Vocabulary: [Spec/EvalSpec.v] (posterior mean and variance), [Spec/DataSpec.v], [Spec/GpSpec.v]. *)
From Coq Require Import Reals List Arith Bool Lia Lra Psatz.
From Coquelicot Require Import Coquelicot.
From Verif.Base Require Import NpLite NpFacts Deriv.
From Verif.Spec Require Import KernelSpec LinAlgSpec GpSpec HpSpec DataSpec LkdSpec RescaleSpec EvalSpec.
From Verif.Model Require Import KernelSqExp KernelMatern KernelRatQuad KernelDispatch CommonFun WellCond Rescaling GpState Chol Cov HpInfo HpGrad MeanFun Lkd EvalModel.
From Verif.Proofs Require Import KernTac KernGradBlocks RadialCalculus KernelExact LinAlg CholCorrect Psd CovStruct ThetaGrad HessX2 StateFacts NoiseFacts NuggetCond NuggetMain
  LinDeriv LkdCore LkdFacts LkdMain EvalKern EvalFacts EvalMain EvalInterp.
From Verif.Props Require Import CondProps DataProps LkdProps.
Import ListNotations.
Local Open Scope R_scope.

(** legitimate inputs: an object with data, and hyperparameters with varK > 0 and beta = [b0] *)
Definition eval_input (o : gpopt) (d : gpdata) (hp : hpv) (vK b0 : R) : Prop :=
  opts_ok o /\ data_set o d /\ (o_well o = Wprecon -> o_use_grad o = true) /\
  hyper_ok o hp /\ noise_cfg o d hp /\ noise_nn hp /\ hp_varK hp = Some vK /\ 0 < vK /\
  (exists beta, hp_beta hp = Some beta /\ vlen beta = 1%nat /\ vat beta 0 = b0) /\
  (* the scaling of the coordinates is defined: the points are not all the same, the set distance is positive *)
  (forall i, (i < o_dim o)%nat -> 0 < in_scale d i).
(** 'RatQu' with gradients: all gradients are used (see C34_rational_quadratic_mask_refuted) *)
Definition mask_supported (o : gpopt) (d : gpdata) : Prop := o_use_grad o = true -> o_kernel o = RatQu -> d_bvec d = None.
(** the surrogate is set up: with a Cholesky factor *)
Definition set_up (o : gpopt) (d : gpdata) (condf : mat -> R) (hp : hpv) (cc : bool) (su : surr) : Prop :=
  setup_eval_model o d condf hp cc = Ok su /\ k_chofac (su_K su) <> None.
(** Hessians: one point at a time; with gradients all of them are used and, for the Matern kernel, the point is a
    data point or not closer than the floor of the code to one *)
Definition hess_supported (o : gpopt) (d : gpdata) (hp : hpv) (x2 : mat) : Prop :=
  nr x2 = 1%nat /\ (o_use_grad o = true -> full_mask (d_n_eval d) (d_bvec d) /\
    nu_ok2 (o_kernel o) (o_dim o) (vat (hp_theta hp)) (fun p => model_point d (rows_of x2 p)) (rows_of (fst (get_scl_x_w_dist d))) 1 (d_n_eval d)).
Definition gp_kernel (o : gpopt) (hp : hpv) : pt -> pt -> R := kfun (o_kernel o) (o_dim o) (vat (hp_theta hp)) (hp_val (hp_kernel hp)).

Section L.
Variables (o : gpopt) (d : gpdata) (hp : hpv) (vK b0 : R).
Hypothesis HI : eval_input o d hp vK b0.
Notation N := (cN o d).
Notation X := (fst (get_scl_x_w_dist d)).
Lemma ei_lkd : lkd_input o d hp.
Proof. destruct HI as (H1 & H2 & H3 & H4 & H5 & H6 & H7 & H8 & _). unfold lkd_input. repeat (split; [assumption|]). eauto. Qed.
Lemma ei_ev : ev_ready o d.
Proof.
  constructor; [apply (li_ready o d hp ei_lkd)|apply (li_Rt o d hp ei_lkd)|].
  intros r E. destruct HI as (_ & H2 & _). destruct (data_set_scl o d r H2 E) as (A & B & _). auto.
Qed.
Lemma ei_noise : noise_arg_ok o d hp None. Proof. apply (li_noise o d hp ei_lkd). Qed.
Lemma ei_setup condf cc su : setup_eval_model o d condf hp cc = Ok su -> surr_ok o d hp b0 su.
Proof.
  intros E. destruct HI as (H1 & H2 & H3 & H4 & H5 & H6 & H7 & H8 & (beta & B1 & B2 & B3) & _).
  assert (V : vspec 1 beta (fun _ => b0)) by (split; [exact B2|]; intros i Hi; replace i with 0%nat by lia; exact B3).
  apply (rok_inv _ _ _ (setup_ok o d hp vK b0 beta ei_ev H3 H4 ei_noise H7 B1 V condf cc) E).
Qed.
(** rows and observations *)
Lemma obs_cobs r a : nth_error (gp_observations o d) r = Some a -> (r < N)%nat /\ a = cobs d X r.
Proof.
  destruct HI as (H1 & H2 & _). destruct (gp_mask o d H2) as (M & EN & EG & EB). intros H.
  assert (L : length (gp_observations o d) = N). { unfold gp_observations. rewrite observations_length by exact M. unfold cN. rewrite EN. reflexivity. }
  assert (Hr : (r < N)%nat) by (rewrite <- L; apply nth_error_Some; congruence). split; [exact Hr|].
  unfold gp_observations in H. unfold cN in Hr. rewrite EN in Hr. destruct (unradr_ok _ _ _ _ Hr) as (V & ER).
  assert (O := observations_nth (d_n_eval d) (gp_dim o) (rows_of X) (d_bvec d) _ M V). rewrite ER, H in O. injection O as ->.
  unfold cobs, rowobs. destruct (o_use_grad o) eqn:U; [rewrite EG by reflexivity; reflexivity|].
  unfold gp_dim in Hr. rewrite U in Hr. unfold unradr. destruct (Nat.ltb_spec r (d_n_eval d)); [reflexivity|lia].
Qed.
Lemma obs_len : length (gp_observations o d) = N.
Proof. destruct HI as (H1 & H2 & _). destruct (gp_mask o d H2) as (M & EN & _). unfold gp_observations. rewrite observations_length by exact M. unfold cN. rewrite EN. reflexivity. Qed.
Lemma obs_nth r : (r < N)%nat -> nth_error (gp_observations o d) r = Some (cobs d X r).
Proof.
  intros Hr. destruct (nth_error (gp_observations o d) r) as [a|] eqn:E; [f_equal; apply (obs_cobs r a E)|]. apply nth_error_None in E. rewrite obs_len in E. lia.
Qed.
Lemma ei_hp : hp_ok (o_kernel o) (hp_kernel hp). Proof. destruct HI as (_ & _ & _ & (_ & _ & H) & _). exact H. Qed.
Lemma ei_th i : (i < o_dim o)%nat -> 0 <= vat (hp_theta hp) i. Proof. destruct HI as (_ & _ & _ & (_ & H & _) & _). intros Hi. left. apply H, Hi. Qed.
Lemma cobs_cov r s : (r < N)%nat -> (s < N)%nat -> is_cov (gp_kernel o hp) (cobs d X r) (cobs d X s) (ckf o d hp X r s).
Proof. intros Hr Hs. apply (kjet_is_cov (o_kernel o) (hp_kernel hp)); [apply ei_hp|apply th_ok_nn, ei_th| |]; apply (cobs_lt o d hp ei_noise); assumption. Qed.
Lemma cobs_cross x r : (r < N)%nat -> is_cov (gp_kernel o hp) (cobs d X r) (Val x) (kxf o d hp x r).
Proof. intros Hr. apply (kjet_is_cov (o_kernel o) (hp_kernel hp)); [apply ei_hp|apply th_ok_nn, ei_th| |exact I]; apply (cobs_lt o d hp ei_noise); assumption. Qed.
Lemma cross_unique x kx : cross_cov (gp_kernel o hp) (gp_observations o d) x kx -> forall r, (r < N)%nat -> kx r = kxf o d hp x r.
Proof.
  intros H r Hr. specialize (H r _ (obs_nth r Hr)). assert (C := cobs_cross x r Hr).
  destruct (cobs d X r) as [y|i y]; simpl in *; [congruence|]. eapply dR_unique; eassumption.
Qed.
Lemma cross_ok x : cross_cov (gp_kernel o hp) (gp_observations o d) x (kxf o d hp x).
Proof. intros r a H. destruct (obs_cobs r a H) as (Hr & ->). apply cobs_cross, Hr. Qed.
Lemma kxx x : gp_kernel o hp x x = 1.
Proof. unfold gp_kernel. rewrite (kjet_val (o_kernel o) (hp_kernel hp)). rewrite kjet_diag. reflexivity. all: try exact ei_hp; apply th_ok_nn, ei_th. Qed.
Lemma label_row r l : nth_error (gp_labels o d) r = Some l -> (r < N)%nat /\ cobs d X r = label_obs (d_n_eval d) (rows_of X) (d_bvec d) l /\
  vat (ydata d) r = scaled_value (out_shift d) (out_scale d) (in_scale d) (d_fval d) (d_grad d) l /\ noise_fn d hp None r = obs_noise d hp l.
Proof.
  intros H. destruct HI as (H1 & H2 & H3 & H4 & H5 & _).
  destruct (C20_rows_are_the_same_observation o d hp H1 H2 H4 H5) as (LL & K & fv & sf & g & sg & nv & _ & Eg & En & _ & _ & _ & HL).
  destruct (HL r l H) as (A & B & C). destruct (obs_cobs r _ A) as (Hr & E). split; [exact Hr|]. split; [symmetry; exact E|]. split; [unfold ydata; rewrite Eg; exact B|].
  unfold obs_noise. rewrite <- C. assert (W := gr_wf _ _ (ready o d H1 H2)).
  destruct (rok_inv _ _ _ (noise_vec_ok o d hp W H5) En) as (_ & Q). rewrite Q by exact Hr. reflexivity.
Qed.
Lemma kf_prior r l : nth_error (gp_labels o d) r = Some l -> ckf o d hp X r r = obs_prior (o_kernel o) (hp_theta hp) l.
Proof.
  intros H. destruct (label_row r l H) as (Hr & E & _). assert (L := cobs_lt o d hp ei_noise r Hr). unfold ckf. rewrite kjet_diag. rewrite E in *.
  destruct l as [p|i q]; simpl in *; [reflexivity|]. rewrite cut_lt by exact L. reflexivity.
Qed.
Lemma sdiag_added e r l : nth_error (gp_labels o d) r = Some l -> sdiag o d hp e r = added_var o d hp e l.
Proof.
  intros H. destruct (label_row r l H) as (_ & _ & _ & E). unfold sdiag, added_var. rewrite E, (kf_prior r l H). destruct (o_well o); reflexivity.
Qed.
Lemma solves_iff A K x b : mspec N N A K -> (solves A x b <-> fsolves N K x b).
Proof. intros (A1 & A2 & A3). unfold solves, fsolves, mv. rewrite A1, A2. split; intros H i Hi; specialize (H i Hi); rewrite <- H; apply rsum_ext; intros j Hj; rewrite A3 by assumption; reflexivity. Qed.

(** what one needs to know about a set-up surrogate *)
Lemma ei_main condf cc su : set_up o d condf hp cc su -> exists e c inv, 0 < e /\ k_eta (su_K su) = e /\ pdf N (smat o d hp e) /\
  mspec N N (k_Kcov (su_K su)) (smat o d hp e) /\ (forall i, (i < N)%nat -> 0 < sdiag o d hp e i) /\
  k_chofac (su_K su) = Some c /\ chol_of c (k_Kcov (su_K su)) /\ su_inv su = Some inv /\ vspec N inv (ksol N (smat o d hp e) (sres d b0)).
Proof.
  intros (E & NC). destruct (ei_setup condf cc su E) as (_ & _ & e & E1 & E2 & E3 & E4 & E5 & E6). destruct (k_chofac (su_K su)) as [c|]; [|contradiction].
  destruct E6 as (E6 & inv & E7 & E8). exists e, c, inv. auto 12.
Qed.
Lemma ei_eval condf cc su e c inv x2 (cg ch : bool) : set_up o d condf hp cc su -> mask_supported o d -> 0 < e -> pdf N (smat o d hp e) -> mspec N N (k_Kcov (su_K su)) (smat o d hp e) ->
  (forall i, (i < N)%nat -> 0 < sdiag o d hp e i) -> k_chofac (su_K su) = Some c -> chol_of c (k_Kcov (su_K su)) -> su_inv su = Some inv -> vspec N inv (ksol N (smat o d hp e) (sres d b0)) ->
  nc x2 = o_dim o -> (0 < nr x2)%nat -> (ch = true -> cg = true /\ hess_supported o d hp x2) ->
  exists ev, eval_model o d hp su x2 cg ch = Ok ev /\
    vspec (nr x2) (e_mu ev) (fun p => Mi o d hp b0 e (rows_of x2 p)) /\ vspec (nr x2) (e_sig ev) (fun p => Si o d hp vK e (rows_of x2 p)) /\
    (if cg then exists G S, e_dmu ev = Some G /\ mspec (nr x2) (o_dim o) G (fun p i => Pdmu o d hp b0 e i (to_scl d (rows_of x2 p)) * gscl d i) /\
                            e_dsig ev = Some S /\ mspec (nr x2) (o_dim o) S (fun p i => Pdsig o d hp vK e i (to_scl d (rows_of x2 p)) * gscl d i)
     else e_dmu ev = None /\ e_dsig ev = None) /\
    (if ch then exists Hm Hs, e_d2mu ev = Some Hm /\ e_d2sig ev = Some Hs /\ td Hm = 1%nat /\ tr Hm = o_dim o /\ tc Hm = o_dim o /\
        (forall l i, (l < o_dim o)%nat -> (i < o_dim o)%nat -> exists h, is_partial2 (Mi o d hp b0 e) l i (rows_of x2 0%nat) h /\ tat Hm 0 l i = h * (in_scale d i / in_scale d l)) /\
        (if Req_EM_T (Si o d hp vK e (rows_of x2 0%nat)) 0 then Hs = None else exists M, Hs = Some M /\ td M = 1%nat /\ tr M = o_dim o /\ tc M = o_dim o /\
          forall l i, (l < o_dim o)%nat -> (i < o_dim o)%nat -> exists h, is_partial2_near (Si o d hp vK e) l i (rows_of x2 0%nat) h /\ tat M 0 l i = h * (in_scale d i / in_scale d l))
     else e_d2mu ev = None /\ e_d2sig ev = None).
Proof.
  intros SU MS He HA HK Hd Ec Hc Ei Hi Hx Hn Hch. assert (HI' := HI). destruct HI' as (H1 & H2 & H3 & H4 & H5 & H6 & H7 & H8 & (beta & B1 & B2 & B3) & IP).
  assert (V : vspec 1 beta (fun _ => b0)) by (split; [exact B2|]; intros i Hi'; replace i with 0%nat by lia; exact B3).
  assert (OP := out_scale_pos o d H2).
  assert (CH : ch_ok o d hp x2 ch).
  { intros ->. destruct (Hch eq_refl) as (_ & C1 & C2). split; [exact C1|]. split; [intros U; apply C2, U|]. intros U. destruct (C2 U) as (_ & C3). intros Ek p q Hp Hq. specialize (C3 Ek p q Hp Hq).
    replace (sqd (o_dim o) (vat (hp_theta hp)) (to_scl d (rows_of x2 p)) (rows_of X q)) with (sqd (o_dim o) (vat (hp_theta hp)) (model_point d (rows_of x2 p)) (rows_of X q)); [exact C3|].
    apply rsum_ext; intros i _. rewrite to_scl_point. reflexivity. }
  destruct (rok_ex _ _ (eval_ok o d hp vK b0 beta ei_ev H3 H4 ei_noise H7 H8 B1 V MS su e c inv Hd HA HK Ec Hc Ei Hi x2 cg ch Hx Hn CH (fun E => proj1 (Hch E)))) as (ev & Eev & x2' & X1 & X2 & O1 & O2 & O3 & O4).
  exists ev. split; [exact Eev|].
  assert (LC : forall p, (p < nr x2)%nat -> forall i, (i < o_dim o)%nat -> rows_of x2' p i = to_scl d (rows_of x2 p) i) by (intros; apply X2; assumption).
  assert (LL := fun p Hp => loc o d hp b0 e ei_noise HA _ _ (LC p Hp)).
  assert (LS := fun p Hp => sig_loc o d hp vK b0 e ei_noise HA _ _ (LC p Hp)).
  split. { eapply vspec_ext; [exact O1|]. intros p Hp. cbv beta. unfold Mi. destruct (LL p Hp) as (-> & _). reflexivity. }
  split. { eapply vspec_ext; [exact O2|]. intros p Hp. cbv beta. unfold Si. rewrite (LS p Hp). reflexivity. }
  split.
  { destruct cg; [|exact O3]. destruct O3 as (G & S & E1 & HG & E2 & HS). exists G, S. split; [exact E1|]. split; [|split; [exact E2|]].
    - eapply mspec_ext; [exact HG|]. intros p i Hp Hi'. cbv beta. destruct (LL p Hp) as (_ & _ & L). destruct (L i Hi') as (-> & _). reflexivity.
    - eapply mspec_ext; [exact HS|]. intros p i Hp Hi'. cbv beta. rewrite (dsig_loc o d hp vK b0 e ei_noise HA _ _ i (LC p Hp) Hi'). reflexivity. }
  destruct ch; [|exact O4]. destruct O4 as (T & Hm & Hs & HT & E1 & (M1 & M2 & M3 & M4) & E2 & HHs). exists Hm, Hs. split; [exact E1|]. split; [exact E2|]. split; [exact M1|]. split; [exact M2|]. split; [exact M3|].
  assert (L0 := LC 0%nat Hn).
  assert (HT' : forall l i r, (l < o_dim o)%nat -> (i < o_dim o)%nat -> (r < N)%nat -> is_derive (fun t => dkf o d hp i (upd (to_scl d (rows_of x2 0%nat)) l t) r) (to_scl d (rows_of x2 0%nat) l) (tat T l i r)).
  { intros l i r Hl Hi' Hr. rewrite <- (L0 l Hl). apply (dR_ext (fun t => dkf o d hp i (upd (rows_of x2' 0%nat) l t) r)); [|apply HT; assumption].
    intros t. apply (dkf_loc o d hp ei_noise); auto. intros k Hk. unfold upd. destruct (k =? l)%nat; [reflexivity|apply L0, Hk]. }
  assert (ZE : Psig o d hp vK e (rows_of x2' 0%nat) = 0 <-> Si o d hp vK e (rows_of x2 0%nat) = 0).
  { unfold Si. rewrite (LS 0%nat Hn). split; intros E; [rewrite E; unfold Rdiv; ring|]. apply (Rmult_eq_compat_r (out_scale d)) in E. unfold Rdiv in E. rewrite Rmult_assoc, Rinv_l in E by lra. lra. }
  split.
  { intros l i Hl Hi'. eexists; split; [apply (M_dx2 o d hp b0 e H4 ei_noise HA _ T HT' l i Hl Hi')|]. rewrite M4 by (assumption || lia). assert (Z1 := IP l Hl). field. lra. }
  destruct (Req_EM_T (Psig o d hp vK e (rows_of x2' 0%nat)) 0) as [Z|Z]; destruct (Req_EM_T (Si o d hp vK e (rows_of x2 0%nat)) 0) as [Z'|Z']; try (apply ZE in Z'; contradiction); try (exfalso; apply Z', ZE, Z); [exact HHs|].
  destruct HHs as (M & E3 & (N1 & N2 & N3 & N4)). exists M. split; [exact E3|]. split; [exact N1|]. split; [exact N2|]. split; [exact N3|]. intros l i Hl Hi'. rewrite N4 by (assumption || lia).
  assert (SP : 0 < Si o d hp vK e (rows_of x2 0%nat)).
  { unfold Si. rewrite <- (LS 0%nat Hn). apply Rdiv_lt_0_compat; [|exact OP]. assert (0 <= Psig o d hp vK e (rows_of x2' 0%nat)) by (unfold Psig; apply Rmult_le_pos; apply sqrt_pos). lra. }
  assert (D2 := S_dx2 o d hp vK b0 e H2 H4 H8 ei_noise HA _ T HT' l i Hl Hi' SP). eexists; split; [exact D2|].
  unfold Phsig, Phv. rewrite (LS 0%nat Hn). rewrite !(dsig_loc o d hp vK b0 e ei_noise HA _ _ _ (LC 0%nat Hn)) by assumption.
  rewrite (dotp_ext N (tat T l i) (pz N (smat o d hp e) (kxf o d hp) (rows_of x2' 0%nat)) (tat T l i) (pz N (smat o d hp e) (kxf o d hp) (to_scl d (rows_of x2 0%nat)))) by (try reflexivity; apply (pz_loc o d hp ei_noise e HA _ _ L0)).
  rewrite (dotp_ext N (dkf o d hp l (rows_of x2' 0%nat)) _ (dkf o d hp l (to_scl d (rows_of x2 0%nat))) (ksol N (smat o d hp e) (dkf o d hp i (to_scl d (rows_of x2 0%nat))))).
  - assert (Z1 := IP l Hl). assert (Z2 : 0 < Psig o d hp vK e (to_scl d (rows_of x2 0%nat))) by (apply (Rmult_lt_compat_r (out_scale d)) in SP; [|exact OP]; unfold Si, Rdiv in SP; rewrite Rmult_assoc, Rinv_l, Rmult_0_l in SP by lra; lra).
    field. lra.
  - intros r Hr. apply (dkf_loc o d hp ei_noise); auto.
  - apply ksol_ext; [exact HA|reflexivity|]. intros r Hr. apply (dkf_loc o d hp ei_noise); auto.
Qed.
End L.

(** ** Setting up succeeds.  There is a factor unless the condition number was asked for, is above cond_max_abs,
    and preconditioning is not used. *)
Theorem C30_setup_succeeds : forall (o : gpopt) (d : gpdata) (condf : mat -> R) (hp : hpv) (vK b0 : R) (cc : bool),
  eval_input o d hp vK b0 ->
  exists su, setup_eval_model o d condf hp cc = Ok su /\
    (o_well o = Wprecon \/ cc = false \/ condf (k_Kcov (su_K su)) <= o_cond_max_abs o -> set_up o d condf hp cc su).
Proof.
  intros o d condf hp vK b0 cc HI. assert (HI' := HI). destruct HI' as (H1 & H2 & H3 & H4 & H5 & H6 & H7 & H8 & (beta & B1 & B2 & B3) & _).
  assert (V : vspec 1 beta (fun _ => b0)) by (split; [exact B2|]; intros i Hi; replace i with 0%nat by lia; exact B3).
  destruct (rok_ex _ _ (setup_ok o d hp vK b0 beta (ei_ev o d hp vK b0 HI) H3 H4 (ei_noise o d hp vK b0 HI) H7 B1 V condf cc)) as (su & E & _ & Q).
  exists su. split; [exact E|]. intros HC. split; [exact E|]. destruct Q as (c & Ec); [|congruence]. destruct (o_well o); auto; destruct HC as [C|C]; try discriminate; exact C.
Qed.
Print Assumptions C30_setup_succeeds.

(** ** C30.  Evaluations succeed; the returned standard deviation is at least 0 and at most sqrt(varK), in the
    units of the data. *)
Theorem C30_variance_between_0_and_varK : forall (o : gpopt) (d : gpdata) (condf : mat -> R) (hp : hpv) (vK b0 : R) (cc : bool) (su : surr) (x2 : mat) (cg ch : bool),
  eval_input o d hp vK b0 -> mask_supported o d -> set_up o d condf hp cc su ->
  nc x2 = o_dim o -> (0 < nr x2)%nat -> (ch = true -> cg = true /\ hess_supported o d hp x2) ->
  0 < out_scale d /\ exists ev, eval_model o d hp su x2 cg ch = Ok ev /\ vlen (e_sig ev) = nr x2 /\
    forall p, (p < nr x2)%nat -> 0 <= vat (e_sig ev) p /\ (vat (e_sig ev) p * out_scale d) ^ 2 <= vK.
Proof.
  intros o d condf hp vK b0 cc su x2 cg ch HI MS SU Hx Hn Hch. assert (OP : 0 < out_scale d) by (apply (out_scale_pos o); apply HI). split; [exact OP|].
  destruct (ei_main o d hp vK b0 HI condf cc su SU) as (e & c & inv & Q1 & Q2 & Q3 & Q4 & Q5 & Q6 & Q7 & Q8 & Q9).
  destruct (ei_eval o d hp vK b0 HI condf cc su e c inv x2 cg ch SU MS Q1 Q3 Q4 Q5 Q6 Q7 Q8 Q9 Hx Hn Hch) as (ev & Eev & _ & (S1 & S2) & _).
  exists ev. split; [exact Eev|]. split; [exact S1|]. intros p Hp. rewrite S2 by exact Hp. unfold Si.
  assert (B := Pv_bounds o d hp ltac:(apply HI) e Q5 Q3 (to_scl d (rows_of x2 p))). assert (VP : 0 < vK) by apply HI.
  assert (SP : 0 <= Psig o d hp vK e (to_scl d (rows_of x2 p))) by (unfold Psig; apply Rmult_le_pos; apply sqrt_pos). split.
  - unfold Rdiv. apply Rmult_le_pos; [exact SP|]. left. apply Rinv_0_lt_compat, OP.
  - replace (Psig o d hp vK e (to_scl d (rows_of x2 p)) / out_scale d * out_scale d) with (Psig o d hp vK e (to_scl d (rows_of x2 p))) by (field; lra).
    unfold Psig. rewrite Rpow_mult_distr. replace (sqrt (Pv o d hp e (to_scl d (rows_of x2 p))) ^ 2) with (Pv o d hp e (to_scl d (rows_of x2 p))) by (simpl; rewrite Rmult_1_r, sqrt_sqrt; lra).
    replace (sqrt vK ^ 2) with vK by (simpl; rewrite Rmult_1_r, sqrt_sqrt; lra). rewrite <- (Rmult_1_l vK) at 2. apply Rmult_le_compat_r; lra.
Qed.
Print Assumptions C30_variance_between_0_and_varK.

(** what noise and nugget add to the variance of the observation of row r *)
Definition row_added (o : gpopt) (d : gpdata) (hp : hpv) (eta : R) (r : nat) : R :=
  match nth_error (gp_labels o d) r with Some l => added_var o d hp eta l | None => 0 end.

(** ** C34 (and the meaning of the results).  For every mask, the mean and the variance returned are those of the
    posterior of the observations in use: function values and the gradients of the selected points.
    Missing: kernel 'RatQu' with a mask (refuted below), Hessians with a mask (refuted below). *)
Theorem C34_posterior_of_the_used_observations_partial :
  forall (o : gpopt) (d : gpdata) (condf : mat -> R) (hp : hpv) (vK b0 : R) (cc : bool) (su : surr),
  eval_input o d hp vK b0 -> mask_supported o d -> set_up o d condf hp cc su ->
  let S := k_Kcov (su_K su) in let k := gp_kernel o hp in let ob := gp_observations o d in
  noisy_cov k ob S (row_added o d hp (k_eta (su_K su))) /\ 0 < k_eta (su_K su) /\ pd S /\
  forall (x2 : mat) (cg ch : bool), nc x2 = o_dim o -> (0 < nr x2)%nat -> (ch = true -> cg = true /\ hess_supported o d hp x2) ->
  exists ev, eval_model o d hp su x2 cg ch = Ok ev /\ vlen (e_mu ev) = nr x2 /\ vlen (e_sig ev) = nr x2 /\
    forall p, (p < nr x2)%nat -> exists m v,
      (forall m', posterior_mean k ob S (gp_residual o d b0) b0 (model_point d (rows_of x2 p)) m' <-> m' = m) /\
      (forall v', posterior_var k ob S (model_point d (rows_of x2 p)) v' <-> v' = v) /\
      vat (e_mu ev) p = m / out_scale d + out_shift d /\ vat (e_sig ev) p = sqrt v * sqrt vK / out_scale d.
Proof.
  intros o d condf hp vK b0 cc su HI MS SU S k ob.
  destruct (ei_main o d hp vK b0 HI condf cc su SU) as (e & c & inv & Q1 & Q2 & Q3 & Q4 & Q5 & Q6 & Q7 & Q8 & Q9).
  assert (NO := ei_noise o d hp vK b0 HI). assert (ON := obs_nth o d hp vK b0 HI). assert (OL := obs_len o d hp vK b0 HI).
  split; [|split; [rewrite Q2; exact Q1|split]].
  - split; [unfold ob; rewrite OL; apply Q4|]. split; [unfold ob; rewrite OL; apply Q4|]. intros r s a b Ha Hb.
    destruct (obs_cobs o d hp vK b0 HI r a Ha) as (Hr & ->). destruct (obs_cobs o d hp vK b0 HI s b Hb) as (Hs & ->).
    exists (ckf o d hp (fst (get_scl_x_w_dist d)) r s). split; [apply (cobs_cov o d hp vK b0 HI); assumption|].
    destruct Q4 as (_ & _ & Q4). unfold S. rewrite Q4 by assumption. unfold smat. destruct (r =? s)%nat; [|reflexivity]. f_equal. rewrite Q2. unfold row_added.
    destruct (nth_error (gp_labels o d) r) as [l|] eqn:El; [apply (sdiag_added o d hp vK b0 HI e r l El)|].
    apply nth_error_None in El. exfalso. destruct (C20_rows_are_the_same_observation o d hp ltac:(apply HI) ltac:(apply HI) ltac:(apply HI) ltac:(apply HI)) as (LL & _).
    rewrite LL, (li_N o d hp (ei_lkd o d hp vK b0 HI)) in El. lia.
  - destruct Q4 as (A1 & A2 & A3). destruct Q3 as (S1 & S2). change S with (k_Kcov (su_K su)). split; [split|].
    + rewrite A1, A2; reflexivity.
    + rewrite A1. intros i j Hi Hj. rewrite !A3 by assumption. apply S1; assumption.
    + intros v Hv. unfold qform. rewrite A1, A2 in *. assert (Z := S2 v Hv). unfold bform in *.
      rewrite (rsum_ext _ _ (fun i => rsum (cN o d) (fun j => v i * smat o d hp e i j * v j))) by (intros i Hi; apply rsum_ext; intros j Hj; rewrite A3 by assumption; reflexivity). exact Z.
  - intros x2 cg ch Hx Hn Hch.
    destruct (ei_eval o d hp vK b0 HI condf cc su e c inv x2 cg ch SU MS Q1 Q3 Q4 Q5 Q6 Q7 Q8 Q9 Hx Hn Hch) as (ev & Eev & (M1 & M2) & (S1 & S2) & _).
    exists ev. split; [exact Eev|]. split; [exact M1|]. split; [exact S1|]. intros p Hp. set (u := model_point d (rows_of x2 p)).
    assert (EU : forall i, (i < o_dim o)%nat -> u i = to_scl d (rows_of x2 p) i) by (intros; apply to_scl_point).
    destruct (loc o d hp b0 e NO Q3 _ _ EU) as (EM & EVr & _). exists (Pmu o d hp b0 e u), (Pv o d hp e u). rewrite M2, S2 by exact Hp. unfold Mi, Si, Psig. rewrite <- EM, <- EVr.
    assert (RS : forall i, (i < cN o d)%nat -> gp_residual o d b0 i = sres d b0 i) by (intros i Hi; apply (li_res o d hp (ei_lkd o d hp vK b0 HI) b0 i Hi)).
    split; [|split; [|split; reflexivity]].
    + intros m'. split.
      * intros (kx & w & C1 & C2 & ->). unfold Pmu, pmu. f_equal. unfold ob. rewrite OL. apply dotp_ext; [apply (cross_unique o d hp vK b0 HI u kx C1)|].
        apply (solves_iff o d hp vK b0 HI S _ _ _ Q4) in C2 || apply (solves_iff o d S _ _ _ Q4) in C2. apply ksol_unique; [exact Q3|]. intros i Hi. rewrite C2 by exact Hi. apply RS, Hi.
      * intros ->. exists (kxf o d hp u), (ksol (cN o d) (smat o d hp e) (sres d b0)). split; [apply (cross_ok o d hp vK b0 HI)|]. split; [|unfold ob; rewrite OL; reflexivity].
        apply (solves_iff o d S _ _ _ Q4). intros i Hi. rewrite RS by exact Hi. apply (ksol_ok _ _ _ Q3 i Hi).
    + intros v'. unfold k. split.
      * intros (kx & z & C1 & C2 & ->). rewrite (kxx o d hp vK b0 HI). unfold Pv, pv. f_equal. unfold ob. rewrite OL. assert (CU := cross_unique o d hp vK b0 HI u kx C1). apply dotp_ext; [exact CU|].
        apply (solves_iff o d S _ _ _ Q4) in C2. apply ksol_unique; [exact Q3|]. intros i Hi. rewrite C2 by exact Hi. apply CU, Hi.
      * intros ->. exists (kxf o d hp u), (ksol (cN o d) (smat o d hp e) (kxf o d hp u)). split; [apply (cross_ok o d hp vK b0 HI)|]. split; [|rewrite (kxx o d hp vK b0 HI); unfold ob; rewrite OL; reflexivity].
        apply (solves_iff o d S _ _ _ Q4). apply ksol_ok, Q3.
Qed.
Print Assumptions C34_posterior_of_the_used_observations_partial.

(** ** C31.  There is one function M of the point such that every evaluation returns its values, its partial
    derivatives and (when asked for) its second derivatives; M is the posterior mean (C34).
    Missing: off-diagonal entries of the Hessian when the two coordinates have different scaling factors, which
    happens only after the optimisation has changed them (C31_set_data_scales_alike); what is returned then is the
    second derivative times the quotient of the factors, see C31_hessian_after_rescaling_refuted. *)
Theorem C31_mean_gradient_and_hessian_partial :
  forall (o : gpopt) (d : gpdata) (condf : mat -> R) (hp : hpv) (vK b0 : R) (cc : bool) (su : surr),
  eval_input o d hp vK b0 -> mask_supported o d -> set_up o d condf hp cc su ->
  exists M : pt -> R,
  forall (x2 : mat) (cg ch : bool), nc x2 = o_dim o -> (0 < nr x2)%nat -> (ch = true -> cg = true /\ hess_supported o d hp x2) ->
  exists ev, eval_model o d hp su x2 cg ch = Ok ev /\ vlen (e_mu ev) = nr x2 /\
    (forall p, (p < nr x2)%nat -> vat (e_mu ev) p = M (rows_of x2 p)) /\
    (if cg then exists G, e_dmu ev = Some G /\ nr G = nr x2 /\ nc G = o_dim o /\
       forall p i, (p < nr x2)%nat -> (i < o_dim o)%nat -> is_partial M i (rows_of x2 p) (mat_at G p i) else e_dmu ev = None) /\
    (if ch then exists H, e_d2mu ev = Some H /\ td H = 1%nat /\ tr H = o_dim o /\ tc H = o_dim o /\
       forall l i, (l < o_dim o)%nat -> (i < o_dim o)%nat ->
         (in_scale d l = in_scale d i -> is_partial2 M l i (rows_of x2 0%nat) (tat H 0 l i)) /\
         exists h, is_partial2 M l i (rows_of x2 0%nat) h /\ tat H 0 l i = h * (in_scale d i / in_scale d l) else e_d2mu ev = None).
Proof.
  intros o d condf hp vK b0 cc su HI MS SU.
  destruct (ei_main o d hp vK b0 HI condf cc su SU) as (e & c & inv & Q1 & Q2 & Q3 & Q4 & Q5 & Q6 & Q7 & Q8 & Q9).
  exists (Mi o d hp b0 e). intros x2 cg ch Hx Hn Hch.
  destruct (ei_eval o d hp vK b0 HI condf cc su e c inv x2 cg ch SU MS Q1 Q3 Q4 Q5 Q6 Q7 Q8 Q9 Hx Hn Hch) as (ev & Eev & (M1 & M2) & _ & HG & HH).
  exists ev. split; [exact Eev|]. split; [exact M1|]. split; [exact M2|]. split.
  - destruct cg; [|apply HG]. destruct HG as (G & S & E & (G1 & G2 & G3) & _). exists G. split; [exact E|]. split; [exact G1|]. split; [exact G2|].
    intros p i Hp Hi. rewrite G3 by assumption. apply (M_dx o d hp b0 e ltac:(apply HI) (ei_noise o d hp vK b0 HI) Q3 _ i Hi).
  - destruct ch; [|apply HH]. destruct HH as (Hm & Hs & E & _ & T1 & T2 & T3 & T4 & _). exists Hm. split; [exact E|]. split; [exact T1|]. split; [exact T2|]. split; [exact T3|].
    intros l i Hl Hi. split; [|apply T4; assumption]. intros EI. destruct (T4 l i Hl Hi) as (h & D & ->). assert (Z := proj2 (proj2 (proj2 (proj2 (proj2 (proj2 (proj2 (proj2 (proj2 HI)))))))) i Hi).
    rewrite EI. replace (h * (in_scale d i / in_scale d i)) with h by (field; lra). exact D.
Qed.
Print Assumptions C31_mean_gradient_and_hessian_partial.
(** the states left by set_data have the same factor for every coordinate *)
Theorem C31_set_data_scales_alike : forall (o : gpopt) (x : mat) (fval : vec) (sf : stdarg vec) (G : option mat) (sg : stdarg mat) (b : option (list bool)) (d : gpdata),
  nc x = o_dim o -> set_data o x fval sf G sg b = Ok d -> forall i j, (i < o_dim o)%nat -> (j < o_dim o)%nat -> in_scale d i = in_scale d j.
Proof. intros o x fval sf G sg b d Hc H. exact (set_data_isotropic o x fval sf G sg b d Hc H). Qed.
Print Assumptions C31_set_data_scales_alike.

(** ** C32.  The same for the standard deviation, wherever it is positive; where it is 0 the returned gradient is 0
    and the returned Hessian is NaN.  Missing: as for C31. *)
Theorem C32_standard_deviation_gradient_and_hessian_partial :
  forall (o : gpopt) (d : gpdata) (condf : mat -> R) (hp : hpv) (vK b0 : R) (cc : bool) (su : surr),
  eval_input o d hp vK b0 -> mask_supported o d -> set_up o d condf hp cc su ->
  exists Sg : pt -> R,
  forall (x2 : mat) (cg ch : bool), nc x2 = o_dim o -> (0 < nr x2)%nat -> (ch = true -> cg = true /\ hess_supported o d hp x2) ->
  exists ev, eval_model o d hp su x2 cg ch = Ok ev /\ vlen (e_sig ev) = nr x2 /\
    (forall p, (p < nr x2)%nat -> vat (e_sig ev) p = Sg (rows_of x2 p)) /\
    (if cg then exists G, e_dsig ev = Some G /\ nr G = nr x2 /\ nc G = o_dim o /\
       forall p i, (p < nr x2)%nat -> (i < o_dim o)%nat ->
         if Rlt_dec 0 (Sg (rows_of x2 p)) then is_partial Sg i (rows_of x2 p) (mat_at G p i) else mat_at G p i = 0
     else e_dsig ev = None) /\
    (if ch then exists H, e_d2sig ev = Some H /\
       (if Rlt_dec 0 (Sg (rows_of x2 0%nat))
        then exists T, H = Some T /\ td T = 1%nat /\ tr T = o_dim o /\ tc T = o_dim o /\
          forall l i, (l < o_dim o)%nat -> (i < o_dim o)%nat ->
            (in_scale d l = in_scale d i -> is_partial2_near Sg l i (rows_of x2 0%nat) (tat T 0 l i)) /\
            exists h, is_partial2_near Sg l i (rows_of x2 0%nat) h /\ tat T 0 l i = h * (in_scale d i / in_scale d l)
        else H = None)
     else e_d2sig ev = None).
Proof.
  intros o d condf hp vK b0 cc su HI MS SU.
  destruct (ei_main o d hp vK b0 HI condf cc su SU) as (e & c & inv & Q1 & Q2 & Q3 & Q4 & Q5 & Q6 & Q7 & Q8 & Q9).
  assert (OP : 0 < out_scale d) by (apply (out_scale_pos o); apply HI). assert (VP : 0 < vK) by apply HI.
  assert (SN : forall x, 0 <= Si o d hp vK e x).
  { intros x. unfold Si, Rdiv. apply Rmult_le_pos; [unfold Psig; apply Rmult_le_pos; apply sqrt_pos|left; apply Rinv_0_lt_compat, OP]. }
  exists (Si o d hp vK e). intros x2 cg ch Hx Hn Hch.
  destruct (ei_eval o d hp vK b0 HI condf cc su e c inv x2 cg ch SU MS Q1 Q3 Q4 Q5 Q6 Q7 Q8 Q9 Hx Hn Hch) as (ev & Eev & _ & (M1 & M2) & HG & HH).
  exists ev. split; [exact Eev|]. split; [exact M1|]. split; [exact M2|]. split.
  - destruct cg; [|apply HG]. destruct HG as (G0 & G & _ & _ & E & (G1 & G2 & G3)). exists G. split; [exact E|]. split; [exact G1|]. split; [exact G2|].
    intros p i Hp Hi. rewrite G3 by assumption. destruct (Rlt_dec 0 (Si o d hp vK e (rows_of x2 p))) as [P|P].
    + apply (S_dx o d hp vK b0 e ltac:(apply HI) ltac:(apply HI) VP (ei_noise o d hp vK b0 HI) Q3 _ i Hi P).
    + assert (Z : Psig o d hp vK e (to_scl d (rows_of x2 p)) = 0).
      { assert (W := SN (rows_of x2 p)). assert (E0 : Si o d hp vK e (rows_of x2 p) = 0) by lra. unfold Si in E0. apply (Rmult_eq_compat_r (out_scale d)) in E0. unfold Rdiv in E0. rewrite Rmult_assoc, Rinv_l in E0 by lra. lra. }
      unfold Pdsig. destruct (Req_EM_T (Psig o d hp vK e (to_scl d (rows_of x2 p))) 0); [ring|contradiction].
  - destruct ch; [|apply HH]. destruct HH as (Hm & Hs & _ & E & _ & _ & _ & _ & T5). exists Hs. split; [exact E|].
    destruct (Req_EM_T (Si o d hp vK e (rows_of x2 0%nat)) 0) as [Z|Z]; destruct (Rlt_dec 0 (Si o d hp vK e (rows_of x2 0%nat))) as [P|P]; try lra; [exact T5| |].
    + destruct T5 as (T & E3 & N1 & N2 & N3 & N4). exists T. split; [exact E3|]. split; [exact N1|]. split; [exact N2|]. split; [exact N3|].
      intros l i Hl Hi. split; [|apply N4; assumption]. intros EI. destruct (N4 l i Hl Hi) as (h & D & ->). assert (Z1 := proj2 (proj2 (proj2 (proj2 (proj2 (proj2 (proj2 (proj2 (proj2 HI)))))))) i Hi).
      rewrite EI. replace (h * (in_scale d i / in_scale d i)) with h by (field; lra). exact D.
    + exfalso. assert (W := SN (rows_of x2 0%nat)). lra.
Qed.
Print Assumptions C32_standard_deviation_gradient_and_hessian_partial.

(** ** C29.  At a data point the mean is the observed value minus (noise plus nugget of that observation) times its
    weight, and likewise the gradient for the gradients in use: the weights [w] solve S w = data - mean.
    So observations whose noise and nugget are negligible are reproduced. *)
Definition label_point (d : gpdata) (l : label) : nat :=
  match l with LVal p => p | LDer _ q => nth q (grad_points (d_n_eval d) (d_bvec d)) 0%nat end.
Lemma data_point_scl o d : data_set o d -> forall q i, (q < d_n_eval d)%nat -> (i < o_dim o)%nat ->
  rows_of (fst (get_scl_x_w_dist d)) q i = to_scl d (rows_of (d_x d) q) i.
Proof.
  intros (x & fv & sf & g & sg & b & _ & Hr & Hc & H) q i Hq Hi. apply data_after_inv in H. destruct H as (H1 & H2 & _ & _ & _ & _ & _ & _ & _ & _ & H11 & _).
  unfold get_scl_x_w_dist, to_scl, in_shift, in_scale. destruct (d_scl d) as [r|] eqn:E; cbn [fst]; [|ring].
  destruct (H11 r eq_refl) as (_ & _ & _ & (_ & _ & X3) & _). rewrite H2. unfold rows_of. apply X3; [rewrite Hr, <- H1; exact Hq|rewrite Hc; exact Hi].
Qed.
Section I.
Variables (o : gpopt) (d : gpdata) (hp : hpv) (vK b0 : R).
Hypothesis HI : eval_input o d hp vK b0.
Notation N := (cN o d).
Lemma label_point_lt r l : nth_error (gp_labels o d) r = Some l -> (label_point d l < d_n_eval d)%nat.
Proof.
  intros H. destruct HI as (H1 & H2 & _). destruct (gp_mask o d H2) as (M & _). unfold gp_labels, labels in H. apply nth_error_In in H. apply in_app_or in H. destruct H as [H|H].
  - apply in_map_iff in H. destruct H as (p & <- & Hp). apply in_seq in Hp. simpl. lia.
  - apply in_flat_map in H. destruct H as (i & _ & H). apply in_map_iff in H. destruct H as (q & <- & Hq). apply in_seq in Hq. simpl.
    unfold n_used in Hq. assert (I := nth_In (grad_points (d_n_eval d) (d_bvec d)) 0%nat (proj2 Hq)). unfold grad_points in *. destruct (d_bvec d).
    + apply filter_In in I. destruct I as (I & _). apply in_seq in I. lia.
    + apply in_seq in I. lia.
Qed.
Lemma smat_interp e : pdf N (smat o d hp e) -> forall r l y, nth_error (gp_labels o d) r = Some l ->
  (forall i, (i < o_dim o)%nat -> y i = mat_at (d_x d) (label_point d l) i) ->
  forall w b, fsolves N (smat o d hp e) w b ->
  match l with
  | LVal _ => dotp N (kxf o d hp (to_scl d y)) w = b r - added_var o d hp e l * w r
  | LDer i _ => dotp N (dkf o d hp i (to_scl d y)) w = b r - added_var o d hp e l * w r
  end.
Proof.
  intros HA r l y Hl Hy w b Hw. destruct (label_row o d hp vK b0 HI r l Hl) as (Hr & Ec & _). rewrite <- (sdiag_added o d hp vK b0 HI e r l Hl).
  assert (NO := ei_noise o d hp vK b0 HI). assert (HP := label_point_lt r l Hl).
  assert (LOC : forall i, (i < o_dim o)%nat -> to_scl d y i = rows_of (fst (get_scl_x_w_dist d)) (label_point d l) i).
  { intros i Hi. rewrite (data_point_scl o d ltac:(apply HI) _ i HP Hi). unfold to_scl. rewrite Hy by exact Hi. reflexivity. }
  assert (KS : forall i j, ckf o d hp (fst (get_scl_x_w_dist d)) i j = ckf o d hp (fst (get_scl_x_w_dist d)) j i) by (intros; apply kjet_sym).
  assert (LT := cobs_lt o d hp NO r Hr). rewrite Ec in LT.
  rewrite <- (interp_row N (ckf o d hp (fst (get_scl_x_w_dist d))) (sdiag o d hp e) (fun i j _ _ => KS i j) b w r Hw Hr).
  destruct l as [p|i q]; simpl in Ec, LT, LOC; apply dotp_ext; try reflexivity; intros s Hs; unfold ckf; rewrite Ec; symmetry.
  - rewrite (kxf_loc o d hp NO (to_scl d y) _ s LOC Hs). reflexivity.
  - rewrite (dkf_loc o d hp NO (to_scl d y) _ i s LOC LT Hs). reflexivity.
Qed.
End I.
Theorem C29_mean_interpolates_up_to_noise_and_nugget :
  forall (o : gpopt) (d : gpdata) (condf : mat -> R) (hp : hpv) (vK b0 : R) (cc : bool) (su : surr),
  eval_input o d hp vK b0 -> mask_supported o d -> set_up o d condf hp cc su ->
  exists w : nat -> R, solves (k_Kcov (su_K su)) w (gp_residual o d b0) /\
  forall (x2 : mat) (cg ch : bool), nc x2 = o_dim o -> (0 < nr x2)%nat -> (ch = true -> cg = true /\ hess_supported o d hp x2) ->
  exists ev, eval_model o d hp su x2 cg ch = Ok ev /\
  forall p r l, (p < nr x2)%nat -> nth_error (gp_labels o d) r = Some l ->
    (* row p of x2 is the data point of observation r *)
    (forall i, (i < o_dim o)%nat -> mat_at x2 p i = mat_at (d_x d) (label_point d l) i) ->
    match l with
    | LVal q => vat (e_mu ev) p = vat (d_fval d) q - added_var o d hp (k_eta (su_K su)) l * w r / out_scale d
    | LDer i q => cg = true -> exists G g, e_dmu ev = Some G /\ d_grad d = Some g /\
        mat_at G p i = mat_at g q i - added_var o d hp (k_eta (su_K su)) l * w r * (in_scale d i / out_scale d)
    end.
Proof.
  intros o d condf hp vK b0 cc su HI MS SU.
  destruct (ei_main o d hp vK b0 HI condf cc su SU) as (e & c & inv & Q1 & Q2 & Q3 & Q4 & Q5 & Q6 & Q7 & Q8 & Q9).
  assert (OP : 0 < out_scale d) by (apply (out_scale_pos o); apply HI). rewrite Q2.
  assert (RS : forall i, (i < cN o d)%nat -> gp_residual o d b0 i = sres d b0 i) by (intros i Hi; apply (li_res o d hp (ei_lkd o d hp vK b0 HI) b0 i Hi)).
  assert (SW := ksol_ok _ _ (sres d b0) Q3). set (w := ksol (cN o d) (smat o d hp e) (sres d b0)) in *. exists w. split.
  { apply (solves_iff o d _ _ _ _ Q4). intros i Hi. rewrite RS by exact Hi. apply SW, Hi. }
  intros x2 cg ch Hx Hn Hch.
  destruct (ei_eval o d hp vK b0 HI condf cc su e c inv x2 cg ch SU MS Q1 Q3 Q4 Q5 Q6 Q7 Q8 Q9 Hx Hn Hch) as (ev & Eev & (M1 & M2) & _ & HG & _).
  exists ev. split; [exact Eev|]. intros p r l Hp Hl Hpt. destruct (label_row o d hp vK b0 HI r l Hl) as (Hr & Ec & Ey & _).
  assert (SI := smat_interp o d hp vK b0 HI e Q3 r l (rows_of x2 p) Hl Hpt w _ SW). assert (RV := RS r Hr). unfold gp_residual, residual in RV. rewrite Hl in RV.
  destruct l as [q|i q].
  - rewrite M2 by exact Hp. unfold Mi, Pmu, pmu, pw. fold w. rewrite SI, <- RV. simpl. field. lra.
  - intros ->. destruct HG as (G & S & E & (G1 & G2 & G3) & _). 
    assert (IL : (i < o_dim o)%nat). { assert (LT := cobs_lt o d hp (ei_noise o d hp vK b0 HI) r Hr). rewrite Ec in LT. exact LT. }
    assert (IP : 0 < in_scale d i) by (apply HI; exact IL).
    exists G. destruct (d_grad d) as [g|] eqn:Eg.
    + exists g. split; [exact E|]. split; [reflexivity|]. rewrite G3 by assumption. unfold Pdmu, pdmu, pw. fold w. rewrite SI, <- RV. simpl. unfold gscl. field. lra.
    + exfalso. assert (HD : data_set o d) by apply HI. destruct HD as (x & fv & sf & g & sg & b & _ & _ & _ & H). apply data_after_inv in H.
      destruct H as (_ & _ & _ & _ & H5 & _ & H7 & H8 & _ & _ & _ & _ & H13 & _). rewrite Eg in H5. subst g. destruct (o_use_grad o) eqn:U; [destruct H13 as (Gm & HG & _); discriminate|].
      unfold gp_labels, gp_dim in Hl. rewrite U in Hl. unfold labels in Hl. apply nth_error_In in Hl. apply in_app_or in Hl. destruct Hl as [Hl|Hl]; [apply in_map_iff in Hl; destruct Hl as (? & HE & _); discriminate|exact Hl].
Qed.
Print Assumptions C29_mean_interpolates_up_to_noise_and_nugget.

(** At a data point the variance does not exceed varK times the noise plus nugget of the value observed there. *)
Theorem C29_variance_at_a_data_point :
  forall (o : gpopt) (d : gpdata) (condf : mat -> R) (hp : hpv) (vK b0 : R) (cc : bool) (su : surr) (x2 : mat) (cg ch : bool),
  eval_input o d hp vK b0 -> mask_supported o d -> set_up o d condf hp cc su ->
  nc x2 = o_dim o -> (0 < nr x2)%nat -> (ch = true -> cg = true /\ hess_supported o d hp x2) ->
  exists ev, eval_model o d hp su x2 cg ch = Ok ev /\
  forall p q, (p < nr x2)%nat -> (q < d_n_eval d)%nat -> (forall i, (i < o_dim o)%nat -> mat_at x2 p i = mat_at (d_x d) q i) ->
    (vat (e_sig ev) p * out_scale d) ^ 2 <= vK * added_var o d hp (k_eta (su_K su)) (LVal q).
Proof.
  intros o d condf hp vK b0 cc su x2 cg ch HI MS SU Hx Hn Hch.
  destruct (ei_main o d hp vK b0 HI condf cc su SU) as (e & c & inv & Q1 & Q2 & Q3 & Q4 & Q5 & Q6 & Q7 & Q8 & Q9).
  assert (OP : 0 < out_scale d) by (apply (out_scale_pos o); apply HI). assert (VP : 0 < vK) by apply HI. rewrite Q2.
  assert (NO := ei_noise o d hp vK b0 HI).
  destruct (ei_eval o d hp vK b0 HI condf cc su e c inv x2 cg ch SU MS Q1 Q3 Q4 Q5 Q6 Q7 Q8 Q9 Hx Hn Hch) as (ev & Eev & _ & (S1 & S2) & _).
  exists ev. split; [exact Eev|]. intros p q Hp Hq Hpt. rewrite S2 by exact Hp. unfold Si.
  assert (Hl : nth_error (gp_labels o d) q = Some (LVal q)).
  { unfold gp_labels, labels. rewrite nth_error_app1 by (rewrite map_length, seq_length; exact Hq). rewrite nth_error_map.
    rewrite nth_error_nth' with (d := 0%nat) by (rewrite seq_length; exact Hq). rewrite seq_nth by exact Hq. reflexivity. }
  destruct (label_row o d hp vK b0 HI q _ Hl) as (Hr & Ec & _). rewrite <- (sdiag_added o d hp vK b0 HI e q _ Hl).
  replace (Psig o d hp vK e (to_scl d (rows_of x2 p)) / out_scale d * out_scale d) with (Psig o d hp vK e (to_scl d (rows_of x2 p))) by (field; lra).
  assert (KS : forall i j, ckf o d hp (fst (get_scl_x_w_dist d)) i j = ckf o d hp (fst (get_scl_x_w_dist d)) j i) by (intros; apply kjet_sym).
  destruct (interp_var (cN o d) (ckf o d hp (fst (get_scl_x_w_dist d))) (sdiag o d hp e) Q3 (fun i j _ _ => KS i j) q Hr) as (g & G0 & GE).
  assert (LOC : forall i, (i < o_dim o)%nat -> to_scl d (rows_of x2 p) i = rows_of (fst (get_scl_x_w_dist d)) q i).
  { intros i Hi. rewrite (data_point_scl o d ltac:(apply HI) _ i Hq Hi). unfold to_scl, rows_of. rewrite Hpt by exact Hi. reflexivity. }
  assert (KX : forall s, (s < cN o d)%nat -> kxf o d hp (to_scl d (rows_of x2 p)) s = ckf o d hp (fst (get_scl_x_w_dist d)) s q).
  { intros s Hs. rewrite (kxf_loc o d hp NO _ _ s LOC Hs). unfold kxf, ckf. rewrite Ec. reflexivity. }
  assert (EV : Pv o d hp e (to_scl d (rows_of x2 p)) = sdiag o d hp e q - sdiag o d hp e q ^ 2 * g).
  { unfold Pv, pv, pz. rewrite (dotp_ext _ _ _ (fun s => ckf o d hp (fst (get_scl_x_w_dist d)) s q) (ksol (cN o d) (smat o d hp e) (fun s => ckf o d hp (fst (get_scl_x_w_dist d)) s q))).
    - change (smat o d hp e) with (fun i j => ckf o d hp (fst (get_scl_x_w_dist d)) i j + (if (i =? j)%nat then sdiag o d hp e i else 0)). rewrite GE.
      rewrite (kf_prior o d hp vK b0 HI q _ Hl). simpl obs_prior. ring.
    - exact KX.
    - apply ksol_ext; [exact Q3|reflexivity|exact KX]. }
  unfold Psig. rewrite Rpow_mult_distr. replace (sqrt vK ^ 2) with vK by (simpl; rewrite Rmult_1_r, sqrt_sqrt; lra).
  rewrite (Rmult_comm vK). apply Rmult_le_compat_r; [lra|].
  assert (DG : 0 < sdiag o d hp e q) by (apply Q5, Hr). assert (0 <= sdiag o d hp e q ^ 2 * g) by (apply Rmult_le_pos; [apply pow2_ge_0|exact G0]).
  destruct (Rle_dec 0 (Pv o d hp e (to_scl d (rows_of x2 p)))) as [P|P].
  - simpl. rewrite Rmult_1_r, sqrt_sqrt by exact P. lra.
  - rewrite sqrt_neg_0 by lra. simpl. lra.
Qed.
Print Assumptions C29_variance_at_a_data_point.
