(** * Property C41: what an optimisation of the hyperparameters (set_hpara with method 'optz') stores. *)
From Coq Require Import Reals List Arith Bool Lia Lra.
From Coquelicot Require Import Coquelicot.
From Verif.Base Require Import NpLite NpFacts.
From Verif.Spec Require Import KernelSpec LinAlgSpec GpSpec HpSpec DataSpec LkdSpec OptzSpec RescaleSpec EvalSpec.
From Verif.Model Require Import KernelSqExp KernelMatern KernelRatQuad KernelDispatch CommonFun WellCond Rescaling GpState Chol Cov HpInfo HpGrad MeanFun Lkd OptzLkd RescaleLoop History StartPts OptzHp.
From Verif.Proofs Require Import KernTac LinAlg CovStruct StateFacts NoiseFacts NuggetCond NuggetMain HpInfoFacts HpGradFacts HpGradMain LkdCore LkdFacts LkdMain OptzHpFacts.
From Verif.Props Require Import CondProps DataProps HpGradProps LkdProps EvalProps EvalProps2 OptzProps.
Import ListNotations.
Local Open Scope R_scope.

(** the call that set-up and likelihood make, with the condition number *)
Definition K_of (o : gpopt) (d : gpdata) (condf : mat -> R) (cc : bool) (hp : hpv) : res kout :=
  calc_all_K_w_chofac o d condf (snd (get_scl_x_w_dist d)) hp None cc true None false.
(** for noise-free data the condition number does not depend on varK, so that of the kernel matrix is that of the
    covariance matrix *)
Lemma cond_any_varK o d condf hp vK v0 varK varK' cc cc' k k' : lkd_input o d hp -> d_noisy d = false -> (forall B, pd B -> condf B = cond2 B) ->
  eff_varK hp varK false = Some vK -> 0 < vK -> eff_varK hp varK' false = Some v0 -> 0 < v0 ->
  calc_all_K_w_chofac o d condf (d_Rt d) hp None cc true varK false = Ok k -> calc_all_K_w_chofac o d condf (d_Rt d) hp None cc' true varK' false = Ok k' ->
  k_cond k = k_cond k'.
Proof.
  intros HI Hz HC V P V' P' E E'. assert (HR := li_ready o d hp HI). assert (NO := li_noise o d hp HI). assert (HD : data_set o d) by apply HI.
  assert (Hh : hyper_ok o hp) by apply HI. assert (H3 : o_well o = Wprecon -> o_use_grad o = true) by apply HI.
  assert (NZ : d_fval_zero d && d_fgrad_zero d = true).
  { destruct HD as (x & fv & sf & g & sg & b & _ & _ & _ & H). apply data_after_inv in H. assert (DN : d_noisy d = negb (d_fval_zero d && d_fgrad_zero d)) by apply H. rewrite DN in Hz. apply negb_false_iff. exact Hz. }
  assert (KN : forall i j, kn (ckf o d hp (fst (get_scl_x_w_dist d))) (noise_fn d hp None) vK i j = kn (ckf o d hp (fst (get_scl_x_w_dist d))) (noise_fn d hp None) v0 i j).
  { intros i j. unfold kn, dl. destruct (i =? j)%nat; [|reflexivity]. unfold noise_fn, noise_row. rewrite NZ. unfold Rdiv. rewrite !Rmult_0_l. reflexivity. }
  destruct (wmtd_precon (o_well o)) as [W|W].
  - destruct (rok_inv _ _ _ (call_precon o d condf hp None cc true varK false vK HR Hh NO V P W (H3 W)) E) as (e & Kc & Kp & A1 & _ & _ & _ & _ & _ & _ & (A8 & A9 & A10) & _ & A11 & A12 & _).
    destruct (rok_inv _ _ _ (call_precon o d condf hp None cc' true varK' false v0 HR Hh NO V' P' W (H3 W)) E') as (e' & Kc' & Kp' & B1 & _ & _ & _ & _ & _ & _ & (B8 & B9 & B10) & _ & B11 & B12 & _).
    assert (EE : e = e'). { apply (eta_unique o d (cN o d) _ _ _ A1). apply (eta_ext o d (cN o d) _ _ _) with (2 := B1). intros i j Hi Hj. unfold kcor. rewrite !KN. reflexivity. }
    rewrite A11, B11, !HC by assumption. f_equal. subst e'. apply (cond2_times (cN o d) (vK / v0)); auto; [apply Rdiv_lt_0_compat; assumption|].
    intros i j Hi Hj. rewrite A10, B10 by assumption. assert (KC : kcor (ckf o d hp (fst (get_scl_x_w_dist d))) (noise_fn d hp None) vK i j = kcor (ckf o d hp (fst (get_scl_x_w_dist d))) (noise_fn d hp None) v0 i j) by (unfold kcor; rewrite !KN; reflexivity). rewrite KC. field. lra.
  - destruct (rok_inv _ _ _ (call_plain o d condf hp None cc true varK false vK HR Hh NO V P W) E) as (e & A1 & _ & _ & _ & _ & _ & (A8 & A9 & A10) & A11 & A12 & _).
    destruct (rok_inv _ _ _ (call_plain o d condf hp None cc' true varK' false v0 HR Hh NO V' P' W) E') as (e' & B1 & _ & _ & _ & _ & _ & (B8 & B9 & B10) & B11 & B12 & _).
    assert (EE : e = e') by apply (eta_unique o d (cN o d) _ _ _ A1 B1).
    rewrite A11, B11, !HC by assumption. f_equal. subst e'. apply (cond2_times (cN o d) (vK / v0)); auto; [apply Rdiv_lt_0_compat; assumption|].
    intros i j Hi Hj. rewrite A10, B10 by assumption. rewrite !KN. field. lra.
Qed.

(** the hyperparameters the vector of the optimiser stands for are usable, when they are optimised in the log scale
    (the default) *)
Definition log_scale (lo : lkopt) : Prop := lk_log_theta lo = true /\ lk_log_var lo = true /\ lk_log_kernel lo = true.
(** the parameter alpha of the rational quadratic kernel is optimised (the default) *)
Definition alpha_decided (o : gpopt) (lo : lkopt) : Prop := o_kernel o = RatQu -> lk_optz_kernel lo = true.
Definition noise_optimisable (o : gpopt) (d : gpdata) : Prop := o_use_grad o = true \/ d_known_fval d = true.
Lemma opt_flags o d : data_set o d -> d_opt_fval d = negb (d_known_fval d) /\ d_opt_fgrad d = (o_use_grad o && negb (d_known_fgrad d)).
Proof.
  intros (x & fv & sf & g & sg & b & _ & _ & _ & H). induction H as [d H|d scale d' _ IH H]; [|apply rescale_data_inv in H; destruct H as (r & r' & _ & _ & ->); exact IH].
  unfold set_data in H. cbv zeta in H. binv H ng Eng. binv H stf Estf. binv H stg Estg. binv H fz Efz. binv H gz Egz. binv H eta Eeta. binv H dm Edm.
  binv H scl Escl. binv H Rt ERt. injection H as <-. cbn [d_opt_fval d_opt_fgrad d_known_fval d_known_fgrad]. destruct (o_use_grad o); auto.
Qed.
Lemma pow10_pos x : 0 < Rpower 10 x. Proof. apply exp_pos. Qed.
Lemma decoded_ok o d lo info v hp : opts_ok o -> data_set o d -> (o_well o = Wprecon -> o_use_grad o = true) -> log_scale lo -> alpha_decided o lo -> noise_optimisable o d ->
  setup_hp_idx4optz o d lo = Ok info -> hp_vec2dataclass d info v = Ok hp ->
  lkd_input o d hp /\ hp_beta hp = None /\ vlen v = hi_n info /\
  (forall s, hp_get hp s = match position info s with Some r => Some (Rpower 10 (vat v r)) | None => None end) /\ (d_noisy d = false -> hp_varK hp = None).
Proof.
  intros H1 H2 H3 (L1 & L2 & L3) LK NP HI HV.
  destruct (C21_index_sets_partition _ _ _ _ _ _ _ _ _ HI) as (HN & HL & PS & PL & PB & _).
  assert (Lv : vlen v = hi_n info). { assert (HV' := HV). unfold hp_vec2dataclass in HV'. binv HV' u Eu. destruct (Nat.eqb_spec (length (hi_log info)) (vlen v)); [congruence|discriminate]. }
  destruct (C21_vector_round_trip o d lo _ _ _ _ info v HI (fun e => e) (fun e => e) (fun e => e) Lv) as (hp' & E & L & B & P & Q).
  assert (hp' = hp) by congruence. subst hp'.
  assert (LF : forall s, log_flag lo s = true) by (intros [e| | | |]; simpl; assumption).
  assert (GET : forall s, hp_get hp s = match position info s with Some r => Some (Rpower 10 (vat v r)) | None => None end).
  { intros s. destruct (position info s) as [r|] eqn:Ep; [|apply Q, Ep]. destruct (P s r Ep) as (X & _). rewrite LF in X. exact X. }
  assert (POS : forall s x, hp_get hp s = Some x -> 0 < x).
  { intros s x Hx. rewrite GET in Hx. destruct (position info s); [|discriminate]. injection Hx as <-. apply pow10_pos. }
  destruct (opt_flags o d H2) as (F1 & F2).
  assert (LKE : lk_optz_kernel lo && kernel_has_hp (o_kernel o) = kernel_has_hp (o_kernel o)) by (revert LK; unfold alpha_decided; destruct (o_kernel o); intros LK; cbn; rewrite ?andb_false_r, ?andb_true_r; auto).
  set (SL := slots (o_dim o) true (lk_optz_kernel lo && kernel_has_hp (o_kernel o)) (d_noisy d) (d_opt_fval d) (d_opt_fgrad d)) in *.
  assert (HAS : forall s, In s SL -> exists x, hp_get hp s = Some x).
  { intros s Hs. apply In_nth_error in Hs. destruct Hs as (r & Hs). rewrite GET. apply PS in Hs. rewrite Hs. eauto. }
  assert (HNO : forall s, ~ In s SL -> hp_get hp s = None).
  { intros s Hs. rewrite GET. destruct (position info s) as [r|] eqn:Ep; [|reflexivity]. exfalso. apply Hs. apply PS in Ep. eapply nth_error_In, Ep. }
  unfold SL, slots in HAS, HNO. setoid_rewrite in_app_iff in HAS. setoid_rewrite in_app_iff in HAS. setoid_rewrite in_app_iff in HAS. setoid_rewrite in_app_iff in HAS.
  setoid_rewrite in_app_iff in HNO. setoid_rewrite in_app_iff in HNO. setoid_rewrite in_app_iff in HNO. setoid_rewrite in_app_iff in HNO. rewrite LKE, F1, F2 in *. simpl andb in *.
  assert (NM : forall s l, In s (map HTheta l) -> exists e', s = HTheta e') by (intros s l Hs; apply in_map_iff in Hs; destruct Hs as (e' & <- & _); eauto).
  split; [|split; [exact B|split; [exact Lv|split; [exact GET|]]]].
  2:{ intros Z. apply (HNO HVarK). rewrite Z. intros [X|[X|[X|[X|X]]]].
      - apply NM in X. destruct X; discriminate.
      - destruct (kernel_has_hp (o_kernel o)); [destruct X as [X|X]; [discriminate|exact X]|exact X].
      - exact X.
      - destruct (negb (d_known_fval d)); [destruct X as [X|X]; [discriminate|exact X]|exact X].
      - destruct (o_use_grad o && negb (d_known_fgrad d)); [destruct X as [X|X]; [discriminate|exact X]|exact X]. }
  split; [exact H1|]. split; [exact H2|]. split; [exact H3|]. split.
  { split; [exact L|]. split.
    - intros i Hi. destruct (HAS (HTheta i)) as (x & Hx); [left; apply in_map, in_seq; lia|]. assert (PX := POS _ _ Hx). simpl in Hx. rewrite L in Hx. destruct (Nat.ltb_spec i (o_dim o)); [|lia]. injection Hx as <-. exact PX.
    - destruct (o_kernel o) eqn:EK; simpl; try exact I. destruct (HAS HKernel) as (x & Hx); [right; left; simpl; auto|]. exists x. split; [exact Hx|]. exact (POS _ _ Hx). }
  split.
  { split.
    - destruct (d_known_fval d) eqn:KF.
      + apply (HNO HVarF). simpl. intros [X|[X|[X|[X|X]]]].
        * apply NM in X. destruct X; discriminate.
        * destruct (kernel_has_hp (o_kernel o)); [destruct X as [X|X]; [discriminate|exact X]|exact X].
        * destruct (d_noisy d); [destruct X as [X|X]; [discriminate|exact X]|exact X].
        * exact X.
        * destruct (o_use_grad o && negb (d_known_fgrad d)); [destruct X as [X|X]; [discriminate|exact X]|exact X].
      + split; [destruct NP as [NP|NP]; [exact NP|congruence]|]. apply (HAS HVarF). right; right; right; left. simpl. auto.
    - intros U. rewrite U in *. destruct (d_known_fgrad d) eqn:KF.
      + apply (HNO HVarG). simpl. intros [X|[X|[X|[X|X]]]].
        * apply NM in X. destruct X; discriminate.
        * destruct (kernel_has_hp (o_kernel o)); [destruct X as [X|X]; [discriminate|exact X]|exact X].
        * destruct (d_noisy d); [destruct X as [X|X]; [discriminate|exact X]|exact X].
        * destruct (negb (d_known_fval d)); [destruct X as [X|X]; [discriminate|exact X]|exact X].
        * exact X.
      + apply (HAS HVarG). right; right; right; right. simpl. auto. }
  split; [split; intros x Hx; left; [apply (POS HVarF)|apply (POS HVarG)]; exact Hx|].
  intros Z. destruct (HAS HVarK) as (x & Hx); [right; right; left; rewrite Z; simpl; auto|]. exists x. split; [exact Hx|]. exact (POS _ _ Hx).
Qed.

(** ** Closed forms *)
(** the stored mean coefficient is the generalised least squares one and, without noise, the stored varK is that of
    the maximum of the likelihood (the matrix does not depend on either) *)
Definition best_mean_and_variance (o : gpopt) (d : gpdata) (condf : mat -> R) (hp : hpv) : Prop :=
  exists A beta, lkd_matrix o d condf false hp = Ok A /\ hp_beta hp = Some beta /\ vlen beta = 1%nat /\
    (forall b, exists q, weighted_square A (gp_residual o d b) q) /\
    (forall b q q0, weighted_square A (gp_residual o d b) q -> weighted_square A (gp_residual o d (vat beta 0)) q0 -> q0 <= q /\ (q = q0 -> b = vat beta 0%nat)) /\
    (d_noisy d = false -> exists vK L0, hp_varK hp = Some vK /\ / 10 ^ 32 <= vK /\ log_likelihood (times vK A) (gp_residual o d (vat beta 0)) L0 /\
       (forall s b L, / 10 ^ 32 <= s -> log_likelihood (times s A) (gp_residual o d b) L -> L <= L0) /\
       (/ 10 ^ 32 < vK -> forall s b L, 0 < s -> log_likelihood (times s A) (gp_residual o d b) L -> L <= L0 /\ (L = L0 -> s = vK /\ b = vat beta 0%nat))).
Definition stored_hp (d : gpdata) (hp : hpv) (beta : option vec) (vK : option R) : hpv :=
  mkhp beta (hp_theta hp) (hp_kernel hp) (if d_noisy d then hp_varK hp else vK) (hp_var_fval hp) (hp_var_fgrad hp).
Lemma stored_lkd o d hp b v : lkd_input o d hp -> lkd_input o d (stored_hp d hp b v).
Proof.
  intros (H1 & H2 & H3 & H4 & H5 & H6 & H7). split; [exact H1|]. split; [exact H2|]. split; [exact H3|]. split; [exact H4|]. split; [exact H5|]. split; [exact H6|].
  intros Z. unfold stored_hp. cbn [hp_varK]. rewrite Z. apply H7, Z.
Qed.
Lemma stored_matrix o d condf cnd hp b v : lkd_matrix o d condf cnd (stored_hp d hp b v) = lkd_matrix o d condf cnd hp.
Proof. unfold lkd_matrix, stored_hp. destruct (d_noisy d); destruct hp; reflexivity. Qed.
Lemma stored_K o d condf cc hp b v : d_noisy d = true -> K_of o d condf cc (stored_hp d hp b v) = K_of o d condf cc hp.
Proof. intros Z. unfold K_of, stored_hp. rewrite Z. destruct hp; reflexivity. Qed.
Lemma closed_form la o d lo info hp hp' : lkd_input o d hp -> setup_hp_idx4optz o d lo = Ok info -> optz_closed_form_hp la o d lo info hp = Ok hp' ->
  (exists beta vK b0 vK0, hp' = stored_hp d hp beta vK /\ beta = Some b0 /\ vlen b0 = 1%nat /\ hp_varK hp' = Some vK0 /\ 0 < vK0) /\ best_mean_and_variance o d (la_cond la) hp'.
Proof.
  intros HI HS H. unfold setup_hp_idx4optz in HS. unfold optz_closed_form_hp in H. destruct (C23_evaluation_succeeds la o d lo _ _ _ _ _ info hp (lk_adj lo) HI HS) as (l & E). rewrite E in H. cbn [bind fst] in H. injection H as <-.
  fold (stored_hp d hp (l_beta l) (l_varK l)).
  destruct (C23_generalised_least_squares la o d lo _ _ _ _ _ info hp false (lk_adj lo) l HI HS E) as (A & beta & A1 & A2 & A3 & A4 & A5).
  assert (V : exists v0, hp_varK (stored_hp d hp (l_beta l) (l_varK l)) = Some v0 /\ 0 < v0 /\ (d_noisy d = false -> l_varK l = Some v0)).
  { unfold stored_hp. cbn [hp_varK]. destruct (d_noisy d) eqn:Z.
    - destruct HI as (_ & _ & _ & _ & _ & _ & H7). destruct (H7 Z) as (v & V1 & V2). exists v. split; [exact V1|]. split; [exact V2|]. discriminate.
    - destruct (C24_closed_form_variance la o d lo _ _ _ _ _ info hp false (lk_adj lo) l HI Z HS E) as (_ & _ & vK & L0 & _ & _ & V1 & V2 & _). exists vK. split; [exact V1|]. split; [|auto].
      eapply Rlt_le_trans; [|exact V2]. apply Rinv_0_lt_compat, pow_lt. lra. }
  destruct V as (v0 & V1 & V2 & V3).
  split; [exists (l_beta l), (l_varK l), beta, v0; auto 8|].
  exists A, beta. rewrite stored_matrix. split; [exact A1|]. split; [exact A2|]. split; [exact A3|]. split; [exact A4|]. split; [exact A5|].
  intros Z. destruct (C24_closed_form_variance la o d lo _ _ _ _ _ info hp false (lk_adj lo) l HI Z HS E) as (A' & beta' & vK & L0 & B1 & B2 & B3 & B4 & B5 & _ & B7 & B8 & _).
  assert (A' = A) by congruence. assert (beta' = beta) by congruence. subst A' beta'. exists vK, L0. split; [rewrite V1, <- (V3 Z); exact B3|]. auto.
Qed.

(** ** The statements *)
(** an object with data whose optimised hyperparameters have been selected by the set-up (the default), with the
    default log scales.  Gradient-free objects: the noise is known (C22_unknown_value_noise_without_gradients..). *)
Definition optz_ready (s : gpobj) : Prop :=
  opts_ok (g_opt s) /\ data_set (g_opt s) (g_data s) /\ (o_well (g_opt s) = Wprecon -> o_use_grad (g_opt s) = true) /\
  log_scale (g_lk s) /\ alpha_decided (g_opt s) (g_lk s) /\ noise_optimisable (g_opt s) (g_data s) /\
  setup_hp_idx4optz (g_opt s) (g_data s) (g_lk s) = Ok (g_info s).
Definition scale_defined (o : gpopt) (d : gpdata) : Prop := forall i, (i < o_dim o)%nat -> 0 < in_scale d i.
(** what the vector [v] of the optimiser stands for is what is stored in [hp] *)
Definition stands_for (d : gpdata) (info : hpinfo) (v : vec) (hp : hpv) : Prop :=
  vlen v = hi_n info /\ (forall sl r, position info sl = Some r -> hp_get hp sl = Some (Rpower 10 (vat v r))) /\
  (forall sl, position info sl = None -> sl <> HVarK \/ d_noisy d = true -> hp_get hp sl = None).
(** [c] is the condition number of the matrix that [hp] gives *)
Definition has_cond (o : gpopt) (d : gpdata) (condf : mat -> R) (hp : hpv) (c : option R) : Prop := exists k, K_of o d condf false hp = Ok k /\ k_cond k = c.

Lemma stored_stands o d lo info v hp b vK : opts_ok o -> data_set o d -> (o_well o = Wprecon -> o_use_grad o = true) -> log_scale lo -> alpha_decided o lo -> noise_optimisable o d ->
  setup_hp_idx4optz o d lo = Ok info -> hp_vec2dataclass d info v = Ok hp -> stands_for d info v (stored_hp d hp b vK).
Proof.
  intros H1 H2 H3 H4 H5 H6 HI HV. destruct (decoded_ok o d lo info v hp H1 H2 H3 H4 H5 H6 HI HV) as (_ & _ & D3 & D4 & D5). split; [exact D3|].
  assert (G : forall sl, sl <> HVarK \/ d_noisy d = true -> hp_get (stored_hp d hp b vK) sl = hp_get hp sl).
  { intros sl Z. destruct sl; try reflexivity. simpl. destruct Z as [Z|Z]; [congruence|]. rewrite Z. reflexivity. }
  assert (NV : d_noisy d = false -> position info HVarK = None).
  { intros Z. specialize (D4 HVarK). cbn [hp_get] in D4. rewrite (D5 Z) in D4. destruct (position info HVarK); [discriminate|reflexivity]. }
  split.
  - intros sl r Hr. rewrite G; [rewrite D4, Hr; reflexivity|]. destruct (d_noisy d) eqn:Z; [auto|]. left. intros ->. rewrite NV in Hr by reflexivity. discriminate.
  - intros sl Hr Z. rewrite G by exact Z. rewrite D4, Hr. reflexivity.
Qed.
Lemma optz_same la mini s x0s : clean s -> same_data s (fst (optz_hp_max_lkd la mini s x0s)) /\ clean (fst (optz_hp_max_lkd la mini s x0s)).
Proof. intros C. destruct (optz_agree la mini x0s s s C C (same_refl s)) as (_ & A2 & _ & A4 & _). split; assumption. Qed.
(** the result of the last steps of optz_hp, for the vector [best] *)
Lemma finish la o d lo info best hp hp' : opts_ok o -> data_set o d -> (o_well o = Wprecon -> o_use_grad o = true) -> log_scale lo -> alpha_decided o lo -> noise_optimisable o d ->
  setup_hp_idx4optz o d lo = Ok info -> hp_vec2dataclass d info best = Ok hp -> optz_closed_form_hp la o d lo info hp = Ok hp' ->
  stands_for d info best hp' /\ best_mean_and_variance o d (la_cond la) hp' /\ (scale_defined o d -> exists vK b0, eval_input o d hp' vK b0) /\
  exists b v, hp' = stored_hp d hp b v.
Proof.
  intros H1 H2 H3 H4 H5 H6 HI HV HC. destruct (decoded_ok o d lo info best hp H1 H2 H3 H4 H5 H6 HI HV) as (D1 & _).
  destruct (closed_form la o d lo info hp hp' D1 HI HC) as ((b & v & b0 & v0 & -> & -> & L & V & P) & BM).
  split; [apply (stored_stands o d lo); assumption|]. split; [exact BM|]. split; [|eauto].
  intros SD. exists v0, (vat b0 0%nat). assert (LI := stored_lkd o d hp (Some b0) v D1). destruct LI as (L1 & L2 & L3 & L4 & L5 & L6 & _).
  split; [exact L1|]. split; [exact L2|]. split; [exact L3|]. split; [exact L4|]. split; [exact L5|]. split; [exact L6|]. split; [exact V|]. split; [exact P|]. split; [exists b0; auto|]. exact SD.
Qed.
Lemma finish_ok la o d lo info best : opts_ok o -> data_set o d -> (o_well o = Wprecon -> o_use_grad o = true) -> log_scale lo -> alpha_decided o lo -> noise_optimisable o d ->
  setup_hp_idx4optz o d lo = Ok info -> vlen best = hi_n info -> exists hp hp', hp_vec2dataclass d info best = Ok hp /\ optz_closed_form_hp la o d lo info hp = Ok hp'.
Proof.
  intros H1 H2 H3 H4 H5 H6 HI L. destruct (C21_vector_round_trip o d lo _ _ _ _ info best HI (fun e => e) (fun e => e) (fun e => e) L) as (hp & E & _). exists hp.
  destruct (decoded_ok o d lo info best hp H1 H2 H3 H4 H5 H6 HI E) as (D1 & _). unfold setup_hp_idx4optz in HI.
  destruct (C23_evaluation_succeeds la o d lo _ _ _ _ _ info hp (lk_adj lo) D1 HI) as (l & EL). unfold optz_closed_form_hp. rewrite EL. cbn [bind]. eauto.
Qed.

(** ** C41, with more points than hp_const_n_eval and without the loop that changes the scaling *)
Theorem C41_stored_hyperparameters :
  forall (la : npla) (lhs : sampler) (mini : minimiser) (c : optzcfg) (hst : hist) (i : nat) (o : gpopt) (lo : lkopt) (d : gpdata) (info : hpinfo) (h : list event),
  let s := do_events la (new_obj o lo d info) h in
  optz_ready s -> (c_const_n c < d_n_eval (g_data s))%nat -> is_rescale (o_well (g_opt s)) = false \/ (c_max_iter c <= 1)%nat ->
  forall hp cond rep, snd (optz_hp la lhs mini c hst i s) = Ok (hp, cond, rep) ->
  exists starts bnd x0s best info', 
    (* start points and bounds (C36), optimisation and selection (C28) *)
    select_hp_optz_x0 la lhs (g_opt s) (g_data s) (g_lk s) (c_x0 c) (g_info s) hst i = Ok (starts, bnd) /\ rmap row_real starts = Ok x0s /\
    snd (optz_hp_max_lkd la (mini 0%nat bnd) s x0s) = Ok (best, cond, info') /\ rep = Some info' /\
    stands_for (g_data s) (g_info s) best hp /\
    best_mean_and_variance (g_opt s) (g_data s) (la_cond la) hp /\
    (scale_defined (g_opt s) (g_data s) -> exists vK b0, eval_input (g_opt s) (g_data s) hp vK b0) /\
    (d_noisy (g_data s) = true \/ (forall B, pd B -> la_cond la B = cond2 B) -> has_cond (g_opt s) (g_data s) (la_cond la) hp cond) /\
    same_data s (fst (optz_hp la lhs mini c hst i s)).
Proof.
  intros la lhs mini c hst i o lo d info h s HR HN HB hp cond rep H. assert (C : clean s) by (apply events_clean; exact I).
  unfold optz_hp in *. destruct (Nat.leb_spec (d_n_eval (g_data s)) (c_const_n c)); [lia|].
  assert (NB : is_rescale (o_well (g_opt s)) && (1 <? c_max_iter c)%nat = false). { destruct HB as [->|HB]; [reflexivity|]. destruct (Nat.ltb_spec 1 (c_max_iter c)); [lia|]. apply andb_false_r. }
  rewrite NB in *. destruct (select_hp_optz_x0 la lhs (g_opt s) (g_data s) (g_lk s) (c_x0 c) (g_info s) hst i) as [p|e] eqn:E1; [|discriminate]. cbn [bind] in *.
  destruct p as (st, bnd). cbn [fst snd] in *. destruct (rmap row_real st) as [x0s|e] eqn:E2; [|discriminate]. cbn [bind] in *. cbv zeta in *.
  destruct (optz_same la (mini 0%nat bnd) s x0s C) as (SD & _).
  destruct (optz_hp_max_lkd la (mini 0%nat bnd) s x0s) as [s1 r1] eqn:EO. cbn [fst snd] in *. destruct r1 as [[[best co] inf]|e]; [|discriminate]. cbn [bind] in H.
  destruct HR as (H1 & H2 & H3 & H4 & H5 & H6 & HI). assert (SD' := SD). destruct SD' as (S1 & S2 & S3 & S4). rewrite <- S1, <- S2, <- S3, <- S4 in H. binv H hp0 EH. binv H hp1 EC. injection H as -> -> <-.
  destruct (finish la _ _ _ _ best hp0 hp H1 H2 H3 H4 H5 H6 HI EH EC) as (F1 & F2 & F3 & b & v & F4).
  exists st, bnd, x0s, best, inf. split; [reflexivity|]. split; [exact E2|]. split; [rewrite EO; reflexivity|]. split; [reflexivity|]. split; [exact F1|]. split; [exact F2|]. split; [exact F3|]. split; [|exact SD].
  intros CC. unfold optz_hp_max_lkd in EO. destruct (optz_all la (mini 0%nat bnd) x0s s (mkis 0 0 None)) as [s2 r2]. injection EO as -> EO. binv EO x Ex. destruct x as (l, stt). binv EO ca Eca. binv EO hpx Ehpx. binv EO k Ek. injection EO as <- <- _.
  assert (hpx = hp0) by congruence. subst hpx. destruct (decoded_ok _ _ _ _ _ hp0 H1 H2 H3 H4 H5 H6 HI EH) as (D1 & _).
  assert (HR := li_Rt _ _ _ D1). unfold has_cond. destruct (d_noisy (g_data s)) eqn:Z.
  - exists k. rewrite F4, stored_K by exact Z. split; [exact Ek|reflexivity].
  - destruct CC as [CC|CC]; [discriminate|]. unfold calc_Kern_w_chofac in Ek. rewrite Z in Ek. cbn [negb assert_] in Ek. rewrite bind_Ok in Ek.
    destruct (closed_form la _ _ _ _ hp0 hp D1 HI EC) as ((_ & _ & _ & v0 & _ & _ & _ & V & P) & _).
    assert (LI : lkd_input (g_opt s) (g_data s) hp) by (rewrite F4; apply stored_lkd, D1).
    assert (EV : eff_varK hp None false = Some v0) by (unfold eff_varK; rewrite V; reflexivity).
    destruct (rok_ex _ _ (kcov_any (g_opt s) (g_data s) (la_cond la) true hp None v0 (li_ready _ _ _ LI) H3 ltac:(apply LI) (li_noise _ _ _ LI) EV P)) as (k0 & EK0 & _).
    assert (EX : exists k', K_of (g_opt s) (g_data s) (la_cond la) false hp = Ok k').
    { unfold K_of. rewrite HR. destruct (wmtd_precon (o_well (g_opt s))) as [W|W].
      - destruct (rok_ex _ _ (call_precon _ _ (la_cond la) hp None false true None false v0 (li_ready _ _ _ LI) ltac:(apply LI) (li_noise _ _ _ LI) EV P W (H3 W))) as (k' & E' & _). eauto.
      - destruct (rok_ex _ _ (call_plain _ _ (la_cond la) hp None false true None false v0 (li_ready _ _ _ LI) ltac:(apply LI) (li_noise _ _ _ LI) EV P W)) as (k' & E' & _). eauto. }
    destruct EX as (k' & EX). exists k'. split; [exact EX|]. unfold K_of in EX. rewrite HR in EX, Ek. symmetry.
    assert (EK2 : calc_all_K_w_chofac (g_opt s) (g_data s) (la_cond la) (d_Rt (g_data s)) hp None false true (Some 1) false = Ok k).
    { rewrite <- Ek. rewrite F4. unfold stored_hp. destruct hp0; reflexivity. }
    apply (cond_any_varK _ _ (la_cond la) hp 1 v0 (Some 1) None false false k k' LI Z CC eq_refl Rlt_0_1 EV P EK2 EX).
Qed.
Print Assumptions C41_stored_hyperparameters.

(** an optimisation that gives a vector of the right length always ends with hyperparameters *)
Theorem C41_succeeds :
  forall (la : npla) (lhs : sampler) (mini : minimiser) (c : optzcfg) (hst : hist) (i : nat) (o : gpopt) (lo : lkopt) (d : gpdata) (info : hpinfo) (h : list event),
  let s := do_events la (new_obj o lo d info) h in
  optz_ready s -> (c_const_n c < d_n_eval (g_data s))%nat -> is_rescale (o_well (g_opt s)) = false \/ (c_max_iter c <= 1)%nat ->
  forall starts bnd x0s best cond inf, 
    select_hp_optz_x0 la lhs (g_opt s) (g_data s) (g_lk s) (c_x0 c) (g_info s) hst i = Ok (starts, bnd) -> rmap row_real starts = Ok x0s ->
    snd (optz_hp_max_lkd la (mini 0%nat bnd) s x0s) = Ok (best, cond, inf) ->
  exists hp, snd (optz_hp la lhs mini c hst i s) = Ok (hp, cond, Some inf).
Proof.
  intros la lhs mini c hst i o lo d info h s HR HN HB st bnd x0s best cond inf E1 E2 EO. assert (C : clean s) by (apply events_clean; exact I).
  unfold optz_hp. destruct (Nat.leb_spec (d_n_eval (g_data s)) (c_const_n c)); [lia|].
  assert (NB : is_rescale (o_well (g_opt s)) && (1 <? c_max_iter c)%nat = false). { destruct HB as [->|HB]; [reflexivity|]. destruct (Nat.ltb_spec 1 (c_max_iter c)); [lia|]. apply andb_false_r. }
  rewrite NB, E1. cbn [bind fst snd]. rewrite E2. cbn [bind]. cbv zeta. assert (EO' := EO).
  destruct (optz_same la (mini 0%nat bnd) s x0s C) as ((S1 & S2 & S3 & S4) & _).
  destruct (optz_hp_max_lkd la (mini 0%nat bnd) s x0s) as [s1 r1] eqn:EX. cbn [fst snd] in *. subst r1. cbn [bind]. rewrite <- S1, <- S2, <- S3, <- S4.
  destruct HR as (H1 & H2 & H3 & H4 & H5 & H6 & HI).
  assert (L : vlen best = hi_n (g_info s)).
  { unfold optz_hp_max_lkd in EX. destruct (optz_all la (mini 0%nat bnd) x0s s (mkis 0 0 None)) as [s2 r2]. injection EX as -> EX. binv EX x Ex. destruct x as (l, stt). binv EX ca Eca. binv EX hpx Ehpx. binv EX k Ek. injection EX as <- _ _.
    destruct (decoded_ok _ _ _ _ _ hpx H1 H2 H3 H4 H5 H6 HI Ehpx) as (_ & _ & L & _). exact L. }
  destruct (finish_ok la _ _ _ _ best H1 H2 H3 H4 H5 H6 HI L) as (hp & hp' & F1 & F2). rewrite F1. cbn [bind]. rewrite F2. cbn [bind]. eauto.
Qed.
Print Assumptions C41_succeeds.

(** ** C41, with at most hp_const_n_eval points: the documented constants are stored, nothing is optimised *)
Definition init_ok (hi : hpinit) : Prop := 0 < i_theta hi /\ 0 < i_varK hi /\ 0 <= i_var_fval hi /\ 0 <= i_var_fgrad hi.
Theorem C41_few_points :
  forall (la : npla) (lhs : sampler) (mini : minimiser) (c : optzcfg) (hst : hist) (i : nat) (s : gpobj),
  opts_ok (g_opt s) -> data_set (g_opt s) (g_data s) -> (o_well (g_opt s) = Wprecon -> o_use_grad (g_opt s) = true) -> noise_optimisable (g_opt s) (g_data s) -> init_ok (c_init c) ->
  (d_n_eval (g_data s) <= c_const_n c)%nat ->
  let o := g_opt s in let d := g_data s in
  fst (optz_hp la lhs mini c hst i s) = s /\
  exists hp beta cond, snd (optz_hp la lhs mini c hst i s) = Ok (hp, cond, None) /\
    vlen (hp_theta hp) = o_dim o /\ (forall j, (j < o_dim o)%nat -> vat (hp_theta hp) j = i_theta (c_init c)) /\
    hp_varK hp = Some (i_varK (c_init c)) /\
    hp_kernel hp = (match o_kernel o with RatQu => Some 2 | _ => None end) /\
    (* noise variances that are not known have the initial value *)
    hp_var_fval hp = (if d_known_fval d then None else Some (i_var_fval (c_init c))) /\
    (o_use_grad o = true -> hp_var_fgrad hp = if d_known_fgrad d then None else Some (i_var_fgrad (c_init c))) /\ (o_use_grad o = false -> hp_var_fgrad hp = None) /\
    (* the mean is that of the scaled function values *)
    hp_beta hp = Some beta /\ vlen beta = 1%nat /\
    INR (d_n_eval d) * vat beta 0 = rsum (d_n_eval d) (fun p => scaled_value (out_shift d) (out_scale d) (in_scale d) (d_fval d) (d_grad d) (LVal p)) /\
    (scale_defined o d -> eval_input o d hp (i_varK (c_init c)) (vat beta 0)) /\ has_cond o d (la_cond la) hp cond /\ cond <> None.
Proof.
  intros la lhs mini c hst i s H1 H2 H3 H6 (P1 & P2 & P3 & P4) HN o d. unfold optz_hp. destruct (Nat.leb_spec (d_n_eval (g_data s)) (c_const_n c)); [|lia]. fold o d. cbn [fst snd]. split; [reflexivity|].
  assert (RD := ready o d H1 H2). assert (W := gr_wf _ _ RD). assert (NP := gr_n _ _ RD).
  destruct (rok_ex _ _ (get_scl_ok o d W)) as ((((fv & sf) & g) & sg) & Eg & (L1 & F1) & _).
  unfold get_init_hp_vals. rewrite Eg. cbn [bind].
  match goal with |- context [calc_all_K_w_chofac _ _ _ _ ?x] => set (hp := x) end. cbn [bind].
  assert (NC : noise_cfg o d hp).
  { split; cbn [hp hp_var_fval hp_var_fgrad].
    - destruct (d_known_fval d) eqn:K; [reflexivity|]. split; [|eauto]. destruct H6 as [H6|H6]; [exact H6|]. fold d in H6. congruence.
    - intros U. rewrite U. cbn [negb orb]. destruct (d_known_fgrad d); eauto. }
  assert (NN : noise_nn hp).
  { split; cbn [hp hp_var_fval hp_var_fgrad]; intros v Hv; [destruct (d_known_fval d)|destruct (negb (o_use_grad o) || d_known_fgrad d)]; try discriminate; injection Hv as <-; assumption. }
  assert (HY : hyper_ok o hp).
  { split; [reflexivity|]. split; [intros j Hj; exact P1|]. cbn [hp hp_kernel]. destruct (o_kernel o); simpl; auto. exists 2. split; [reflexivity|lra]. }
  assert (LI : lkd_input o d hp). { split; [exact H1|]. split; [exact H2|]. split; [exact H3|]. split; [exact HY|]. split; [exact NC|]. split; [exact NN|]. intros _. exists (i_varK (c_init c)). split; [reflexivity|exact P2]. }
  assert (EV : eff_varK hp None false = Some (i_varK (c_init c))) by reflexivity.
  assert (EX : exists k', K_of o d (la_cond la) false hp = Ok k' /\ k_cond k' <> None).
  { unfold K_of. rewrite (li_Rt _ _ _ LI). destruct (wmtd_precon (o_well o)) as [W'|W'].
    - destruct (rok_ex _ _ (call_precon _ _ (la_cond la) hp None false true None false _ RD HY (li_noise _ _ _ LI) EV P2 W' (H3 W'))) as (k' & E' & Q). exists k'. split; [exact E'|]. destruct Q as (e & Kc & Kp & _ & _ & _ & _ & _ & _ & _ & _ & _ & A11 & _). rewrite A11. discriminate.
    - destruct (rok_ex _ _ (call_plain _ _ (la_cond la) hp None false true None false _ RD HY (li_noise _ _ _ LI) EV P2 W')) as (k' & E' & Q). exists k'. split; [exact E'|]. destruct Q as (e & _ & _ & _ & _ & _ & _ & _ & A11 & _). rewrite A11. discriminate. }
  destruct EX as (k & EK & KC). exists hp, (mkvec n_beta (fun i0 : nat => if (i0 =? 0)%nat then vsum fv / INR (vlen fv) else 0)), (k_cond k).
  split; [unfold K_of in EK; rewrite EK; reflexivity|]. split; [reflexivity|]. split; [reflexivity|]. split; [reflexivity|]. split; [cbn [hp hp_kernel]; destruct (o_kernel o); reflexivity|].
  split; [reflexivity|]. split; [intros U; cbn [hp hp_var_fgrad]; rewrite U; reflexivity|]. split; [intros U; cbn [hp hp_var_fgrad]; rewrite U; reflexivity|].
  split; [reflexivity|]. split; [reflexivity|]. split.
  { cbn [vat Nat.eqb]. unfold vsum. rewrite L1. assert (0 < INR (d_n_eval d)) by (apply lt_0_INR; lia).
    transitivity (rsum (d_n_eval d) (vat fv)); [field; lra|]. apply rsum_ext. intros p Hp. rewrite F1 by exact Hp. unfold scaled_value, out_shift, out_scale, std_scale. destruct (d_scl d); reflexivity. }
  split; [|split; [exists k; auto|exact KC]].
  intros SD. split; [exact H1|]. split; [exact H2|]. split; [exact H3|]. split; [exact HY|]. split; [exact NC|]. split; [exact NN|]. split; [reflexivity|]. split; [exact P2|]. split; [eexists; split; [reflexivity|split; reflexivity]|]. exact SD.
Qed.
Print Assumptions C41_few_points.

(** ** C41, with the loop that changes the scaling (methods 'rescale_origin' and 'rescale_eta_vary') *)
(** the vector an optimisation on the object [s] gives; the results do not depend on what has been evaluated before *)
Definition optz_vec (la : npla) (mini : nat -> vec -> optimiser) (s : gpobj) (cnt : nat) (v : vec) : res vec :=
  r <- snd (optz_hp_max_lkd la (mini cnt) s [v]) ;; Ok (fst (fst r)).
Lemma resc_obj_loop la mini tol xs sc k : forall cnt s0 s th best cond s' l b c, clean s -> clean s0 -> same_data s0 s ->
  resc_obj la mini k cnt tol xs sc s th best cond = (s', Ok (l, b, c)) ->
  resc_loop k cnt (o_dim (g_opt s0)) (lk_log_theta (g_lk s0)) tol xs sc (optz_vec la mini s0) th best = Ok (l, b) /\ clean s' /\ same_data s0 s' /\
  ((b = best /\ c = cond) \/ exists cnt' v inf, (cnt <= cnt')%nat /\ snd (optz_hp_max_lkd la (mini cnt') s0 [v]) = Ok (b, c, inf)).
Proof.
  induction k as [|k IH]; intros cnt s0 s th best cond s' l b c C C0 E H; [discriminate|]. cbn [resc_obj resc_loop] in *. assert (E' := E). destruct E' as (E1 & E2 & E3 & E4). rewrite <- E1, <- E2 in H.
  destruct (rescaling_data_w_theta_sol (o_dim (g_opt s0)) (lk_log_theta (g_lk s0)) xs sc th (/ 10 ^ 15)) as [t|e]; [|discriminate]. cbn [bind].
  destruct ((k =? 0)%nat || (if Rlt_dec (tr_dist t) tol then true else false)).
  { injection H as <- <- <- <-. split; [reflexivity|]. split; [exact C|]. split; [exact E|]. left. split; reflexivity. }
  set (x0 := put_theta (o_dim (g_opt s0)) best (tr_theta t)) in *.
  destruct (optz_agree la (mini cnt) [x0] s0 s C0 C E) as (A1 & A2 & A3 & A4 & A5).
  destruct (optz_hp_max_lkd la (mini cnt) s [x0]) as [s1 r1]. cbn [fst snd] in *. destruct r1 as [[[b1 c1] i1]|e]; [|discriminate].
  destruct (resc_obj la mini k (S cnt) tol xs sc s1 (tr_theta t) b1 c1) as [s2 r2] eqn:ER. injection H as <- H. binv H y Ey. subst r2. destruct y as ((l2, b2), c2). injection H as <- <- <-.
  destruct (IH (S cnt) s0 s1 (tr_theta t) b1 c1 s2 l2 b2 c2) as (B1 & B2 & B3 & B4); auto; [eapply same_trans; [exact E|exact A5]|].
  unfold optz_vec at 1. rewrite A1. cbn [bind fst]. rewrite B1. cbn [bind fst snd]. split; [reflexivity|]. split; [exact B2|]. split; [exact B3|]. right.
  destruct B4 as [(-> & ->)|(cnt' & v & inf & L & Q)]; [exists cnt, x0, i1; split; [lia|exact A1]|exists cnt', v, inf; split; [lia|exact Q]].
Qed.
Theorem C41_rescaled :
  forall (la : npla) (lhs : sampler) (mini : minimiser) (c : optzcfg) (hst : hist) (i : nat) (o : gpopt) (lo : lkopt) (d : gpdata) (info : hpinfo) (h : list event),
  let s := do_events la (new_obj o lo d info) h in
  optz_ready s -> (c_const_n c < d_n_eval (g_data s))%nat -> (1 < d_n_eval (g_data s))%nat -> is_rescale (o_well (g_opt s)) = true -> (1 < c_max_iter c)%nat ->
  forall s' hp cond rep, optz_hp la lhs mini c hst i s = (s', Ok (hp, cond, rep)) ->
  exists starts bnd x0s best0 cond0 info' r best' r',
    select_hp_optz_x0 la lhs (g_opt s) (g_data s) (g_lk s) (c_x0 c) (g_info s) hst i = Ok (starts, bnd) /\ rmap row_real starts = Ok x0s /\
    snd (optz_hp_max_lkd la (mini 0%nat bnd) s x0s) = Ok (best0, cond0, info') /\ rep = Some info' /\
    (* the rescaling loop of C19 with the real optimisations *)
    d_scl (g_data s) = Some r /\
    optz_rescale (o_dim (g_opt s)) (d_n_eval (g_data s)) (c_max_iter c) (lk_log_theta (g_lk s)) (c_tol c) (optz_vec la (fun n => mini n bnd) s) r best0 = Ok (best', r') /\
    (* the object afterwards: only the scaling has changed, and it is still ready *)
    g_opt s' = g_opt s /\ g_lk s' = g_lk s /\ g_info s' = g_info s /\ g_data s' = with_scl (g_data s) r' /\ optz_ready s' /\
    (* what is stored belongs to the new scaling *)
    stands_for (g_data s') (g_info s') best' hp /\ best_mean_and_variance (g_opt s') (g_data s') (la_cond la) hp /\
    (scale_defined (g_opt s') (g_data s') -> exists vK b0, eval_input (g_opt s') (g_data s') hp vK b0) /\
    (* the reported condition number is that of an optimisation with the previous scaling *)
    (cond = cond0 \/ exists cnt v b inf, snd (optz_hp_max_lkd la (mini cnt bnd) s [v]) = Ok (b, cond, inf)).
Proof.
  intros la lhs mini c hst i o lo d info h s HR HN HN1 HB HM s' hp cond rep H. assert (C : clean s) by (apply events_clean; exact I).
  unfold optz_hp in H. destruct (Nat.leb_spec (d_n_eval (g_data s)) (c_const_n c)) as [NA1|NA1]; [lia|]. rewrite HB in H. destruct (Nat.ltb_spec 1 (c_max_iter c)) as [NA2|NA2]; [|lia]. cbn [andb] in H.
  destruct (select_hp_optz_x0 la lhs (g_opt s) (g_data s) (g_lk s) (c_x0 c) (g_info s) hst i) as [p|e] eqn:E1; [|discriminate]. cbn [bind] in *.
  destruct p as (st, bnd). cbn [fst snd] in *. destruct (rmap row_real st) as [x0s|e] eqn:E2; [|discriminate]. cbn [bind] in *. cbv zeta in *.
  destruct (optz_hp_max_lkd_mtd_rescale la (fun n => mini n bnd) (c_max_iter c) (c_tol c) s x0s) as [s9 r9] eqn:EM. injection H as -> H. binv H y Ey. subst r9. destruct y as ((best', cd), inf).
  unfold optz_hp_max_lkd_mtd_rescale in EM. rewrite HB in EM. destruct (optz_same la (mini 0%nat bnd) s x0s C) as (SD & C1).
  destruct (optz_hp_max_lkd la (mini 0%nat bnd) s x0s) as [s1 r1] eqn:EO. cbn [fst snd] in *. destruct r1 as [[[best0 cond0] inf0]|e]; [|discriminate].
  assert (SD' := SD). destruct SD' as (S1 & S2 & S3 & S4). rewrite <- S3 in EM. destruct (Nat.ltb_spec 1 (d_n_eval (g_data s))) as [NA3|NA3]; [|lia].
  destruct (d_scl (g_data s)) as [r|] eqn:EsR; [|discriminate]. cbv zeta in EM. rewrite <- S1 in EM.
  destruct (resc_obj la (fun n => mini n bnd) (c_max_iter c) 1 (c_tol c) (r_xscl r) (r_scale r) s1 (get_theta (o_dim (g_opt s)) best0) best0 cond0) as [s2 r2] eqn:ER.
  destruct r2 as [[[l b] cc]|e]; [|discriminate]. destruct (resc_obj_loop la (fun n => mini n bnd) (c_tol c) (r_xscl r) (r_scale r) (c_max_iter c) 1 s s1 _ _ _ s2 l b cc C1 C SD ER) as (R1 & R2 & R3 & R4).
  cbn [bind] in EM. destruct (pick_min l) as [t|e] eqn:EP; [|discriminate]. cbn [bind] in EM. destruct R3 as (T1 & T2 & T3 & T4). rewrite <- T3 in EM.
  destruct (rescale_data (g_data s) (tr_scale t)) as [d'|e] eqn:ED; [|discriminate]. cbn [bind] in EM. injection EM as <- <- <- <-.
  assert (ED' := ED). unfold rescale_data in ED'. rewrite EsR in ED'. binv ED' r' Er'. injection ED' as ED'.
  cbn [g_opt g_lk g_info g_data with_data] in *. rewrite <- T1, <- T2, <- T4 in *. binv H hp0 EH. binv H hp1 EC. injection H as -> <- <-.
  assert (HR' := HR). destruct HR' as (H1 & H2 & H3 & H4 & H5 & H6 & HI).
  assert (RDY : optz_ready (with_data s2 d')).
  { unfold optz_ready. cbn [g_opt g_lk g_info g_data with_data]. rewrite <- T1, <- T2, <- T4. split; [exact H1|]. split.
    { destruct H2 as (x & fv & sf & g & sg & bb & Q1 & Q2 & Q3 & Q4). exists x, fv, sf, g, sg, bb. split; [exact Q1|]. split; [exact Q2|]. split; [exact Q3|]. apply (after_rescale _ _ _ _ _ _ _ (g_data s) (tr_scale t)); [exact Q4|exact ED]. }
    split; [exact H3|]. split; [exact H4|]. split; [exact H5|]. subst d'. split; [exact H6|exact HI]. }
  assert (RDY' := RDY). destruct RDY' as (J1 & J2 & J3 & J4 & J5 & J6 & JI). cbn [g_opt g_lk g_info g_data with_data] in *. rewrite <- T1, <- T2, <- T4 in *.
  destruct (finish la _ _ _ _ _ hp0 hp J1 J2 J3 J4 J5 J6 JI EH EC) as (F1 & F2 & F3 & _).
  exists st, bnd, x0s, best0, cond0, inf0, r, (put_theta (o_dim (g_opt s)) b (tr_theta t)), r'.
  split; [reflexivity|]. split; [exact E2|]. split; [rewrite EO; reflexivity|]. split; [reflexivity|]. split; [reflexivity|]. split.
  { unfold optz_rescale. destruct (Nat.ltb_spec 1 (d_n_eval (g_data s))) as [NA4|NA4]; [|lia]. rewrite R1. cbn [bind fst snd]. rewrite EP. cbn [bind]. rewrite Er'. reflexivity. }
  split; [reflexivity|]. split; [reflexivity|]. split; [reflexivity|]. split; [symmetry; exact ED'|]. split; [exact RDY|]. split; [exact F1|]. split; [exact F2|]. split; [exact F3|].
  destruct R4 as [(_ & ->)|(cnt' & v & inf & _ & Q)]; [left; reflexivity|right; exists cnt', v, b, inf; exact Q].
Qed.
Print Assumptions C41_rescaled.
