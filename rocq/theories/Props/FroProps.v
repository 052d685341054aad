(** * C42, refuted part: the option cond_norm = 'fro' with noisy data *)
From Coq Require Import Reals List Arith Bool Lia Lra.
From Verif.Base Require Import NpLite NpFacts.
From Verif.Spec Require Import KernelSpec LinAlgSpec GpSpec HpSpec DataSpec LkdSpec OptzSpec RescaleSpec EvalSpec CondSpec StartSpec.
From Verif.Model Require Import KernelSqExp KernelMatern KernelRatQuad KernelDispatch CommonFun WellCond Rescaling GpState Chol Cov HpInfo HpGrad MeanFun Lkd OptzLkd RescaleLoop History StartPts OptzHp.
From Verif.Proofs Require Import KernTac LinAlg CovStruct StateFacts NoiseFacts NuggetCond NuggetMain HpInfoFacts HpGradFacts HpGradMain LkdMain CondLkd OptzHpFacts.
From Verif.Props Require Import CondProps DataProps HpGradProps LkdProps OptzProps OptzHpProps CondGradProps OptzTotal OptzTotal2.
Import ListNotations.
Local Open Scope R_scope.

Lemma fro_raises la o d lo info hp adj A : la_fro la = true -> o_well o <> Wprecon -> d_noisy d = true -> lkd_input o d hp ->
  lkd_matrix o d (la_cond la) true hp = Ok A -> mat_at A 0 0 <= 1 \/ o_cond_max_abs o < la_cond la A ->
  forall r, calc_lkd_all la o d lo info hp true true adj <> Ok r.
Proof.
  intros LF W Z LI EA HB r H. unfold lkd_matrix in EA. rewrite Z in EA. unfold Kcov_of in EA. unfold calc_lkd_all in H. rewrite Z, (li_Rt o d hp LI) in H. cbv zeta in H.
  destruct (calc_all_K_w_chofac o d (la_cond la) (d_Rt d) hp None true true None false) as [out|e] eqn:EO; [|discriminate]. cbn in EA. injection EA as EA. rewrite bind_Ok in H.
  destruct (chofac_iff o d (la_cond la) (d_Rt d) hp None false out W EO) as (_ & NO). rewrite EA in NO.
  binv H Kg E1. binv H l E2. cbn [andb] in H. binv H c E3. unfold calc_cond_w_grad in E3. rewrite LF in E3. unfold calc_cond_fronorm_w_grad in E3. rewrite EA in E3. binv E3 u E4.
  destruct HB as [HB|HB]; [|rewrite (NO HB) in E3; discriminate].
  destruct ((nr A =? 0)%nat || (nc A =? 0)%nat); [discriminate|]. destruct (Rlt_dec 1 (mat_at A 0 0)); [lra|discriminate].
Qed.

(** Full claim (C42): the functions handed to the optimiser do not raise.  It is false with the option cond_norm = 'fro'
    and noisy data: at every vector where the first entry of the covariance matrix is at most 1 (an assertion), or
    where its condition number is above cond_max_abs (the missing factorisation is used), all four functions raise.
    (C42_evaluation_never_raises covers 'fro' without noise.) *)
Theorem C42_frobenius_norm_refuted :
  forall (la : npla) (o : gpopt) (lo : lkopt) (d : gpdata) (info : hpinfo) (h : list event) (v : vec) (hp : hpv) (A : mat),
  let s := do_events la (new_obj o lo d info) h in
  la_fro la = true -> o_well (g_opt s) <> Wprecon -> d_noisy (g_data s) = true -> optz_ready s ->
  hp_vec2dataclass (g_data s) (g_info s) v = Ok hp -> lkd_matrix (g_opt s) (g_data s) (la_cond la) true hp = Ok A ->
  mat_at A 0 0 <= 1 \/ o_cond_max_abs (g_opt s) < la_cond la A ->
  (forall y, snd (return_optz_val la s v) <> Ok y) /\ (forall y, snd (return_optz_grad la s v) <> Ok y) /\
  (forall y, snd (return_cond_val la s v) <> Ok y) /\ (forall y, snd (return_cond_grad la s v) <> Ok y).
Proof.
  intros la o lo d info h v hp A s LF W Z HR EV EA HB. assert (C : clean s) by (apply events_clean; exact I).
  destruct HR as (H1 & H2 & H3 & H4 & H5 & H6 & HI). destruct (decoded_ok _ _ _ _ v hp H1 H2 H3 H4 H5 H6 HI EV) as (LI & _).
  assert (UC : b_use_cond_cstr (g_opt s) = true) by (unfold b_use_cond_cstr; destruct (o_well (g_opt s)); try (exfalso; congruence); reflexivity).
  assert (FR : exists e, fresh_likelihood la s v false true = Err e).
  { destruct (fresh_likelihood la s v false true) as [st|e] eqn:F; [exfalso|eauto]. unfold fresh_likelihood in F. rewrite EV, bind_Ok in F. cbv zeta in F. rewrite UC in F. cbn [orb] in F. binv F r ER.
    exact (fro_raises la _ _ _ _ hp _ A LF W Z LI EA HB r ER). }
  destruct FR as (e & FR). destruct (eval_clean la s v false true C) as (E & _). rewrite FR in E.
  unfold return_optz_val, return_optz_grad, return_cond_val, return_cond_grad, lift_st. destruct (calc_store_likelihood la s v false true) as [s' r]. cbn [snd] in E. subst r. cbn [snd bind].
  split; [intros y Y; discriminate Y|]. split; [intros y Y; discriminate Y|]. split; intros y Y; discriminate Y.
Qed.
Print Assumptions C42_frobenius_norm_refuted.

(** such vectors exist: small variances of the kernel and of the noise *)
Definition la_fro_ex : npla := mknpla (fun _ => 1) (fun _ => 1) (fun A => (vconst (nr A) 1, mconst (nr A) (nr A) 0)) true.
Example C42_frobenius_norm_reachable : exists d info v hp A,
  let s := do_events la_fro_ex (new_obj rx_opt lk_default d info) [] in
  la_fro la_fro_ex = true /\ eig_shapes la_fro_ex /\ o_well (g_opt s) <> Wprecon /\ d_noisy (g_data s) = true /\ optz_ready s /\ askable s v /\
  hp_vec2dataclass (g_data s) (g_info s) v = Ok hp /\ lkd_matrix (g_opt s) (g_data s) (la_cond la_fro_ex) true hp = Ok A /\ mat_at A 0 0 <= 1.
Proof.
  destruct rx_data as (d & info & RD & KS & SD & K3 & K4 & K5 & KN). cbv zeta in RD. assert (HR := RD). destruct HR as (H1 & H2 & H3 & H4 & H5 & H6 & HI).
  change (opts_ok rx_opt) in H1. change (data_set rx_opt d) in H2. change (setup_hp_idx4optz rx_opt d lk_default = Ok info) in HI.
  assert (R0 := ready _ _ H1 H2). destruct (gr_eta _ _ R0) as (ek & eg & _ & EK). assert (NW : o_well rx_opt <> Wprecon) by discriminate.
  destruct (etaK_pos rx_opt d R0) as (e & Ee & Pe).
  set (t := / (2 + e)). assert (T0 : 0 < t) by (apply Rinv_0_lt_compat; lra). set (v := vconst (hi_n info) (ln t / ln 10)).
  assert (L10 : ln 10 <> 0) by (assert (0 < ln 10) by (rewrite <- ln_1; apply ln_increasing; lra); lra).
  assert (P10 : Rpower 10 (ln t / ln 10) = t). { unfold Rpower. replace (ln t / ln 10 * ln 10) with (ln t) by (field; exact L10). apply exp_ln, T0. }
  assert (HI' := HI). unfold setup_hp_idx4optz in HI'.
  destruct (C21_vector_round_trip _ _ _ _ _ _ _ _ v HI' (fun e => e) (fun e => e) (fun e => e) eq_refl) as (hp & EV & _).
  destruct (decoded_ok _ _ _ _ v hp H1 H2 H3 H4 H5 H6 HI EV) as (LI & _ & _ & GT & _).
  assert (HV : hp_varK hp = Some t /\ hp_var_fval hp = Some t).
  { destruct (C21_index_sets_partition _ _ _ _ _ _ _ _ _ HI') as (_ & _ & PS & PL & _).
    assert (X : forall s, In s (slots (o_dim rx_opt) true (lk_optz_kernel lk_default && kernel_has_hp (o_kernel rx_opt)) (d_noisy d) (d_opt_fval d) (d_opt_fgrad d)) -> hp_get hp s = Some t).
    { intros s Hs. rewrite GT. apply In_nth_error in Hs. destruct Hs as (r & Hr). apply PS in Hr. rewrite Hr. f_equal. cbn [v vat vconst]. exact P10. }
    rewrite K3, K4, K5 in X. split; [apply (X HVarK)|apply (X HVarF)]; cbn; auto 10. }
  destruct HV as (V1 & V2).
  destruct (C42_evaluation_with_condition_number_succeeds la_fro_ex rx_opt d lk_default _ _ _ _ _ info hp true LI NW HI') as (A & _ & _ & EA & _).
  exists d, info, v, hp, A. intros s. split; [reflexivity|]. split; [intros B E; cbn; auto|]. split; [exact NW|]. split; [exact K3|]. split; [exact RD|]. split; [apply (smooth_askable s); [left; reflexivity|reflexivity]|]. split; [exact EV|]. split; [exact EA|].
  destruct (first_entry la_fro_ex rx_opt d hp t true A LI NW EA) as (e' & _ & F & _ & Q); [rewrite K3; exact V1|]. specialize (Q eq_refl). assert (e' = e) by congruence. subst e'. rewrite F.
  unfold noise_fn, noise_row. assert (WF := gr_wf _ _ R0). destruct (opt_flags _ _ H2) as (O1 & _). rewrite K4 in O1. assert (KF : d_known_fval d = false) by (destruct (d_known_fval d); [discriminate|reflexivity]).
  assert (ZF : d_fval_zero d = false) by (destruct (d_fval_zero d) eqn:X; [apply (wf_zf _ _ WF) in X; congruence|reflexivity]). rewrite ZF. cbn [andb].
  assert (U := unradr_F d 0%nat). assert (NN := gr_n _ _ R0). destruct (unradr (d_n_eval d) (d_n_grad d) 0); [|lia]. unfold noise_fval. assert (KK := wf_kf _ _ WF). rewrite KF in KK. destruct (d_std_fval d); [discriminate|]. rewrite V2.
  replace (t * (1 + e) + t) with (t * (2 + e)) by ring. unfold t. rewrite Rinv_l by lra. lra.
Qed.
