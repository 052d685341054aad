(** * C42, refuted part: the rational quadratic kernel with a parameter alpha that is not optimised *)
From Coq Require Import Reals List Arith Bool Lia Lra.
From Verif.Base Require Import NpLite NpFacts.
From Verif.Spec Require Import KernelSpec LinAlgSpec GpSpec HpSpec DataSpec LkdSpec OptzSpec RescaleSpec EvalSpec CondSpec StartSpec.
From Verif.Model Require Import KernelSqExp KernelMatern KernelRatQuad KernelDispatch CommonFun WellCond Rescaling GpState Chol Cov HpInfo HpGrad MeanFun Lkd OptzLkd RescaleLoop History StartPts OptzHp.
From Verif.Proofs Require Import KernTac LinAlg CovStruct StateFacts NoiseFacts NuggetCond NuggetMain HpInfoFacts HpGradFacts LkdMain OptzHpFacts.
From Verif.Props Require Import CondProps DataProps HpGradProps LkdProps OptzProps OptzHpProps OptzTotal OptzTotal2.
Import ListNotations.
Local Open Scope R_scope.

Lemma kern_no_alpha g R th b1 b2 M : calc_Kern g RatQu R th None b1 b2 <> Ok M.
Proof. destruct g; cbn; discriminate. Qed.
Lemma call_no_alpha o d condf R hp nz ch cn va bn out : o_kernel o = RatQu -> hp_kernel hp = None -> calc_all_K_w_chofac o d condf R hp nz ch cn va bn <> Ok out.
Proof.
  intros EK EH H. unfold calc_all_K_w_chofac in H. cbv zeta in H. binv_assert H. binv H v1 E1. binv H v2 E2. binv H nv E3. binv H Kn E4. rewrite EK, EH in E4. exact (kern_no_alpha _ _ _ _ _ _ E4).
Qed.
Lemma lkd_no_alpha la o d lo info hp cnd cg adj l : o_kernel o = RatQu -> hp_kernel hp = None -> calc_lkd_all la o d lo info hp cnd cg adj <> Ok l.
Proof.
  intros EK EH H. unfold calc_lkd_all in H. cbv zeta in H. destruct (d_noisy d).
  - binv H out E1. exact (call_no_alpha _ _ _ _ _ _ _ _ _ _ _ EK EH E1).
  - binv H out E1. unfold calc_Kern_w_chofac in E1. binv E1 u E0. exact (call_no_alpha _ _ _ _ _ _ _ _ _ _ _ EK EH E1).
Qed.

(** Full claim (C42): the functions handed to the optimiser do not raise.  It is false for the rational quadratic
    kernel when the option to optimise the kernel's parameter is off: nothing sets the parameter (it is None), and
    every evaluation, at every vector, raises, whatever happened before. *)
Theorem C42_fixed_kernel_parameter_refuted :
  forall (la : npla) (o : gpopt) (lo : lkopt) (d : gpdata) (info : hpinfo) (h : list event),
  let s := do_events la (new_obj o lo d info) h in
  o_kernel (g_opt s) = RatQu -> lk_optz_kernel (g_lk s) = false -> setup_hp_idx4optz (g_opt s) (g_data s) (g_lk s) = Ok (g_info s) ->
  (forall v, (forall y, snd (return_optz_val la s v) <> Ok y) /\ (forall y, snd (return_optz_grad la s v) <> Ok y) /\
    (forall y, snd (return_cond_val la s v) <> Ok y) /\ (forall y, snd (return_cond_grad la s v) <> Ok y)) /\
  (forall mini x0s y, snd (optz_hp_max_lkd la mini s x0s) <> Ok y) /\
  (forall lhs mini c hst i y, (c_const_n c < d_n_eval (g_data s))%nat -> snd (optz_hp la lhs mini c hst i s) <> Ok y).
Proof.
  intros la o lo d info h s EK LK HI. assert (C : clean s) by (apply events_clean; exact I).
  assert (NK : forall v hp, hp_vec2dataclass (g_data s) (g_info s) v = Ok hp -> hp_kernel hp = None).
  { intros v hp HV. assert (HV' := HV). unfold setup_hp_idx4optz in HI.
    destruct (C21_index_sets_partition _ _ _ _ _ _ _ _ _ HI) as (HN & HL & PS & _).
    unfold hp_vec2dataclass in HV'. binv HV' u Eu. destruct (Nat.eqb_spec (length (hi_log (g_info s))) (vlen v)) as [LV|]; [|discriminate]. clear HV'.
    destruct (C21_vector_round_trip _ _ _ _ _ _ _ _ v HI (fun e => e) (fun e => e) (fun e => e) ltac:(congruence)) as (hp' & E & _ & _ & _ & Q).
    assert (hp' = hp) by congruence. subst hp'. apply (Q HKernel). destruct (position (g_info s) HKernel) as [r|] eqn:EP; [|reflexivity].
    apply PS, slots_nth in EP. rewrite LK in EP. destruct EP; discriminate. }
  assert (FR : forall v a g st, fresh_likelihood la s v a g <> Ok st).
  { intros v a g st H. unfold fresh_likelihood in H. binv H hp EV. cbv zeta in H. binv H r ER. exact (lkd_no_alpha _ _ _ _ _ _ _ _ _ _ EK (NK v hp EV) ER). }
  assert (EV : forall v a g, exists e, snd (calc_store_likelihood la s v a g) = Err e).
  { intros v a g. destruct (eval_clean la s v a g C) as (E & _). rewrite E. destruct (fresh_likelihood la s v a g) as [st|e] eqn:F; [destruct (FR _ _ _ _ F)|eauto]. }
  assert (OP : forall mini x0s y, snd (optz_hp_max_lkd la mini s x0s) <> Ok y).
  { intros mini x0s y H. unfold optz_hp_max_lkd in H. destruct (optz_all la mini x0s s (mkis 0 0 None)) as [s1 r1]. cbn [snd] in H. binv H x Ex. destruct x as (l & st). binv H c Ec. cbv zeta in H. binv H hp EH. binv H k EKk.
    destruct (d_noisy (g_data s)); [exact (call_no_alpha _ _ _ _ _ _ _ _ _ _ _ EK (NK _ _ EH) EKk)|]. unfold calc_Kern_w_chofac in EKk. binv EKk u Eu. exact (call_no_alpha _ _ _ _ _ _ _ _ _ _ _ EK (NK _ _ EH) EKk). }
  split; [|split; [exact OP|]].
  - intros v. unfold return_optz_val, return_optz_grad, return_cond_val, return_cond_grad, lift_st. destruct (EV v false true) as (e & E).
    destruct (calc_store_likelihood la s v false true) as [s' r]. cbn [snd] in E. subst r. cbn [snd bind]. split; [intros y Y; discriminate Y|]. split; [intros y Y; discriminate Y|]. split; intros y Y; discriminate Y.
  - intros lhs mini c hst i y NC H. unfold optz_hp in H. destruct (Nat.leb_spec (d_n_eval (g_data s)) (c_const_n c)); [lia|].
    destruct (p <- select_hp_optz_x0 _ _ _ _ _ _ _ _ _ ;; _) as [[x0s bnd]|e]; [|discriminate]. cbv zeta in H.
    destruct (is_rescale (o_well (g_opt s)) && (1 <? c_max_iter c)%nat) eqn:IR.
    + apply andb_true_iff in IR. destruct IR as (IR & _). unfold optz_hp_max_lkd_mtd_rescale in H. rewrite IR in H. destruct (optz_hp_max_lkd la (mini 0%nat bnd) s x0s) as [s1 r1] eqn:E1. assert (X := OP (mini 0%nat bnd) x0s). rewrite E1 in X. destruct r1 as [y1|e1]; [destruct (X y1 eq_refl)|]. cbn in H. discriminate.
    + destruct (optz_hp_max_lkd la (mini 0%nat bnd) s x0s) as [s1 r1] eqn:E1. assert (X := OP (mini 0%nat bnd) x0s). rewrite E1 in X. destruct r1 as [y1|e1]; [destruct (X y1 eq_refl)|]. cbn in H. discriminate.
Qed.
Print Assumptions C42_fixed_kernel_parameter_refuted.

(** the option is accepted: such an object exists, and everything C42 asks for but that option is met *)
Definition lk_fixed : lkopt := mklk true true true false true false (1 / 10) 1 10.
Example C42_fixed_kernel_parameter_reachable : exists d info,
  let s := do_events la_dummy (new_obj hx_opt lk_fixed d info) [] in
  opts_ok hx_opt /\ data_set hx_opt d /\ log_scale lk_fixed /\ noise_optimisable hx_opt d /\ (0 < d_n_eval d)%nat /\
  o_kernel (g_opt s) = RatQu /\ lk_optz_kernel (g_lk s) = false /\ setup_hp_idx4optz (g_opt s) (g_data s) (g_lk s) = Ok (g_info s).
Proof.
  destruct hx_data as (d & D & K1 & K2 & K3 & K4 & K5 & K6).
  destruct (info_total hx_opt d lk_fixed true false true true true) as (info & EI); auto; try discriminate.
  exists d, info. intros s. assert (OO : opts_ok hx_opt) by (split; [simpl; lia|split; simpl; lra]).
  split; [exact OO|]. split; [exact D|]. split; [repeat split|]. split; [left; reflexivity|]. split; [exact (gr_n _ _ (ready _ _ OO D))|]. split; [reflexivity|]. split; [reflexivity|].
  change (set_hp_optz_info hx_opt d lk_fixed true false (d_noisy d) (d_opt_fval d) (d_opt_fgrad d) = Ok info). rewrite K3, K4, K5. exact EI.
Qed.
