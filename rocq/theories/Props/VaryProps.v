(** * Properties C25 and C26 with a nugget that varies with the hyperparameters ('rescale_eta_vary', l.53-57 of
    GpWellCond.set_wellcond_mtd): what is left of the claims.  Vocabulary as in [Props/HpGradProps.v]. *)
From Coq Require Import Reals List Arith Bool Lia Lra.
From Coquelicot Require Import Coquelicot.
From Verif.Base Require Import NpLite NpFacts Deriv.
From Verif.Spec Require Import KernelSpec LinAlgSpec GpSpec HpSpec LkdSpec.
From Verif.Model Require Import KernelSqExp KernelMatern KernelRatQuad KernelDispatch CommonFun WellCond Rescaling GpState Chol Cov HpInfo HpGrad MeanFun Lkd.
From Verif.Proofs Require Import KernTac ThetaGradMask CovStruct StateFacts NoiseFacts NuggetCond NuggetMain HpInfoFacts HpGradFacts HpGradMain HpGradFree Psd RowSum Jets RadialFns Mixture LinAlg CholCorrect LinDeriv Det LkdCore LkdFacts LkdMain.
From Verif.Props Require Import CondProps HpGradProps LkdProps.
Import ListNotations.
Local Open Scope R_scope.

(** The varK slice, for every state: it is right exactly when the nugget used in the matrix happens to be the stored one *)
Theorem C26_varying_nugget_varK_refuted :
  forall (o : gpopt) (d : gpdata) (lo : lkopt) (condf : mat -> R) (ht hk hf hg cc cnd : bool) (info : hpinfo) (hp : hpv) (vK : R) (r : nat),
  opts_ok o -> data_set o d -> o_well o <> Wprecon -> o_eta_const o = false ->
  hyper_ok o hp -> noise_cfg o d hp -> noise_pos hp -> hp_varK hp = Some vK -> 0 < vK ->
  (ht = true -> theta_grad_supported o d hp) ->
  set_hp_optz_info o d lo ht hk true hf hg = Ok info ->
  nth_error (slots (o_dim o) ht hk true hf hg) r = Some HVarK ->
  exists out T, calc_all_K_w_chofac o d condf (d_Rt d) hp None cc cnd None false = Ok out /\
    calc_Kcov_grad_hp o d info hp (k_Kern out) (d_Rt d) = Ok T /\
    (is_mat_derive (fun t => Kcov_of o d condf cc cnd (hp_put hp HVarK t)) vK (d_n_data d) (d_n_data d) (tat T r) <->
     d_etaK d = Some (k_eta out)).
Proof.
  intros o d lo condf ht hk hf hg cc cnd info hp vK r H1 H2 HW HE Hh Hn Hnp HvK Hp HS HI Hr.
  assert (RD := ready o d H1 H2). destruct (etaK_pos o d RD) as (e & He & Pe).
  assert (EN : d_n_data d = cN o d) by apply (wf_n _ _ (gr_wf _ _ RD)). rewrite EN.
  assert (NA : noise_arg_ok o d hp None).
  { split; [exact Hn|]. destruct Hnp as (A & B). split; intros v E; left; auto. }
  assert (EV : eff_varK hp None false = Some vK) by (unfold eff_varK; rewrite HvK; reflexivity).
  destruct (rok_ex _ _ (call_plain o d condf hp None cc cnd None false vK RD Hh NA EV Hp HW)) as (out & EO & e1 & IS & Pe1 & KE & KO & _ & _ & KC & _).
  destruct (Kcov_grad_ok o d RD lo ht hk true hf hg info hp e vK HI He HvK Hh HS (k_Kern out) KO) as (T & Dth & Dal & ET & D1 & D2 & T1 & T2).
  exists out, T. split; [exact EO|]. split; [exact ET|]. rewrite KE, He.
  set (X := fst (get_scl_x_w_dist d)) in *.
  assert (N0 : (0 < cN o d)%nat) by (unfold cN; assert (Z := gr_n _ _ RD); lia).
  set (nf := noise_fn d hp None).
  assert (C : forall t, Rabs (t - vK) < vK -> exists K, Kcov_of o d condf cc cnd (hp_put hp HVarK t) = Ok K /\
     mspec (cN o d) (cN o d) K (fun i j => t * (ckf o d hp X i j + dl i j e1) + dl i j (nf i))).
  { intros t Ht. assert (Pt := near_pos vK t Hp Ht).
    assert (EV' : eff_varK (hp_put hp HVarK t) None false = Some t) by reflexivity.
    destruct (rok_ex _ _ (call_plain o d condf (hp_put hp HVarK t) None cc cnd None false t RD (put_hyper o d hp HVarK t Hh I Pt) (put_noise o d hp HVarK t NA I Pt) EV' Pt HW)) as (out' & EO' & e2 & IS' & Pe2 & KE' & KO' & _ & _ & KC' & _).
    assert (E21 : e2 = e1).
    { unfold eta_is in IS, IS'. rewrite HE in IS, IS'. destruct IS as (i & Hi & -> & Mi), IS' as (i' & Hi' & -> & Mi').
      change (ckf o d (hp_put hp HVarK t)) with (ckf o d hp) in *. fold X in Mi', Mi, Hi, Hi'.
      f_equal. apply Rle_antisym; auto. }
    rewrite E21 in KC'. exists (k_Kcov out'). split; [unfold Kcov_of; rewrite EO'; reflexivity|]. eapply mspec_ext; [exact KC'|].
    intros i j Hi Hj. cbv beta. unfold kn. change (ckf o d (hp_put hp HVarK t)) with (ckf o d hp). change (noise_fn d (hp_put hp HVarK t) None) with nf.
    fold X. unfold dl. destruct (i =? j)%nat; [|ring]. field; lra. }
  assert (DD : forall i j, (i < cN o d)%nat -> (j < cN o d)%nat -> is_derive (fun t => t * (ckf o d hp X i j + dl i j e1) + dl i j (nf i)) vK (ckf o d hp X i j + dl i j e1)).
  { intros i j _ _. auto_derive; [exact I|ring]. }
  split.
  - intros (del & Kt & Pd & Q1 & Q2). f_equal.
    specialize (Q2 0%nat 0%nat N0 N0). rewrite (T2 r HVarK Hr 0%nat 0%nat N0 N0) in Q2. cbn [hD] in Q2. rewrite pre_no in Q2 by exact HW. fold X in Q2.
    assert (D' : is_derive (fun t => mat_at (Kt t) 0 0) vK (ckf o d hp X 0 0 + dl 0 0 e1)).
    { eapply (dR_ext_near _ _ _ _ (Rmin del vK)); [apply Rmin_pos; assumption| |apply (DD 0%nat 0%nat N0 N0)].
      intros t Ht. assert (A := Rmin_l del vK). assert (B := Rmin_r del vK).
      destruct (Q1 t ltac:(lra)) as (E1 & _). destruct (C t ltac:(lra)) as (K & E2 & _ & _ & Z). rewrite E1 in E2. injection E2 as ->. symmetry. apply Z; auto. }
    assert (U := is_derive_unique _ _ _ Q2). rewrite (is_derive_unique _ _ _ D') in U. unfold dl in U. cbn [Nat.eqb] in U. lra.
  - intros E. injection E as ->. apply (md_intro _ vK _ _ _ vK _ Hp C). intros i j Hi Hj. rewrite (T2 r HVarK Hr i j Hi Hj). cbn [hD]. rewrite pre_no by exact HW.
    fold X. apply DD; auto.
Qed.
Print Assumptions C26_varying_nugget_varK_refuted.

(** ** A concrete state: two points, no gradients, noise-free data; 'rescale_eta_vary' was requested, which without
    gradients gives method 'base' with a varying nugget (C48) *)
Definition vx_opt : gpopt := gp_init 1 false SqExp Wresc_vary.
Definition vx_hp : hpv := mkhp None (mkvec 1 (fun _ => 1)) None (Some 1) None None.
Lemma vx_data : exists d, data_set vx_opt d /\ d_known_fval d = true /\ d_noisy d = false /\ d_bvec d = None /\
  d_n_eval d = 2%nat /\ d_n_grad d = 0%nat /\ d_etaK d = Some (2 / (10 ^ 10 - 1)) /\ (forall hp r, (r < 2)%nat -> noise_fn d hp None r = 0) /\ vat (ydata d) 0 = 0 /\ vat (ydata d) 1 = 1 /\
  forall hp i j, (i < 2)%nat -> (j < 2)%nat -> ckf vx_opt d hp (fst (get_scl_x_w_dist d)) i j = if (i =? j)%nat then 1 else exp (- (vat (hp_theta hp) 0 )).
Proof.
  assert (E : exists d, set_data vx_opt (mkmat 2 1 (fun i _ => INR i)) (mkvec 2 INR) (SdOk (vconst 2 0)) None SdNone None = Ok d /\
     d_known_fval d = true /\ d_noisy d = false /\ d_bvec d = None /\
  d_n_eval d = 2%nat /\ d_n_grad d = 0%nat /\ d_etaK d = Some (2 / (10 ^ 10 - 1)) /\ (forall hp r, (r < 2)%nat -> noise_fn d hp None r = 0) /\ vat (ydata d) 0 = 0 /\ vat (ydata d) 1 = 1 /\
  forall hp i j, (i < 2)%nat -> (j < 2)%nat -> ckf vx_opt d hp (fst (get_scl_x_w_dist d)) i j = if (i =? j)%nat then 1 else exp (- (vat (hp_theta hp) 0 ))).
  { unfold set_data. cbv zeta. cbn. unfold vmax_lt, mmax_lt. cbn.
  match goal with |- context [Rlt_dec ?a (/ _)] => destruct (Rlt_dec a (/ _)) as [L|L]; [|exfalso; apply L; try (unfold Rmax; destruct (Rle_dec 0 0)); apply Rinv_0_lt_compat; lra] end.
    cbn. eexists. split; [reflexivity|]. cbn [d_known_fval d_known_fgrad d_noisy d_bvec d_n_eval d_n_grad d_etaK].
    do 5 (split; [reflexivity|]). split; [f_equal; f_equal; lra|]. split; [intros hp r Hr; destruct r as [|[|r]]; [| |lia]; cbn; ring|]. split; [reflexivity|]. split; [reflexivity|].
    intros hp i j Hi Hj. unfold ckf, kjet, cobs, rowobs, unradr, rjet, sqd, cut. cbn -[INR exp]. 
    destruct i as [|[|i]], j as [|[|j]]; try lia; cbn -[INR exp].
    all: unfold KernGradBlocks.se0; change (INR 0) with 0; change (INR 1) with 1.
    - etransitivity; [|apply exp_0]. f_equal. ring.
    - f_equal. ring.
    - f_equal. ring.
    - etransitivity; [|apply exp_0]. f_equal. ring. }
  destruct E as (d & E & R). exists d. split; [|exact R]. do 6 eexists. split; [|split; [|split; [|apply after_set; exact E]]]; simpl; try reflexivity; lia.
Qed.

Lemma vx_eta d hp e : d_n_eval d = 2%nat -> d_n_grad d = 0%nat ->
  (forall i j, (i < 2)%nat -> (j < 2)%nat -> ckf vx_opt d hp (fst (get_scl_x_w_dist d)) i j = if (i =? j)%nat then 1 else exp (- (vat (hp_theta hp) 0 ))) ->
  eta_is vx_opt d (cN vx_opt d) (ckf vx_opt d hp (fst (get_scl_x_w_dist d))) e -> e = (1 + exp (- (vat (hp_theta hp) 0))) / (10 ^ 10 - 1).
Proof.
  intros N1 N2 CK IS. unfold cN in IS. rewrite N1, N2 in IS. unfold eta_is in IS. change (o_eta_const vx_opt) with false in IS. change (o_target vx_opt) with (10 ^ 10) in IS.
  cbv iota in IS. change (2 + 0 * o_dim vx_opt)%nat with 2%nat in IS. destruct IS as (i & Hi & -> & _). f_equal.
  assert (P := exp_pos (- vat (hp_theta hp) 0)).
  cbn [rsum]. rewrite !CK by lia. destruct i as [|[|i]]; [| |lia]; cbn [Nat.eqb]; rewrite Rabs_R1, (Rabs_right (exp _)) by lra; ring.
Qed.
Lemma vx_Kcov d condf cc cnd t : data_set vx_opt d -> d_known_fval d = true -> d_n_eval d = 2%nat -> d_n_grad d = 0%nat -> (forall hp r, (r < 2)%nat -> noise_fn d hp None r = 0) ->
  (forall hp i j, (i < 2)%nat -> (j < 2)%nat -> ckf vx_opt d hp (fst (get_scl_x_w_dist d)) i j = if (i =? j)%nat then 1 else exp (- (vat (hp_theta hp) 0 ))) ->
  0 < t -> exists K, Kcov_of vx_opt d condf cc cnd (hp_put vx_hp (HTheta 0) t) = Ok K /\ mspec 2 2 K (fun i j => if (i =? j)%nat then 1 + (1 + exp (- t)) / (10 ^ 10 - 1) else exp (- t)).
Proof.
  intros D K1 N1 N2 NF CK Pt.
  assert (O : opts_ok vx_opt) by (split; [simpl; lia|split; simpl; lra]). assert (RD := ready _ _ O D).
  set (hp := hp_put vx_hp (HTheta 0) t). assert (T0 : vat (hp_theta hp) 0 = t) by (cbn; unfold upd; reflexivity).
  assert (Hh : hyper_ok vx_opt hp). { split; [reflexivity|]. split; [|exact I]. intros i Hi. cbn in Hi. replace i with 0%nat by lia. rewrite T0. exact Pt. }
  assert (NA : noise_arg_ok vx_opt d hp None). { split; [split; [rewrite K1; reflexivity|discriminate]|]. split; discriminate. }
  destruct (rok_ex _ _ (call_plain vx_opt d condf hp None cc cnd None false 1 RD Hh NA eq_refl Rlt_0_1 ltac:(discriminate))) as (out & EO & e1 & IS & Pe1 & KE & KO & _ & _ & KC & _).
  apply (vx_eta d hp e1 N1 N2 (CK hp)) in IS. rewrite T0 in IS.
  exists (k_Kcov out). split; [unfold Kcov_of; rewrite EO; reflexivity|].
  replace (cN vx_opt d) with 2%nat in KC by (unfold cN; rewrite N1, N2; reflexivity). eapply mspec_ext; [exact KC|].
  intros i j Hi Hj. cbv beta. unfold kn. rewrite CK, NF, T0 by assumption. rewrite IS. unfold dl. destruct (i =? j)%nat; field; lra.
Qed.

(** The theta slice, on that state: the matrix depends on theta through its nugget, the slice ignores it *)
Theorem C26_varying_nugget_theta_refuted :
  exists d info, opts_ok vx_opt /\ data_set vx_opt d /\ o_well vx_opt <> Wprecon /\ o_eta_const vx_opt = false /\ hyper_ok vx_opt vx_hp /\ noise_cfg vx_opt d vx_hp /\ noise_pos vx_hp /\
    theta_grad_supported vx_opt d vx_hp /\ set_hp_optz_info vx_opt d lk_default true false true false false = Ok info /\
    forall condf cc cnd, exists out T,
      calc_all_K_w_chofac vx_opt d condf (d_Rt d) vx_hp None cc cnd None false = Ok out /\
      calc_Kcov_grad_hp vx_opt d info vx_hp (k_Kern out) (d_Rt d) = Ok T /\
      (* the slice of theta *)
      ~ is_mat_derive (fun t => Kcov_of vx_opt d condf cc cnd (hp_put vx_hp (HTheta 0) t)) 1 2 2 (tat T 0) /\
      (* and the slice of varK (the previous theorem) *)
      ~ is_mat_derive (fun t => Kcov_of vx_opt d condf cc cnd (hp_put vx_hp HVarK t)) 1 2 2 (tat T 1).
Proof.
  destruct vx_data as (d & D & K1 & Z & B & N1 & N2 & ET & NF & _ & _ & CK).
  assert (O : opts_ok vx_opt) by (split; [simpl; lia|split; simpl; lra]). assert (RD := ready _ _ O D).
  destruct (info_total vx_opt d lk_default true false true false false) as (info & EI); auto; try discriminate. exists d, info.
  assert (Hh : hyper_ok vx_opt vx_hp) by (split; [reflexivity|]; split; [intros; simpl; lra|exact I]).
  assert (Hn : noise_cfg vx_opt d vx_hp) by (split; [rewrite K1; reflexivity|discriminate]).
  assert (Hnp : noise_pos vx_hp) by (split; discriminate).
  assert (TS : theta_grad_supported vx_opt d vx_hp) by (cbn; discriminate).
  assert (HW : o_well vx_opt <> Wprecon) by discriminate.
  repeat (split; [assumption || reflexivity|]). intros condf cc cnd.
  assert (NA : noise_arg_ok vx_opt d vx_hp None) by (split; [exact Hn|split; discriminate]).
  assert (NN : cN vx_opt d = 2%nat) by (unfold cN; rewrite N1, N2; reflexivity).
  assert (EN : d_n_data d = 2%nat) by (rewrite <- NN; apply (wf_n _ _ (gr_wf _ _ RD))).
  destruct (rok_ex _ _ (call_plain vx_opt d condf vx_hp None cc cnd None false 1 RD Hh NA eq_refl Rlt_0_1 HW)) as (out & EO & e1 & IS & Pe1 & KE & KO & _ & _ & KC & _).
  apply (vx_eta d vx_hp e1 N1 N2 (CK vx_hp)) in IS. cbn [vx_hp hp_theta vat] in IS.
  destruct (Kcov_grad_ok vx_opt d RD lk_default true false true false false info vx_hp _ 1 EI ET eq_refl Hh (fun _ => TS) (k_Kern out) KO) as (T & Dth & Dal & ET' & D1 & _ & T1 & T2).
  exists out, T. split; [exact EO|]. split; [exact ET'|]. split.
  - intros (del & Kt & Pd & Q1 & Q2). specialize (Q2 0%nat 0%nat ltac:(lia) ltac:(lia)).
    rewrite (T2 0%nat (HTheta 0) eq_refl 0%nat 0%nat ltac:(lia) ltac:(lia)) in Q2. cbn [hD] in Q2. rewrite pre_no in Q2 by exact HW.
    assert (Z0 : Dth 0%nat 0%nat 0%nat = 0).
    { assert (A := D1 eq_refl 0%nat 0%nat 0%nat ltac:(cbn; lia) ltac:(lia) ltac:(lia)). apply is_derive_unique in A. rewrite <- A.
      rewrite (Derive_ext _ (fun _ => 1)); [apply Derive_const|]. intros t. apply (CK (hp_put vx_hp (HTheta 0) t) 0%nat 0%nat); lia. }
    rewrite Z0 in Q2.
    assert (D' : is_derive (fun t => mat_at (Kt t) 0 0) 1 (- exp (-1) / (10 ^ 10 - 1))).
    { eapply (dR_ext_near (fun t => 1 + (1 + exp (- t)) / (10 ^ 10 - 1)) _ _ _ (Rmin del 1)); [apply Rmin_pos; lra| |].
      - intros t Ht. assert (A := Rmin_l del 1). assert (B' := Rmin_r del 1).
        destruct (Q1 t ltac:(lra)) as (E1 & _). destruct (vx_Kcov d condf cc cnd t D K1 N1 N2 NF CK ltac:(apply (near_pos 1); lra)) as (K & E2 & _ & _ & Y). rewrite E1 in E2. injection E2 as ->. symmetry. apply (Y 0%nat 0%nat); lia.
      - auto_derive; [lra|]. replace (Ropp 1) with (-1) by lra. field. }
    assert (U := is_derive_unique _ _ _ Q2). rewrite (is_derive_unique _ _ _ D') in U. unfold dl in U. cbn [Nat.eqb] in U.
    assert (P := exp_pos (-1)). assert (0 < exp (-1) / (10 ^ 10 - 1)) by (apply Rdiv_lt_0_compat; lra). unfold Rdiv in *. lra.
  - destruct (C26_varying_nugget_varK_refuted vx_opt d lk_default condf true false false false cc cnd info vx_hp 1 1%nat O D HW eq_refl Hh Hn Hnp eq_refl Rlt_0_1 (fun _ => TS) EI eq_refl) as (out' & T' & EO' & ET'' & IFF).
    rewrite EO in EO'. injection EO' as <-. rewrite ET' in ET''. injection ET'' as <-. rewrite EN in IFF. rewrite IFF, ET, KE, IS.
    intros C. injection C as C. assert (X : exp (-1) < 1) by (rewrite <- exp_0; apply exp_increasing; lra).
    assert ((1 - exp (-1)) / (10 ^ 10 - 1) = 0) by (replace (exp (-1)) with (exp (- (1))) by (f_equal; lra); lra).
    assert (0 < (1 - exp (-1)) / (10 ^ 10 - 1)) by (apply Rdiv_lt_0_compat; lra). lra.
Qed.
Print Assumptions C26_varying_nugget_theta_refuted.

(** ** C25 with a varying nugget *)
(** the nugget that a noise-free evaluation of the likelihood uses *)
Definition nugget_of (o : gpopt) (d : gpdata) (condf : mat -> R) (hp : hpv) : option R :=
  match calc_Kern_w_chofac o d condf (d_Rt d) hp None true false with Ok out => Some (k_eta out) | Err _ => None end.

Lemma nD_plus o d K lo D c : nD o d K lo (fun i j => D i j + dl i j c) = nD o d K lo D + nD o d K lo (fun i j => dl i j 1) * c.
Proof.
  assert (B : nvD o d K (fun i j => D i j + dl i j c) = nvD o d K D + nvD o d K (fun i j => dl i j 1) * c).
  { unfold nvD. rewrite bform_madd. rewrite (bform_ext _ (fun i j => dl i j c) (fun i j => c * dl i j 1) _ _ (gs (cN o d) (basis d) (vat (ydata d)) K) (gs (cN o d) (basis d) (vat (ydata d)) K)); auto.
    - rewrite bform_mscal. unfold Rdiv. ring.
    - intros. unfold dl. destruct (_ =? _)%nat; ring. }
  assert (Tr : trKD (cN o d) K (fun i j => D i j + dl i j c) = trKD (cN o d) K D + trKD (cN o d) K (fun i j => dl i j 1) * c).
  { unfold trKD. rewrite <- rsum_scal_r, <- rsum_plus. apply rsum_ext. intros i Hi. rewrite <- rsum_scal_r, <- rsum_plus. apply rsum_ext. intros j Hj. unfold dl. destruct (_ =? _)%nat; ring. }
  unfold nD. rewrite B, Tr. unfold Rdiv. ring.
Qed.

Lemma vary_grad la o d lo ht hk info hp cnd adj adj' l :
  lkd_input o d hp -> o_well o <> Wprecon -> noise_pos hp -> d_noisy d = false ->
  (ht = true -> theta_grad_supported o d hp) -> set_hp_optz_info o d lo ht hk false false false = Ok info ->
  calc_lkd_all la o d lo info hp cnd true adj = Ok (l, true) -> (exists vK, l_varK l = Some vK /\ / 10 ^ 32 < vK) ->
  exists g e, l_ln_grad l = Some g /\ nugget_of o d (la_cond la) hp = Some e /\ vlen g = length (slots (o_dim o) ht hk false false false) /\
    forall r s v e', nth_error (slots (o_dim o) ht hk false false false) r = Some s -> hp_get hp s = Some v ->
      is_derivative_of (fun t => nugget_of o d (la_cond la) (hp_put hp s t)) v e' ->
      is_derivative_of (fun t => lkd_scalar la o d lo info adj' l_ln (hp_put hp s t)) v (vat g r + nD o d (kcovE o d hp e 1) lo (fun i j => dl i j 1) * e').
Proof.
  intros HI HW Hnp Hz HS Hi H Hfl. assert (RD := li_ready o d hp HI). assert (NA := li_noise o d hp HI). assert (HRt := li_Rt o d hp HI).
  destruct (li_eta o d hp HI) as (e0 & He & _). destruct HI as (H1 & H2 & H3 & H4 & H5 & H6 & H7).
  (* one call *)
  assert (ONE : forall hp1 cc, hyper_ok o hp1 -> noise_arg_ok o d hp1 None -> exists out, calc_all_K_w_chofac o d (la_cond la) (d_Rt d) hp1 None true cc (Some 1) false = Ok out /\
     lkd_out_ok o d hp1 cc (la_cond la) out /\ nugget_of o d (la_cond la) hp1 = Some (k_eta out) /\ mspec (cN o d) (cN o d) (k_Kcov out) (kcovE o d hp1 (k_eta out) 1) /\ pd (k_Kcov out)).
  { intros hp1 cc Hh1 Hn1.
    destruct (rok_ex _ _ (call_plain o d (la_cond la) hp1 None true cc (Some 1) false 1 RD Hh1 Hn1 eq_refl Rlt_0_1 HW)) as (out & EO & e1 & IS & Pe1 & KE & KO & _ & _ & KC & _ & PD & _).
    destruct (rok_ex _ _ (call_plain o d (la_cond la) hp1 None true false (Some 1) false 1 RD Hh1 Hn1 eq_refl Rlt_0_1 HW)) as (out2 & EO2 & e2 & IS2 & _ & KE2 & _).
    assert (E12 : e2 = e1).
    { unfold eta_is in IS, IS2. destruct (o_eta_const o); [congruence|]. destruct IS as (i & Q1 & -> & Q3), IS2 as (i' & Q1' & -> & Q3'). f_equal. apply Rle_antisym; auto. }
    exists out. split; [exact EO|]. split; [exact (rok_inv _ _ _ (kcov_any o d (la_cond la) cc hp1 (Some 1) 1 RD H3 Hh1 Hn1 eq_refl Rlt_0_1) EO)|].
    split; [unfold nugget_of, calc_Kern_w_chofac; rewrite Hz; cbn [negb assert_]; rewrite bind_Ok, EO2; congruence|].
    split; [|exact PD]. eapply mspec_ext; [exact KC|]. intros i j _ _. cbv beta. rewrite KE. unfold kcovE, kn, dl. destruct (wmtd_precon (o_well o)) as [W|W]; [congruence|].
    destruct (o_well o); try congruence; destruct (i =? j)%nat; field. }
  destruct (ONE hp cnd H4 NA) as (out & EO & LO & NU & KC & PD).
  destruct (free_lkd la o d lo ht hk false false false info e0 RD HRt Hi He hp cnd true out _ Hz (fun _ => conj eq_refl (conj eq_refl eq_refl)) H4 (fun _ => HS) EO LO KC) as (T & ST & Q).
  specialize (ST eq_refl). destruct (Q adj) as (Q1 & _). assert (P := Q1 l H). clear Q Q1.
  destruct P as (P1 & P2 & P3 & _ & (g & EG & G1 & G2) & _). exists g, (k_eta out). split; [exact EG|]. split; [exact NU|]. split; [exact G1|].
  set (K0 := kcovE o d hp (k_eta out) 1) in *.
  assert (CL : varK_min < gq (cN o d) (basis d) (vat (ydata d)) K0 / INR (cN o d)).
  { destruct Hfl as (vk & E1 & E2). rewrite P3 in E1. injection E1 as <-. unfold nvarK, varK_min, Rmax in *. destruct (Rle_dec _ _); lra. }
  intros r s v e' Hr Hg (del & F & Pd & Fe & Fd).
  assert (Lr : (r < length (slots (o_dim o) ht hk false false false))%nat) by (apply nth_error_Some; congruence).
  destruct ST as (_ & ST). destruct (ST r s v Hr Hg) as (SO & DD).
  assert (Hr' := Hr). apply slots_nth in Hr'.
  assert (PV : 0 < v).
  { destruct H4 as (L & P0 & Kk). destruct s; try (destruct Hr'; discriminate); cbn [hp_get] in Hg; cbn [slot_ok] in SO.
    - destruct (Nat.ltb_spec e (vlen (hp_theta hp))); [|discriminate]. injection Hg as <-. apply P0. congruence.
    - rewrite SO in Kk. destruct Kk as (a & E & A). congruence. }
  set (K := fun t => kcovE o d (hp_put hp s t) (F t) 1).
  assert (NEAR : forall t, Rabs (t - v) < Rmin del v -> exists out, calc_all_K_w_chofac o d (la_cond la) (d_Rt d) (hp_put hp s t) None true false (Some 1) false = Ok out /\
     lkd_out_ok o d (hp_put hp s t) false (la_cond la) out /\ mspec (cN o d) (cN o d) (k_Kcov out) (K t) /\ pd (k_Kcov out) /\ hyper_ok o (hp_put hp s t)).
  { intros t Ht. assert (A := Rmin_l del v). assert (B := Rmin_r del v). assert (Pt := near_pos v t PV ltac:(lra)).
    assert (Hh1 := put_hyper o d hp s t H4 SO Pt).
    destruct (ONE (hp_put hp s t) false Hh1 (put_noise o d hp s t NA SO Pt)) as (out' & EO' & LO' & NU' & KC' & PD').
    exists out'. split; [exact EO'|]. split; [exact LO'|]. split; [|split; [exact PD'|exact Hh1]]. rewrite (Fe t ltac:(lra)) in NU'. injection NU' as NU'. unfold K. rewrite NU'. exact KC'. }
  assert (DM : 0 < Rmin del v) by (apply Rmin_pos; assumption).
  assert (FV : F v = k_eta out).
  { assert (E := Fe v ltac:(rewrite Rminus_diag_eq, Rabs_R0 by reflexivity; exact Pd)). rewrite (hp_put_get hp s v Hg), NU in E. congruence. }
  assert (KV : K v = K0) by (unfold K, K0; rewrite (hp_put_get hp s v Hg), FV; reflexivity).
  exists (Rmin del v), (fun t => nlkd o d (K t) lo). split; [exact DM|]. split.
  - intros t Ht. destruct (NEAR t Ht) as (out' & EO' & LO' & KC' & _ & Hh').
    destruct (free_lkd la o d lo ht hk false false false info e0 RD HRt Hi He (hp_put hp s t) false false out' _ Hz ltac:(discriminate) Hh' ltac:(discriminate) EO' LO' KC') as (T' & _ & Q).
    destruct (Q adj') as (Q1 & Q2). destruct (Q2 eq_refl) as (l' & El'). unfold lkd_scalar. rewrite El'. apply (Q1 l' El').
  - rewrite G2 by exact Lr. rewrite <- nD_plus, <- KV.
    apply (nlkd_D o d RD v K (fun i j => tat T r i j + dl i j e')).
    + exists (mkposreal _ DM). intros t Ht. destruct (NEAR t Ht) as (out' & _ & _ & KC' & PD' & _). apply (pd_pdf _ _ _ KC' PD').
    + intros i j Hi' Hj'. assert (D0 := DD i j Hi' Hj').
      refine (dR_ext _ _ _ _ _ (dR_plus _ (fun t => dl i j (F t) - dl i j e0) v _ (dl i j e') (D0 : is_derive _ v _) _)).
      * intros t. cbv beta. unfold K, kcovE. destruct s; try (destruct Hr'; discriminate); destruct (o_well o); try congruence; unfold dl; destruct (i =? j)%nat; ring.
      * unfold dl. destruct (i =? j)%nat.
        -- refine (dR_val _ _ _ _ (dR_minus _ _ v _ _ Fd (dR_const e0 v)) _). ring.
        -- refine (dR_ext _ _ _ _ _ (dR_const 0 v)). intros; ring.
    + rewrite KV. exact CL.
Qed.

(** What the returned gradient misses, for every state without noise: one and the same multiple of the derivative of
    the nugget in each entry.  Where the nugget is stationary the gradient is right. *)
Theorem C25_varying_nugget_partial :
  forall (la : npla) (o : gpopt) (d : gpdata) (lo : lkopt) (ht hk : bool) (info : hpinfo) (hp : hpv) (cnd adj adj' : bool) (l : lkdinfo),
  lkd_input o d hp -> o_well o <> Wprecon -> noise_pos hp -> d_noisy d = false ->
  (ht = true -> theta_grad_supported o d hp) ->
  set_hp_optz_info o d lo ht hk false false false = Ok info ->
  calc_lkd_all la o d lo info hp cnd true adj = Ok (l, true) ->
  (exists vK, l_varK l = Some vK /\ / 10 ^ 32 < vK) ->
  exists g c, l_ln_grad l = Some g /\ vlen g = length (slots (o_dim o) ht hk false false false) /\
    forall r s v e', nth_error (slots (o_dim o) ht hk false false false) r = Some s -> hp_get hp s = Some v ->
      is_derivative_of (fun t => nugget_of o d (la_cond la) (hp_put hp s t)) v e' ->
      is_derivative_of (fun t => lkd_scalar la o d lo info adj' l_ln (hp_put hp s t)) v (vat g r + c * e').
Proof.
  intros la o d lo ht hk info hp cnd adj adj' l HI HW Hnp Hz HS Hi H Hfl.
  destruct (vary_grad la o d lo ht hk info hp cnd adj adj' l HI HW Hnp Hz HS Hi H Hfl) as (g & e & E1 & _ & E2 & E3). exists g. eexists. split; [exact E1|]. split; [exact E2|]. exact E3.
Qed.
Print Assumptions C25_varying_nugget_partial.

Lemma vx_sens d K lo k e0 : cN vx_opt d = 2%nat -> d_n_eval d = 2%nat -> vat (ydata d) 0 = 0 -> vat (ydata d) 1 = 1 -> lk_pnlt lo = false ->
  0 < k < 1 -> 0 < e0 < 1 -> pdf 2 K -> (forall i j, (i < 2)%nat -> (j < 2)%nat -> K i j = if (i =? j)%nat then 1 + e0 else k) ->
  / 10 ^ 32 < gq 2 (basis d) (vat (ydata d)) K / 2 /\
  nD vx_opt d K lo (fun i j => dl i j 1) = k / ((1 + e0 - k) * (1 + e0 + k)).
Proof.
  intros NN N1 Y0 Y1 HL Hk He HP HK. set (a := 1 + e0) in *. assert (A1 : 0 < a - k) by (unfold a; lra). assert (A2 : 0 < a + k) by (unfold a; lra).
  assert (SOL : forall (b : nat -> R), ksol 2 K b 0 = (a * b 0%nat - k * b 1%nat) / ((a - k) * (a + k)) /\ ksol 2 K b 1 = (a * b 1%nat - k * b 0%nat) / ((a - k) * (a + k))).
  { intros b. assert (U := ksol_unique 2 K (fun i => match i with O => (a * b 0%nat - k * b 1%nat) / ((a - k) * (a + k)) | _ => (a * b 1%nat - k * b 0%nat) / ((a - k) * (a + k)) end) b HP).
    assert (F : fsolves 2 K (fun i => match i with O => (a * b 0%nat - k * b 1%nat) / ((a - k) * (a + k)) | _ => (a * b 1%nat - k * b 0%nat) / ((a - k) * (a + k)) end) b).
    { intros i Hi. cbn [rsum]. rewrite !HK by lia. destruct i as [|[|i]]; [| |lia]; cbn [Nat.eqb]; field; lra. }
    split; symmetry; [exact (U F 0%nat ltac:(lia))|exact (U F 1%nat ltac:(lia))]. }
  assert (V : basis d 0 = 1 /\ basis d 1 = 1) by (unfold basis; rewrite N1; split; reflexivity). destruct V as (V0 & V1).
  assert (W : gw 2 (basis d) K 0 = / (a + k) /\ gw 2 (basis d) K 1 = / (a + k)).
  { unfold gw. destruct (SOL (basis d)) as (-> & ->). rewrite V0, V1. split; field; lra. }
  assert (B : gb 2 (basis d) (vat (ydata d)) K = 1 / 2).
  { unfold gb, dotp. cbn [rsum]. destruct W as (-> & ->). rewrite V0, V1, Y0, Y1. field. lra. }
  assert (G : gs 2 (basis d) (vat (ydata d)) K 0 = - / (2 * (a - k)) /\ gs 2 (basis d) (vat (ydata d)) K 1 = / (2 * (a - k))).
  { unfold gs. destruct (SOL (gres (basis d) (vat (ydata d)) (gb 2 (basis d) (vat (ydata d)) K))) as (-> & ->). unfold gres. rewrite B, V0, V1, Y0, Y1. split; field; lra. }
  destruct G as (G0 & G1).
  assert (Q : gq 2 (basis d) (vat (ydata d)) K = / (2 * (a - k))).
  { unfold gq, dotp. cbn [rsum]. rewrite G0, G1. unfold gres. rewrite B, V0, V1, Y0, Y1. field. lra. }
  assert (QB : / 10 ^ 32 < / (2 * (a - k)) / 2).
  { replace (/ (2 * (a - k)) / 2) with (/ (4 * (a - k))) by (field; lra). apply Rinv_lt_contravar; [apply Rmult_lt_0_compat; lra|]. unfold a. lra. }
  split; [rewrite Q; exact QB|].
  assert (NV : nvarK vx_opt d K = / (2 * (a - k)) / 2).
  { unfold nvarK. rewrite NN, Q. change (INR 2) with 2. apply Rmax_right. unfold varK_min. lra. }
  assert (VD : nvD vx_opt d K (fun i j => dl i j 1) = - (/ (2 * (a - k))) ^ 2).
  { unfold nvD, bform. rewrite NN. cbn [rsum]. rewrite G0, G1. unfold dl. cbn [Nat.eqb]. change (INR 2) with 2. field. lra. }
  unfold nD. rewrite VD, NV, NN. unfold calc_lkd_varK_pnlt. rewrite HL. cbn [snd]. unfold trKD, kinv. cbn [rsum].
  destruct (SOL (fun j => if (j =? 0)%nat then 1 else 0)) as (S0 & _). destruct (SOL (fun j => if (j =? 1)%nat then 1 else 0)) as (_ & S1).
  unfold dl. cbn [Nat.eqb] in *. rewrite S0, S1. change (INR 2) with 2. replace (-0.5) with (- (1 / 2)) by lra. replace 0.5 with (1 / 2) by lra. field. lra.
Qed.

Lemma derivative_unique f x a b : is_derivative_of f x a -> is_derivative_of f x b -> a = b.
Proof.
  intros (d1 & F1 & P1 & E1 & D1) (d2 & F2 & P2 & E2 & D2). apply (dR_unique F1 x); [exact D1|].
  apply (dR_ext_near F2 F1 x b (Rmin d1 d2)); [apply Rmin_pos; assumption| |exact D2].
  intros t Ht. assert (A := Rmin_l d1 d2). assert (B := Rmin_r d1 d2). assert (Q1 := E1 t ltac:(lra)). assert (Q2 := E2 t ltac:(lra)). congruence.
Qed.

(** On the state above the returned likelihood gradient is wrong *)
Theorem C25_varying_nugget_refuted :
  exists d info, lkd_input vx_opt d vx_hp /\ o_well vx_opt <> Wprecon /\ o_eta_const vx_opt = false /\ noise_pos vx_hp /\ d_noisy d = false /\
    theta_grad_supported vx_opt d vx_hp /\ set_hp_optz_info vx_opt d lk_default true false false false false = Ok info /\
    forall la adj adj', exists l vK g, calc_lkd_all la vx_opt d lk_default info vx_hp false true adj = Ok (l, true) /\
      l_varK l = Some vK /\ / 10 ^ 32 < vK /\ l_ln_grad l = Some g /\ vlen g = 1%nat /\
      ~ is_derivative_of (fun t => lkd_scalar la vx_opt d lk_default info adj' l_ln (hp_put vx_hp (HTheta 0) t)) 1 (vat g 0).
Proof.
  destruct vx_data as (d & D & K1 & Z & B & N1 & N2 & ET & NF & Y0 & Y1 & CK).
  assert (O : opts_ok vx_opt) by (split; [simpl; lia|split; simpl; lra]). assert (RD := ready _ _ O D).
  destruct (info_total vx_opt d lk_default true false false false false) as (info & EI); auto; try discriminate. exists d, info.
  assert (Hh : hyper_ok vx_opt vx_hp) by (split; [reflexivity|]; split; [intros; simpl; lra|exact I]).
  assert (Hn : noise_cfg vx_opt d vx_hp) by (split; [rewrite K1; reflexivity|discriminate]).
  assert (Hnp : noise_pos vx_hp) by (split; discriminate).
  assert (TS : theta_grad_supported vx_opt d vx_hp) by (cbn; discriminate).
  assert (HW : o_well vx_opt <> Wprecon) by discriminate.
  assert (LI : lkd_input vx_opt d vx_hp).
  { split; [exact O|]. split; [exact D|]. split; [discriminate|]. split; [exact Hh|]. split; [exact Hn|]. split; [split; discriminate|]. rewrite Z. discriminate. }
  assert (NN : cN vx_opt d = 2%nat) by (unfold cN; rewrite N1, N2; reflexivity).
  repeat (split; [assumption || reflexivity|]). intros la adj adj'.
  assert (NUG : forall t, 0 < t -> nugget_of vx_opt d (la_cond la) (hp_put vx_hp (HTheta 0) t) = Some ((1 + exp (- t)) / (10 ^ 10 - 1))).
  { intros t Pt. set (hp := hp_put vx_hp (HTheta 0) t). assert (T0 : vat (hp_theta hp) 0 = t) by reflexivity.
    assert (Hh1 : hyper_ok vx_opt hp). { split; [reflexivity|]. split; [|exact I]. intros i Hi. cbn in Hi. replace i with 0%nat by lia. rewrite T0. exact Pt. }
    assert (NA : noise_arg_ok vx_opt d hp None). { split; [split; [rewrite K1; reflexivity|discriminate]|]. split; discriminate. }
    destruct (rok_ex _ _ (call_plain vx_opt d (la_cond la) hp None true false (Some 1) false 1 RD Hh1 NA eq_refl Rlt_0_1 HW)) as (out & EO & e1 & IS & _ & KE & _).
    apply (vx_eta d hp e1 N1 N2 (CK hp)) in IS. rewrite T0 in IS.
    unfold nugget_of, calc_Kern_w_chofac. rewrite Z. cbn [negb assert_]. rewrite bind_Ok, EO. congruence. }
  set (k := exp (-1)). assert (KB : 0 < k < 1) by (unfold k; split; [apply exp_pos|rewrite <- exp_0; apply exp_increasing; lra]).
  set (e0 := (1 + k) / (10 ^ 10 - 1)).
  assert (EB : 0 < e0 < 1). { unfold e0. split; [apply Rdiv_lt_0_compat; lra|]. apply Rmult_lt_reg_r with (10 ^ 10 - 1); [lra|]. unfold Rdiv. rewrite Rmult_assoc, Rinv_l by lra. lra. }
  set (K := kcovE vx_opt d vx_hp e0 1).
  assert (KV : forall i j, (i < 2)%nat -> (j < 2)%nat -> K i j = if (i =? j)%nat then 1 + e0 else k).
  { intros i j Hi Hj. unfold K, kcovE. rewrite CK, NF by assumption. cbn [vx_opt o_well gp_init set_wellcond_mtd]. unfold dl, k. cbn [vx_hp hp_theta vat]. replace (- (1)) with (-1) by lra. destruct (i =? j)%nat; cbn; ring. }
  assert (NA : noise_arg_ok vx_opt d vx_hp None) by (split; [exact Hn|split; discriminate]).
  destruct (rok_ex _ _ (call_plain vx_opt d (la_cond la) vx_hp None true false (Some 1) false 1 RD Hh NA eq_refl Rlt_0_1 HW)) as (out & EO & e1 & IS & _ & KE & KO & _ & _ & KC & _ & PD & _).
  apply (vx_eta d vx_hp e1 N1 N2 (CK vx_hp)) in IS. cbn [vx_hp hp_theta vat] in IS. replace (- (1)) with (-1) in IS by lra. change (e1 = e0) in IS.
  assert (KC' : mspec (cN vx_opt d) (cN vx_opt d) (k_Kcov out) K).
  { eapply mspec_ext; [exact KC|]. intros i j Hi Hj. rewrite NN in Hi, Hj. rewrite KV by assumption. cbv beta. unfold kn. rewrite CK, NF, IS by assumption. unfold dl, k. cbn [vx_hp hp_theta vat]. replace (- (1)) with (-1) by lra. destruct (i =? j)%nat; field. }
  assert (HP : pdf 2 K) by (rewrite <- NN; apply (pd_pdf _ _ _ KC' PD)).
  destruct (vx_sens d K lk_default k e0 NN N1 Y0 Y1 eq_refl KB EB HP KV) as (QB & SE).
  assert (LO := rok_inv _ _ _ (kcov_any vx_opt d (la_cond la) false vx_hp (Some 1) 1 RD ltac:(discriminate) Hh NA eq_refl Rlt_0_1) EO).
  destruct (free_lkd la vx_opt d lk_default true false false false false info _ RD (li_Rt _ _ _ LI) EI ET vx_hp false true out K Z (fun _ => conj eq_refl (conj eq_refl eq_refl)) Hh (fun _ _ => TS) EO LO KC') as (T & _ & Q).
  destruct (Q adj) as (Q1 & Q2). destruct (Q2 eq_refl) as (l & El). destruct (Q1 l El) as (_ & _ & P3 & _).
  assert (VL : / 10 ^ 32 < nvarK vx_opt d K). { unfold nvarK. rewrite NN. change (INR 2) with 2. eapply Rlt_le_trans; [exact QB|apply Rmax_r]. }
  destruct (vary_grad la vx_opt d lk_default true false info vx_hp false adj adj' l LI HW Hnp Z (fun _ => TS) EI El (ex_intro _ _ (conj P3 VL))) as (g & e & EG & NU & LG & DG).
  exists l, (nvarK vx_opt d K), g. split; [exact El|]. split; [exact P3|]. split; [exact VL|]. split; [exact EG|]. split; [exact LG|].
  assert (HN : hp_put vx_hp (HTheta 0) 1 = vx_hp) by (apply hp_put_get; reflexivity).
  assert (EE : e = e0). { assert (X := NUG 1 Rlt_0_1). rewrite HN, NU in X. injection X as ->. unfold e0, k. replace (- (1)) with (-1) by lra. reflexivity. }
  assert (ND : is_derivative_of (fun t => nugget_of vx_opt d (la_cond la) (hp_put vx_hp (HTheta 0) t)) 1 (- k / (10 ^ 10 - 1))).
  { exists 1, (fun t => (1 + exp (- t)) / (10 ^ 10 - 1)). split; [lra|]. split; [intros t Ht; apply NUG, (near_pos 1); lra|]. auto_derive; [lra|]. unfold k. replace (Ropp 1) with (-1) by lra. field. }
  assert (TD := DG 0%nat (HTheta 0) 1 _ eq_refl eq_refl ND). rewrite EE in TD. fold K in TD. rewrite SE in TD.
  intros C. assert (U := derivative_unique _ _ _ _ C TD).
  assert (0 < k / ((1 + e0 - k) * (1 + e0 + k)) * (k / (10 ^ 10 - 1))).
  { apply Rmult_lt_0_compat; apply Rdiv_lt_0_compat; try lra. apply Rmult_lt_0_compat; lra. }
  assert (k / ((1 + e0 - k) * (1 + e0 + k)) * (- k / (10 ^ 10 - 1)) = - (k / ((1 + e0 - k) * (1 + e0 + k)) * (k / (10 ^ 10 - 1)))) by (unfold Rdiv; ring). lra.
Qed.
Print Assumptions C25_varying_nugget_refuted.
