(** The likelihood evaluation of the object: value, coefficients and gradient. *)
From Coq Require Import Reals List Arith Bool Lia Lra Psatz.
From Coquelicot Require Import Coquelicot.
From Verif.Base Require Import NpLite NpFacts Deriv.
From Verif.Spec Require Import KernelSpec LinAlgSpec GpSpec HpSpec.
From Verif.Model Require Import KernelSqExp KernelMatern KernelRatQuad KernelDispatch CommonFun WellCond Rescaling GpState Chol Cov HpInfo HpGrad MeanFun Lkd.
From Verif.Proofs Require Import KernTac LinAlg CholCorrect Det CovStruct StateFacts NoiseFacts NuggetCond NuggetMain HpInfoFacts HpGradFacts HpGradMain HpGradFree
  LinDeriv LkdCore LkdFacts.
Import ListNotations.
Local Open Scope R_scope.

Lemma pd_pdf N A K : mspec N N A K -> pd A -> pdf N K.
Proof.
  intros (A1 & A2 & A3) ((S1 & S2) & P). split.
  - intros i j Hi Hj. rewrite <- !A3 by assumption. apply S2; congruence.
  - intros v Hv. assert (Z : 0 < qform A v) by (apply P; rewrite A1; exact Hv). unfold qform in Z. unfold bform. rewrite A1, A2 in Z.
    eapply Rlt_le_trans; [exact Z|]. right. apply rsum_ext; intros i Hi. apply rsum_ext; intros j Hj. rewrite A3 by assumption. ring.
Qed.

Lemma set_data_Rt o x fval sf G sg b d : data_after o x fval sf G sg b d -> snd (get_scl_x_w_dist d) = d_Rt d.
Proof.
  induction 1 as [d H|d scale d' _ IH H]; [|apply rescale_data_inv in H; destruct H as (r & r' & _ & _ & ->); reflexivity].
  unfold set_data in H. cbv zeta in H. binv H a1 E1. binv H a2 E2. binv H a3 E3. binv H a4 E4. binv H a5 E5. binv H a6 E6. binv H a7 E7. binv H a8 E8. binv H a9 E9.
  injection H as <-. unfold get_scl_x_w_dist. cbn [d_scl d_Rt]. destruct a8 as [r|]; cbn [snd]; [|reflexivity]. congruence.
Qed.

(** derivative of (max(x,0))^2 *)
Lemma dR_max2 x : is_derive (fun t => (Rmax t 0) ^ 2) x (2 * Rmax x 0).
Proof.
  assert (Q : forall y, is_derive (fun t : R => t * t) y (2 * y)) by (intros y; refine (dR_val _ _ _ _ (dR_mult (fun t => t) (fun t => t) y 1 1 (dR_id y) (dR_id y)) _); ring).
  destruct (Rtotal_order x 0) as [Hx|[->|Hx]].
  - rewrite Rmax_right by lra. rewrite Rmult_0_r.
    apply (dR_ext_near (fun _ => 0) _ x 0 (- x)); [lra| |apply dR_const]. intros t Ht. apply Rabs_def2 in Ht. rewrite Rmax_right by lra. ring.
  - rewrite Rmax_right by lra. rewrite Rmult_0_r. apply is_derive_Reals. intros eps Heps. exists (mkposreal eps Heps). intros h Hh Hb. cbn in Hb.
    rewrite Rplus_0_l, (Rmax_right 0 0) by lra. rewrite Rminus_0_r. replace ((Rmax h 0 ^ 2 - 0 ^ 2) / h) with (Rmax h 0 ^ 2 / h) by (field; exact Hh).
    destruct (Rle_dec h 0) as [C|C].
    + rewrite Rmax_right by lra. unfold Rdiv. replace (0 ^ 2 * / h) with 0 by ring. rewrite Rabs_R0. exact Heps.
    + rewrite Rmax_left by lra. replace (h ^ 2 / h) with h by (field; exact Hh). exact Hb.
  - rewrite Rmax_left by lra.
    apply (dR_ext_near (fun t => t * t) _ x (2 * x) x); [lra| |apply Q]. intros t Ht. apply Rabs_def2 in Ht. rewrite Rmax_left by lra. ring.
Qed.
Lemma pnlt_derive lo fv v : is_derive (fun x => fst (calc_lkd_varK_pnlt lo x fv)) v (snd (calc_lkd_varK_pnlt lo v fv)).
Proof.
  unfold calc_lkd_varK_pnlt. destruct (lk_pnlt lo); cbn [fst snd]; [|apply dR_const].
  set (f := Rmax (vvar fv) (lk_lb lo)).
  refine (dR_val _ _ _ _ (dR_scal (fun x => Rmax (x - lk_c2 lo * f) 0 ^ 2) (lk_c1 lo * f) v _ (dR_comp (fun u => Rmax u 0 ^ 2) (fun x => x - lk_c2 lo * f) v _ 1 _ (dR_max2 _))) _).
  - refine (dR_val _ _ _ _ (dR_minus (fun x => x) (fun _ => lk_c2 lo * f) v 1 0 (dR_id v) (dR_const _ v)) _). ring.
  - ring.
Qed.

Section D.
Variables (o : gpopt) (d : gpdata).
Hypothesis HR : gp_ready o d.
Notation N := (cN o d).
Variables (t0 : R) (K : R -> nat -> nat -> R) (D : nat -> nat -> R).
Hypothesis HK : locally t0 (fun t => pdf N (K t)).
Hypothesis DK : forall i j, (i < N)%nat -> (j < N)%nat -> is_derive (fun t => K t i j) t0 (D i j).
Notation v := (basis d).
Notation y := (vat (ydata d)).

Lemma lndet_D : is_derive (fun t => ln (det N (K t))) t0 (trKD N (K t0) D).
Proof. apply (lndet_derive N t0 K D HK DK). Qed.
Lemma beta_D : is_derive (fun t => gb N v y (K t)) t0 (gbD o d (K t0) D).
Proof. apply (gb_derive N v y (basis_nz o d HR) t0 K D HK DK). Qed.
Lemma q_D : is_derive (fun t => gq N v y (K t)) t0 (- bform N D (gs N v y (K t0)) (gs N v y (K t0))).
Proof. apply (gq_derive N v y (basis_nz o d HR) t0 K D HK DK). Qed.
Lemma noise_D : is_derive (fun t => - (ln (det N (K t)) + gq N v y (K t)) / 2) t0 (gD o d (K t0) D).
Proof.
  refine (dR_val _ _ _ _ (dR_ext _ _ _ _ _ (dR_scal _ (- / 2) t0 _ (dR_plus _ _ t0 _ _ lndet_D q_D))) _).
  - intros t. cbv beta. field.
  - unfold gD. lra.
Qed.
Lemma varK_D : varK_min < gq N v y (K t0) / INR N -> is_derive (fun t => nvarK o d (K t)) t0 (nvD o d (K t0) D).
Proof.
  intros Hc. assert (NP := INRN_pos o d HR).
  assert (QD : is_derive (fun t => gq N v y (K t) / INR N) t0 (nvD o d (K t0) D)).
  { refine (dR_val _ _ _ _ (dR_ext _ _ _ _ _ (dR_scal _ (/ INR N) t0 _ q_D)) _); [intros t; cbv beta; unfold Rdiv; ring|unfold nvD, Rdiv; ring]. }
  assert (C : continuous (fun t : R => gq N v y (K t) / INR N) t0) by (apply (ex_derive_continuous (fun t : R => gq N v y (K t) / INR N)); eexists; exact QD).
  assert (L : locally t0 (fun t => varK_min < gq N v y (K t) / INR N)).
  { apply (C (fun z => varK_min < z)). exists (mkposreal (gq N v y (K t0) / INR N - varK_min) ltac:(lra)). intros z Hz. cbn in Hz. unfold ball in Hz; cbn in Hz. unfold AbsRing_ball, abs, minus, plus, opp in Hz; cbn in Hz. apply Rabs_def2 in Hz. lra. }
  apply (is_derive_ext_loc (fun t => gq N v y (K t) / INR N)); [|exact QD].
  revert L. apply filter_imp. intros t Ht. unfold nvarK. rewrite Rmax_right by lra. reflexivity.
Qed.
Lemma nlkd_D lo : varK_min < gq N v y (K t0) / INR N -> is_derive (fun t => nlkd o d (K t) lo) t0 (nD o d (K t0) lo D).
Proof.
  intros Hc. assert (VD := varK_D Hc). assert (VP := nvarK_pos o d (K t0)).
  assert (LD := dR_comp ln (fun t => nvarK o d (K t)) t0 _ _ VD (dR_ln _ VP)).
  assert (PD := dR_comp (fun x => fst (calc_lkd_varK_pnlt lo x (nfval d))) (fun t => nvarK o d (K t)) t0 _ _ VD (pnlt_derive lo (nfval d) _)).
  refine (dR_val _ _ _ _ (dR_ext _ _ _ _ _ (dR_minus _ _ t0 _ _ (dR_scal _ (- / 2) t0 _ (dR_plus _ _ t0 _ _ (dR_scal _ (INR N) t0 _ LD) lndet_D)) PD)) _).
  - intros t. cbv beta. unfold nlkd. field.
  - unfold nD, Rdiv. lra.
Qed.
End D.

(** any nugget: the covariance matrix is positive definite and its factor is a Cholesky factor *)
Definition lkd_out_ok (o : gpopt) (d : gpdata) (hp : hpv) (cnd : bool) (condf : mat -> R) (out : kout) : Prop :=
  mspec (cN o d) (cN o d) (k_Kern out) (ckf o d hp (fst (get_scl_x_w_dist d))) /\ nr (k_Kcov out) = cN o d /\ nc (k_Kcov out) = cN o d /\ pd (k_Kcov out) /\
  (forall c, k_chofac out = Some c -> chol_of c (k_Kcov out)) /\
  ((o_well o <> Wprecon -> cnd = true -> condf (k_Kcov out) <= o_cond_max_abs o) -> exists c, k_chofac out = Some c /\ chol_of c (k_Kcov out)).
Lemma kcov_any o d condf cnd hp varK vK : gp_ready o d -> (o_well o = Wprecon -> o_use_grad o = true) -> hyper_ok o hp -> noise_arg_ok o d hp None ->
  eff_varK hp varK false = Some vK -> 0 < vK -> rok (calc_all_K_w_chofac o d condf (d_Rt d) hp None true cnd varK false) (lkd_out_ok o d hp cnd condf).
Proof.
  intros HR HP Hh Hn Hv Hp. destruct (wmtd_precon (o_well o)) as [W|W].
  - eapply rok_mono; [exact (call_precon o d condf hp None true cnd varK false vK HR Hh Hn Hv Hp W (HP W))|].
    intros out (e' & Kc & Kp & H1 & H2 & H3 & H4 & H5 & H6 & H7 & H8 & H9 & H10 & H11 & H12 & H13 & H14). destruct H9 as (N1 & N2 & _).
    unfold lkd_out_ok. auto 8.
  - eapply rok_mono; [exact (call_plain o d condf hp None true cnd varK false vK HR Hh Hn Hv Hp W)|].
    intros out (e' & H1 & H2 & H3 & H4 & H5 & H6 & H7 & H8 & H9 & H10 & H11). destruct H7 as (N1 & N2 & _).
    unfold lkd_out_ok. split; [exact H4|]. split; [exact N1|]. split; [exact N2|]. split; [exact H9|]. split; [exact H11|]. intros Q. apply H10; auto.
Qed.

Section M.
Variables (la : npla) (o : gpopt) (d : gpdata) (lo : lkopt) (ht hk hv hf hg : bool) (info : hpinfo) (e : R).
Hypothesis HR : gp_ready o d.
Hypothesis HP : o_well o = Wprecon -> o_use_grad o = true.
Hypothesis HRt : snd (get_scl_x_w_dist d) = d_Rt d.
Hypothesis HI : set_hp_optz_info o d lo ht hk hv hf hg = Ok info.
Hypothesis He : d_etaK d = Some e.
Notation N := (cN o d).
Notation X := (fst (get_scl_x_w_dist d)).
Notation v := (basis d).
Notation y := (vat (ydata d)).
Notation sl := (slots (o_dim o) ht hk hv hf hg).

(** the covariance near the current hyperparameters and its derivative slices *)
Definition slices_ok (hp : hpv) (vK : R) (T : ten) : Prop :=
  tspec (length sl) N N T (tat T) /\
  forall r s t, nth_error sl r = Some s -> hp_get hp s = Some t ->
    slot_ok o d s /\
    forall i j, (i < N)%nat -> (j < N)%nat -> is_derive (fun t => kcovE o d (hp_put hp s t) e (match s with HVarK => t | _ => vK end) i j) t (tat T r i j).

Definition noisy_post (K : nat -> nat -> R) (cg adj : bool) (T : ten) (l : lkdinfo) : Prop :=
  l_ln l = Some (- (ln (det N K) + gq N v y K) / 2) /\ l_lndet l = Some (ln (det N K)) /\ l_varK l = None /\ l_varK_grad l = None /\
  (exists beta, l_beta l = Some beta /\ vspec 1 beta (fun _ => gb N v y K)) /\
  if cg then (exists g, l_ln_grad l = Some g /\ vspec (length sl) g (fun k => gD o d K (tat T k))) /\
     (exists B, l_beta_grad l = Some B /\ mspec 1 (length sl) B (fun _ k => gbD o d K (tat T k))) /\
     (if adj then l_lndet_grad l = None else exists g, l_lndet_grad l = Some g /\ vspec (length sl) g (fun k => trKD N K (tat T k)))
  else l_ln_grad l = None.
Lemma noisy_set K cg adj T l c g : noisy_post K cg adj T l -> noisy_post K cg adj T (set_cond l c g).
Proof. intros H; exact H. Qed.

Lemma noisy_lkd hp vK cnd cg out K : d_noisy d = true -> hyper_ok o hp -> hp_varK hp = Some vK ->
  (cg = true -> ht = true -> theta_grad_supported o d hp) ->
  calc_all_K_w_chofac o d (la_cond la) (d_Rt d) hp None true cnd None false = Ok out -> lkd_out_ok o d hp cnd (la_cond la) out -> mspec N N (k_Kcov out) K ->
  exists T, (cg = true -> slices_ok hp vK T) /\
    forall adj, (forall l, calc_lkd_all la o d lo info hp cnd cg adj = Ok (l, true) -> noisy_post K cg adj T l) /\
    (cnd = false -> exists l, calc_lkd_all la o d lo info hp cnd cg adj = Ok (l, true)).
Proof.
  intros Hnz Hh HvK HS EO (KO & _ & _ & PD & CF & CG) KC.
  assert (HK : pdf N K) by (apply (pd_pdf _ _ _ KC PD)).
  assert (G : exists T, (cg = true -> slices_ok hp vK T) /\
     (if cg then T <- calc_Kcov_grad_hp o d info hp (k_Kern out) (d_Rt d) ;; Ok (Some T) else Ok None) = Ok (if cg then Some T else None)).
  { destruct cg; [|exists (tconst 0 0 0 0); split; [discriminate|reflexivity]].
    destruct (Kcov_grad_ok o d HR lo ht hk hv hf hg info hp e vK HI He HvK Hh (HS eq_refl) (k_Kern out) KO) as (T & Dth & Dal & ET & D1 & D2 & T1 & T2).
    exists T. rewrite ET, bind_Ok. split; [|reflexivity]. intros _. split; [exact T1|]. intros r s t Hr Hg.
    assert (SO : slot_ok o d s).
    { destruct (info_inv _ _ _ _ _ _ _ _ _ HI) as (Ik & If & Ig & _). apply slots_nth in Hr. destruct s; cbn [slot_ok]; auto; try tauto.
      destruct Hr as (-> & _). specialize (Ik eq_refl). destruct (o_kernel o); try discriminate; reflexivity. }
    split; [exact SO|]. intros i j Hi Hj. rewrite (T2 r s Hr i j Hi Hj). assert (Hr' := Hr). apply slots_nth in Hr'.
    apply (kcovE_derive o d HR hp e vK s t Dth Dal Hh SO Hg); auto.
    - intros ->. cbn [hp_get] in Hg. congruence.
    - intros k i' j' -> Hk Hi' Hj'. apply D1; auto. apply Hr'.
    - intros i' j' -> Hi' Hj'. apply D2; auto. apply Hr'. }
  destruct G as (T & ST & EG). exists T. split; [exact ST|]. intros adj.
  assert (L : forall c, k_chofac out = Some c -> exists l, calc_lkd_all_w_noise o d c (if cg then Some T else None) adj = Ok l /\ noisy_post K cg adj T l).
  { intros c Hc. assert (HC := CF c Hc).
    destruct (rok_ex _ _ (lkd_noise_ok o d HR (k_Kcov out) K c KC HK HC (length sl) (if cg then Some T else None) (tat T) adj ltac:(destruct cg; [apply ST; reflexivity|exact I]))) as (l & El & L1 & L2 & L3 & L3' & L4 & L5).
    exists l. split; [exact El|]. split; [exact L1|]. split; [exact L2|]. split; [exact L3|]. split; [exact L3'|]. split; [exact L4|]. destruct cg; exact L5. }
  unfold calc_lkd_all. rewrite Hnz, HRt, EO. cbv zeta. rewrite !bind_Ok, EG, bind_Ok. split.
  - intros l H. destruct (k_chofac out) as [c|] eqn:EC.
    + destruct (L c eq_refl) as (l0 & E0 & P0). rewrite E0, !bind_Ok in H. cbn [fst snd] in H.
      destruct (cnd && cg); [binv H x Ex|]; injection H as <-; apply noisy_set, P0.
    + exfalso. binv H x Ex. binv Ex x' Ex'. injection Ex as <-. cbn [fst snd] in H. destruct (cnd && cg); [binv H z Ez|]; congruence.
  - intros ->. destruct (CG ltac:(discriminate)) as (c & Hc & _). destruct (L c Hc) as (l0 & E0 & P0). rewrite Hc, E0, !bind_Ok. cbn [andb fst snd]. eauto.
Qed.

(** noise-free data *)
Definition free_post (K : nat -> nat -> R) (cg adj : bool) (T : ten) (l : lkdinfo) : Prop :=
  l_ln l = Some (nlkd o d K lo) /\ l_lndet l = Some (ln (det N K)) /\ l_varK l = Some (nvarK o d K) /\
  (exists beta, l_beta l = Some beta /\ vspec 1 beta (fun _ => gb N v y K)) /\
  if cg then (exists g, l_ln_grad l = Some g /\ vspec (length sl) g (fun k => nD o d K lo (tat T k))) /\
     (if adj then l_beta_grad l = None /\ l_lndet_grad l = None /\ l_varK_grad l = None else (exists B, l_beta_grad l = Some B /\ mspec 1 (length sl) B (fun _ k => gbD o d K (tat T k))) /\
           (exists g, l_lndet_grad l = Some g /\ vspec (length sl) g (fun k => trKD N K (tat T k))) /\
           (exists g, l_varK_grad l = Some g /\ vspec (length sl) g (fun k => nvD o d K (tat T k))))
  else l_ln_grad l = None.
Lemma free_set K cg adj T l c g : free_post K cg adj T l -> free_post K cg adj T (set_cond l c g).
Proof. intros H; exact H. Qed.

Lemma free_lkd hp cnd cg out K : d_noisy d = false -> (cg = true -> hv = false /\ hf = false /\ hg = false) -> hyper_ok o hp ->
  (cg = true -> ht = true -> theta_grad_supported o d hp) ->
  calc_all_K_w_chofac o d (la_cond la) (d_Rt d) hp None true cnd (Some 1) false = Ok out -> lkd_out_ok o d hp cnd (la_cond la) out -> mspec N N (k_Kcov out) K ->
  exists T, (cg = true -> slices_ok hp 1 T) /\
    forall adj, (forall l, calc_lkd_all la o d lo info hp cnd cg adj = Ok (l, true) -> free_post K cg adj T l) /\
    (cnd = false -> exists l, calc_lkd_all la o d lo info hp cnd cg adj = Ok (l, true)).
Proof.
  intros Hnz Hfl Hh HS EO (KO & _ & _ & PD & CF & CG) KC.
  assert (HK : pdf N K) by (apply (pd_pdf _ _ _ KC PD)).
  assert (G : exists T, (cg = true -> slices_ok hp 1 T) /\
     (if cg then T <- calc_KernGrad_hp o d info hp (d_Rt d) None ;; Ok (Some T) else Ok None) = Ok (if cg then Some T else None)).
  { destruct cg; [|exists (tconst 0 0 0 0); split; [discriminate|reflexivity]].
    destruct (Hfl eq_refl) as (E1 & E2 & E3). revert HI. unfold slices_ok. rewrite E1, E2, E3. intros HI'.
    destruct (KernGrad_hp_ok o d HR lo ht hk info hp e HI' He Hh (HS eq_refl)) as (T & Dth & Dal & ET & D1 & D2 & T1 & T2).
    exists T. rewrite ET, bind_Ok. split; [|reflexivity]. intros _. split; [exact T1|]. intros r s t Hr Hg.
    assert (Hr' := Hr). apply slots_nth in Hr'.
    assert (SO : slot_ok o d s).
    { destruct (info_inv _ _ _ _ _ _ _ _ _ HI') as (Ik & If & Ig & _). destruct s; cbn [slot_ok]; try (destruct Hr'; discriminate); [tauto|].
      destruct Hr' as (-> & _). specialize (Ik eq_refl). destruct (o_kernel o); try discriminate; reflexivity. }
    split; [exact SO|]. intros i j Hi Hj. rewrite (T2 r s Hr i j Hi Hj).
    apply (kcovE_derive o d HR hp e 1 s t Dth Dal Hh SO Hg); auto.
    - intros ->. destruct Hr'; discriminate.
    - intros k i' j' -> Hk Hi' Hj'. apply D1; auto. apply Hr'.
    - intros i' j' -> Hi' Hj'. apply D2; auto. apply Hr'. }
  destruct G as (T & ST & EG). exists T. split; [exact ST|]. intros adj.
  assert (L : forall c, k_chofac out = Some c -> exists l, calc_lkd_all_wo_noise o d lo c (if cg then Some T else None) adj = Ok l /\ free_post K cg adj T l).
  { intros c Hc. assert (HC := CF c Hc).
    destruct (rok_ex _ _ (lkd_wo_noise_ok o d HR (k_Kcov out) K c KC HK HC (length sl) (if cg then Some T else None) (tat T) lo adj ltac:(destruct cg; [apply ST; reflexivity|exact I]))) as (l & El & L1 & L2 & L3 & L4 & L5).
    exists l. split; [exact El|]. split; [exact L1|]. split; [exact L2|]. split; [exact L3|]. split; [exact L4|]. destruct cg; exact L5. }
  unfold calc_lkd_all, calc_Kern_w_chofac. rewrite Hnz, HRt, EO. cbv zeta. cbn [negb assert_]. rewrite !bind_Ok, EG, bind_Ok. split.
  - intros l H. destruct (k_chofac out) as [c|] eqn:EC.
    + destruct (L c eq_refl) as (l0 & E0 & P0). rewrite E0, !bind_Ok in H. cbn [fst snd] in H.
      destruct (cnd && cg); [binv H x Ex|]; injection H as <-; apply free_set, P0.
    + exfalso. binv H x Ex. congruence.
  - intros ->. destruct (CG ltac:(discriminate)) as (c & Hc & _). destruct (L c Hc) as (l0 & E0 & P0). rewrite Hc, E0, !bind_Ok. cbn [andb fst snd]. eauto.
Qed.
End M.
