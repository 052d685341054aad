(** * Properties C30, C32, C34 and C37, continued: eval_model_var, what evaluation cannot do, and how the matrix of
    the surrogate relates to that of the likelihood. *)
From Coq Require Import Reals List Arith Bool Lia Lra Psatz.
From Coquelicot Require Import Coquelicot.
From Verif.Base Require Import NpLite NpFacts Deriv.
From Verif.Spec Require Import KernelSpec LinAlgSpec GpSpec HpSpec DataSpec LkdSpec RescaleSpec EvalSpec.
From Verif.Model Require Import KernelSqExp KernelMatern KernelRatQuad KernelDispatch CommonFun WellCond Rescaling GpState Chol Cov HpInfo HpGrad MeanFun Lkd EvalModel.
From Verif.Proofs Require Import KernTac KernGradBlocks RadialCalculus KernelExact LinAlg CholCorrect Psd CovStruct ThetaGrad HessX2 StateFacts NoiseFacts NuggetCond NuggetMain
  LinDeriv LkdCore LkdFacts LkdMain EvalKern EvalFacts EvalMain EvalInterp.
From Verif.Props Require Import KernelProps CondProps DataProps HpGradProps LkdProps EvalProps.
Import ListNotations.
Local Open Scope R_scope.

(** ** eval_model_var: for an object that does not scale its data it returns the square of the standard deviation of
    eval_model, between 0 and varK, and the gradient of the variance. *)
Theorem C30_eval_model_var :
  forall (o : gpopt) (d : gpdata) (condf : mat -> R) (hp : hpv) (vK b0 : R) (cc : bool) (su : surr),
  eval_input o d hp vK b0 -> mask_supported o d -> set_up o d condf hp cc su -> d_scl d = None ->
  exists V : pt -> R, (forall x, 0 <= V x <= vK) /\
  forall (x2 : mat) (cg : bool), nc x2 = o_dim o -> (0 < nr x2)%nat ->
  exists s2 g ev, eval_model_var o d hp su x2 cg false = Ok (s2, g) /\ eval_model o d hp su x2 cg false = Ok ev /\
    vlen s2 = nr x2 /\ (forall p, (p < nr x2)%nat -> vat s2 p = V (rows_of x2 p) /\ vat s2 p = vat (e_sig ev) p ^ 2) /\
    (if cg then exists G, g = Some G /\ nr G = nr x2 /\ nc G = o_dim o /\
       forall p i, (p < nr x2)%nat -> (i < o_dim o)%nat -> is_partial V i (rows_of x2 p) (mat_at G p i)
     else g = None).
Proof.
  intros o d condf hp vK b0 cc su HI MS SU NS.
  destruct (ei_main o d hp vK b0 HI condf cc su SU) as (e & c & inv & Q1 & Q2 & Q3 & Q4 & Q5 & Q6 & Q7 & Q8 & Q9).
  assert (NO := ei_noise o d hp vK b0 HI). assert (VP : 0 < vK) by apply HI.
  assert (HI' := HI). destruct HI' as (H1 & H2 & H3 & H4 & H5 & H6 & H7 & H8 & (beta & B1 & B2 & B3) & _).
  assert (V : vspec 1 beta (fun _ => b0)) by (split; [exact B2|]; intros i Hi'; replace i with 0%nat by lia; exact B3).
  assert (PB := Pv_bounds o d hp H4 e Q5 Q3).
  exists (fun x => vK * Pv o d hp e x). split.
  { intros x. specialize (PB x). split; [apply Rmult_le_pos; lra|]. rewrite <- (Rmult_1_r vK) at 2. apply Rmult_le_compat_l; lra. }
  intros x2 cg Hx Hn.
  destruct (rok_ex _ _ (eval_var_ok o d hp vK b0 beta (ei_ev o d hp vK b0 HI) H3 H4 H7 H8 B1 V MS su e c inv Q5 Q3 Q4 Q6 Q7 Q8 Q9 x2 cg NS Hx Hn)) as ((s2, g) & E & (S1 & S2) & HG). cbn [fst snd] in *.
  destruct (ei_eval o d hp vK b0 HI condf cc su e c inv x2 cg false SU MS Q1 Q3 Q4 Q5 Q6 Q7 Q8 Q9 Hx Hn ltac:(discriminate)) as (ev & Eev & _ & (T1 & T2) & _).
  exists s2, g, ev. split; [exact E|]. split; [exact Eev|]. split; [exact S1|]. split.
  - intros p Hp. rewrite S2, T2 by exact Hp. split; [reflexivity|]. unfold Si, Psig, out_scale. rewrite NS, Rdiv_1.
    assert (L : forall i, (i < o_dim o)%nat -> rows_of x2 p i = to_scl d (rows_of x2 p) i) by (intros i _; unfold to_scl, in_shift, in_scale; rewrite NS; ring).
    destruct (loc o d hp b0 e NO Q3 _ _ L) as (_ & <- & _). specialize (PB (rows_of x2 p)).
    rewrite Rpow_mult_distr. simpl. rewrite !Rmult_1_r, !sqrt_sqrt by lra. ring.
  - destruct cg; [|exact HG]. destruct HG as (G & -> & G1 & G2 & G3). exists G. split; [reflexivity|]. split; [exact G1|]. split; [exact G2|].
    intros p i Hp Hi. rewrite G3 by assumption. unfold is_partial. refine (dR_val _ _ _ _ (dR_mult (fun _ => vK) _ _ _ _ (dR_const vK _) (PV_dx o d hp e H4 NO Q3 (rows_of x2 p) i Hi)) _).
    ring.
Qed.
Print Assumptions C30_eval_model_var.
(** ... but it raises for an object that scales its data, and whenever Hessians are asked for. *)
Theorem C30_eval_model_var_refuted : forall (o : gpopt) (d : gpdata) (hp : hpv) (su : surr) (x2 : mat) (cg ch : bool),
  d_scl d <> None \/ ch = true -> forall r, eval_model_var o d hp su x2 cg ch <> Ok r.
Proof.
  intros o d hp su x2 cg ch HC r H. unfold eval_model_var in H. cbv zeta in H. binv H vk E1. binv H u1 E2. binv H u2 E3. binv H KK E4. destruct KK as (Ky, dK).
  binv H u3 E5. binv H cf E6. binv H S E7. binv H be E8. binv H m E9. binv H s2 E10. binv H ok E11. binv H u4 E12. binv H g E13. binv H u5 E14.
  destruct HC as [HC| ->]; [|discriminate]. destruct (d_scl d); [discriminate|contradiction].
Qed.
Print Assumptions C30_eval_model_var_refuted.

(** ** C34, what does not work.  'RatQu' with gradients and a mask that selects at least two but not all points: every
    evaluation raises. *)
Theorem C34_rational_quadratic_mask_refuted :
  forall (o : gpopt) (d : gpdata) (condf : mat -> R) (hp : hpv) (vK b0 : R) (cc : bool) (su : surr) (x2 : mat) (cg ch : bool) (m : list bool),
  eval_input o d hp vK b0 -> set_up o d condf hp cc su -> o_use_grad o = true -> o_kernel o = RatQu -> d_bvec d = Some m ->
  (2 <= count_true m < d_n_eval d)%nat -> (0 < o_dim o)%nat -> nc x2 = o_dim o -> (ch = true -> cg = true) ->
  eval_model o d hp su x2 cg ch = Err EShape.
Proof.
  intros o d condf hp vK b0 cc su x2 cg ch m HI SU U Ek Em Hm Hd Hx Hch.
  destruct (ei_main o d hp vK b0 HI condf cc su SU) as (e & c & inv & Q1 & Q2 & Q3 & Q4 & Q5 & Q6 & Q7 & Q8 & Q9).
  assert (HI' := HI). destruct HI' as (H1 & H2 & H3 & H4 & H5 & H6 & H7 & H8 & _).
  unfold eval_model. rewrite Q6, Q8, H7. cbn [need]. rewrite !bind_Ok.
  assert (HX2 : rok (match d_scl d with Some r => x_init_2_scl (r_shift r) (r_scale r) x2 | None => Ok x2 end) (fun Z => nc Z = o_dim o)).
  { destruct (d_scl d) as [r|] eqn:Es; [|exact Hx]. destruct (data_set_scl o d r H2 Es) as (L1 & L2 & _). rewrite <- Hx in *.
    eapply rok_mono; [apply (x_scl_ok _ _ _ _ _ _ _ _ (mspec_refl x2) (conj L1 (fun i _ => eq_refl)) (conj L2 (fun i _ => eq_refl)))|]. intros Z HZ. apply HZ. }
  destruct (match d_scl d with Some r => x_init_2_scl (r_shift r) (r_scale r) x2 | None => Ok x2 end) as [Z|]; [|contradiction]. cbn [rok] in HX2. rewrite bind_Ok.
  assert (EA : (if ch then assert_ cg else Ok tt) = Ok tt) by (destruct ch; [rewrite Hch by reflexivity|]; reflexivity). rewrite EA, bind_Ok.
  assert (EB : eval_blocks o d hp Z cg = Err EShape); [|rewrite EB; reflexivity].
  destruct (gr_pts _ _ (ev_gp _ _ (ei_ev o d hp vK b0 HI))) as [W1 W2 W3 W4 W5]. unfold eval_blocks.
  destruct H4 as (T1 & T2 & T3). rewrite Ek in T3. destruct T3 as (a & Eh & T3).
  destruct (C03_ratqu_first_mask_only_refuted (fst (get_scl_x_w_dist d)) Z (hp_theta hp) a m) as (Rt & ER & EK); try congruence; try lia.
  - rewrite Em, U in W4. rewrite W2. apply W4.
  - rewrite ER, bind_Ok, U, Ek, Em, Eh. cbn [orb]. rewrite EK. reflexivity.
Qed.
Print Assumptions C34_rational_quadratic_mask_refuted.

(** Hessians with a mask that leaves out some gradient: every evaluation raises. *)
Theorem C34_hessian_with_mask_refuted :
  forall (o : gpopt) (d : gpdata) (condf : mat -> R) (hp : hpv) (vK b0 : R) (cc : bool) (su : surr) (x2 : mat) (cg : bool),
  eval_input o d hp vK b0 -> set_up o d condf hp cc su -> o_use_grad o = true -> (d_n_grad d < d_n_eval d)%nat -> (0 < o_dim o)%nat ->
  forall ev, eval_model o d hp su x2 cg true <> Ok ev.
Proof.
  intros o d condf hp vK b0 cc su x2 cg HI SU U Hg Hd ev H.
  destruct (ei_main o d hp vK b0 HI condf cc su SU) as (e & c & inv & Q1 & Q2 & Q3 & Q4 & Q5 & Q6 & Q7 & Q8 & (Q9 & _)).
  unfold eval_model in H. rewrite Q6, Q8 in H. rewrite !bind_Ok in H. binv H vk E1. binv H Z E2. binv H u E3. binv H KK E4. destruct KK as (Ky, dKo). cbn [fst snd] in *.
  binv H d2K E5. binv E5 T E6. injection E5 as <-. binv H S E7. binv H be E8. cbv zeta in H. binv H m E9. destruct m as ((bv, bg), bh). binv H s2 E10. binv H ok E11. binv H u' E12. binv H t E13. binv H mu E14. binv H g E15.
  binv H h E16. clear H. destruct g as [((dmu, ds), dK)|].
  - destruct bh as [BH|]; [|discriminate]. binv E16 a E17. unfold calc_d2mudx2 in E17. binv_assert E17. binv E17 A E18. unfold tdotv in E18.
    unfold hess_shape_ok in HA. apply andb_true_iff in HA. destruct HA as (_ & HT). apply Nat.eqb_eq in HT. destruct (Nat.eqb_spec (tc T) (vlen inv)) as [HE|]; [|discriminate].
    rewrite HT, Q9 in HE. unfold n_all, cN in HE. rewrite U in HE. nia.
  - destruct cg; [destruct dKo as [dK|]; [|discriminate]; destruct bg as [B|]; [|discriminate]; binv E15 a1 F1; binv E15 a2 F2; binv E15 a3 F3; discriminate|].
    unfold assert_ in E3. discriminate.
Qed.
Print Assumptions C34_hessian_with_mask_refuted.

(** ** C37.  The surrogate and the likelihood describe the same model when there is no noise, or varK = 1: the covariance
    matrix of the likelihood is varK times that of the surrogate. *)
Lemma eta_unique o d N A e e' : eta_is o d N A e -> eta_is o d N A e' -> e = e'.
Proof.
  unfold eta_is. destruct (o_eta_const o); [congruence|]. intros (i & Hi & -> & HM) (j & Hj & -> & HM'). f_equal. apply Rle_antisym; auto.
Qed.
Lemma eta_ext o d N A B e : (forall i j, (i < N)%nat -> (j < N)%nat -> A i j = B i j) -> eta_is o d N A e -> eta_is o d N B e.
Proof.
  intros E. unfold eta_is. destruct (o_eta_const o); [trivial|]. intros (i & Hi & -> & HM). assert (S : forall i, (i < N)%nat -> rsum N (fun j => Rabs (A i j)) = rsum N (fun j => Rabs (B i j))) by (intros k Hk; apply rsum_ext; intros j Hj; rewrite E by assumption; reflexivity).
  exists i. split; [exact Hi|]. rewrite <- S by exact Hi. split; [reflexivity|]. intros k Hk. rewrite <- S by exact Hk. apply HM, Hk.
Qed.
Definition lkd_cov (o : gpopt) (d : gpdata) (condf : mat -> R) (hp : hpv) (A : mat) : Prop := exists cc cnd, Kcov_of o d condf cc cnd hp = Ok A.
Section M.
Variables (o : gpopt) (d : gpdata) (condf : mat -> R) (hp : hpv) (vK b0 : R) (cc : bool) (su : surr) (A : mat).
Hypothesis HI : eval_input o d hp vK b0.
Hypothesis SU : setup_eval_model o d condf hp cc = Ok su.
Hypothesis LK : lkd_cov o d condf hp A.
Notation N := (cN o d).
Notation kf := (ckf o d hp (fst (get_scl_x_w_dist d))).
Notation nf := (noise_fn d hp None).
(** entries of both matrices, with the nuggets in force *)
Lemma both : exists e e', k_eta (su_K su) = e /\
  mspec N N (k_Kcov (su_K su)) (fun i j => kn kf nf 1 i j + dl i j (if is_precon (o_well o) then e * kn kf nf 1 i i else e)) /\
  mspec N N A (fun i j => vK * (kn kf nf vK i j + dl i j (if is_precon (o_well o) then e' * kn kf nf vK i i else e'))) /\
  (if is_precon (o_well o) then eta_is o d N (kcor kf nf 1) e /\ eta_is o d N (kcor kf nf vK) e' else eta_is o d N kf e /\ eta_is o d N kf e').
Proof.
  assert (HI' := HI). destruct HI' as (H1 & H2 & H3 & H4 & H5 & H6 & H7 & H8 & _).
  assert (HR := ev_gp _ _ (ei_ev o d hp vK b0 HI)). assert (NO := ei_noise o d hp vK b0 HI).
  assert (EA : exists k, calc_all_K_w_chofac o d condf (d_Rt d) hp None true cc None true = Ok k /\ su_K su = k).
  { unfold setup_eval_model in SU. destruct (get_scl_x_w_dist d) as (X0, Rt) eqn:EX. assert (ERt : Rt = d_Rt d) by (rewrite <- (ev_Rt o d (ei_ev o d hp vK b0 HI)), EX; reflexivity). subst Rt.
    assert (H := SU). binv H ev E1. destruct ev as (((fv, sf), g), sg). binv H be E2. binv H m E3. destruct m as ((mv, mg), mh). cbv zeta in H. binv H k E4. binv H fd E5. binv H iv E6. injection H as <-. exists k. split; [exact E4|reflexivity]. }
  destruct EA as (k & EK & ->). destruct LK as (c1 & c2 & EL). unfold Kcov_of in EL. binv EL kl EL'. injection EL as <-.
  assert (V1 : eff_varK hp None true = Some 1) by (unfold eff_varK; rewrite H7; reflexivity).
  assert (V2 : eff_varK hp None false = Some vK) by (unfold eff_varK; rewrite H7; reflexivity).
  destruct (is_precon (o_well o)) eqn:WP.
  - assert (WE : o_well o = Wprecon) by (destruct (o_well o); try discriminate; reflexivity).
    destruct (rok_inv _ _ _ (call_precon o d condf hp None true cc None true 1 HR H4 NO V1 Rlt_0_1 WE (H3 WE)) EK) as (e & Kc & Kp & A1 & A2 & A3 & A4 & _ & _ & _ & _ & A9 & _).
    destruct (rok_inv _ _ _ (call_precon o d condf hp None c1 c2 None false vK HR H4 NO V2 H8 WE (H3 WE)) EL') as (e' & Kc' & Kp' & B1 & B2 & B3 & B4 & _ & _ & _ & _ & B9 & _).
    exists e, e'. split; [exact A3|]. split; [eapply mspec_ext; [exact A9|]; intros; cbv beta iota; rewrite Rmult_1_l; reflexivity|]. split; [exact B9|]. split; assumption.
  - assert (WE : o_well o <> Wprecon) by (intros Z; rewrite Z in WP; discriminate).
    destruct (rok_inv _ _ _ (call_plain o d condf hp None true cc None true 1 HR H4 NO V1 Rlt_0_1 WE) EK) as (e & A1 & A2 & A3 & A4 & _ & _ & A7 & _).
    destruct (rok_inv _ _ _ (call_plain o d condf hp None c1 c2 None false vK HR H4 NO V2 H8 WE) EL') as (e' & B1 & B2 & B3 & B4 & _ & _ & B7 & _).
    exists e, e'. split; [exact A3|]. split; [eapply mspec_ext; [exact A7|]; intros; cbv beta iota; rewrite Rmult_1_l; reflexivity|]. split; [exact B7|]. split; assumption.
Qed.
End M.
Theorem C37_same_model_without_noise_partial :
  forall (o : gpopt) (d : gpdata) (condf : mat -> R) (hp : hpv) (vK b0 : R) (cc : bool) (su : surr) (A : mat),
  eval_input o d hp vK b0 -> setup_eval_model o d condf hp cc = Ok su -> lkd_cov o d condf hp A ->
  d_noisy d = false \/ vK = 1 ->
  nr A = d_n_data d /\ nc A = d_n_data d /\ nr (k_Kcov (su_K su)) = d_n_data d /\ nc (k_Kcov (su_K su)) = d_n_data d /\
  forall r s, (r < d_n_data d)%nat -> (s < d_n_data d)%nat -> mat_at A r s = vK * mat_at (k_Kcov (su_K su)) r s.
Proof.
  intros o d condf hp vK b0 cc su A HI SU LK HN. destruct (both o d condf hp vK b0 cc su A HI SU LK) as (e & e' & _ & (K1 & K2 & K3) & (A1 & A2 & A3) & HE).
  rewrite (li_N o d hp (ei_lkd o d hp vK b0 HI)). repeat (split; [assumption|]).
  assert (DN : d_noisy d = negb (d_fval_zero d && d_fgrad_zero d)). { assert (HD : data_set o d) by apply HI. destruct HD as (x & fv & sf & g & sg & b & _ & _ & _ & H). apply data_after_inv in H. apply H. }
  assert (KN : forall i j, (i < cN o d)%nat -> (j < cN o d)%nat -> kn (ckf o d hp (fst (get_scl_x_w_dist d))) (noise_fn d hp None) vK i j = kn (ckf o d hp (fst (get_scl_x_w_dist d))) (noise_fn d hp None) 1 i j).
  { intros i j Hi Hj. unfold kn, dl. destruct (i =? j)%nat; [|reflexivity]. destruct HN as [HN| ->]; [|reflexivity]. assert (NZ : d_fval_zero d && d_fgrad_zero d = true) by (rewrite DN in HN; apply negb_false_iff; exact HN). unfold noise_fn, noise_row. rewrite NZ. unfold Rdiv. rewrite !Rmult_0_l. reflexivity. }
  assert (EE : e' = e).
  { destruct (is_precon (o_well o)); destruct HE as (E1 & E2); apply (eta_unique o d (cN o d) _ _ _ E2); [|exact E1].
    apply (eta_ext o d (cN o d) _ _ _) with (2 := E1). intros i j Hi Hj. unfold kcor. rewrite !KN by assumption. reflexivity. }
  subst e'. intros r s Hr Hs. rewrite A3, K3, !KN by assumption. reflexivity.
Qed.
Print Assumptions C37_same_model_without_noise_partial.
(** With noise and varK <> 1 they do not: the noise of the surrogate is varK times too large (shown for the methods other
    than preconditioning; every noisy observation is affected). *)
Theorem C37_noise_not_normalised_refuted :
  forall (o : gpopt) (d : gpdata) (condf : mat -> R) (hp : hpv) (vK b0 : R) (cc : bool) (su : surr) (A : mat) (r : nat) (l : label),
  eval_input o d hp vK b0 -> setup_eval_model o d condf hp cc = Ok su -> lkd_cov o d condf hp A -> o_well o <> Wprecon ->
  nth_error (gp_labels o d) r = Some l ->
  mat_at A r r = vK * mat_at (k_Kcov (su_K su)) r r - (vK - 1) * obs_noise d hp l.
Proof.
  intros o d condf hp vK b0 cc su A r l HI SU LK WE Hl. destruct (both o d condf hp vK b0 cc su A HI SU LK) as (e & e' & _ & (K1 & K2 & K3) & (A1 & A2 & A3) & HE).
  destruct (label_row o d hp vK b0 HI r l Hl) as (Hr & _ & _ & En). destruct (is_precon (o_well o)) eqn:WP; [destruct (o_well o); try discriminate; congruence|].
  destruct HE as (E1 & E2). assert (EE := eta_unique _ _ _ _ _ _ E1 E2). subst e'. rewrite A3, K3, <- En by assumption. unfold kn, dl. rewrite Nat.eqb_refl. field. assert (0 < vK) by apply HI. lra.
Qed.
Print Assumptions C37_noise_not_normalised_refuted.

(** ** Concrete cases *)
Definition ev_hp : hpv := mkhp (Some (vconst 1 (1 / 3))) (mkvec 2 (fun i => 1 / 2 + INR i)) (Some 3) (Some 2) (Some 1) (Some (1 / 4)).
Definition ev_hp0 : hpv := mkhp (Some (vconst 1 (1 / 3))) (mkvec 2 (fun i => 1 / 2 + INR i)) (Some 3) (Some 2) None None.
Lemma ev_data k w : w = Wbase \/ w = Wprecon -> exists d, eval_input (gp_init 2 true k w) d ev_hp 2 (1 / 3) /\ d_bvec d = Some [true; false; true] /\ d_n_eval d = 3%nat /\ d_n_grad d = 2%nat /\ d_noisy d = true.
Proof.
  intros Hw.
  assert (E : exists d, set_data (gp_init 2 true k w) ex_x ex_f SdNone (Some ex_g) SdNone (Some [true; false; true]) = Ok d /\ d_known_fval d = false /\ d_known_fgrad d = false /\ d_scl d = None /\ d_bvec d = Some [true; false; true] /\ d_n_eval d = 3%nat /\ d_n_grad d = 2%nat /\ d_noisy d = true).
  { destruct Hw as [-> | ->]; eexists; (split; [reflexivity|]); repeat split. }
  destruct E as (d & E & K1 & K2 & K3 & K4). exists d. split; [|exact K4].
  split; [destruct Hw as [-> | ->]; (split; [simpl; lia|split; simpl; lra])|]. split; [exists ex_x, ex_f, SdNone, (Some ex_g), SdNone, (Some [true; false; true]); split; [simpl; lia|]; destruct Hw as [-> | ->]; repeat split; apply after_set; exact E|].
  split; [destruct Hw as [-> | ->]; reflexivity|]. split.
  { split; [destruct Hw as [-> | ->]; reflexivity|]. split; [intros i _; simpl; assert (0 <= INR i) by apply pos_INR; lra|]. destruct Hw as [-> | ->]; (destruct k; simpl; try exact I; exists 3; split; [reflexivity|lra]). }
  split. { split; [rewrite K1; split; [destruct Hw as [-> | ->]; reflexivity|eexists; reflexivity]|]. intros _. rewrite K2. eexists; reflexivity. }
  split; [split; intros v Ev; injection Ev as <-; lra|]. split; [reflexivity|]. split; [lra|]. split; [exists (vconst 1 (1 / 3)); repeat split|].
  intros i _. unfold in_scale. rewrite K3. lra.
Qed.
Example C29_C34_hypotheses_met : exists d su, eval_input ex_opt d ev_hp 2 (1 / 3) /\ mask_supported ex_opt d /\ set_up ex_opt d (fun _ => 1) ev_hp true su /\
  d_bvec d = Some [true; false; true] /\ (exists r l, nth_error (gp_labels ex_opt d) r = Some l /\ l = LDer 1 1 /\ label_point d l = 2%nat).
Proof.
  destruct (ev_data Ma5f2 Wprecon (or_intror eq_refl)) as (d & HI & Hb & Hn & Hg & _). destruct (C30_setup_succeeds ex_opt d (fun _ => 1) ev_hp 2 (1 / 3) true HI) as (su & _ & HS).
  exists d, su. split; [exact HI|]. split; [intros _ C; discriminate|]. split; [apply HS; left; reflexivity|]. split; [exact Hb|].
  exists 6%nat, (LDer 1 1). unfold gp_labels, label_point. rewrite Hb, Hn. repeat split.
Qed.
Example C34_refutation_hypotheses_met : exists d su, let o := gp_init 2 true RatQu Wbase in
  eval_input o d ev_hp 2 (1 / 3) /\ set_up o d (fun _ => 1) ev_hp false su /\ o_use_grad o = true /\ o_kernel o = RatQu /\ d_bvec d = Some [true; false; true] /\
  (2 <= count_true [true; false; true] < d_n_eval d)%nat /\ (d_n_grad d < d_n_eval d)%nat /\ (0 < o_dim o)%nat.
Proof.
  destruct (ev_data RatQu Wbase (or_introl eq_refl)) as (d & HI & Hb & Hn & Hg & _). destruct (C30_setup_succeeds (gp_init 2 true RatQu Wbase) d (fun _ => 1) ev_hp 2 (1 / 3) false HI) as (su & _ & HS).
  exists d, su. cbv zeta. split; [exact HI|]. split; [apply HS; right; left; reflexivity|]. rewrite Hn, Hg. repeat split; auto; simpl; lia.
Qed.
(** no noise, all gradients: Hessians are available, and the likelihood describes the same model *)
Lemma ev_data0 : exists d, eval_input (gp_init 2 true SqExp Wbase) d ev_hp0 2 (1 / 3) /\ d_bvec d = None /\ d_noisy d = false /\ d_scl d = None.
Proof.
  set (o := gp_init 2 true SqExp Wbase). set (g := mkmat 3 2 (fun i j => INR i - INR j)).
  destruct (C36_accepts_consistent_data o ex_x ex_f (SdOk (vconst 3 0)) (Some g) (SdOk (mconst 3 2 0)) None) as (d & E).
  - split; [simpl; lia|split; simpl; lra].
  - intros C; discriminate.
  - simpl; lia.
  - split; reflexivity.
  - split; [intros s Es; injection Es as <-; reflexivity|]. simpl. split; [exact I|]. exists g. repeat split; intros; injection H as <-; reflexivity.
  - intros s Es; injection Es as <-; reflexivity.
  - intros _ _. vm_compute; lia.
  - destruct (C36_rejects_inconsistent_data _ _ _ _ _ _ _ _ E) as (_ & _ & _ & _ & Eb & _). destruct (C36_noise_flags _ _ _ _ _ _ _ _ E) as (F1 & F2 & _ & _ & F5).
    assert (P : 0 < / 10 ^ 10) by (apply Rinv_0_lt_compat, pow_lt; lra).
    assert (K1 : d_known_fval d = true) by (apply F1; discriminate). assert (K2 : d_known_fgrad d = true) by (apply F2; [reflexivity|discriminate]).
    assert (NS : d_scl d = None). { apply set_data_inv in E. destruct E as (_ & _ & _ & _ & _ & _ & _ & _ & _ & (Xs & _ & _ & _ & _ & H) & _). apply H. reflexivity. }
    exists d. split; [|split; [exact Eb|split; [|exact NS]]].
    + split; [split; [simpl; lia|split; simpl; lra]|]. split; [do 6 eexists; split; [|split; [|split; [|apply after_set; exact E]]]; simpl; try lia; reflexivity|].
      split; [discriminate|]. split; [split; [reflexivity|split; [intros i _; simpl; assert (0 <= INR i) by apply pos_INR; lra|exact I]]|].
      split; [split; [rewrite K1; reflexivity|intros _; rewrite K2; reflexivity]|]. split; [split; intros v Ev; discriminate|]. split; [reflexivity|]. split; [lra|]. split; [exists (vconst 1 (1 / 3)); repeat split|].
      intros i _. unfold in_scale. rewrite NS. lra.
    + apply F5. split; [eexists; split; [reflexivity|]|intros _; eexists; split; [reflexivity|]]; intros i; intros; simpl; exact P.
Qed.
Example C31_C32_C37_hypotheses_met : exists d su A, let o := gp_init 2 true SqExp Wbase in
  eval_input o d ev_hp0 2 (1 / 3) /\ mask_supported o d /\ set_up o d (fun _ => 1) ev_hp0 false su /\ lkd_cov o d (fun _ => 1) ev_hp0 A /\ d_noisy d = false /\ d_scl d = None /\
  hess_supported o d ev_hp0 (mkmat 1 2 (fun _ j => INR j)).
Proof.
  set (o := gp_init 2 true SqExp Wbase). destruct ev_data0 as (d & HI & Hb & Hn & Hs). destruct (C30_setup_succeeds o d (fun _ => 1) ev_hp0 2 (1 / 3) false HI) as (su & _ & HS).
  assert (HA : exists A, lkd_cov o d (fun _ => 1) ev_hp0 A).
  { destruct (rok_ex _ _ (call_plain o d (fun _ => 1) ev_hp0 None true false None false 2 (ev_gp _ _ (ei_ev o d ev_hp0 2 (1 / 3) HI)) ltac:(apply HI) (ei_noise o d ev_hp0 2 (1 / 3) HI) eq_refl ltac:(lra) ltac:(discriminate))) as (k & E & _).
    exists (k_Kcov k), true, false. unfold Kcov_of. rewrite E. reflexivity. }
  destruct HA as (A & HA). exists d, su, A. cbv zeta. fold o. split; [exact HI|]. split; [intros _ C; discriminate|]. split; [apply HS; right; left; reflexivity|]. split; [exact HA|]. split; [exact Hn|]. split; [exact Hs|].
  split; [reflexivity|]. intros _. split; [rewrite Hb; exact I|intros C; discriminate].
Qed.
Example C37_refutation_hypotheses_met : exists d su A r l, let o := gp_init 2 true SqExp Wbase in
  eval_input o d ev_hp 2 (1 / 3) /\ setup_eval_model o d (fun _ => 1) ev_hp false = Ok su /\ lkd_cov o d (fun _ => 1) ev_hp A /\ o_well o <> Wprecon /\
  nth_error (gp_labels o d) r = Some l /\ (2 - 1) * obs_noise d ev_hp l <> 0.
Proof.
  set (o := gp_init 2 true SqExp Wbase). destruct (ev_data SqExp Wbase (or_introl eq_refl)) as (d & HI & Hb & Hn & Hg & Hns). destruct (C30_setup_succeeds o d (fun _ => 1) ev_hp 2 (1 / 3) false HI) as (su & E & _).
  destruct (rok_ex _ _ (call_plain o d (fun _ => 1) ev_hp None true false None false 2 (ev_gp _ _ (ei_ev o d ev_hp 2 (1 / 3) HI)) ltac:(apply HI) (ei_noise o d ev_hp 2 (1 / 3) HI) eq_refl ltac:(lra) ltac:(discriminate))) as (k & EA & _).
  exists d, su, (k_Kcov k), 0%nat, (LVal 0). cbv zeta. split; [exact HI|]. split; [exact E|]. split; [exists true, false; unfold Kcov_of; rewrite EA; reflexivity|]. split; [discriminate|].
  split; [unfold gp_labels; rewrite Hn; reflexivity|]. unfold obs_noise. rewrite Hns. unfold noise_variance.
  assert (SF : d_std_fval d = None).
  { assert (HC : noise_cfg o d ev_hp) by apply HI. destruct HC as (HC & _). assert (HD : data_set o d) by apply HI. destruct HD as (x & fv & sf & g & sg & b & _ & _ & _ & H). apply data_after_inv in H.
    destruct H as (_ & _ & _ & _ & _ & _ & _ & _ & _ & _ & _ & _ & _ & _ & _ & H & _). rewrite H in HC. destruct (d_std_fval d); [discriminate|reflexivity]. }
  rewrite SF. simpl. lra.
Qed.
