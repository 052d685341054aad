(** * C25 below the floor of the closed-form varK (1e-32): what the returned gradients are there.
    Vocabulary: as in [Props/LkdProps.v]. *)
From Coq Require Import Reals List Arith Bool Lia Lra Psatz.
From Coquelicot Require Import Coquelicot.
From Verif.Base Require Import NpLite NpFacts Deriv.
From Verif.Spec Require Import KernelSpec LinAlgSpec GpSpec HpSpec DataSpec LkdSpec.
From Verif.Model Require Import KernelSqExp KernelMatern KernelRatQuad KernelDispatch CommonFun WellCond Rescaling GpState Chol Cov HpInfo HpGrad MeanFun Lkd.
From Verif.Proofs Require Import KernTac LinAlg CholCorrect Det CovStruct StateFacts NoiseFacts NuggetCond NuggetMain HpInfoFacts HpGradFacts HpGradMain HpGradFree
  LinDeriv LkdCore LkdFacts LkdMain Jets Psd.
From Verif.Props Require Import CondProps DataProps HpGradProps LkdProps.
Import ListNotations.
Local Open Scope R_scope.

Lemma some_inj {A} {x y : A} : Some x = Some y -> x = y.
Proof. congruence. Qed.

(** Noise-free data, no penalty.  Where the closed-form varK is held at its floor (for all values of the hyperparameter near the
    current one), the derivative of the returned likelihood is the returned gradient plus N/2 times the returned gradient of
    varK (direct method) over the floor, although the returned varK is constant. *)
Theorem C25_below_the_floor :
  forall (la : npla) (o : gpopt) (d : gpdata) (lo : lkopt) (ht hk : bool) (info : hpinfo) (hp : hpv) (cnd adj adj' : bool) (l ld : lkdinfo),
  lkd_input o d hp -> o_eta_const o = true -> noise_pos hp -> d_noisy d = false -> lk_pnlt lo = false ->
  (ht = true -> theta_grad_supported o d hp) ->
  set_hp_optz_info o d lo ht hk false false false = Ok info ->
  calc_lkd_all la o d lo info hp cnd true adj = Ok (l, true) -> calc_lkd_all la o d lo info hp cnd true false = Ok (ld, true) ->
  exists g G, l_ln_grad l = Some g /\ l_varK_grad ld = Some G /\
    forall r s v del, nth_error (slots (o_dim o) ht hk false false false) r = Some s -> hp_get hp s = Some v -> 0 < del ->
      (forall t, Rabs (t - v) < del -> lkd_scalar la o d lo info adj' l_varK (hp_put hp s t) = Some (/ 10 ^ 32)) ->
      is_derivative_of (fun t => lkd_scalar la o d lo info adj' l_ln (hp_put hp s t)) v (vat g r + INR (d_n_data d) / 2 * (vat G r / (/ 10 ^ 32))).
Proof.
  intros la o d lo ht hk info hp cnd adj adj' l ld HI HE Hnp Hz HP HS Hi H H'.
  assert (RD := li_ready o d hp HI). destruct (li_eta o d hp HI) as (e & He & _). assert (CN := li_N o d hp HI).
  assert (HvK : if d_noisy d then hp_varK hp = Some 1 else 1 = 1) by (rewrite Hz; reflexivity).
  destruct (at_call la o d lo ht hk false false false info hp e 1 cnd true HI HE Hi He (fun _ => HS) ltac:(auto) HvK) as (T & ST & Q). specialize (ST eq_refl).
  assert (P := proj1 (Q adj) l H). assert (P' := proj1 (Q false) ld H'). rewrite Hz in P, P'. set (K0 := kcovE o d hp e 1) in *.
  destruct P as (P1 & P2 & P3 & _ & (g & EG & G1 & G2) & _). destruct P' as (_ & _ & P3' & _ & _ & _ & _ & (G & EG' & L1 & L2)).
  exists g, G. split; [exact EG|]. split; [exact EG'|]. intros r s v del Hr Hg Hdel FL.
  destruct ST as (_ & ST). destruct (ST r s v Hr Hg) as (SO & DD).
  assert (NS : s <> HVarK) by (intros ->; apply slots_nth in Hr; destruct Hr; discriminate).
  assert (PV : 0 < v).
  { destruct HI as (_ & _ & _ & (L & P0 & KK) & _). destruct s; cbn [hp_get] in Hg; cbn [slot_ok] in SO.
    - destruct (Nat.ltb_spec e0 (vlen (hp_theta hp))); [|discriminate]. injection Hg as <-. apply P0. congruence.
    - rewrite SO in KK. destruct KK as (a & E & A). congruence.
    - congruence.
    - apply Hnp in Hg. exact Hg.
    - apply Hnp in Hg. exact Hg. }
  assert (NV : if d_noisy d then hp_varK hp = Some 1 else 1 = 1 /\ s <> HVarK) by (rewrite Hz; auto).
  destruct (near_call la o d lo ht hk false false false info hp e 1 s v HI HE Hi He SO Hg PV NV) as (PD & C). rewrite Hz in C.
  set (K := fun t => kcovE o d (hp_put hp s t) e (match s with HVarK => t | _ => 1 end)) in *.
  assert (EK : K v = K0) by (unfold K; rewrite (hp_put_get hp s v Hg); destruct s; try reflexivity; congruence).
  assert (Lr : (r < length (slots (o_dim o) ht hk false false false))%nat) by (apply nth_error_Some; congruence).
  assert (PN : forall x, fst (calc_lkd_varK_pnlt lo x (nfval d)) = 0 /\ snd (calc_lkd_varK_pnlt lo x (nfval d)) = 0) by (intros x; unfold calc_lkd_varK_pnlt; rewrite HP; split; reflexivity).
  exists (Rmin v del), (fun t => - (INR (cN o d) * ln (/ 10 ^ 32) + ln (det (cN o d) (K t))) / 2). split; [apply Rmin_glb_lt; assumption|]. split.
  - intros t Ht. assert (T1 : Rabs (t - v) < v) by (eapply Rlt_le_trans; [exact Ht|apply Rmin_l]). assert (T2 : Rabs (t - v) < del) by (eapply Rlt_le_trans; [exact Ht|apply Rmin_r]).
    destruct (C t adj' T1) as (Tt & lt & Et & Pt). specialize (FL t T2). unfold lkd_scalar in *. rewrite Et in *. destruct Pt as (Q1 & _ & Q3 & _). rewrite Q3 in FL. rewrite Q1. f_equal. unfold nlkd.
    assert (FL' := some_inj FL). rewrite (proj1 (PN _)), FL'. unfold K. apply Rminus_0_r.
  - rewrite G2, L2 by exact Lr. unfold nD. destruct (PN (nvarK o d K0)) as (_ & ->).
    assert (VF : nvarK o d K0 = / 10 ^ 32).
    { specialize (FL v ltac:(rewrite Rminus_eq_0, Rabs_R0; exact Hdel)). destruct (C v adj' ltac:(rewrite Rminus_eq_0, Rabs_R0; exact PV)) as (Tt & lt & Et & Pt). unfold lkd_scalar in FL. rewrite Et in FL.
      destruct Pt as (_ & _ & Q3 & _). rewrite Q3 in FL. change (kcovE o d (hp_put hp s v) e (match s with HVarK => v | _ => 1 end)) with (K v) in FL. rewrite EK in FL. exact (some_inj FL). }
    rewrite VF, CN. assert (LD := lndet_D o d v K (tat T r) PD DD). rewrite EK in LD.
    refine (dR_val _ _ _ _ (dR_ext _ _ _ _ _ (dR_scal _ (- / 2) v _ (dR_plus _ _ v _ _ (dR_const (INR (cN o d) * ln (/ 10 ^ 32)) v) LD))) _); [intros t; cbv beta; field|].
    rewrite Rplus_0_l. set (x := nvD o d K0 (tat T r)). set (y := trKD (cN o d) K0 (tat T r)). set (u := x / / 10 ^ 32). clearbody u. replace (-0.5) with (- / 2) by lra. field.
Qed.
Print Assumptions C25_below_the_floor.

Lemma is_derivative_unique f x a b : is_derivative_of f x a -> is_derivative_of f x b -> a = b.
Proof.
  intros (d1 & F1 & P1 & E1 & D1) (d2 & F2 & P2 & E2 & D2). apply (dR_unique F2 x); [|exact D2].
  apply (dR_ext_near F1 F2 x a (Rmin d1 d2)); [apply Rmin_glb_lt; assumption| |exact D1].
  intros t Ht. assert (A := E1 t ltac:(eapply Rlt_le_trans; [exact Ht|apply Rmin_l])). assert (B := E2 t ltac:(eapply Rlt_le_trans; [exact Ht|apply Rmin_r])). congruence.
Qed.

Lemma diag2 v y K : pdf 2 K -> K 0%nat 1%nat = 0 -> K 1%nat 0%nat = 0 -> v 0%nat = 1 -> v 1%nat = 0 -> 0 < K 1%nat 1%nat -> gq 2 v y K = y 1%nat ^ 2 / K 1%nat 1%nat.
Proof.
  intros H E1 E2 V0 V1 P. assert (NZ : nonzero 2 v) by (exists 0%nat; split; [lia|rewrite V0; lra]).
  assert (O := gs_orth 2 v y NZ K H). assert (S := ksol_ok 2 K (gres v y (gb 2 v y K)) H). fold (gs 2 v y K) in S.
  unfold gq. set (s := gs 2 v y K) in *. unfold dotp in *. cbn [rsum] in *. rewrite V0, V1 in O.
  assert (S1 := S 1%nat ltac:(lia)). cbn [rsum] in S1. rewrite E2 in S1. unfold gres in *. rewrite V1 in S1. rewrite V0, V1.
  assert (A : s 0%nat = 0) by lra. rewrite A. assert (B : s 1%nat = y 1%nat / K 1%nat 1%nat) by (apply (Rmult_eq_reg_l (K 1%nat 1%nat)); [|lra]; field_simplify; lra).
  rewrite B. field. lra.
Qed.

(** *** A run held at the floor: one point, value 3, gradient 1e-17 *)
Lemma fl_data : exists d, data_set nf_opt d /\ d_known_fval d = true /\ d_known_fgrad d = true /\ d_noisy d = false /\ d_bvec d = None /\
  d_n_eval d = 1%nat /\ d_n_grad d = 1%nat /\ d_n_data d = 2%nat /\ d_etaK d = Some (1 / (10 ^ 10 - 1)) /\ vat (ydata d) 0 = 3 /\ vat (ydata d) 1 = / 10 ^ 17 /\ (forall hp r, (r < 2)%nat -> noise_fn d hp None r = 0) /\
  rows_of (fst (get_scl_x_w_dist d)) 0%nat 0%nat = 0.
Proof.
  assert (E : exists d, set_data nf_opt (mkmat 1 1 (fun _ _ => 0)) (mkvec 1 (fun _ => 3)) (SdOk (vconst 1 0)) (Some (mkmat 1 1 (fun _ _ => / 10 ^ 17))) (SdOk (mconst 1 1 0)) None = Ok d /\
     d_known_fval d = true /\ d_known_fgrad d = true /\ d_noisy d = false /\ d_bvec d = None /\
     d_n_eval d = 1%nat /\ d_n_grad d = 1%nat /\ d_n_data d = 2%nat /\ d_etaK d = Some (1 / (10 ^ 10 - 1)) /\ vat (ydata d) 0 = 3 /\ vat (ydata d) 1 = / 10 ^ 17 /\ (forall hp r, (r < 2)%nat -> noise_fn d hp None r = 0) /\
     rows_of (fst (get_scl_x_w_dist d)) 0%nat 0%nat = 0).
  { generalize (/ 10 ^ 17) as z. intros z. unfold set_data. cbv zeta. cbn. unfold vmax_lt, mmax_lt. cbn. destruct (Rlt_dec 0 (/ _)) as [L|L]; [|exfalso; apply L; apply Rinv_0_lt_compat; lra].
    cbn. eexists. split; [reflexivity|]. cbn [d_known_fval d_known_fgrad d_noisy d_bvec d_n_eval d_n_grad d_etaK d_n_data].
    do 8 (split; [reflexivity|]). split; [reflexivity|]. split; [reflexivity|]. split; [|reflexivity]. intros hp r Hr. destruct r as [|[|r]]; [| |lia]; cbn; ring. }
  destruct E as (d & E & R). exists d. split; [|exact R]. do 6 eexists. split; [|split; [|split; [|apply after_set; exact E]]]; simpl; try reflexivity; lia.
Qed.

Theorem C25_below_the_floor_refuted : exists (d : gpdata) (info : hpinfo), lkd_input nf_opt d nf_hp /\ d_noisy d = false /\ noise_pos nf_hp /\
  set_hp_optz_info nf_opt d lk_default true false false false false = Ok info /\
  forall la adj, exists l g, calc_lkd_all la nf_opt d lk_default info nf_hp false true adj = Ok (l, true) /\ l_varK l = Some (/ 10 ^ 32) /\ l_ln_grad l = Some g /\
    forall adj' , ~ is_derivative_of (fun t => lkd_scalar la nf_opt d lk_default info adj' l_ln (hp_put nf_hp (HTheta 0) t)) 1 (vat g 0).
Proof.
  destruct fl_data as (d & D & K1 & K2 & Z & B & N1 & N2 & N3 & ET & Y0 & Y & NF & X0). destruct (info_total nf_opt d lk_default true false false false false) as (info & EI); auto; try discriminate.
  exists d, info.
  assert (LI : lkd_input nf_opt d nf_hp).
  { split; [split; [simpl; lia|split; simpl; lra]|]. split; [exact D|]. split; [reflexivity|]. split; [split; [reflexivity|]; split; [intros; simpl; lra|exact I]|].
    split; [split; [rewrite K1; reflexivity|rewrite K2; reflexivity]|]. split; [split; discriminate|rewrite Z; discriminate]. }
  assert (TS : theta_grad_supported nf_opt d nf_hp) by (split; [left; exact B|discriminate]).
  assert (NP : noise_pos nf_hp) by (split; discriminate).
  split; [exact LI|]. split; [exact Z|]. split; [exact NP|]. split; [exact EI|].
  intros la adj. assert (RD := li_ready _ _ _ LI).
  set (e := 1 / (10 ^ 10 - 1)) in *.
  assert (Ep : 0 < e) by (unfold e; apply Rdiv_lt_0_compat; lra).
  destruct (at_call la nf_opt d lk_default true false false false false info nf_hp e 1 false true LI eq_refl EI ET (fun _ _ => TS) ltac:(auto) ltac:(rewrite Z; reflexivity)) as (T & ST & Q).
  specialize (ST eq_refl). destruct ST as (_ & ST).
  destruct (proj2 (Q adj) eq_refl) as (l & El). destruct (proj2 (Q false) eq_refl) as (ld & Eld).
  assert (P := proj1 (Q adj) l El). rewrite Z in P. assert (PD' := proj1 (Q false) ld Eld). rewrite Z in PD'.
  assert (N : cN nf_opt d = 2%nat) by (unfold cN; rewrite N1, N2; reflexivity).
  destruct (near_call la nf_opt d lk_default true false false false false info nf_hp e 1 (HTheta 0) 1 LI eq_refl EI ET (proj1 (ST 0%nat (HTheta 0) 1 eq_refl eq_refl)) eq_refl Rlt_0_1 ltac:(rewrite Z; split; [reflexivity|discriminate])) as (PD & C).
  rewrite Z in C. set (K := fun t => kcovE nf_opt d (hp_put nf_hp (HTheta 0) t) e 1).
  change (locally 1 (fun t => pdf (cN nf_opt d) (K t))) in PD.
  assert (KV : K 1 = kcovE nf_opt d nf_hp e 1) by (unfold K; f_equal; apply (hp_put_get nf_hp (HTheta 0) 1 eq_refl)).
  assert (EN : forall t, K t 0%nat 1%nat = 0 /\ K t 1%nat 0%nat = 0 /\ K t 1%nat 1%nat = 2 * (1 + e) * t).
  { intros t. unfold K, kcovE. cbn [o_well nf_opt gp_init set_wellcond_mtd o_use_grad]. rewrite !NF by lia. unfold dl. cbn [Nat.eqb].
    unfold ckf, cobs, rowobs, unradr. rewrite N1, N2, B. cbn. split; [|split]; [ring|ring|]. rewrite Rminus_eq_0. replace (0 + t * (0 * (0 * 1))) with 0 by ring. unfold KernGradBlocks.se1. rewrite ?Ropp_0, exp_0. ring. }
  assert (GQ : forall t, 0 < t -> pdf (cN nf_opt d) (K t) -> gq (cN nf_opt d) (basis d) (vat (ydata d)) (K t) = (/ 10 ^ 17) ^ 2 / (2 * (1 + e) * t)).
  { intros t Ht HK. destruct (EN t) as (E1 & E2 & E3). rewrite <- E3, <- Y. rewrite N in *. apply diag2; auto; try (unfold basis; rewrite N1; reflexivity). rewrite E3. apply Rmult_lt_0_compat; [lra|exact Ht]. }
  assert (c1 : 0 < / 10 ^ 17) by (apply Rinv_0_lt_compat, pow_lt; lra).
  set (z := / 10 ^ 17) in *.
  assert (zz : z ^ 2 <= / 10 ^ 32) by (unfold z; rewrite pow_inv, <- pow_mult; apply Rinv_le_contravar; [apply pow_lt; lra|apply Rle_pow; [lra|lia]]).
  destruct PD as (ep & PD).
  assert (NV : forall t, Rabs (t - 1) < Rmin (/ 2) ep -> nvarK nf_opt d (K t) = / 10 ^ 32).
  { intros t Ht. assert (T1 : Rabs (t - 1) < / 2) by (eapply Rlt_le_trans; [exact Ht|apply Rmin_l]). assert (T2 : Rabs (t - 1) < ep) by (eapply Rlt_le_trans; [exact Ht|apply Rmin_r]).
    apply Rabs_def2 in T1. unfold nvarK, varK_min. apply Rmax_left. rewrite GQ; [|lra|apply PD; exact T2]. rewrite N. replace (INR 2) with 2 by (simpl; lra).
    assert (DD : 1 <= 2 * (1 + e) * t) by (assert (0 <= e * t) by (apply Rmult_le_pos; lra); lra).
    assert (z ^ 2 / (2 * (1 + e) * t) <= z ^ 2). { apply Rle_div_l; [lra|]. rewrite <- (Rmult_1_r (z ^ 2)) at 1. apply Rmult_le_compat_l; [apply pow2_ge_0|exact DD]. }
    assert (0 <= z ^ 2) by apply pow2_ge_0. lra. }
  assert (MP : 0 < Rmin (/ 2) ep) by (apply Rmin_glb_lt; [lra|apply cond_pos]).
  destruct (C25_below_the_floor la nf_opt d lk_default true false info nf_hp false adj adj l ld LI eq_refl NP Z eq_refl (fun _ => TS) EI El Eld) as (g & G & EG & EG' & _).
  exists l, g. split; [exact El|]. split.
  { destruct P as (_ & _ & P3 & _). rewrite P3, <- KV. f_equal. apply NV. rewrite Rminus_eq_0, Rabs_R0. exact MP. }
  split; [exact EG|]. intros adj' DV.
  destruct (C25_below_the_floor la nf_opt d lk_default true false info nf_hp false adj adj' l ld LI eq_refl NP Z eq_refl (fun _ => TS) EI El Eld) as (g' & G' & EH & EH' & BF).
  rewrite EG in EH. rewrite EG' in EH'. apply some_inj in EH. apply some_inj in EH'. subst g' G'.
  specialize (BF 0%nat (HTheta 0) 1 _ eq_refl eq_refl MP).
  assert (DV' := is_derivative_unique _ _ _ _ DV (BF ltac:(
    intros t Ht; assert (T1 : Rabs (t - 1) < 1) by (apply Rlt_trans with (/ 2); [eapply Rlt_le_trans; [exact Ht|apply Rmin_l]|lra]);
    destruct (C t adj' T1) as (Tt & lt & Et & Pt); unfold lkd_scalar; rewrite Et; destruct Pt as (_ & _ & Q3 & _); rewrite Q3; f_equal; apply (NV t Ht)))).
  destruct PD' as (_ & _ & _ & _ & _ & _ & _ & (G' & EH & L1 & L2)). rewrite EG' in EH. apply some_inj in EH. subst G'.
  rewrite L2 in DV' by (cbn; lia).
  assert (QD := q_D nf_opt d RD 1 K (tat T 0) (ex_intro _ ep PD) (proj2 (ST 0%nat (HTheta 0) 1 eq_refl eq_refl))).
  assert (QX : is_derive (fun t => gq (cN nf_opt d) (basis d) (vat (ydata d)) (K t)) 1 (- (z ^ 2 / (2 * (1 + e))))).
  { apply (dR_ext_near (fun t => z ^ 2 / (2 * (1 + e) * t)) _ 1 _ (Rmin (/ 2) ep) MP).
    - intros t Ht. assert (T1 : Rabs (t - 1) < / 2) by (eapply Rlt_le_trans; [exact Ht|apply Rmin_l]). assert (T2 : Rabs (t - 1) < ep) by (eapply Rlt_le_trans; [exact Ht|apply Rmin_r]).
      apply Rabs_def2 in T1. symmetry. apply GQ; [lra|apply PD; exact T2].
    - auto_derive; [lra|]. field. lra. }
  assert (QE := dR_unique _ _ _ _ QD QX). unfold nvD in DV'. rewrite KV in QE. rewrite QE in DV'. rewrite N3, N in DV'.
  assert (0 < z ^ 2 / (2 * (1 + e))) by (apply Rdiv_lt_0_compat; [apply pow_lt; exact c1|lra]).
  assert (0 < / / 10 ^ 32) by (apply Rinv_0_lt_compat, Rinv_0_lt_compat, pow_lt; lra).
  set (w := z ^ 2 / (2 * (1 + e))) in *. replace (INR 2) with 2 in DV' by (simpl; lra). unfold Rdiv at 1 3 in DV'. 
  set (h := / / 10 ^ 32) in *. assert (0 < w * h) by (apply Rmult_lt_0_compat; assumption).
  clearbody w h. replace (- - w * / 2 * h) with (w * h / 2) in DV' by field. lra.
Qed.
Print Assumptions C25_below_the_floor_refuted.
