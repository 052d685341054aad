(** Condition number and factorisation of the covariance for every well-conditioning method. *)
From Coq Require Import Reals List Arith Bool Lia Lra Psatz.
From Coquelicot Require Import Coquelicot.
From Verif.Base Require Import NpLite NpFacts.
From Verif.Spec Require Import KernelSpec LinAlgSpec.
From Verif.Model Require Import KernelSqExp KernelMatern KernelRatQuad KernelDispatch CommonFun WellCond Rescaling GpState Chol Cov.
From Verif.Spec Require Import GpSpec.
From Verif.Proofs Require Import KernTac KernGradBlocks RadialCalculus RadialFns KernelExact LinAlg CholCorrect Psd CovStruct StateFacts RowSum JetGersh PreconBound NoiseFacts CondBound NuggetCond.
Import ListNotations.
Local Open Scope R_scope.

(** ** C13: the nugget rule *)
Lemma vreq_le n d : calc_vreq n d <= 2 * sqrt (INR d) \/ n = 1%nat.
Proof. unfold calc_vreq. destruct (Nat.eqb_spec n 1); [right; auto|left]. cbv zeta. apply Rmin_r. Qed.
Lemma sqrt_INR_ge1 d : (0 < d)%nat -> 1 <= sqrt (INR d).
Proof. intros H. rewrite <- sqrt_1. apply sqrt_le_1_alt. replace 1 with (INR 1) by reflexivity. apply le_INR. lia. Qed.
Lemma vreq_ge n d : (1 < n)%nat -> (0 < d)%nat -> sqrt 2 <= calc_vreq n d.
Proof.
  intros Hn Hd. unfold calc_vreq. destruct (Nat.eqb_spec n 1); [lia|]. cbv zeta.
  assert (S := sqrt_INR_ge1 d Hd). assert (S2 : sqrt 2 <= 2).
  { replace 2 with (sqrt (2 * 2)) at 2 by (apply sqrt_square; lra). apply sqrt_le_1_alt. lra. }
  apply Rmin_glb; [|lra].
  assert (N1 : 1 <= INR n - 1) by (replace 1 with (INR 2 - 1) at 1 by (simpl; ring); apply Rplus_le_compat_r, le_INR; lia).
  set (x := (INR n - 1) * (1 + 2 * sqrt (INR d)) / 2). assert (Hx : 3 / 2 <= x) by (unfold x; nra).
  assert (Lx : / 3 <= ln x).
  { assert (Z : ln (/ x) <= / x - 1).
    { assert (Y := exp_ineq1_le (ln (/ x))). rewrite exp_ln in Y by (apply Rinv_0_lt_compat; lra). lra. }
    rewrite ln_Rinv in Z by lra. assert (/ x <= / (3 / 2)) by (apply Rinv_le_contravar; lra). lra. }
  assert (E0 : 0 < exp 1) by apply exp_pos. assert (E3 := exp_le_3).
  assert (E2 : exp 2 = exp 1 * exp 1) by (rewrite <- exp_plus; f_equal; ring).
  apply (Rmult_le_reg_r (exp 1)); [exact E0|]. unfold Rdiv at 1. rewrite Rmult_assoc, Rinv_l, Rmult_1_r by lra.
  apply Rplus_le_reg_l with (- 2). replace (-2 + (2 + sqrt (4 + 2 * exp 2 * ln x))) with (sqrt (4 + 2 * exp 2 * ln x)) by ring.
  destruct (Rle_dec (-2 + sqrt 2 * exp 1) 0) as [Hneg|Hpos]; [eapply Rle_trans; [exact Hneg | apply sqrt_pos]|].
  rewrite <- (sqrt_square (-2 + sqrt 2 * exp 1)) by lra. apply sqrt_le_1_alt.
  assert (Q : sqrt 2 * sqrt 2 = 2) by (apply sqrt_sqrt; lra). assert (Q1 : 1 <= sqrt 2) by (rewrite <- sqrt_1 at 1; apply sqrt_le_1_alt; lra).
  replace ((-2 + sqrt 2 * exp 1) * (-2 + sqrt 2 * exp 1)) with (4 - 4 * sqrt 2 * exp 1 + (sqrt 2 * sqrt 2) * (exp 1 * exp 1)) by ring.
  rewrite Q. assert (2 * exp 2 * / 3 <= 2 * exp 2 * ln x) by (apply Rmult_le_compat_l; [rewrite E2; nra|exact Lx]).
  rewrite E2 in *. assert (exp 1 * exp 1 <= 3 * exp 1) by (apply Rmult_le_compat_r; lra).
  assert (exp 1 <= sqrt 2 * exp 1) by (rewrite <- (Rmult_1_l (exp 1)) at 1; apply Rmult_le_compat_r; lra). lra.
Qed.
Lemma x_exp_ge1 x : 1 <= x -> 1 <= x * exp (1 / x - 1).
Proof.
  intros H. assert (Y := exp_ineq1_le (1 / x - 1)). replace (1 + (1 / x - 1)) with (/ x) in Y by (field; lra).
  apply (Rmult_le_compat_l x) in Y; [|lra]. rewrite Rinv_r in Y by lra. exact Y.
Qed.
Lemma nugget_Kfull_ok c n : (0 < n)%nat -> (0 < nc_dim c)%nat -> 1 < nc_target c ->
  exists u, 0 < u /\ INR n <= u /\ (forall t, 1 < t -> calc_nugget_Kfull_vreq (mkncfg (nc_dim c) (nc_use_grad c) (nc_kernel c) (nc_well c) (nc_eta_mtd c) (nc_eta_dflt c) t) n None = Ok (u / (t - 1))).
Proof.
  intros Hn Hd Ht. unfold calc_nugget_Kfull_vreq. cbn [nc_dim nc_target].
  assert (P1 : 1 <= INR n) by (replace 1 with (INR 1) by reflexivity; apply le_INR; lia).
  destruct (Nat.eqb_spec n 1) as [->|Hn1].
  - exists (INR 1). split; [simpl; lra|]. split; [lra|]. reflexivity.
  - assert (Hn2 : (1 < n)%nat) by lia. assert (V1 := vreq_ge n (nc_dim c) Hn2 Hd). destruct (vreq_le n (nc_dim c)) as [V2|]; [|contradiction].
    set (v := calc_vreq n (nc_dim c)) in *. cbv zeta.
    assert (Q1 : 1 <= sqrt 2) by (rewrite <- sqrt_1 at 1; apply sqrt_le_1_alt; lra).
    set (vf := 2 * sqrt (INR (nc_dim c)) / v).
    assert (Hvf : 1 <= vf).
    { unfold vf. apply (Rmult_le_reg_r v); [lra|]. unfold Rdiv. rewrite Rmult_assoc, Rinv_l by lra. lra. }
    assert (X1 := x_exp_ge1 vf Hvf). set (w := vf * exp (1 / vf - 1)) in *.
    exists (1 + (INR n - 1) * vf * exp (1 / vf - 1)).
    assert (EU : 1 + (INR n - 1) * vf * exp (1 / vf - 1) = 1 + (INR n - 1) * w) by (unfold w; ring).
    assert (UN : INR n <= 1 + (INR n - 1) * w) by nra.
    rewrite EU. split; [lra|]. split; [exact UN|]. intros t Hlt.
    unfold rleb. destruct (Rle_dec (sqrt 2) v); [|lra]. simpl. destruct (Rle_dec (99 / 100) vf); [|lra]. simpl.
    unfold calc_nugget_Kbase. destruct (Rle_dec _ _) as [|C]; [reflexivity|]. exfalso. apply C.
    assert (Z : 0 < / (t - 1)) by (apply Rinv_0_lt_compat; lra). unfold Rdiv.
    rewrite <- Rmult_assoc. apply Rmult_le_compat_r; lra.
Qed.

(** shape of the nugget: numerator / (target - 1), or the configured default *)
Definition supported (c : ncfg) : Prop :=
  match nc_eta_mtd c with Eother => nc_use_grad c = false \/ nc_well c = Wprecon \/ is_rescale (nc_well c) = true | _ => True end.
Definition with_target (c : ncfg) (t : R) : ncfg :=
  mkncfg (nc_dim c) (nc_use_grad c) (nc_kernel c) (nc_well c) (nc_eta_mtd c) (nc_eta_dflt c) t.
Lemma with_target_id c : with_target c (nc_target c) = c. Proof. destruct c; reflexivity. Qed.
Lemma precon_ub_nn k n d : (0 < n)%nat -> (0 < d)%nat -> 0 <= precon_ub k n d.
Proof.
  intros Hn Hd. rewrite precon_ub_eq by exact Hn. assert (Z := ubM_ge1 k d Hd). apply Rmult_le_pos; [apply pos_INR | lra].
Qed.
Lemma nugget_shape c n : (0 < n)%nat -> (0 < nc_dim c)%nat -> 1 < nc_target c -> nc_eta_mtd c <> Edflt -> supported c ->
  exists ug, (nc_use_grad c = true -> exists u, ug = Some u /\ INR n <= u) /\ (nc_use_grad c = false -> ug = None) /\
   forall t, 1 < t -> calc_nugget (with_target c t) n = Ok (INR n / (t - 1), option_map (fun u => u / (t - 1)) ug).
Proof.
  intros Hn Hd Ht He Hs.
  assert (P1 : 1 <= INR n) by (replace 1 with (INR 1) by reflexivity; apply le_INR; lia).
  destruct (nc_use_grad c) eqn:Hu.
  2:{ exists None. split; [discriminate|]. split; [reflexivity|]. intros t _. unfold calc_nugget, with_target. cbn [nc_use_grad nc_eta_mtd nc_target]. rewrite Hu.
      destruct (nc_eta_mtd c); [reflexivity|reflexivity|contradiction|reflexivity]. }
  assert (G : exists u, INR n <= u /\ forall t, 1 < t -> calc_nugget (with_target c t) n = Ok (INR n / (t - 1), Some (u / (t - 1)))).
  { unfold calc_nugget, with_target. cbn [nc_use_grad nc_eta_mtd nc_target nc_well nc_kernel nc_dim nc_eta_dflt]. rewrite Hu.
    destruct (Nat.eqb_spec n 1) as [->|Hn1].
    { exists (INR 1). split; [lra|]. intros t Hlt. destruct (nc_eta_mtd c); [reflexivity|reflexivity|contradiction|reflexivity]. }
    destruct (nugget_Kfull_ok c n Hn Hd Ht) as (u & U1 & U2 & U3). rewrite Hu in U3.
    unfold supported in Hs. rewrite Hu in Hs.
    destruct (nc_well c) eqn:Ew; cbn [is_rescale] in *.
    - destruct (nc_eta_mtd c); [exists (INR n); split; [lra|reflexivity] | | contradiction | destruct Hs as [|[|]]; discriminate].
      exists (INR n * (INR (nc_dim c) + 1)). split; [assert (0 <= INR (nc_dim c)) by apply pos_INR; nra|]. intros t Hlt. do 3 f_equal. unfold calc_nugget_Kbase. field. lra.
    - exists (1 + precon_ub (nc_kernel c) n (nc_dim c)). split.
      + rewrite precon_ub_eq by exact Hn. assert (Z := ubM_ge1 (nc_kernel c) (nc_dim c) Hd). rewrite minus_INR by lia. change (INR 1) with 1. nra.
      + intros t Hlt. destruct (nc_eta_mtd c); [reflexivity|reflexivity|contradiction|reflexivity].
    - exists u. split; [exact U2|]. intros t Hlt. rewrite (U3 t Hlt). destruct (nc_eta_mtd c); [reflexivity|reflexivity|contradiction|reflexivity].
    - exists u. split; [exact U2|]. intros t Hlt. rewrite (U3 t Hlt). destruct (nc_eta_mtd c); [reflexivity|reflexivity|contradiction|reflexivity].
    - destruct (nc_eta_mtd c); [exists (INR n); split; [lra|reflexivity] | | contradiction | destruct Hs as [|[|]]; discriminate].
      exists (INR n * (INR (nc_dim c) + 1)). split; [assert (0 <= INR (nc_dim c)) by apply pos_INR; nra|]. intros t Hlt. do 3 f_equal. unfold calc_nugget_Kbase. field. lra.
    - destruct (nc_eta_mtd c); [exists (INR n); split; [lra|reflexivity] | | contradiction | destruct Hs as [|[|]]; discriminate].
      exists (INR n * (INR (nc_dim c) + 1)). split; [assert (0 <= INR (nc_dim c)) by apply pos_INR; nra|]. intros t Hlt. do 3 f_equal. unfold calc_nugget_Kbase. field. lra. }
  destruct G as (u & Gu & G). exists (Some u).
  split; [intros _; exists u; auto|]. split; [discriminate|]. exact G.
Qed.

(** ** The covariance calls *)
Definition noise_fn (d : gpdata) (hp : hpv) (noise : option vec) (r : nat) : R :=
  match noise with Some v => vat v r | None => noise_row d hp (unradr (d_n_eval d) (d_n_grad d) r) end.

(** a usable object: data set, positive default nugget rule *)
Record gp_ready (o : gpopt) (d : gpdata) : Prop := mkready {
  gr_wf : wf_data o d; gr_pts : wf_pts o d (fst (get_scl_x_w_dist d));
  gr_n : (0 < d_n_eval d)%nat; gr_d : (0 < o_dim o)%nat; gr_t : 1 < o_target o; gr_e : 0 < o_eta_dflt o;
  gr_eta : exists ek eg, calc_nugget (o_ncfg o) (d_n_eval d) = Ok (ek, eg) /\ d_etaK d = if o_use_grad o then eg else Some ek }.
Lemma set_data_ready o x fval sf G sg b d : (0 < vlen fval)%nat -> (0 < o_dim o)%nat -> 1 < o_target o -> 0 < o_eta_dflt o ->
  nc x = o_dim o -> nr x = vlen fval -> data_after o x fval sf G sg b d -> gp_ready o d.
Proof.
  intros H1 H2 H3 H4 H5 H6 H. assert (I := data_after_inv _ _ _ _ _ _ _ _ H). destruct I as (I1 & _ & _ & _ & _ & (ek & eg & I2 & _ & _ & I3) & _).
  constructor; auto; try rewrite I1; auto.
  - eapply set_data_wf; eauto.
  - eapply set_data_wp; eauto.
  - exists ek, eg. auto.
Qed.

Lemma nugget_pos c n e : (0 < n)%nat -> (0 < nc_dim c)%nat -> 1 < nc_target c -> 0 < nc_eta_dflt c ->
  calc_nugget c n = Ok e -> 0 < fst e /\ (nc_use_grad c = true -> exists v, snd e = Some v /\ 0 < v).
Proof.
  intros Hn Hd Ht He H.
  assert (P1 : 1 <= INR n) by (replace 1 with (INR 1) by reflexivity; apply le_INR; lia).
  assert (PK : 0 < calc_nugget_Kbase n (nc_target c)) by (unfold calc_nugget_Kbase; apply Rdiv_lt_0_compat; lra).
  assert (PU := precon_ub_nn (nc_kernel c) n (nc_dim c) Hn Hd).
  assert (PP : 0 < (1 + precon_ub (nc_kernel c) n (nc_dim c)) / (nc_target c - 1)) by (apply Rdiv_lt_0_compat; lra).
  destruct (nugget_Kfull_ok c n Hn Hd Ht) as (u & U1 & U2 & U3). specialize (U3 _ Ht).
  replace (mkncfg (nc_dim c) (nc_use_grad c) (nc_kernel c) (nc_well c) (nc_eta_mtd c) (nc_eta_dflt c) (nc_target c)) with c in U3 by (destruct c; reflexivity).
  assert (PF : 0 < u / (nc_target c - 1)) by (apply Rdiv_lt_0_compat; lra).
  assert (PD : 0 < calc_nugget_Kbase n (nc_target c) * (INR (nc_dim c) + 1)).
  { apply Rmult_lt_0_compat; [exact PK|]. assert (0 <= INR (nc_dim c)) by apply pos_INR. lra. }
  unfold calc_nugget in H. cbv zeta in H. rewrite U3 in H. simpl in H.
  destruct (nc_eta_mtd c), (nc_use_grad c), (n =? 1)%nat, (nc_well c); simpl in H; try discriminate; injection H as <-; simpl;
    split; auto; intros; eexists; split; eauto; discriminate.
Qed.
Lemma etaK_pos o d : gp_ready o d -> exists e, d_etaK d = Some e /\ 0 < e.
Proof.
  intros [W P Hn Hd Ht He (ek & eg & E1 & E2)].
  destruct (nugget_pos (o_ncfg o) _ _ Hn Hd Ht He E1) as (A & B). simpl in A, B. rewrite E2. destruct (o_use_grad o); [apply B; reflexivity | eauto].
Qed.

Section Calls.
Variables (o : gpopt) (d : gpdata) (condf : mat -> R) (hp : hpv) (noise : option vec) (cc cnd : bool) (varK : option R) (bn : bool) (vK : R).
Hypothesis HR : gp_ready o d.
Hypothesis Hh : hyper_ok o hp.
Hypothesis Hno : noise_arg_ok o d hp noise.
Hypothesis Hv : eff_varK hp varK bn = Some vK.
Hypothesis Hvp : 0 < vK.
Notation X := (fst (get_scl_x_w_dist d)).
Notation kf := (ckf o d hp X).
Notation f := (noise_fn d hp noise).
Notation N := (cN o d).

Lemma call_N : (0 < N)%nat. Proof. unfold cN. assert (Z := gr_n _ _ HR). lia. Qed.
Lemma call_setup : exists K nv, tr (d_Rt d) = tc (d_Rt d) /\
  match noise with Some v => Ok v | None => calc_noise_vec o d hp end = Ok nv /\
  calc_Kern (o_use_grad o) (o_kernel o) (d_Rt d) (hp_theta hp) (hp_kernel hp) (d_bvec d) (d_bvec d) = Ok K /\
  mspec N N K kf /\ vspec N nv f /\ (forall r, (r < N)%nat -> 0 <= f r).
Proof.
  destruct (kern_ok o d hp X (gr_pts _ _ HR) Hh) as (K & EK & HK).
  assert (TR : tr (d_Rt d) = tc (d_Rt d)).
  { assert (E := wp_Rt _ _ _ (gr_pts _ _ HR)). unfold calc_Rtensor in E. rewrite Nat.eqb_refl in E. injection E as <-. reflexivity. }
  destruct noise as [v|]; unfold noise_arg_ok in Hno; unfold noise_fn.
  - exists K, v. destruct Hno as (L & P). assert (E : vlen v = N) by (rewrite L; apply (wf_n _ _ (gr_wf _ _ HR))).
    split; [exact TR|]. split; [reflexivity|]. split; [exact EK|]. split; [exact HK|]. split; [split; [exact E|intros; reflexivity]|].
    rewrite <- E. exact P.
  - destruct Hno as (C & P). destruct (rok_ex _ _ (noise_vec_ok o d hp (gr_wf _ _ HR) C)) as (nv & E & H).
    exists K, nv. split; [exact TR|]. split; [exact E|]. split; [exact EK|]. split; [exact HK|]. split; [exact H|].
    intros r _. apply noise_row_nn, P.
Qed.
Let HetaC : o_eta_const o = true -> exists e, d_etaK d = Some e.
Proof. intros _. destruct (etaK_pos o d HR) as (e & E & _). eauto. Qed.
Let f_nn : forall r, (r < N)%nat -> 0 <= f r.
Proof. destruct call_setup as (K & nv & _ & _ & _ & _ & _ & H). exact H. Qed.

(** the nugget in use is positive *)
Lemma eta_is_pos (A : nat -> nat -> R) e : (exists r, (r < N)%nat /\ A r r <> 0) -> eta_is o d N A e -> 0 < e.
Proof.
  intros (r & Hr & HA). unfold eta_is. destruct (o_eta_const o).
  - intros E. destruct (etaK_pos o d HR) as (e' & E' & P). rewrite E in E'. injection E' as ->. exact P.
  - intros (i & Hi & -> & HM). assert (T := gr_t _ _ HR). apply Rdiv_lt_0_compat; [|lra].
    eapply Rlt_le_trans; [|apply (HM r Hr)]. eapply Rlt_le_trans; [apply Rabs_pos_lt, HA|].
    apply (rsum_le_term N (fun j => Rabs (A r j))); [intros; apply Rabs_pos | exact Hr].
Qed.

Definition plain_cond_ok (out : kout) : Prop := o_well o <> Wprecon -> cnd = true -> condf (k_Kcov out) <= o_cond_max_abs o.

(** everything about the call *)
Theorem call_precon : o_well o = Wprecon -> o_use_grad o = true ->
  rok (calc_all_K_w_chofac o d condf (d_Rt d) hp noise cc cnd varK bn) (fun out =>
    exists e Kc Kp, eta_is o d N (kcor kf f vK) e /\ 0 < e /\ k_eta out = e /\ mspec N N (k_Kern out) kf /\
      k_Kcor out = Some Kc /\ mspec N N Kc (kcor kf f vK) /\
      k_Kprec out = Some Kp /\ mspec N N Kp (fun i j => vK * (kcor kf f vK i j + dl i j e)) /\
      mspec N N (k_Kcov out) (fun i j => vK * (kn kf f vK i j + dl i j (e * kn kf f vK i i))) /\
      k_cond out = (if cnd then Some (condf Kp) else None) /\ pd Kp /\ pd (k_Kcov out) /\
      (cc = true -> exists c, k_chofac out = Some c /\ chol_of c (k_Kcov out)) /\
      (forall c, k_chofac out = Some c -> chol_of c (k_Kcov out))).
Proof.
  intros Hw Hu. destruct call_setup as (K & nv & TR & Env & EK & HK & Hnv & Hf).
  assert (Kp0 : forall i, (i < N)%nat -> 0 < kn kf f vK i i) by (apply kn_pos; auto; apply ckf_pos; exact Hh).
  eapply rok_mono; [exact (all_K_precon o d condf (d_Rt d) hp noise cc cnd varK bn K nv vK N kf f TR Hv Hvp Env EK HK Hnv call_N HetaC Hw Hu Kp0)|].
  intros out (e & Kc & Kp & H1 & H2 & H3 & H4 & H5 & H6 & H7 & H8 & H9 & H10 & H11). exists e, Kc, Kp.
  assert (Sy : forall i j, (i < N)%nat -> (j < N)%nat -> kf i j = kf j i) by (intros; apply ckf_sym).
  assert (He : 0 < e).
  { apply (eta_is_pos (kcor kf f vK)); [|exact H1]. exists 0%nat. split; [exact call_N|]. rewrite (kcor_diag N) by (auto using call_N; apply ckf_pos; exact Hh). lra. }
  assert (Hpd : pd Kp).
  { apply (nugget_pd N Kp (kcor kf f vK) vK (fun _ => e)); auto.
    - apply kcor_sym; auto.
    - intros v. apply kcor_psd; auto. apply ckf_psd; exact Hh. }
  assert (Hpd2 : pd (k_Kcov out)).
  { apply (nugget_pd N (k_Kcov out) (kn kf f vK) vK (fun i => e * kn kf f vK i i)); auto.
    - intros i Hi. apply Rmult_lt_0_compat; auto.
    - apply kn_sym; auto.
    - intros v. apply kn_psd; auto. apply ckf_psd; exact Hh. }
  repeat (split; [assumption|]). split; [intros Hc; apply H10; auto|]. intros c Hc. apply (H11 c Hc). apply Hpd.
Qed.
Theorem call_plain : o_well o <> Wprecon ->
  rok (calc_all_K_w_chofac o d condf (d_Rt d) hp noise cc cnd varK bn) (fun out =>
    exists e, eta_is o d N kf e /\ 0 < e /\ k_eta out = e /\ mspec N N (k_Kern out) kf /\
      k_Kcor out = None /\ k_Kprec out = None /\
      mspec N N (k_Kcov out) (fun i j => vK * (kn kf f vK i j + dl i j e)) /\
      k_cond out = (if cnd then Some (condf (k_Kcov out)) else None) /\ pd (k_Kcov out) /\
      (cc = true -> (cnd = true -> condf (k_Kcov out) <= o_cond_max_abs o) -> exists c, k_chofac out = Some c /\ chol_of c (k_Kcov out)) /\
      (forall c, k_chofac out = Some c -> chol_of c (k_Kcov out))).
Proof.
  intros Hw. destruct call_setup as (K & nv & TR & Env & EK & HK & Hnv & Hf).
  eapply rok_mono; [exact (all_K_plain o d condf (d_Rt d) hp noise cc cnd varK bn K nv vK N kf f TR Hv Hvp Env EK HK Hnv call_N HetaC Hw)|].
  intros out (e & H1 & H2 & H3 & H4 & H5 & H6 & H7 & H8 & H9). exists e.
  assert (Sy : forall i j, (i < N)%nat -> (j < N)%nat -> kf i j = kf j i) by (intros; apply ckf_sym).
  assert (He : 0 < e).
  { apply (eta_is_pos kf); [|exact H1]. exists 0%nat. split; [exact call_N|]. assert (Z := ckf_pos o d hp X Hh 0%nat call_N). lra. }
  assert (Hpd : pd (k_Kcov out)).
  { apply (nugget_pd N (k_Kcov out) (kn kf f vK) vK (fun _ => e)); auto.
    - apply kn_sym; auto.
    - intros v. apply kn_psd; auto. apply ckf_psd; exact Hh. }
  repeat (split; [assumption|]). split; [intros Hc1 Hc2; apply H8; auto|]. intros c Hc. apply (H9 c Hc). apply Hpd.
Qed.
End Calls.
