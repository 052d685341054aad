(** C10, C11, C12: the condition number never exceeds the target. *)
From Coq Require Import Reals List Arith Bool Lia Lra Psatz.
From Coquelicot Require Import Coquelicot.
From Verif.Base Require Import NpLite NpFacts.
From Verif.Spec Require Import KernelSpec LinAlgSpec.
From Verif.Model Require Import KernelSqExp KernelMatern KernelRatQuad KernelDispatch CommonFun WellCond Rescaling GpState Chol Cov.
From Verif.Spec Require Import GpSpec.
From Verif.Proofs Require Import KernTac KernGradBlocks KernelExact LinAlg CholCorrect Psd CovStruct StateFacts RowSum JetGersh PreconBound NoiseFacts CondBound NuggetCond NuggetMain.
Import ListNotations.
Local Open Scope R_scope.

Lemma madd_eye_cond N A g e M k : mspec N N A g -> madd A (mscal e (meye (nr A))) = Ok M ->
  (forall M', mspec N N M' (fun i j => 1 * (g i j + dl i j e)) -> cond2_le M' k) -> cond2_le M k.
Proof.
  intros HA E H. apply H. assert (EN : nr A = N) by apply HA. rewrite EN in E.
  assert (Z := rok_inv _ _ _ (mzip_ok Rplus N N A (mscal e (meye N)) g _ HA (mscal_spec N N _ _ e (meye_spec N))) E).
  cbv beta in Z. eapply mspec_ext; [exact Z|]. intros i j _ _. cbv beta. unfold dl. destruct (i =? j)%nat; ring.
Qed.

Section CM.
Variables (o : gpopt) (d : gpdata) (hp : hpv) (noise : option vec) (cc : bool) (varK : option R) (bn : bool) (vK : R).
Hypothesis HR : gp_ready o d.
Hypothesis Hh : hyper_ok o hp.
Hypothesis Hno : noise_arg_ok o d hp noise.
Hypothesis Hv : eff_varK hp varK bn = Some vK.
Hypothesis Hvp : 0 < vK.
Notation X := (fst (get_scl_x_w_dist d)).
Notation kf := (ckf o d hp X).
Notation f := (noise_fn d hp noise).
Notation N := (cN o d).
Notation out_ok out := (exists Kc c, k_Kcor out = Some Kc /\ k_cond out = Some c /\ 1 <= c <= o_target o /\
   forall M, madd Kc (mscal (k_eta out) (meye (nr Kc))) = Ok M -> cond2_le M (o_target o)).

Lemma f_nn' : forall r, (r < N)%nat -> 0 <= f r.
Proof. destruct (call_setup o d hp noise HR Hh Hno) as (K & nv & _ & _ & _ & _ & _ & H). exact H. Qed.

Lemma precon_finish La : o_well o = Wprecon -> o_use_grad o = true ->
  (forall e, eta_is o d N (kcor kf f vK) e -> 0 < e -> La <= (o_target o - 1) * e) ->
  (forall v, bform N (kcor kf f vK) v v <= La * dotp N v v) ->
  rok (calc_all_K_w_chofac o d cond2 (d_Rt d) hp noise cc true varK bn) (fun out => out_ok out).
Proof.
  intros Hw Hu He HU.
  eapply rok_mono; [exact (call_precon o d cond2 hp noise cc true varK bn vK HR Hh Hno Hv Hvp Hw Hu)|].
  intros out (e & Kc & Kp & H1 & H2 & H3 & H4 & H5 & H6 & H7 & H8 & H9 & H10 & _).
  assert (Sy : forall i j, (i < N)%nat -> (j < N)%nat -> kf i j = kf j i) by (intros; apply ckf_sym).
  assert (ND : forall c M, 0 < c -> mspec N N M (fun i j => c * (kcor kf f vK i j + dl i j e)) -> cond2_le M (o_target o)).
  { intros c M Hc HM. apply (nugget_cond N M (kcor kf f vK) c e La); auto.
    - apply kcor_sym; auto.
    - intros v. apply kcor_psd; auto; [exact f_nn' | apply ckf_psd; exact Hh]. }
  exists Kc, (cond2 Kp). split; [exact H5|]. split; [exact H10|]. split.
  - apply cond2_bound; [destruct H8 as (E & _); rewrite E; apply (call_N o d HR) | apply (ND vK); auto].
  - intros M EM. rewrite H3 in EM. apply (madd_eye_cond N Kc _ e M (o_target o) H6 EM). intros M' HM'. apply (ND 1); auto. lra.
Qed.

Theorem precon_const_cond : o_well o = Wprecon -> o_use_grad o = true -> o_eta_const o = true -> o_eta_mtd o <> Edflt ->
  rok (calc_all_K_w_chofac o d cond2 (d_Rt d) hp noise cc true varK bn) (fun out => out_ok out).
Proof.
  intros Hw Hu Hc Hm. assert (Hn := gr_n _ _ HR). assert (Hd := gr_d _ _ HR). assert (Ht := gr_t _ _ HR).
  assert (UB := ubM_ge1 (o_kernel o) (o_dim o) Hd).
  apply (precon_finish (1 + INR (d_n_eval d - 1) * ubM (o_kernel o) (o_dim o)) Hw Hu).
  - intros e He _. unfold eta_is in He. rewrite Hc in He.
    destruct (gr_eta _ _ HR) as (ek & eg & E1 & E2). rewrite Hu, He in E2. subst eg.
    assert (EE : e = (1 + precon_ub (o_kernel o) (d_n_eval d) (o_dim o)) / (o_target o - 1)).
    { unfold calc_nugget in E1. cbn [o_ncfg nc_eta_mtd nc_use_grad nc_well nc_target nc_kernel nc_dim] in E1. cbv zeta in E1. rewrite Hu, Hw in E1.
      destruct (Nat.eqb_spec (d_n_eval d) 1) as [E|_].
      - rewrite precon_ub_eq by exact Hn. rewrite E in *. simpl (INR (1 - 1)). unfold calc_nugget_Kbase in E1. simpl INR in E1.
        destruct (o_eta_mtd o); try contradiction; injection E1 as _ <-; field; lra.
      - destruct (o_eta_mtd o); try contradiction; injection E1 as _ <-; reflexivity. }
    rewrite EE, precon_ub_eq by exact Hn. right. field. lra.
  - apply kcor_upper; auto.
    + exact f_nn'.
    + assert (0 <= INR (d_n_eval d - 1)) by apply pos_INR. nra.
    + apply ckf_pos; exact Hh.
    + intros v. apply ckf_upper; auto. apply (gr_pts _ _ HR).
Qed.
(** row-sum nugget, preconditioned *)
Theorem precon_vary_cond : o_well o = Wprecon -> o_use_grad o = true -> o_eta_const o = false ->
  rok (calc_all_K_w_chofac o d cond2 (d_Rt d) hp noise cc true varK bn) (fun out => out_ok out).
Proof.
  intros Hw Hu Hc. assert (Ht := gr_t _ _ HR).
  assert (Sy : forall i j, (i < N)%nat -> (j < N)%nat -> kf i j = kf j i) by (intros; apply ckf_sym).
  set (s := row_abs_sums (mkmat N N (kcor kf f vK))).
  destruct (rok_ex _ _ (argmax_ok s (call_N o d HR))) as (im & _ & Him & HM). simpl in Him.
  apply (precon_finish (vat s im) Hw Hu).
  - intros e He _. unfold eta_is in He. rewrite Hc in He. destruct He as (i & Hi & -> & HMi).
    assert (vat s im <= rsum N (fun j => Rabs (kcor kf f vK i j))) by (apply (HMi im Him)).
    replace ((o_target o - 1) * (rsum N (fun j => Rabs (kcor kf f vK i j)) / (o_target o - 1))) with (rsum N (fun j => Rabs (kcor kf f vK i j))) by (field; lra).
    exact H.
  - intros v. apply gershgorin; [apply kcor_sym; auto|]. intros i Hi. apply (HM i). exact Hi.
Qed.

(** without preconditioning, noise free *)
Notation plain_ok out := (exists c, k_cond out = Some c /\ 1 <= c <= o_target o /\ cond2_le (k_Kcov out) (o_target o)).
Lemma plain_finish La : o_well o <> Wprecon -> (forall r, (r < N)%nat -> f r = 0) ->
  (forall e, eta_is o d N kf e -> 0 < e -> La <= (o_target o - 1) * e) ->
  (forall v, bform N kf v v <= La * dotp N v v) ->
  rok (calc_all_K_w_chofac o d cond2 (d_Rt d) hp noise cc true varK bn) (fun out => plain_ok out).
Proof.
  intros Hw Hf He HU.
  eapply rok_mono; [exact (call_plain o d cond2 hp noise cc true varK bn vK HR Hh Hno Hv Hvp Hw)|].
  intros out (e & H1 & H2 & H3 & H4 & H5 & H6 & H7 & H8 & _).
  assert (ND : cond2_le (k_Kcov out) (o_target o)).
  { apply (nugget_cond N (k_Kcov out) kf vK e La); auto.
    - eapply mspec_ext; [exact H7|]. intros i j Hi Hj. cbv beta. f_equal. unfold kn. rewrite Hf by exact Hi. unfold dl. destruct (i =? j)%nat; field; lra.
    - intros; apply ckf_sym.
    - intros v. apply ckf_psd; exact Hh. }
  exists (cond2 (k_Kcov out)). split; [exact H8|]. split; [|exact ND].
  apply cond2_bound; [destruct H7 as (E & _); rewrite E; apply (call_N o d HR) | exact ND].
Qed.
Theorem plain_vary_cond : o_well o <> Wprecon -> o_eta_const o = false -> (forall r, (r < N)%nat -> f r = 0) ->
  rok (calc_all_K_w_chofac o d cond2 (d_Rt d) hp noise cc true varK bn) (fun out => plain_ok out).
Proof.
  intros Hw Hc Hf. assert (Ht := gr_t _ _ HR).
  set (s := row_abs_sums (mkmat N N kf)).
  destruct (rok_ex _ _ (argmax_ok s (call_N o d HR))) as (im & _ & Him & HM). simpl in Him.
  apply (plain_finish (vat s im) Hw Hf).
  - intros e He _. unfold eta_is in He. rewrite Hc in He. destruct He as (i & Hi & -> & HMi).
    assert (vat s im <= rsum N (fun j => Rabs (kf i j))) by (apply (HMi im Him)).
    replace ((o_target o - 1) * (rsum N (fun j => Rabs (kf i j)) / (o_target o - 1))) with (rsum N (fun j => Rabs (kf i j))) by (field; lra).
    exact H.
  - intros v. apply gershgorin; [intros; apply ckf_sym|]. intros i Hi. apply (HM i). exact Hi.
Qed.
(** gradient-free, constant nugget *)
Theorem base_const_cond : o_well o <> Wprecon -> o_use_grad o = false -> o_eta_const o = true -> o_eta_mtd o <> Edflt ->
  (forall r, (r < N)%nat -> f r = 0) ->
  rok (calc_all_K_w_chofac o d cond2 (d_Rt d) hp noise cc true varK bn) (fun out => plain_ok out).
Proof.
  intros Hw Hu Hc Hm Hf. assert (Ht := gr_t _ _ HR).
  assert (EN : N = d_n_eval d) by (unfold cN; rewrite (wf_g0 _ _ (gr_wf _ _ HR) Hu); lia).
  apply (plain_finish (INR (d_n_eval d)) Hw Hf).
  - intros e He _. unfold eta_is in He. rewrite Hc in He.
    destruct (gr_eta _ _ HR) as (ek & eg & E1 & E2). rewrite Hu, He in E2. injection E2 as <-.
    unfold calc_nugget in E1. cbn [o_ncfg nc_eta_mtd nc_use_grad nc_target] in E1. cbv zeta in E1. rewrite Hu in E1.
    assert (e = INR (d_n_eval d) / (o_target o - 1)) as -> by (destruct (o_eta_mtd o); try contradiction; injection E1 as <- _; reflexivity).
    right. field. lra.
  - intros v. apply gershgorin; [intros; apply ckf_sym|]. intros i Hi.
    eapply Rle_trans; [apply rsum_le; intros j Hj; apply (ckf_base_le1 o d hp X (gr_pts _ _ HR) Hh i j Hu Hi Hj)|].
    rewrite rsum_const, EN. lra.
Qed.
End CM.
