(** The nugget as a share of the diagonal of the covariance matrix. *)
From Coq Require Import Reals List Arith Bool Lia Lra Psatz.
From Verif.Base Require Import NpLite NpFacts.
From Verif.Spec Require Import KernelSpec LinAlgSpec FloatSpec.
From Verif.Model Require Import KernelSqExp KernelMatern KernelRatQuad KernelDispatch CommonFun WellCond Rescaling GpState Chol Cov.
From Verif.Spec Require Import GpSpec.
From Verif.Proofs Require Import LinAlg CholCorrect CovStruct StateFacts RowSum PreconBound NoiseFacts CondBound NuggetCond NuggetMain FlChol FlMargin FlSolve FlSol.
Import ListNotations.
Local Open Scope R_scope.

Lemma rsum_ge_one n (f : nat -> R) i : (i < n)%nat -> (forall j, (j < n)%nat -> 0 <= f j) -> f i <= rsum n f.
Proof.
  intros Hi H. rewrite <- (rsum_delta n i f Hi). apply rsum_le; intros j Hj. destruct (j =? i)%nat; [lra|auto].
Qed.
Definition plus_diag (n : nat) (A : mat) (K : nat -> nat -> R) (D : nat -> R) : Prop := mspec n n A (fun i j => K i j + (if (i =? j)%nat then D i else 0)).
Lemma plus_diag_q n A K D v : plus_diag n A K D -> qform A v = bform n K v v + rsum n (fun i => D i * (v i * v i)).
Proof.
  intros (E1 & E2 & E3). rewrite qform_bform by congruence. rewrite E1. rewrite (bform_ext n (mat_at A) (fun i j => K i j + (if (i =? j)%nat then D i else 0)) v v v v) by auto.
  rewrite bform_madd, bform_diag. f_equal. apply rsum_ext; intros; ring.
Qed.
Lemma share_sum n A D k v : nr A = n -> (forall i, (i < n)%nat -> mat_at A i i <= k * D i) -> rsum n (fun i => mat_at A i i * (v i * v i)) <= k * rsum n (fun i => D i * (v i * v i)).
Proof. intros E H. rewrite <- rsum_scal. apply rsum_le; intros i Hi. rewrite <- (Rmult_assoc k). apply Rmult_le_compat_r; [apply Rle_0_sqr|auto]. Qed.
Lemma share_scaled n A K D k : plus_diag n A K D -> pd A -> 0 <= k -> (forall v, 0 <= bform n K v v) -> (forall i, (i < n)%nat -> mat_at A i i <= k * D i) -> scaled_cond_le A k.
Proof.
  intros HA HP Hk PK HD v. rewrite len_sq by (intros; apply pd_diag; assumption). rewrite (plus_diag_q n A K D v HA). assert (E : nr A = n) by apply HA. rewrite E.
  assert (X := share_sum n A D k v E HD). assert (Y : 0 <= k * bform n K v v) by (apply Rmult_le_pos; auto). lra.
Qed.
Lemma share_cov n A K D k kx : plus_diag n A K D -> 0 < k -> (forall w, 0 <= bform n K w w - 2 * dotp n kx w + 1) -> (forall i, (i < n)%nat -> mat_at A i i <= k * D i) -> covariances A (/ k) kx.
Proof.
  intros HA Hk HJ HD w. rewrite (plus_diag_q n A K D w HA). assert (E : nr A = n) by apply HA. rewrite E. assert (X := share_sum n A D k w E HD). assert (J := HJ w).
  assert (Y : / k * rsum n (fun i => mat_at A i i * (w i * w i)) <= rsum n (fun i => D i * (w i * w i))).
  { apply Rmult_le_reg_l with k; [exact Hk|]. rewrite <- Rmult_assoc, Rinv_r by lra. lra. }
  lra.
Qed.

Section T.
Variables (o : gpopt) (d : gpdata) (hp : hpv).
Hypothesis HR : gp_ready o d.
Hypothesis Hh : hyper_ok o hp.
Notation X := (fst (get_scl_x_w_dist d)).
Notation kf := (ckf o d hp X).
Notation N := (cN o d).
Lemma eta_precon f vK e : 0 < vK -> (forall r, (r < N)%nat -> 0 <= f r) -> o_well o = Wprecon -> o_use_grad o = true -> (o_eta_const o = true -> o_eta_mtd o <> Edflt) ->
  eta_is o d N (kcor kf f vK) e -> 1 <= (o_target o - 1) * e.
Proof.
  intros Hv Hf Hw Hu Hm He. assert (Hn := gr_n _ _ HR). assert (Hd := gr_d _ _ HR). assert (Ht := gr_t _ _ HR). unfold eta_is in He. destruct (o_eta_const o) eqn:Hc.
  - assert (UB := ubM_ge1 (o_kernel o) (o_dim o) Hd). specialize (Hm eq_refl).
    destruct (gr_eta _ _ HR) as (ek & eg & E1 & E2). rewrite Hu, He in E2. subst eg.
    assert (EE : e = (1 + precon_ub (o_kernel o) (d_n_eval d) (o_dim o)) / (o_target o - 1)).
    { unfold calc_nugget in E1. cbn [o_ncfg nc_eta_mtd nc_use_grad nc_well nc_target nc_kernel nc_dim] in E1. cbv zeta in E1. rewrite Hu, Hw in E1.
      destruct (Nat.eqb_spec (d_n_eval d) 1) as [E|_].
      - rewrite precon_ub_eq by exact Hn. rewrite E in *. simpl (INR (1 - 1)). unfold calc_nugget_Kbase in E1. simpl INR in E1.
        destruct (o_eta_mtd o); try contradiction; injection E1 as _ <-; field; lra.
      - destruct (o_eta_mtd o); try contradiction; injection E1 as _ <-; reflexivity. }
    rewrite EE, precon_ub_eq by exact Hn. replace ((o_target o - 1) * ((1 + INR (d_n_eval d - 1) * ubM (o_kernel o) (o_dim o)) / (o_target o - 1))) with (1 + INR (d_n_eval d - 1) * ubM (o_kernel o) (o_dim o)) by (field; lra).
    assert (0 <= INR (d_n_eval d - 1)) by apply pos_INR. nra.
  - destruct He as (i & Hi & -> & _). replace ((o_target o - 1) * (rsum N (fun j => Rabs (kcor kf f vK i j)) / (o_target o - 1))) with (rsum N (fun j => Rabs (kcor kf f vK i j))) by (field; lra).
    apply Rle_trans with (Rabs (kcor kf f vK i i)); [|apply (rsum_ge_one N (fun j => Rabs (kcor kf f vK i j)) i Hi); intros; apply Rabs_pos].
    rewrite (kcor_diag N) by (auto; apply ckf_pos; exact Hh). rewrite Rabs_R1. lra.
Qed.
Lemma eta_plain e : (o_eta_const o = false \/ (o_use_grad o = false /\ o_eta_mtd o <> Edflt)) -> eta_is o d N kf e -> forall i, (i < N)%nat -> kf i i <= (o_target o - 1) * e.
Proof.
  intros Hm He i Hi. assert (Ht := gr_t _ _ HR). assert (Hn := gr_n _ _ HR). unfold eta_is in He. destruct (o_eta_const o) eqn:Hc.
  - destruct Hm as [Z|(Hu & Hm)]; [discriminate|]. assert (EN : N = d_n_eval d) by (unfold cN; rewrite (wf_g0 _ _ (gr_wf _ _ HR) Hu); lia).
    destruct (gr_eta _ _ HR) as (ek & eg & E1 & E2). rewrite Hu, He in E2. injection E2 as <-.
    unfold calc_nugget in E1. cbn [o_ncfg nc_eta_mtd nc_use_grad nc_target] in E1. cbv zeta in E1. rewrite Hu in E1.
    assert (e = INR (d_n_eval d) / (o_target o - 1)) as -> by (destruct (o_eta_mtd o); try contradiction; injection E1 as <- _; reflexivity).
    replace ((o_target o - 1) * (INR (d_n_eval d) / (o_target o - 1))) with (INR (d_n_eval d)) by (field; lra).
    assert (B := ckf_base_le1 o d hp X (gr_pts _ _ HR) Hh i i Hu Hi Hi). assert (I1 : 1 <= INR (d_n_eval d)) by (apply (le_INR 1); lia). assert (Z := Rle_abs (kf i i)). lra.
  - destruct He as (i0 & Hi0 & -> & HM). replace ((o_target o - 1) * (rsum N (fun j => Rabs (kf i0 j)) / (o_target o - 1))) with (rsum N (fun j => Rabs (kf i0 j))) by (field; lra).
    eapply Rle_trans; [|apply (HM i Hi)]. eapply Rle_trans; [apply Rle_abs|]. apply (rsum_ge_one N (fun j => Rabs (kf i j)) i Hi). intros; apply Rabs_pos.
Qed.

(** ** the matrices of calc_all_K_w_chofac *)
Variables (condf : mat -> R) (noise : option vec) (cc cnd : bool) (varK : option R) (bn : bool) (vK : R).
Hypothesis Hno : noise_arg_ok o d hp noise.
Hypothesis Hv : eff_varK hp varK bn = Some vK.
Hypothesis Hvp : 0 < vK.
Notation f := (noise_fn d hp noise).
Lemma noise_nonneg : forall r, (r < N)%nat -> 0 <= f r.
Proof. destruct (call_setup o d hp noise HR Hh Hno) as (K & nv & _ & _ & _ & _ & _ & H). exact H. Qed.

(** without preconditioning *)
Lemma plain_shares : o_well o <> Wprecon -> (o_eta_const o = false \/ (o_use_grad o = false /\ o_eta_mtd o <> Edflt)) ->
  rok (calc_all_K_w_chofac o d condf (d_Rt d) hp noise cc cnd varK bn) (fun out => exists D,
    plus_diag N (k_Kcov out) (fun i j => vK * kf i j) D /\ pd (k_Kcov out) /\ forall i, (i < N)%nat -> mat_at (k_Kcov out) i i <= o_target o * D i).
Proof.
  intros Hw Hm. assert (Ht := gr_t _ _ HR). eapply rok_mono; [apply (call_plain o d condf hp noise cc cnd varK bn vK HR Hh Hno Hv Hvp Hw)|].
  intros out (e & H1 & H2 & H3 & H4 & H5 & H6 & H7 & H8 & H9 & _). exists (fun i => f i + vK * e). split; [|split; [exact H9|]].
  - eapply mspec_ext; [exact H7|]. intros i j Hi Hj. cbv beta. unfold kn, dl. destruct (i =? j)%nat; [field; lra|ring].
  - intros i Hi. destruct H7 as (_ & _ & E). rewrite E by exact Hi. unfold kn, dl. rewrite Nat.eqb_refl. assert (F := noise_nonneg i Hi). assert (KE := eta_plain e Hm H1 i Hi).
    replace (vK * (kf i i + f i / vK + e)) with (vK * kf i i + f i + vK * e) by (field; lra). assert (X : vK * kf i i <= vK * ((o_target o - 1) * e)) by (apply Rmult_le_compat_l; lra). nra.
Qed.
Lemma plain_scaled : o_well o <> Wprecon -> (o_eta_const o = false \/ (o_use_grad o = false /\ o_eta_mtd o <> Edflt)) ->
  rok (calc_all_K_w_chofac o d condf (d_Rt d) hp noise cc cnd varK bn) (fun out => nr (k_Kcov out) = N /\ pd (k_Kcov out) /\ scaled_cond_le (k_Kcov out) (o_target o)).
Proof.
  intros Hw Hm. assert (Ht := gr_t _ _ HR). eapply rok_mono; [apply plain_shares; assumption|]. intros out (D & H1 & H2 & H3). split; [apply H1|]. split; [exact H2|].
  apply (share_scaled N _ _ _ _ H1 H2); [lra| |exact H3]. intros v. rewrite bform_mscal. apply Rmult_le_pos; [lra|]. apply ckf_psd; exact Hh.
Qed.
(** with preconditioning *)
Lemma precon_shares : o_well o = Wprecon -> o_use_grad o = true -> (o_eta_const o = true -> o_eta_mtd o <> Edflt) ->
  rok (calc_all_K_w_chofac o d condf (d_Rt d) hp noise cc cnd varK bn) (fun out => exists Kp p D, k_Kprec out = Some Kp /\ nr Kp = N /\ pd Kp /\ scaled_cond_le Kp (o_target o) /\
    (forall i, (i < N)%nat -> 0 < p i) /\ (forall i j, (i < N)%nat -> (j < N)%nat -> mat_at (k_Kcov out) i j = p i * p j * mat_at Kp i j) /\
    plus_diag N (k_Kcov out) (fun i j => vK * kf i j) D /\ pd (k_Kcov out) /\ forall i, (i < N)%nat -> mat_at (k_Kcov out) i i <= o_target o * D i).
Proof.
  intros Hw Hu Hm. assert (Ht := gr_t _ _ HR). eapply rok_mono; [apply (call_precon o d condf hp noise cc cnd varK bn vK HR Hh Hno Hv Hvp Hw Hu)|].
  intros out (e & Kc & Kp & H1 & H2 & H3 & H4 & H5 & H6 & H7 & H8 & H9 & H10 & H11 & H12 & _).
  assert (F := noise_nonneg). assert (E1 := eta_precon f vK e Hvp F Hw Hu Hm H1).
  assert (Kp0 : forall i, (i < N)%nat -> 0 < kn kf f vK i i) by (apply kn_pos; auto; apply ckf_pos; exact Hh).
  assert (KD : forall i, (i < N)%nat -> kcor kf f vK i i = 1) by (intros i Hi; apply (kcor_diag N); auto; apply ckf_pos; exact Hh).
  exists Kp, (fun i => sqrt (kn kf f vK i i)), (fun i => f i + vK * e * kn kf f vK i i).
  split; [exact H7|]. split; [apply H8|]. split; [exact H11|]. split; [|split; [|split; [|split; [|split; [exact H12|]]]]].
  - apply (share_scaled N Kp (fun i j => vK * kcor kf f vK i j) (fun _ => vK * e) (o_target o)); auto; [|lra| |].
    + eapply mspec_ext; [exact H8|]. intros i j Hi Hj. cbv beta. unfold dl. destruct (i =? j)%nat; ring.
    + intros v. rewrite bform_mscal. apply Rmult_le_pos; [lra|]. apply kcor_psd; auto. apply ckf_psd; exact Hh.
    + intros i Hi. destruct H8 as (_ & _ & E). rewrite E by exact Hi. rewrite KD by exact Hi. unfold dl. rewrite Nat.eqb_refl. nra.
  - intros i Hi. apply sqrt_lt_R0, Kp0, Hi.
  - intros i j Hi Hj. destruct H8 as (_ & _ & P3). destruct H9 as (_ & _ & C3). rewrite P3, C3 by assumption.
    assert (Y1 := Kp0 i Hi). assert (Y2 := Kp0 j Hj). assert (SI : 0 < sqrt (kn kf f vK i i)) by (apply sqrt_lt_R0, Y1). assert (SJ : 0 < sqrt (kn kf f vK j j)) by (apply sqrt_lt_R0, Y2).
    unfold kcor, dl. destruct (Nat.eqb_spec i j) as [<-|NE].
    + assert (SS : sqrt (kn kf f vK i i) * sqrt (kn kf f vK i i) = kn kf f vK i i) by (apply sqrt_sqrt; lra). set (r := sqrt (kn kf f vK i i)) in *. rewrite <- SS. field. lra.
    + field. split; lra.
  - eapply mspec_ext; [exact H9|]. intros i j Hi Hj. cbv beta. unfold kn, dl. rewrite (Nat.eqb_refl i). destruct (i =? j)%nat; [field; lra|ring].
  - intros i Hi. destruct H9 as (_ & _ & E). rewrite E by exact Hi. unfold dl. rewrite Nat.eqb_refl. assert (P := Kp0 i Hi). assert (Fi := F i Hi).
    assert (X : kn kf f vK i i <= (o_target o - 1) * e * kn kf f vK i i) by nra.
    assert (Y : vK * kn kf f vK i i <= vK * ((o_target o - 1) * e * kn kf f vK i i)) by (apply Rmult_le_compat_l; lra). nra.
Qed.
End T.
