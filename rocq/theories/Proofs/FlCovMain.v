(** The covariance matrix of calc_all_K_w_chofac in an arithmetic with rounding errors. *)
From Coq Require Import Reals List Arith Bool Lia Lra Psatz.
From Verif.Base Require Import NpLite NpFacts.
From Verif.Spec Require Import KernelSpec LinAlgSpec GpSpec FloatSpec FloatKernSpec.
From Verif.Model Require Import KernelSqExp KernelMatern KernelRatQuad KernelDispatch CommonFun WellCond Rescaling GpState Chol CholFl Cov KernFl.
From Verif.Proofs Require Import CondBound LinAlg CholCorrect FlMargin KernGradBlocks RadialCalculus KernelExact Jets Psd CovStruct StateFacts NoiseFacts NuggetCond NuggetMain FlChol FlTarget FlFac FlKern FlCov.
Import ListNotations.
Local Open Scope R_scope.

Lemma psd_cs N (A : nat -> nat -> R) i j : (forall i j, (i < N)%nat -> (j < N)%nat -> A i j = A j i) -> (forall v, 0 <= bform N A v v) -> (i < N)%nat -> (j < N)%nat -> 0 < A i i -> 0 < A j j ->
  Rabs (A i j) <= sqrt (A i i) * sqrt (A j j).
Proof.
  intros Sy PS Hi Hj Pi Pj. set (un := fun a k : nat => if (k =? a)%nat then 1 else 0).
  assert (B : forall a b, (a < N)%nat -> (b < N)%nat -> bform N A (un a) (un b) = A a b) by (intros; apply bform_unit; auto).
  assert (E : forall t, bform N A (fun k => un i k + t * un j k) (fun k => un i k + t * un j k) = A i i + 2 * t * A i j + t * t * A j j).
  { intros t. rewrite bform_plus_l, !bform_plus_r, !bform_scal_l, !bform_scal_r, !B by auto. rewrite (Sy j i) by auto. ring. }
  assert (Q : A i j * A i j <= A i i * A j j).
  { assert (Z := PS (fun k => un i k + (- A i j / A j j) * un j k)). rewrite E in Z. apply (Rmult_le_compat_r (A j j)) in Z; [|lra].
    replace ((A i i + 2 * (- A i j / A j j) * A i j + - A i j / A j j * (- A i j / A j j) * A j j) * A j j) with (A i i * A j j - A i j * A i j) in Z by (field; lra). lra. }
  rewrite <- sqrt_mult by lra. rewrite <- (sqrt_Rsqr (Rabs (A i j))) by apply Rabs_pos. apply sqrt_le_1_alt. rewrite <- Rsqr_abs. exact Q.
Qed.

Section C.
Variables (u : R) (m : machine).
Hypothesis Hm : machine_rounds u m.
Variables (o : gpopt) (d : gpdata) (hp : hpv).
Hypothesis HR : gp_ready o d.
Hypothesis Hh : hyper_ok o hp.
Hypothesis Hk : o_kernel o <> RatQu.
Hypothesis HG : (1 + u) ^ (o_dim o + 5) <= 11 / 10.
Notation X := (fst (get_scl_x_w_dist d)).
Notation kf := (ckf o d hp X).
Notation N := (cN o d).
Notation th := (vat (hp_theta hp)).
Notation rp := (row_point (d_n_eval d) (d_n_grad d) (d_bvec d)).
Notation rd := (row_dir (d_n_eval d) (d_n_grad d)).
Notation rr r s := (fun i => mat_at X (rp r) i - mat_at X (rp s) i).
Let Hu := Hu u m Hm.
Lemma Hs2 : gam u 2 < 1.
Proof. assert (A := gam_mono u 2 (o_dim o + 5) Hu ltac:(lia)). unfold gam in *. lra. Qed.
Lemma th_pos i : (i < o_dim o)%nat -> 0 < th i. Proof. apply Hh. Qed.
Lemma rd_ok r : (r < N)%nat -> dir_ok (o_dim o) (rd r).
Proof.
  intros H. destruct (unradr_ok _ _ _ _ H) as (V & _). unfold row_dir. unfold unradr in V. destruct (r <? d_n_eval d)%nat; cbn [dir_ok]; [exact I|]. apply V.
Qed.
Lemma ckf_entry r s : (r < N)%nat -> (s < N)%nat -> kf r s = entry_ex (o_dim o) th (rr r s) (o_kernel o) (rd r) (rd s).
Proof.
  intros Hr Hsn. assert (D1 := rd_ok r Hr). assert (D2 := rd_ok s Hsn). unfold ckf, cobs, rowobs, unradr, row_dir, row_point in *.
  assert (PH : forall a x, phi0 (o_kernel o) a x = phi0 (o_kernel o) 0 x /\ phi1 (o_kernel o) a x = phi1 (o_kernel o) 0 x /\ phi2 (o_kernel o) a x = phi2 (o_kernel o) 0 x) by (intros; destruct (o_kernel o); [auto|auto|congruence]).
  assert (SL : forall l q, osel (Some l) q = nth q (true_idx l) 0%nat) by reflexivity.
  destruct (r <? d_n_eval d)%nat, (s <? d_n_eval d)%nat; cbn [obs_at kjet rjet entry_ex dir_ok] in *; unfold kjet; cbn [rjet]; rewrite ?sqd_cut, ?cut_lt by assumption; unfold sqd, rows_of;
    match goal with |- context [phi0 _ ?a ?x] => destruct (PH a x) as (P0 & P1 & P2) | |- context [phi1 _ ?a ?x] => destruct (PH a x) as (P0 & P1 & P2) end; rewrite ?P0, ?P1, ?P2; destruct (d_bvec d); rewrite ?SL; reflexivity.
Qed.
Lemma dist_fac r s i : fac u 1 (mat_at X (rp r) i - mat_at X (rp s) i) (dist_fl m (mat_at X) (rp r) (rp s) i).
Proof. apply near_fac; [exact Hu|apply (u1 u m Hm Hs2)|apply (ro_sub _ _ (mr_ar _ _ Hm))]. Qed.
Lemma osize_diag r : (r < N)%nat -> osize th (o_kernel o) (rd r) * osize th (o_kernel o) (rd r) = kf r r /\ 0 < osize th (o_kernel o) (rd r).
Proof.
  intros Hr. assert (D := rd_ok r Hr). assert (P := ckf_pos o d hp X Hh r Hr). rewrite ckf_diag by assumption. unfold row_dir, unradr in *. destruct (r <? d_n_eval d)%nat; cbn [osize dir_ok] in *; [split; lra|].
  assert (T := th_pos _ D). assert (G2 : 0 < gamma2 (o_kernel o) (th ((r - d_n_eval d) / d_n_grad d))) by (destruct (o_kernel o); cbn; lra). rewrite sqrt_sqrt by lra. split; [reflexivity|apply sqrt_lt_R0, G2].
Qed.
Lemma osize_sqrt r : (r < N)%nat -> osize th (o_kernel o) (rd r) = sqrt (kf r r).
Proof. intros Hr. destruct (osize_diag r Hr) as (<- & P). rewrite sqrt_square by lra. reflexivity. Qed.
Lemma data_kern_err i j : (i < N)%nat -> (j < N)%nat -> Rabs (data_kern_fl m o d hp i j - kf i j) <= kern_err u (o_dim o) * (sqrt (kf i i) * sqrt (kf j j)).
Proof.
  intros Hi Hj. rewrite (ckf_entry i j Hi Hj), <- (osize_sqrt i Hi), <- (osize_sqrt j Hj). unfold data_kern_fl, kern_fl.
  apply (entry_err u m Hm Hs2 (o_dim o) th _ _ th_pos (fun q _ => dist_fac i j q) HG (o_kernel o) (rd i) (rd j) Hk (rd_ok i Hi) (rd_ok j Hj)).
Qed.
Lemma data_kern_diag i : (i < N)%nat -> fac u (o_dim o + 14) (kf i i) (data_kern_fl m o d hp i i).
Proof.
  intros Hi. destruct (osize_diag i Hi) as (<- & _). unfold data_kern_fl, kern_fl.
  apply (entry_diag u m Hm Hs2 (o_dim o) th _ _ th_pos (fun q _ => dist_fac i i q) (o_kernel o) (rd i) Hk (rd_ok i Hi)). intros q _. ring.
Qed.
Lemma ckf_cs i j : (i < N)%nat -> (j < N)%nat -> Rabs (kf i j) <= sqrt (kf i i) * sqrt (kf j j).
Proof.
  intros Hi Hj. apply (psd_cs N kf); auto; try (apply ckf_pos; assumption). intros; apply ckf_sym. intros v. apply ckf_psd. exact Hh.
Qed.

Lemma half_computed e A Kh lower : pd A -> nr Kh = nr A -> (forall i j, (i < nr A)%nat -> (j < nr A)%nat -> Rabs (mat_at Kh i j - mat_at A i j) <= e * size_ij A i j) -> computed e A (read_half lower Kh).
Proof.
  intros HP HN HE. assert (SQ := pd_square A HP). assert (SY : forall i j, (i < nr A)%nat -> (j < nr A)%nat -> mat_at A i j = mat_at A j i) by (intros; apply HP; assumption).
  unfold read_half. split; [exact HN|]. split; [cbn [nc]; congruence|]. split.
  - intros i j. cbn [mat_at]. destruct lower; destruct (Nat.leb_spec i j), (Nat.leb_spec j i); try reflexivity; try lia; replace j with i by lia; reflexivity.
  - intros i j Hi Hj. cbn [mat_at]. assert (H2 : Rabs (mat_at Kh j i - mat_at A i j) <= e * size_ij A i j).
    { rewrite (SY i j Hi Hj). replace (size_ij A i j) with (size_ij A j i) by (unfold size_ij; ring). apply HE; assumption. }
    assert (H1 := HE i j Hi Hj). destruct lower; [destruct (j <=? i)%nat|destruct (i <=? j)%nat]; assumption.
Qed.
Lemma kern_err_nonneg n : 0 <= kern_err u n.
Proof. unfold kern_err. assert (A := gam_nonneg u (n + 14) Hu). assert (B := gam_nonneg u (n + 5) Hu). lra. Qed.
Lemma cov_err_nonneg n w : 0 <= w -> 0 <= cov_err u n w.
Proof. intros Hw. unfold cov_err. assert (A := gam_nonneg u (2 * n + 40) Hu). assert (B := kern_err_nonneg n). nra. Qed.
Lemma eta_err_nonneg n k : 0 <= eta_err u n k.
Proof. unfold eta_err. assert (A := gam_nonneg u (k + 2) Hu). assert (B := cov_err_nonneg n 0 ltac:(lra)). assert (C := pos_INR k). assert (0 <= INR k * cov_err u n 0) by (apply Rmult_le_pos; assumption). nra. Qed.

Variables (condf : mat -> R) (noise : option vec) (cc cnd : bool) (varK : option R) (bn : bool) (vK : R).
Hypothesis Hno : noise_arg_ok o d hp noise.
Hypothesis Hv : eff_varK hp varK bn = Some vK.
Hypothesis Hvp : 0 < vK.
Notation f := (noise_fn d hp noise).
Notation K := (data_kern_fl m o d hp).
Notation cal := (calc_all_K_w_chofac o d condf (d_Rt d) hp noise cc cnd varK bn).
Lemma noise_vector : exists nv, match noise with Some v => Ok v | None => calc_noise_vec o d hp end = Ok nv /\ forall r, (r < N)%nat -> vat nv r = f r /\ 0 <= f r.
Proof. destruct (call_setup o d hp noise HR Hh Hno) as (K0 & nv & _ & E & _ & _ & (_ & V) & H). exists nv. split; [exact E|]. intros r Hr. split; [apply V, Hr|apply H, Hr]. Qed.
Lemma near0_fac x y : near u x y -> fac u 1 x y. Proof. apply near_fac; [exact Hu|apply (u1 u m Hm Hs2)]. Qed.

Definition precon_w : R := if o_eta_const o then 0 else eta_err u (o_dim o) N * (INR N / (o_target o - 1)).
Definition plain_w : R := if o_eta_const o then 0 else eta_err u (o_dim o) N.
Lemma precon_computed nzh : o_well o = Wprecon -> o_use_grad o = true -> (forall i, (i < N)%nat -> near u (f i) (nzh i)) ->
  rok cal (fun out => exists Kp Kh, k_Kprec out = Some Kp /\ nr Kp = N /\ factored_fl m o d hp nzh vK = Ok Kh /\ nr Kh = N /\ nc Kh = N /\ computed (cov_err u (o_dim o) precon_w) Kp (read_half true Kh)).
Proof.
  intros Hw Hug HZ. assert (Ht := gr_t _ _ HR). eapply rok_mono; [apply (call_precon o d condf hp noise cc cnd varK bn vK HR Hh Hno Hv Hvp Hw Hug)|].
  intros out (e & Kc & Kp & H1 & H2 & H3 & H4 & H5 & H6 & H7 & H8 & H9 & H10 & H11 & H12 & _).
  assert (EN : d_n_data d = N) by apply (wf_n _ _ (gr_wf _ _ HR)). destruct noise_vector as (nv & _ & HN).
  assert (HZ' : forall i, (i < N)%nat -> fac u 1 (f i) (nzh i)) by (intros; apply near0_fac, HZ; assumption).
  assert (W0 : 0 <= precon_w).
  { unfold precon_w. destruct (o_eta_const o); [lra|]. apply Rmult_le_pos; [apply eta_err_nonneg|]. apply Rmult_le_pos; [apply pos_INR|left; apply Rinv_0_lt_compat; lra]. }
  assert (PF : forall i, (i < N)%nat -> 0 <= f i) by (intros; apply HN; assumption).
  assert (KPos : forall i, (i < N)%nat -> 0 < kf i i) by (intros; apply ckf_pos; assumption).
  assert (KD : forall i, (i < N)%nat -> kcor kf f vK i i = 1) by (intros i Hi; apply (kcor_diag N); auto).
  assert (EH : exists eh, (if o_eta_const o then need (d_etaK d) else eta_fl m (kcor_fl m K nzh vK) N (o_target o)) = Ok eh /\ 0 <= eh /\ Rabs (eh - e) <= precon_w * (1 + e)).
  { unfold eta_is in H1. unfold precon_w in *. destruct (o_eta_const o).
    - exists e. rewrite H1. split; [reflexivity|]. split; [lra|]. rewrite Rminus_eq_0, Rabs_R0. lra.
    - destruct H1 as (i0 & Hi0 & -> & HM). set (A := kcor kf f vK) in *.
      assert (KC1 : forall i j, (i < N)%nat -> (j < N)%nat -> Rabs (A i j) <= 1).
      { intros i j Hi Hj. assert (Z : Rabs (A i j) <= sqrt (A i i) * sqrt (A j j)).
        { apply (psd_cs N A); auto; unfold A; try (rewrite KD by assumption; lra).
          - apply kcor_sym; auto. intros; apply ckf_sym.
          - intros v. apply kcor_psd; auto. intros w. apply ckf_psd; exact Hh. }
        unfold A in Z at 2 3. rewrite !KD, sqrt_1, Rmult_1_r in Z by assumption. exact Z. }
      assert (RS1 : 1 <= rsum N (fun j => Rabs (A i0 j))).
      { apply Rle_trans with (Rabs (A i0 i0)); [unfold A; rewrite KD by assumption; rewrite Rabs_R1; lra|]. apply (rsum_ge_one N (fun j => Rabs (A i0 j)) i0 Hi0). intros; apply Rabs_pos. }
      assert (RSN : rsum N (fun j => Rabs (A i0 j)) <= INR N).
      { rewrite <- (Rmult_1_r (INR N)), <- rsum_const. apply rsum_le. intros j Hj. apply KC1; assumption. }
      destruct (eta_fl_err u m Hm Hs2 N A (kcor_fl m K nzh vK) (o_target o) (cov_err u (o_dim o) 0) i0 Ht Hi0 (cov_err_nonneg (o_dim o) 0 ltac:(lra)) HM) as (eh & E1 & E2 & E3).
      { intros i j Hi Hj. eapply Rle_trans; [apply (kcor_err u m Hm Hs2 N (o_dim o) kf K f nzh vK (kern_err u (o_dim o)) 0 KPos ckf_cs data_kern_err data_kern_diag PF HZ' Hvp ltac:(lra) (kern_err_nonneg (o_dim o)) i j Hi Hj)|].
        change (asm_err u (o_dim o) (kern_err u (o_dim o)) 0) with (cov_err u (o_dim o) 0). rewrite <- (Rmult_1_r (cov_err u (o_dim o) 0)) at 1. apply Rmult_le_compat_l; [apply cov_err_nonneg; lra|exact RS1]. }
      exists eh. split; [exact E1|]. split; [exact E2|]. eapply Rle_trans; [exact E3|]. fold (eta_err u (o_dim o) N). rewrite Rmult_assoc. apply Rmult_le_compat_l; [apply eta_err_nonneg|].
      assert (IT : 0 < / (o_target o - 1)) by (apply Rinv_0_lt_compat; lra). assert (IN := pos_INR N). set (M := rsum N (fun j => Rabs (A i0 j))) in *. set (q := / (o_target o - 1)) in *.
      apply Rle_trans with (INR N * q); [apply Rmult_le_compat_r; lra|]. fold (Rdiv M (o_target o - 1)). assert (0 <= INR N / (o_target o - 1)) by (apply Rmult_le_pos; unfold q in IT; lra). assert (0 <= M / (o_target o - 1)) by (apply Rmult_le_pos; unfold q in IT; lra). unfold q. fold (INR N / (o_target o - 1)). nra. }
  destruct EH as (eh & EE & E0 & EW). exists Kp. exists (mkmat N N (kprec_fl m K nzh vK eh)). split; [exact H7|]. destruct H8 as (P1 & P2 & P3). split; [exact P1|]. split; [|split; [reflexivity|split; [reflexivity|]]].
  - unfold factored_fl. rewrite Hw, EN. cbv zeta. rewrite EE. reflexivity.
  - assert (DG : forall i, (i < N)%nat -> mat_at Kp i i = vK * (1 + e)) by (intros i Hi; rewrite P3, KD by assumption; unfold dl; rewrite Nat.eqb_refl; reflexivity).
    apply half_computed; [exact H11|cbn [nr]; congruence|]. rewrite P1. intros i j Hi Hj. cbn [mat_at]. rewrite P3 by assumption. unfold size_ij. rewrite !DG by assumption.
    assert (0 <= vK * (1 + e)) by (apply Rmult_le_pos; lra). rewrite sqrt_sqrt by assumption.
    apply (kprec_err u m Hm Hs2 N (o_dim o) kf K f nzh vK e eh (kern_err u (o_dim o)) precon_w KPos ckf_cs data_kern_err data_kern_diag PF HZ' Hvp (Rlt_le _ _ H2) E0 W0 (kern_err_nonneg (o_dim o)) EW i j Hi Hj).
Qed.
Lemma plain_computed nzh : o_well o <> Wprecon -> (forall i, (i < N)%nat -> near u (f i) (nzh i)) ->
  rok cal (fun out => exists Kh, nr (k_Kcov out) = N /\ factored_fl m o d hp nzh vK = Ok Kh /\ nr Kh = N /\ nc Kh = N /\ computed (cov_err u (o_dim o) plain_w) (k_Kcov out) (read_half false Kh)).
Proof.
  intros Hw HZ. assert (Ht := gr_t _ _ HR). eapply rok_mono; [apply (call_plain o d condf hp noise cc cnd varK bn vK HR Hh Hno Hv Hvp Hw)|].
  intros out (e & H1 & H2 & H3 & H4 & H5 & H6 & H7 & H8 & H9 & _).
  assert (EN : d_n_data d = N) by apply (wf_n _ _ (gr_wf _ _ HR)). destruct noise_vector as (nv & _ & HN).
  assert (HZ' : forall i, (i < N)%nat -> fac u 1 (f i) (nzh i)) by (intros; apply near0_fac, HZ; assumption).
  assert (W0 : 0 <= plain_w) by (unfold plain_w; destruct (o_eta_const o); [lra|apply eta_err_nonneg]).
  assert (PF : forall i, (i < N)%nat -> 0 <= f i) by (intros; apply HN; assumption).
  assert (KPos : forall i, (i < N)%nat -> 0 < kf i i) by (intros; apply ckf_pos; assumption).
  assert (EH : exists eh, (if o_eta_const o then need (d_etaK d) else eta_fl m K N (o_target o)) = Ok eh /\ 0 <= eh /\ Rabs (eh - e) <= plain_w * e).
  { unfold eta_is in H1. unfold plain_w in *. destruct (o_eta_const o).
    - exists e. rewrite H1. split; [reflexivity|]. split; [lra|]. rewrite Rminus_eq_0, Rabs_R0. lra.
    - destruct H1 as (i0 & Hi0 & -> & HM). set (M := rsum N (fun j => Rabs (kf i0 j))) in *.
      assert (RM : forall i, (i < N)%nat -> kf i i <= M).
      { intros i Hi. apply Rle_trans with (rsum N (fun j => Rabs (kf i j))); [|apply HM, Hi]. eapply Rle_trans; [apply Rle_abs|]. apply (rsum_ge_one N (fun j => Rabs (kf i j)) i Hi). intros; apply Rabs_pos. }
      assert (CE : kern_err u (o_dim o) <= cov_err u (o_dim o) 0) by (unfold cov_err; assert (A := gam_nonneg u (2 * o_dim o + 40) Hu); assert (B := kern_err_nonneg (o_dim o)); nra).
      destruct (eta_fl_err u m Hm Hs2 N kf K (o_target o) (cov_err u (o_dim o) 0) i0 Ht Hi0 (cov_err_nonneg (o_dim o) 0 ltac:(lra)) HM) as (eh & E1 & E2 & E3).
      { intros i j Hi Hj. eapply Rle_trans; [apply data_kern_err; assumption|]. apply Rmult_le_compat; [apply kern_err_nonneg|apply Rmult_le_pos; apply sqrt_pos|exact CE|].
        fold M. assert (M0 : 0 <= M) by (assert (X1 := KPos i Hi); assert (X2 := RM i Hi); lra). rewrite <- (sqrt_sqrt M) by exact M0. apply Rmult_le_compat; try apply sqrt_pos; apply sqrt_le_1_alt, RM; assumption. }
      exists eh. auto. }
  destruct EH as (eh & EE & E0 & EW). exists (mkmat N N (kplain_fl m K nzh vK eh)). destruct H7 as (P1 & P2 & P3). split; [exact P1|]. split; [|split; [reflexivity|split; [reflexivity|]]].
  - unfold factored_fl. rewrite EN. cbv zeta. destruct (o_well o); try contradiction; rewrite EE; reflexivity.
  - apply half_computed; [exact H9|cbn [nr]; congruence|]. rewrite P1. intros i j Hi Hj. cbn [mat_at]. rewrite P3 by assumption. unfold size_ij. rewrite !P3 by assumption. unfold dl at 2 3. rewrite !Nat.eqb_refl.
    assert (A1 := CondBound.kn_pos N kf f vK Hvp PF KPos i Hi). assert (A2 := CondBound.kn_pos N kf f vK Hvp PF KPos j Hj).
    rewrite !(sqrt_mult vK) by lra. replace (sqrt vK * sqrt (kn kf f vK i i + e) * (sqrt vK * sqrt (kn kf f vK j j + e))) with (sqrt vK * sqrt vK * (sqrt (kn kf f vK i i + e) * sqrt (kn kf f vK j j + e))) by ring. rewrite sqrt_sqrt by lra.
    assert (EW1 : Rabs (eh - e) <= plain_w * (1 + e)) by nra.
    apply (kplain_err u m Hm Hs2 N (o_dim o) kf K f nzh vK e eh (kern_err u (o_dim o)) plain_w KPos ckf_cs data_kern_err data_kern_diag PF HZ' Hvp (Rlt_le _ _ H2) E0 W0 (kern_err_nonneg (o_dim o)) i j Hi Hj EW).
Qed.
End C.
