(** Condition number bounds of the regularised matrices. *)
From Coq Require Import Reals List Arith Bool Lia Lra Psatz.
From Coquelicot Require Import Coquelicot.
From Verif.Base Require Import NpLite NpFacts.
From Verif.Spec Require Import KernelSpec LinAlgSpec.
From Verif.Model Require Import KernelSqExp KernelMatern KernelRatQuad KernelDispatch CommonFun WellCond Rescaling GpState Chol Cov.
From Verif.Spec Require Import GpSpec.
From Verif.Proofs Require Import KernTac KernelExact LinAlg CholCorrect Psd CovStruct StateFacts RowSum JetGersh PreconBound.
Import ListNotations.
Local Open Scope R_scope.

Lemma cond2_le_ge1 A k : (0 < nr A)%nat -> cond2_le A k -> 1 <= k.
Proof.
  intros Hn (Sq & H1 & H2). set (y := fun i : nat => 1).
  assert (Hy : nonzero (nr A) y) by (exists 0%nat; split; [exact Hn | unfold y; lra]).
  assert (P := H1 y Hy). assert (Q := nrm_pos _ _ Hy). assert (Z := H2 y y).
  assert (0 < nrm (nr A) (mv A y) * nrm (nr A) y) by (apply Rmult_lt_0_compat; auto). nra.
Qed.
Lemma cond2_bound A k : (0 < nr A)%nat -> cond2_le A k -> 1 <= cond2 A <= k.
Proof.
  intros Hn H. unfold cond2. destruct (Glb_Rbar_correct (cond2_le A)) as (L1 & L2).
  assert (U := L1 k H). assert (V : Rbar_le 1 (Glb_Rbar (cond2_le A))).
  { apply L2. intros x Hx. exact (cond2_le_ge1 A x Hn Hx). }
  destruct (Glb_Rbar (cond2_le A)) as [g| |]; simpl in *; [split; assumption | contradiction | contradiction].
Qed.

Section PB.
Variables (N : nat) (kf : nat -> nat -> R) (f : nat -> R) (vK La : R).
Hypothesis Hv : 0 < vK.
Hypothesis Hf : forall i, (i < N)%nat -> 0 <= f i.
Hypothesis HL : 1 <= La.
Hypothesis Hpos : forall i, (i < N)%nat -> 0 < kf i i.
Hypothesis Hsym : forall i j, (i < N)%nat -> (j < N)%nat -> kf i j = kf j i.
Hypothesis Hpsd : forall v, 0 <= bform N kf v v.

Lemma kn_pos i : (i < N)%nat -> 0 < kn kf f vK i i.
Proof.
  intros Hi. unfold kn, dl. rewrite Nat.eqb_refl. assert (A := Hpos i Hi).
  assert (0 <= f i / vK) by (apply Rcomplements.Rdiv_le_0_compat; auto). lra.
Qed.
Lemma kn_sym i j : (i < N)%nat -> (j < N)%nat -> kn kf f vK i j = kn kf f vK j i.
Proof.
  intros Hi Hj. unfold kn, dl. rewrite Hsym by auto. destruct (Nat.eqb_spec i j) as [->|Hn]; [rewrite Nat.eqb_refl; reflexivity|].
  destruct (Nat.eqb_spec j i); [congruence|reflexivity].
Qed.
Lemma kcor_sym i j : (i < N)%nat -> (j < N)%nat -> kcor kf f vK i j = kcor kf f vK j i.
Proof. intros Hi Hj. unfold kcor. rewrite (kn_sym i j) by auto. ring. Qed.
Lemma kcor_diag i : (i < N)%nat -> kcor kf f vK i i = 1.
Proof.
  intros Hi. unfold kcor. assert (P := kn_pos i Hi). assert (Q := sqrt_lt_R0 _ P).
  rewrite <- (sqrt_sqrt (kn kf f vK i i)) at 2 by lra. field. lra.
Qed.
Lemma kn_bform w : bform N (kn kf f vK) w w = bform N kf w w + rsum N (fun i => f i / vK * w i ^ 2).
Proof.
  unfold kn. rewrite (bform_madd N kf (fun i j => dl i j (f i / vK))). f_equal. unfold dl.
  rewrite (bform_diag N (fun i => f i / vK)). apply rsum_ext; intros; ring.
Qed.
Lemma kn_psd w : 0 <= bform N (kn kf f vK) w w.
Proof.
  rewrite kn_bform. assert (A := Hpsd w). assert (0 <= rsum N (fun i => f i / vK * w i ^ 2)).
  { apply rsum_nonneg; intros i Hi. apply Rmult_le_pos; [apply Rcomplements.Rdiv_le_0_compat; auto | apply pow2_ge_0]. }
  lra.
Qed.
Lemma kcor_bform v : bform N (kcor kf f vK) v v =
  bform N (kn kf f vK) (fun i => 1 / sqrt (kn kf f vK i i) * v i) (fun i => 1 / sqrt (kn kf f vK i i) * v i).
Proof. exact (bform_cong N (kn kf f vK) (fun i => 1 / sqrt (kn kf f vK i i)) v v). Qed.
Lemma kcor_psd v : 0 <= bform N (kcor kf f vK) v v.
Proof. rewrite kcor_bform. apply kn_psd. Qed.
Lemma kcor_upper : (forall v, bform N kf v v <= La * rsum N (fun r => kf r r * v r ^ 2)) ->
  forall v, bform N (kcor kf f vK) v v <= La * dotp N v v.
Proof.
  intros HU v. rewrite kcor_bform, kn_bform. set (w := fun i => 1 / sqrt (kn kf f vK i i) * v i).
  assert (E : dotp N v v = rsum N (fun r => kf r r * w r ^ 2) + rsum N (fun i => f i / vK * w i ^ 2)).
  { rewrite <- rsum_plus. apply rsum_ext; intros i Hi. unfold w. assert (P := kn_pos i Hi). assert (Q := sqrt_lt_R0 _ P).
    replace (kf i i * (1 / sqrt (kn kf f vK i i) * v i) ^ 2 + f i / vK * (1 / sqrt (kn kf f vK i i) * v i) ^ 2)
      with (kn kf f vK i i / (sqrt (kn kf f vK i i) * sqrt (kn kf f vK i i)) * (v i * v i)).
    - rewrite sqrt_sqrt by lra. field. lra.
    - unfold kn at 1. unfold dl. rewrite Nat.eqb_refl. field. split; lra. }
  rewrite E, Rmult_plus_distr_l. apply Rplus_le_compat; [apply HU|].
  assert (0 <= rsum N (fun i => f i / vK * w i ^ 2)).
  { apply rsum_nonneg; intros i Hi. apply Rmult_le_pos; [apply Rcomplements.Rdiv_le_0_compat; auto | apply pow2_ge_0]. }
  change (rsum N (fun i => f i / vK * w i ^ 2) <= La * rsum N (fun i => f i / vK * w i ^ 2)).
  revert H. generalize (rsum N (fun i => f i / vK * w i ^ 2)). clear - HL. intros; nra.
Qed.
End PB.

(** a symmetric matrix M = c (A + e I) with 0 <= A <= La and La <= (k - 1) e, e > 0 *)
Lemma nugget_cond N M A c e La k : mspec N N M (fun i j => c * (A i j + dl i j e)) -> 0 < c -> 0 < e ->
  (forall i j, (i < N)%nat -> (j < N)%nat -> A i j = A j i) ->
  (forall v, 0 <= bform N A v v) -> (forall v, bform N A v v <= La * dotp N v v) -> La <= (k - 1) * e ->
  cond2_le M k.
Proof.
  intros (M1 & M2 & HM) Hc He HS HP HU Hk.
  assert (Sq : nr M = nc M) by lia.
  assert (SY : symmetric M).
  { split; [exact Sq|]. rewrite M1. intros i j Hi Hj. rewrite !HM, HS by auto. unfold dl.
    destruct (Nat.eqb_spec i j) as [->|]; [rewrite Nat.eqb_refl; reflexivity|]. destruct (Nat.eqb_spec j i); [congruence|reflexivity]. }
  assert (Q : forall v, qform M v = c * (bform N A v v + e * dotp N v v)).
  { intros v. rewrite qform_bform, M1 by exact Sq.
    rewrite (bform_ext _ _ _ _ _ v v HM (fun _ _ => eq_refl) (fun _ _ => eq_refl)).
    rewrite (bform_mscal N c (fun i j => A i j + dl i j e)), (bform_madd N A (fun i j => dl i j e)). unfold dl.
    rewrite (bform_diag N (fun _ => e)). f_equal. f_equal. unfold dotp. rewrite <- rsum_scal. apply rsum_ext; intros; ring. }
  apply (rayleigh_cond M (c * e) (c * (La + e))); [exact SY | apply Rmult_lt_0_compat; auto | | |].
  - replace (k * (c * e)) with (c * (k * e)) by ring. apply Rmult_le_compat_l; lra.
  - intros v. rewrite Q, M1. assert (Z := HP v). assert (0 <= c * bform N A v v) by (apply Rmult_le_pos; lra). lra.
  - intros v. rewrite Q, M1. assert (Z := HU v). rewrite Rmult_assoc. apply Rmult_le_compat_l; lra.
Qed.
(** ... and it is positive definite *)
Lemma nugget_pd N M A c e : mspec N N M (fun i j => c * (A i j + dl i j (e i))) -> 0 < c -> (forall i, (i < N)%nat -> 0 < e i) ->
  (forall i j, (i < N)%nat -> (j < N)%nat -> A i j = A j i) ->
  (forall v, 0 <= bform N A v v) -> pd M.
Proof.
  intros (M1 & M2 & HM) Hc He HS HP.
  assert (Sq : nr M = nc M) by lia. split.
  { split; [exact Sq|]. rewrite M1. intros i j Hi Hj. rewrite !HM, HS by auto. unfold dl.
    destruct (Nat.eqb_spec i j) as [->|]; [rewrite Nat.eqb_refl; reflexivity|]. destruct (Nat.eqb_spec j i); [congruence|reflexivity]. }
  intros v (k & Hk & Hv). rewrite M1 in Hk. rewrite qform_bform, M1 by exact Sq.
  rewrite (bform_ext _ _ _ _ _ v v HM (fun _ _ => eq_refl) (fun _ _ => eq_refl)).
  rewrite (bform_mscal N c (fun i j => A i j + dl i j (e i))), (bform_madd N A (fun i j => dl i j (e i))). unfold dl.
  rewrite (bform_diag N e). apply Rmult_lt_0_compat; [exact Hc|].
  assert (Z := HP v). assert (0 < rsum N (fun i => e i * v i * v i)); [|lra].
  apply (Rlt_le_trans _ (e k * v k * v k)).
  - rewrite Rmult_assoc. apply Rmult_lt_0_compat; [auto|]. nra.
  - apply (rsum_le_term N (fun i => e i * v i * v i)); [|exact Hk]. intros i Hi. rewrite Rmult_assoc.
    apply Rmult_le_pos; [left; auto | nra].
Qed.
