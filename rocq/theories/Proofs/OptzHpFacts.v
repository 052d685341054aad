(** * Facts about the whole optimisation: condition numbers and the closed forms *)
From Coq Require Import Reals List Arith Bool Lia Lra.
From Coquelicot Require Import Coquelicot.
From Verif.Base Require Import NpLite NpFacts.
From Verif.Spec Require Import KernelSpec LinAlgSpec GpSpec HpSpec DataSpec LkdSpec OptzSpec.
From Verif.Model Require Import KernelSqExp KernelMatern KernelRatQuad KernelDispatch CommonFun WellCond Rescaling GpState Chol Cov HpInfo HpGrad MeanFun Lkd OptzLkd RescaleLoop History StartPts OptzHp.
From Verif.Proofs Require Import KernTac LinAlg CovStruct StateFacts NoiseFacts NuggetCond NuggetMain HpInfoFacts HpGradFacts HpGradMain LkdCore LkdFacts LkdMain.
Import ListNotations.
Local Open Scope R_scope.

(** the condition number does not see a factor *)
Lemma mv_times n c A B : nc A = n -> nc B = n -> (forall i j, (i < n)%nat -> (j < n)%nat -> mat_at B i j = c * mat_at A i j) ->
  forall x i, (i < n)%nat -> mv B x i = c * mv A x i.
Proof. intros HA HB H x i Hi. unfold mv. rewrite HA, HB, <- rsum_scal. apply rsum_ext. intros j Hj. rewrite H by assumption. ring. Qed.
Lemma nrm_scal n c (f g : nat -> R) : 0 < c -> (forall i, (i < n)%nat -> g i = c * f i) -> nrm n g = c * nrm n f.
Proof.
  intros Hc H. unfold nrm. replace (dotp n g g) with (c ^ 2 * dotp n f f). 2:{ unfold dotp. rewrite <- rsum_scal. apply rsum_ext. intros i Hi. rewrite H by exact Hi. ring. }
  rewrite sqrt_mult; [|apply pow2_ge_0|unfold dotp; apply rsum_nonneg; intros; apply Rle_0_sqr]. rewrite sqrt_pow2 by lra. reflexivity.
Qed.
Lemma cond2_le_times n c A B k : 0 < c -> nr A = n -> nc A = n -> nr B = n -> nc B = n -> (forall i j, (i < n)%nat -> (j < n)%nat -> mat_at B i j = c * mat_at A i j) ->
  cond2_le A k -> cond2_le B k.
Proof.
  intros Hc A1 A2 B1 B2 H (C1 & C2 & C3). unfold cond2_le. rewrite B1, B2. rewrite A1 in *. assert (M := mv_times n c A B A2 B2 H).
  assert (NM : forall y, nrm n (mv B y) = c * nrm n (mv A y)) by (intros y; apply nrm_scal; [exact Hc|intros; apply M; assumption]).
  split; [reflexivity|]. split; [intros y Hy; rewrite NM; apply Rmult_lt_0_compat; auto|]. intros x y. rewrite !NM. assert (X := C3 x y). apply (Rmult_le_compat_l c) in X; [|lra]. nra.
Qed.
Lemma cond2_times n c A B : 0 < c -> nr A = n -> nc A = n -> nr B = n -> nc B = n -> (forall i j, (i < n)%nat -> (j < n)%nat -> mat_at B i j = c * mat_at A i j) -> cond2 B = cond2 A.
Proof.
  intros Hc A1 A2 B1 B2 H. unfold cond2. f_equal. apply Glb_Rbar_eqset. intros k. split.
  - apply (cond2_le_times n (/ c) B A); auto; [apply Rinv_0_lt_compat, Hc|]. intros i j Hi Hj. rewrite H by assumption. field. lra.
  - apply (cond2_le_times n c A B); auto.
Qed.
