(** * The 2-norm condition number of a positive definite matrix: extreme quotients, and its derivative *)
From Coq Require Import Reals List Arith Lia Lra Psatz.
From Coquelicot Require Import Coquelicot.
From Verif.Base Require Import NpLite NpFacts Deriv.
From Verif.Spec Require Import KernelSpec LinAlgSpec.
From Verif.Proofs Require Import LinAlg CondBound LinDeriv LkdCore.
Local Open Scope R_scope.

(** Frobenius norm *)
Definition frob (n : nat) (K : nat -> nat -> R) : R := sqrt (rsum n (fun i => rsum n (fun j => K i j ^ 2))).
Lemma frob_sq n K : frob n K * frob n K = rsum n (fun i => rsum n (fun j => K i j ^ 2)).
Proof. apply sqrt_sqrt. apply rsum_nonneg. intros i _. apply rsum_nonneg. intros j _. apply pow2_ge_0. Qed.
Lemma frob_nn n K : 0 <= frob n K. Proof. apply sqrt_pos. Qed.
Lemma frob_bound n K x : nrm n (fun i => rsum n (fun j => K i j * x j)) <= frob n K * nrm n x.
Proof.
  apply Rsqr_incr_0_var; [|apply Rmult_le_pos; [apply frob_nn|apply nrm_nonneg]]. unfold Rsqr. rewrite nrm_sq.
  replace (frob n K * nrm n x * (frob n K * nrm n x)) with ((frob n K * frob n K) * (nrm n x * nrm n x)) by ring. rewrite frob_sq, nrm_sq.
  unfold dotp at 1. rewrite <- rsum_scal_r. apply rsum_le. intros i _. assert (C := cauchy_schwarz n (K i) x).
  replace (rsum n (fun j => K i j ^ 2)) with (dotp n (K i) (K i)) by (apply rsum_ext; intros; ring). unfold dotp in C at 1. simpl in C. rewrite Rmult_1_r in C. exact C.
Qed.

Section A.
Variables (n : nat) (A : mat).
Hypothesis EA : nr A = n.
Hypothesis PD : pd A.
Hypothesis NP : (0 < n)%nat.
Let K := mat_at A.
Lemma cg_nc : nc A = n. Proof. destruct PD as ((S1 & _) & _). congruence. Qed.
Lemma cg_pdf : pdf n K.
Proof. destruct PD as ((S1 & S2) & P). rewrite EA in *. split; [exact S2|]. intros v Hv. specialize (P v Hv). rewrite qform_bform in P by congruence. rewrite EA in P. exact P. Qed.
Lemma cg_q v : qform A v = bform n K v v.
Proof. rewrite qform_bform by (rewrite cg_nc; exact EA). rewrite EA. reflexivity. Qed.
Lemma cg_mv v : mv A v = fun i => rsum n (fun j => K i j * v j).
Proof. unfold mv. rewrite cg_nc. reflexivity. Qed.
Lemma cg_qmv v : qform A v = dotp n v (mv A v).
Proof. rewrite cg_q, bform_dotp, cg_mv. reflexivity. Qed.

(** the condition number is finite *)
Lemma cond2_finite : exists k, cond2_le A k.
Proof.
  assert (HK := cg_pdf). exists (frob n K * frob n (kinv n K)). split; [rewrite cg_nc; exact EA|].
  assert (Y : forall y i, (i < n)%nat -> rsum n (fun j => kinv n K i j * mv A y j) = y i).
  { intros y i Hi. rewrite <- (kinv_apply n K (mv A y) HK i Hi). symmetry. apply (ksol_unique n K y _ HK); [|exact Hi]. intros j Hj. rewrite cg_mv. reflexivity. }
  assert (B : forall y, nrm n y <= frob n (kinv n K) * nrm n (mv A y)).
  { intros y. assert (Z := frob_bound n (kinv n K) (mv A y)). replace (nrm n (fun i => rsum n (fun j => kinv n K i j * mv A y j))) with (nrm n y) in Z; [exact Z|].
    unfold nrm. f_equal. apply dotp_ext; intros i Hi; rewrite Y; auto. }
  rewrite EA. split.
  - intros y Hy. assert (P := nrm_pos n y Hy). specialize (B y). destruct (nrm_nonneg n (mv A y)) as [Q|Q]; [exact Q|]. rewrite <- Q, Rmult_0_r in B. lra.
  - intros x y. assert (B1 := frob_bound n K x). rewrite <- cg_mv in B1. assert (B2 := B y).
    apply (Rle_trans _ ((frob n K * nrm n x) * (frob n (kinv n K) * nrm n (mv A y)))); [|right; ring].
    apply Rmult_le_compat; auto using nrm_nonneg.
Qed.
(** the quotient of any two values of the quadratic form on the unit sphere is at most the condition number *)
Lemma cond2_le_quot k u w : cond2_le A k -> dotp n u u = 1 -> dotp n w w = 1 -> qform A u / qform A w <= k.
Proof.
  intros (_ & _ & H) Hu Hw. rewrite EA in H. assert (HK := cg_pdf).
  assert (NZ : forall x, dotp n x x = 1 -> nonzero n x).
  { intros x Hx. destruct (nonzero_dec n x) as [Z|Z]; [exact Z|]. exfalso. assert (dotp n x x = 0) by (apply rsum_0; intros i Hi; rewrite Z by exact Hi; ring). lra. }
  assert (PW : 0 < qform A w) by (rewrite cg_q; apply HK, NZ, Hw).
  assert (N1 : forall x, dotp n x x = 1 -> nrm n x = 1) by (intros x Hx; unfold nrm; rewrite Hx; apply sqrt_1).
  set (z := ksol n K w). assert (Z : forall i, (i < n)%nat -> mv A z i = w i) by (intros i Hi; rewrite cg_mv; apply (ksol_ok n K w HK i Hi)).
  assert (AZ : nrm n (mv A z) = 1) by (rewrite <- (N1 w Hw); unfold nrm; f_equal; apply dotp_ext; exact Z).
  specialize (H u z). rewrite AZ, (N1 u Hu), !Rmult_1_r in H.
  (* u^T A u <= |Au| *)
  assert (B1 : qform A u <= nrm n (mv A u)).
  { rewrite cg_qmv. eapply Rle_trans; [apply Rle_abs|]. eapply Rle_trans; [apply cauchy_schwarz_nrm|]. rewrite (N1 u Hu). lra. }
  (* 1 <= (w^T A w) (w^T z) *)
  assert (B2 : 1 <= qform A w * dotp n w z).
  { assert (CS : bform n K w z ^ 2 <= bform n K w w * bform n K z z).
    { apply disc_le. intros t. assert (Q : 0 <= bform n K (fun i => t * w i + z i) (fun i => t * w i + z i)).
      { destruct (nonzero_dec n (fun i => t * w i + z i)) as [Y|Y]; [left; apply HK, Y|]. right. symmetry. apply rsum_0. intros i Hi. apply rsum_0. intros j Hj. rewrite (Y i Hi). ring. }
      rewrite bform_plus_l, !bform_plus_r, !bform_scal_l, !bform_scal_r in Q. rewrite (bform_sym n K z w (proj1 HK)) in Q. eapply Rle_trans; [exact Q|]. right. ring. }
    assert (E1 : bform n K w z = 1). { rewrite bform_dotp, <- Hw. apply dotp_ext; [reflexivity|]. intros i Hi. rewrite <- Z by exact Hi. rewrite cg_mv. reflexivity. }
    assert (E2 : bform n K z z = dotp n w z). { rewrite bform_dotp, dotp_sym. apply dotp_ext; [|reflexivity]. intros i Hi. rewrite <- Z by exact Hi. rewrite cg_mv. reflexivity. }
    rewrite E1, E2, <- cg_q in CS. lra. }
  assert (B3 : dotp n w z <= nrm n z).
  { eapply Rle_trans; [apply Rle_abs|]. eapply Rle_trans; [apply cauchy_schwarz_nrm|]. rewrite (N1 w Hw). lra. }
  assert (PU : 0 <= qform A u) by (left; rewrite cg_q; apply HK, NZ, Hu).
  assert (B4 : / qform A w <= nrm n z).
  { apply Rmult_le_reg_l with (qform A w); [exact PW|]. rewrite Rinv_r by lra. eapply Rle_trans; [exact B2|]. apply Rmult_le_compat_l; [lra|exact B3]. }
  eapply Rle_trans; [|exact H]. unfold Rdiv. apply Rmult_le_compat; auto. left. apply Rinv_0_lt_compat, PW.
Qed.
Lemma cond2_quot u w : dotp n u u = 1 -> dotp n w w = 1 -> qform A u / qform A w <= cond2 A.
Proof.
  intros Hu Hw. destruct cond2_finite as (k0 & H0). unfold cond2. destruct (Glb_Rbar_correct (cond2_le A)) as (L1 & L2).
  assert (U := L1 k0 H0). assert (V : Rbar_le (qform A u / qform A w) (Glb_Rbar (cond2_le A))). { apply L2. intros k Hk. apply (cond2_le_quot k u w Hk Hu Hw). }
  destruct (Glb_Rbar (cond2_le A)); simpl in *; [exact V|contradiction|contradiction].
Qed.
(** and it is attained at unit vectors where the quadratic form is extreme *)
Lemma cond2_extreme u w : dotp n u u = 1 -> dotp n w w = 1 -> (forall v, qform A w * dotp n v v <= qform A v) -> (forall v, qform A v <= qform A u * dotp n v v) ->
  cond2 A = qform A u / qform A w.
Proof.
  intros Hu Hw HL HU. apply Rle_antisym; [|apply cond2_quot; assumption].
  assert (NZ : nonzero n w). { destruct (nonzero_dec n w) as [Z|Z]; [exact Z|]. exfalso. assert (dotp n w w = 0) by (apply rsum_0; intros i Hi; rewrite Z by exact Hi; ring). lra. }
  assert (PW : 0 < qform A w) by (rewrite cg_q; apply cg_pdf, NZ).
  apply (cond2_bound A). { rewrite EA. exact NP. }
  apply (rayleigh_cond A (qform A w) (qform A u)); [apply PD|exact PW|right; field; lra|rewrite EA; exact HL|rewrite EA; exact HU].
Qed.
End A.

(** a differentiable function above another and touching it has the same derivative *)
Lemma touching f g x df dg del : 0 < del -> (forall t, Rabs (t - x) < del -> g t <= f t) -> f x = g x -> is_derive f x df -> is_derive g x dg -> df = dg.
Proof.
  intros Hd HG E Df Dg. assert (D : is_derive (fun t => f t - g t) x (df - dg)) by (apply dR_minus; assumption). apply is_derive_Reals in D.
  assert (Z : df - dg = 0).
  { set (pr := exist _ (df - dg) D : derivable_pt (fun t => f t - g t) x).
    assert (M := deriv_minimum (fun t => f t - g t) (x - del / 2) (x + del / 2) x pr). rewrite (derive_pt_eq_0 _ _ (df - dg) pr D) in M.
    apply M; [lra|lra|]. intros t H1 H2. rewrite E. assert (g t <= f t); [|lra]. apply HG. apply Rabs_def1; lra. }
  lra.
Qed.

(** derivative of a condition number, if there is one: for matrices that depend on t *)
Lemma dR_bform n (K : R -> nat -> nat -> R) (D : nat -> nat -> R) x u : (forall i j, (i < n)%nat -> (j < n)%nat -> is_derive (fun t => K t i j) x (D i j)) ->
  is_derive (fun t => bform n (K t) u u) x (bform n D u u).
Proof.
  intros H. unfold bform. apply (dR_rsum_ex n (fun t i => rsum n (fun j => u i * K t i j * u j))). intros i Hi. apply (dR_rsum_ex n (fun t j => u i * K t i j * u j)). intros j Hj.
  eapply dR_val; [apply dR_mult; [apply dR_mult; [apply dR_const|apply H; assumption]|apply dR_const]|]. cbv beta. ring.
Qed.
Lemma cond2_derivative n (A : R -> mat) (D : nat -> nat -> R) x u w (dc del : R) : (0 < n)%nat -> 0 < del ->
  (forall t, Rabs (t - x) < del -> nr (A t) = n /\ pd (A t)) -> (forall i j, (i < n)%nat -> (j < n)%nat -> is_derive (fun t => mat_at (A t) i j) x (D i j)) ->
  dotp n u u = 1 -> dotp n w w = 1 -> (forall v, qform (A x) w * dotp n v v <= qform (A x) v) -> (forall v, qform (A x) v <= qform (A x) u * dotp n v v) ->
  is_derive (fun t => cond2 (A t)) x dc ->
  dc = (bform n D u u - cond2 (A x) * bform n D w w) / qform (A x) w.
Proof.
  intros NP Hd HA HD Hu Hw HL HU DC.
  assert (X0 : Rabs (x - x) < del) by (rewrite Rminus_diag_eq, Rabs_R0 by reflexivity; exact Hd).
  destruct (HA x X0) as (EX & PX).
  assert (QE : forall t, Rabs (t - x) < del -> forall v, qform (A t) v = bform n (mat_at (A t)) v v) by (intros t Ht v; destruct (HA t Ht); apply cg_q; assumption).
  assert (EC := cond2_extreme n (A x) EX PX NP u w Hu Hw HL HU).
  assert (PW : 0 < qform (A x) w).
  { rewrite (QE x X0). apply (cg_pdf n (A x) EX PX). destruct (nonzero_dec n w) as [Z|Z]; [exact Z|]. exfalso. assert (dotp n w w = 0) by (apply rsum_0; intros i Hi; rewrite Z by exact Hi; ring). lra. }
  assert (PW' : 0 < bform n (mat_at (A x)) w w) by (rewrite <- (QE x X0); exact PW).
  apply (touching (fun t => cond2 (A t)) (fun t => bform n (mat_at (A t)) u u * / bform n (mat_at (A t)) w w) x _ _ del Hd).
  - intros t Ht. destruct (HA t Ht) as (E1 & P1). rewrite <- !(QE t Ht). apply (cond2_quot n (A t) E1 P1 u w Hu Hw).
  - rewrite <- !(QE x X0). exact EC.
  - exact DC.
  - eapply dR_val; [apply dR_mult; [apply dR_bform, HD|apply dR_inv; [apply dR_bform, HD|lra]]|]. cbv beta. rewrite EC, !(QE x X0). field. lra.
Qed.
