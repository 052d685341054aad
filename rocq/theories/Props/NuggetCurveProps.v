(** * C64: the nuggets compared in plt_nugget_1d.py *)
From Coq Require Import Reals List Arith Bool Lia Lra Psatz.
From Verif.Base Require Import NpLite NpFacts.
From Verif.Spec Require Import KernelSpec LinAlgSpec CondSpec ScriptSpec.
From Verif.Model Require Import Scripts KernelDispatch CommonFun WellCond.
From Verif.Proofs Require Import LinAlg CovStruct CondBound.
Import ListNotations.
Local Open Scope R_scope.

(** a correlation matrix: symmetric, positive semi-definite, ones on the diagonal *)
Definition correlation_matrix (K : mat) : Prop := (0 < nr K)%nat /\ psd K /\ forall i, (i < nr K)%nat -> mat_at K i i = 1.
(** lo and hi are the smallest and the largest eigenvalue *)
Definition extreme_eigenvalues (K : mat) (lo hi : R) : Prop :=
  (exists u, nonzero (nr K) u /\ forall i, (i < nr K)%nat -> mv K u i = lo * u i) /\
  (exists w, nonzero (nr K) w /\ forall i, (i < nr K)%nat -> mv K w i = hi * w i) /\
  forall v, lo * dotp (nr K) v v <= qform K v <= hi * dotp (nr K) v v.
(** c is the condition number of K in the 1-norm *)
Definition cond_norm1 (K : mat) (c : R) : Prop :=
  exists W a b, inverse_of (nr K) (mat_at K) W /\ is_norm1 (nr K) (mat_at K) a /\ is_norm1 (nr K) W b /\ c = a * b.

Lemma eig_dot K u l : nr K = nc K -> (forall i, (i < nr K)%nat -> mv K u i = l * u i) -> qform K u = l * dotp (nr K) u u.
Proof.
  intros Sq H. rewrite qform_bform by exact Sq. rewrite bform_dotp. unfold dotp. rewrite <- rsum_scal. apply rsum_ext. intros i Hi.
  specialize (H i Hi). unfold mv in H. rewrite <- Sq in H. rewrite H. ring.
Qed.
Lemma eig_nonneg K lo hi : psd K -> extreme_eigenvalues K lo hi -> 0 <= lo <= hi.
Proof.
  intros ((Sq & _) & P) ((u & Nu & Eu) & _ & B). assert (D := dotp_pos _ _ Nu). assert (Q := P u). rewrite (eig_dot K u lo Sq Eu) in Q.
  destruct (B u) as (_ & B2). rewrite (eig_dot K u lo Sq Eu) in B2. split; nra.
Qed.
Lemma nrm_eig K e u l : nr K = nc K -> (forall i, (i < nr K)%nat -> mv K u i = l * u i) -> 0 <= l + e ->
  nrm (nr K) (mv (with_nugget K e) u) = (l + e) * nrm (nr K) u.
Proof.
  intros Sq H Pe. unfold nrm. replace (dotp (nr K) (mv (with_nugget K e) u) (mv (with_nugget K e) u)) with ((l + e) * (l + e) * dotp (nr K) u u).
  - rewrite sqrt_mult_alt by nra. rewrite sqrt_square by exact Pe. reflexivity.
  - unfold dotp. rewrite <- rsum_scal. apply rsum_ext. intros i Hi.
    assert (E : mv (with_nugget K e) u i = (l + e) * u i).
    { unfold mv, with_nugget. cbn [nc mat_at]. rewrite (rsum_ext _ _ (fun j => mat_at K i j * u j + (if (j =? i)%nat then e * u j else 0))).
      - rewrite rsum_plus. rewrite (rsum_delta (nc K) i (fun j => e * u j)) by lia. specialize (H i Hi). unfold mv in H. rewrite H. ring.
      - intros j Hj. rewrite (Nat.eqb_sym j i). destruct (i =? j)%nat; ring. }
    rewrite E. ring.
Qed.
Lemma eta_suffices K lo hi cm e : psd K -> (0 < nr K)%nat -> extreme_eigenvalues K lo hi -> 0 < hi -> 1 < cm -> eta_eig lo hi cm <= e -> cond2_le (with_nugget K e) cm.
Proof.
  intros PS Hn EX Hh Hcm He. assert (L := eig_nonneg K lo hi PS EX). destruct PS as ((Sq & SY) & _). destruct EX as (_ & _ & B).
  assert (E0 : 0 <= e) by (eapply Rle_trans; [apply Rmax_l|exact He]).
  assert (E1 : (hi - lo * cm) / (cm - 1) <= e) by (eapply Rle_trans; [apply Rmax_r|exact He]).
  assert (E2 : hi - lo * cm <= e * (cm - 1)). { apply (Rmult_le_compat_r (cm - 1)) in E1; [|lra]. unfold Rdiv in E1. rewrite Rmult_assoc, Rinv_l, Rmult_1_r in E1 by lra. exact E1. }
  assert (QE : forall v, qform (with_nugget K e) v = qform K v + e * dotp (nr K) v v).
  { intros v. rewrite (qform_bform K v Sq). rewrite (qform_bform (with_nugget K e) v) by exact Sq. cbn [with_nugget nr mat_at].
    rewrite (bform_madd (nr K) (mat_at K) (fun i j => if (i =? j)%nat then e else 0)), (bform_diag (nr K) (fun _ => e)). f_equal. unfold dotp. rewrite <- rsum_scal. apply rsum_ext. intros; ring. }
  assert (P : 0 < lo + e) by nra.
  apply (rayleigh_cond _ (lo + e) (hi + e)).
  - split; [exact Sq|]. cbn [with_nugget nr mat_at]. intros i j Hi Hj. rewrite (SY i j Hi Hj), (Nat.eqb_sym i j). reflexivity.
  - exact P.
  - nra.
  - intros v. rewrite QE. cbn [with_nugget nr]. destruct (B v). lra.
  - intros v. rewrite QE. cbn [with_nugget nr]. destruct (B v). lra.
Qed.

(** C64: the curve of "minimum required" nuggets: with that nugget the condition number is within the limit, and no smaller nugget will do *)
Theorem C64_minimal_nugget :
  forall (K : mat) (lo hi cm : R), correlation_matrix K -> extreme_eigenvalues K lo hi -> 1 < cm ->
  cond2_le (with_nugget K (eta_eig lo hi cm)) cm /\
  (forall e, eta_eig lo hi cm <= e -> cond2_le (with_nugget K e) cm) /\
  (forall e, 0 <= e -> cond2_le (with_nugget K e) cm -> eta_eig lo hi cm <= e).
Proof.
  intros K lo hi cm (Hn & PS & D1) EX Hcm. assert (L := eig_nonneg K lo hi PS EX).
  assert (Hh : 1 <= hi).
  { destruct EX as (_ & _ & B). destruct PS as ((Sq & _) & _). set (e0 := fun i => if (i =? 0)%nat then 1 else 0). destruct (B e0) as (_ & B2).
    assert (D : dotp (nr K) e0 e0 = 1). { unfold dotp. rewrite (rsum_single (nr K) 0 _ Hn); [unfold e0; cbn [Nat.eqb]; ring|]. intros i Hi Ni. unfold e0. destruct (Nat.eqb_spec i 0); [contradiction|ring]. }
    assert (Q : qform K e0 = 1).
    { unfold qform. rewrite (rsum_single (nr K) 0 _ Hn).
      - rewrite (rsum_single (nc K) 0); [rewrite (D1 0%nat Hn); unfold e0; cbn [Nat.eqb]; ring|lia|]. intros j Hj Nj. unfold e0. destruct (Nat.eqb_spec j 0); [contradiction|ring].
      - intros i Hi Ni. apply rsum_0. intros j Hj. unfold e0 at 1. destruct (Nat.eqb_spec i 0); [contradiction|ring]. }
    rewrite D, Q in B2. lra. }
  split; [apply (eta_suffices K lo hi); try assumption; lra|]. split; [intros e He; apply (eta_suffices K lo hi); try assumption; lra|].
  intros e He (_ & _ & C). unfold eta_eig. apply Rmax_lub; [exact He|].
  destruct PS as ((Sq & _) & _). destruct EX as ((u & Nu & Eu) & (w & Nw & Ew) & _). cbn [with_nugget nr] in C. specialize (C w u).
  change (mkmat (nr K) (nc K) (fun i j => mat_at K i j + (if (i =? j)%nat then e else 0))) with (with_nugget K e) in C.
  rewrite (nrm_eig K e w hi Sq Ew), (nrm_eig K e u lo Sq Eu) in C by lra.
  assert (Pu := nrm_pos _ _ Nu). assert (Pw := nrm_pos _ _ Nw). assert (PP : 0 < nrm (nr K) u * nrm (nr K) w) by (apply Rmult_lt_0_compat; assumption).
  assert (C2 : (hi + e) * (nrm (nr K) u * nrm (nr K) w) <= cm * (lo + e) * (nrm (nr K) u * nrm (nr K) w)) by lra.
  apply Rmult_le_reg_r in C2; [|exact PP]. apply (Rmult_le_reg_r (cm - 1)); [lra|]. unfold Rdiv. rewrite Rmult_assoc, Rinv_l by lra. lra.
Qed.
Print Assumptions C64_minimal_nugget.

Lemma rmaxn_ge n f i : (i < n)%nat -> f i <= rmaxn n f.
Proof.
  induction n as [|n IH]; [lia|]. intros Hi. destruct n as [|n]; [replace i with 0%nat by lia; cbn [rmaxn]; lra|].
  change (rmaxn (S (S n)) f) with (Rmax (rmaxn (S n) f) (f (S n))). destruct (Nat.eq_dec i (S n)); [subst; apply Rmax_r|]. eapply Rle_trans; [apply IH; lia|apply Rmax_l].
Qed.
Lemma rmaxn_le n f c : (0 < n)%nat -> (forall i, (i < n)%nat -> f i <= c) -> rmaxn n f <= c.
Proof.
  induction n as [|n IH]; [lia|]. intros _ H. destruct n as [|n]; [cbn [rmaxn]; apply H; lia|].
  change (rmaxn (S (S n)) f) with (Rmax (rmaxn (S n) f) (f (S n))). apply Rmax_lub; [apply IH; [lia|intros; apply H; lia]|apply H; lia].
Qed.
Lemma const_diag_bound n A c : (forall i j, (i < n)%nat -> (j < n)%nat -> A i j = A j i) -> (forall v, 0 <= bform n A v v) -> (forall i, (i < n)%nat -> A i i = c) ->
  forall i j, (i < n)%nat -> (j < n)%nat -> Rabs (A i j) <= c.
Proof.
  intros SY P D i j Hi Hj. set (ei := fun k => if (k =? i)%nat then 1 else 0). set (ej := fun k => if (k =? j)%nat then 1 else 0).
  assert (BU : forall a b, (a < n)%nat -> (b < n)%nat -> bform n A (fun k => if (k =? a)%nat then 1 else 0) (fun k => if (k =? b)%nat then 1 else 0) = A a b) by (intros; apply bform_unit; assumption).
  assert (Q1 := P (fun k => ei k + ej k)). rewrite bform_plus_l, !bform_plus_r in Q1. unfold ei, ej in Q1. rewrite !BU in Q1 by assumption. rewrite !D in Q1 by assumption. rewrite (SY j i Hj Hi) in Q1.
  assert (Q2 := P (fun k => ei k + (-1) * ej k)). rewrite bform_plus_l, !bform_plus_r, !bform_scal_l, !bform_scal_r in Q2. unfold ei, ej in Q2. rewrite !BU in Q2 by assumption. rewrite !D in Q2 by assumption. rewrite (SY j i Hj Hi) in Q2.
  apply Rabs_le. lra.
Qed.
(** the trace bound: hi + (N - 1) lo <= N *)
Lemma trace_bound K lo hi : correlation_matrix K -> extreme_eigenvalues K lo hi -> hi + (INR (nr K) - 1) * lo <= INR (nr K).
Proof.
  intros (Hn & ((Sq & SY) & _) & D1) (_ & (w & Nw & Ew) & B). set (n := nr K) in *.
  set (A := fun i j => mat_at K i j + (if (i =? j)%nat then - lo else 0)).
  assert (AF : forall v, bform n A v v = qform K v - lo * dotp n v v).
  { intros v. unfold A. rewrite (bform_madd n (mat_at K) (fun i j => if (i =? j)%nat then - lo else 0)), (bform_diag n (fun _ => - lo)). rewrite (qform_bform K v Sq). fold n. unfold Rminus. f_equal.
    unfold dotp. rewrite Ropp_mult_distr_l, <- rsum_scal. apply rsum_ext. intros; ring. }
  assert (AS : forall i j, (i < n)%nat -> (j < n)%nat -> A i j = A j i) by (intros i j Hi Hj; unfold A; rewrite (SY i j Hi Hj), (Nat.eqb_sym i j); reflexivity).
  assert (AB : forall i j, (i < n)%nat -> (j < n)%nat -> Rabs (A i j) <= 1 - lo).
  { apply (const_diag_bound n A (1 - lo) AS); [intros v; rewrite AF; destruct (B v); lra|]. intros i Hi. unfold A. rewrite Nat.eqb_refl, D1 by exact Hi. ring. }
  assert (G : bform n A w w <= (INR n * (1 - lo)) * dotp n w w).
  { apply gershgorin; [exact AS|]. intros i Hi. eapply Rle_trans; [apply rsum_le; intros j Hj; apply (AB i j Hi Hj)|]. rewrite rsum_const. lra. }
  rewrite AF, (eig_dot K w hi Sq Ew) in G. fold n in G. assert (Dp := dotp_pos _ _ Nw). fold n in Dp.
  assert (G2 : (hi - lo) * dotp n w w <= (INR n * (1 - lo)) * dotp n w w) by lra. apply Rmult_le_reg_r in G2; [|exact Dp]. lra.
Qed.
Lemma norm1_eig n (A : nat -> nat -> R) m u l : is_norm1 n A m -> nonzero n u -> (forall i, (i < n)%nat -> rsum n (fun j => A i j * u j) = l * u i) -> Rabs l <= m.
Proof.
  intros (H & _) (k & Hk & Nk) E. assert (S : Rabs l * rsum n (fun i => Rabs (u i)) <= m * rsum n (fun i => Rabs (u i))).
  { rewrite <- !rsum_scal. eapply Rle_trans.
    - apply (rsum_le n _ (fun i => rsum n (fun j => Rabs (A i j) * Rabs (u j)))). intros i Hi. rewrite <- Rabs_mult, <- (E i Hi). eapply Rle_trans; [apply rsum_abs|]. right. apply rsum_ext. intros. apply Rabs_mult.
    - rewrite rsum_swap. apply rsum_le. intros j Hj. rewrite rsum_scal_r. apply Rmult_le_compat_r; [apply Rabs_pos|]. apply H. exact Hj. }
  assert (P : 0 < rsum n (fun i => Rabs (u i))). { eapply Rlt_le_trans; [apply (Rabs_pos_lt _ Nk)|]. apply (rsum_le_term n (fun i => Rabs (u i)) k); [intros; apply Rabs_pos|exact Hk]. }
  apply Rmult_le_reg_r in S; [exact S|exact P].
Qed.
(** the 1-norm condition number is at least the ratio of the eigenvalues *)
Lemma cond1_ge K lo hi c : psd K -> extreme_eigenvalues K lo hi -> 0 < lo -> cond_norm1 K c -> hi / lo <= c.
Proof.
  intros ((Sq & SY) & _) ((u & Nu & Eu) & (w & Nw & Ew) & _) Hlo (W & a & b & IW & Na & Nb & ->). set (n := nr K) in *.
  assert (Ha : Rabs hi <= a). { apply (norm1_eig n (mat_at K) a w hi Na Nw). intros i Hi. specialize (Ew i Hi). unfold mv in Ew. rewrite <- Sq in Ew. exact Ew. }
  assert (Hb : Rabs (/ lo) <= b).
  { (* W is symmetric: it is enough to use the transpose W^T u = u / lo *)
    assert (T : forall k, (k < n)%nat -> rsum n (fun i => W i k * u i) = / lo * u k).
    { intros k Hk. assert (E : rsum n (fun j => u j * rsum n (fun i => mat_at K j i * W i k)) = u k).
      { rewrite (rsum_ext n _ (fun j => if (j =? k)%nat then u j else 0)); [apply rsum_delta; exact Hk|]. intros j Hj. rewrite (IW j k Hj Hk). destruct (j =? k)%nat; ring. }
      rewrite (rsum_ext n _ (fun j => rsum n (fun i => u j * (mat_at K j i * W i k)))) in E by (intros; rewrite rsum_scal; reflexivity). rewrite rsum_swap in E.
      rewrite (rsum_ext n _ (fun i => lo * (W i k * u i))) in E.
      - rewrite rsum_scal in E. rewrite <- E. field. lra.
      - intros i Hi. rewrite (rsum_ext n _ (fun j => mat_at K i j * u j * W i k)); [|intros j Hj; rewrite (SY j i Hj Hi); ring].
        rewrite rsum_scal_r. specialize (Eu i Hi). unfold mv in Eu. rewrite <- Sq in Eu. fold n in Eu. rewrite Eu. ring. }
    (* largest entry of u *)
    destruct Nu as (k0 & Hk0 & Nk0). set (m := rmaxn n (fun i => Rabs (u i))).
    assert (EX : exists k, (k < n)%nat /\ Rabs (u k) = m).
    { unfold m. assert (Hn : (0 < n)%nat) by lia. clear - Hn. induction n as [|n IH]; [lia|]. destruct n as [|n]; [exists 0%nat; split; [lia|reflexivity]|].
      change (rmaxn (S (S n)) (fun i => Rabs (u i))) with (Rmax (rmaxn (S n) (fun i => Rabs (u i))) (Rabs (u (S n)))). unfold Rmax. destruct (Rle_dec _ _).
      - exists (S n). split; [lia|reflexivity].
      - destruct IH as (k & Hk & E); [lia|]. exists k. split; [lia|exact E]. }
    destruct EX as (k & Hk & Ek). assert (Mp : 0 < m). { eapply Rlt_le_trans; [apply (Rabs_pos_lt _ Nk0)|]. apply (rmaxn_ge n (fun i => Rabs (u i)) k0 Hk0). }
    destruct Nb as (Nb & _). specialize (Nb k Hk). apply (Rmult_le_reg_r m); [exact Mp|]. rewrite <- Ek at 1. rewrite <- Rabs_mult, <- (T k Hk).
    eapply Rle_trans; [apply rsum_abs|]. apply (Rle_trans _ (rsum n (fun i => Rabs (W i k) * m))).
    - apply rsum_le. intros i Hi. rewrite Rabs_mult. apply Rmult_le_compat_l; [apply Rabs_pos|]. apply (rmaxn_ge n (fun i => Rabs (u i)) i Hi).
    - rewrite rsum_scal_r. apply Rmult_le_compat_r; [lra|exact Nb]. }
  unfold Rdiv. pose proof (Rle_abs hi). rewrite Rabs_pos_eq in Hb by (left; apply Rinv_0_lt_compat; exact Hlo).
  apply (Rle_trans _ (a * / lo)).
  - apply Rmult_le_compat_r; [left; apply Rinv_0_lt_compat; exact Hlo|lra].
  - apply Rmult_le_compat_l; [pose proof (Rabs_pos hi); lra|exact Hb].
Qed.
(** nugget as a function of the condition number: increasing *)
Lemma eta_mono N k1 k2 cm : 1 <= N -> 1 < cm -> 0 < k1 -> k1 <= k2 -> eta_w_cond_l2 N k1 cm <= eta_w_cond_l2 N k2 cm.
Proof.
  intros HN Hc H1 H2. unfold eta_w_cond_l2. cbv zeta.
  assert (E : forall k, 0 < k -> N * k / (k + N - 1) / (cm - 1) * (1 - cm / k) = N / (cm - 1) * (1 - (N - 1 + cm) / (k + N - 1))) by (intros; field; lra).
  rewrite !E by lra. apply Rmult_le_compat_l; [left; apply Rdiv_lt_0_compat; lra|]. apply Rplus_le_compat_l, Ropp_le_contravar. unfold Rdiv. apply Rmult_le_compat_l; [lra|]. apply Rinv_le_contravar; lra.
Qed.
Lemma eta_l2_ge K lo hi cm : correlation_matrix K -> extreme_eigenvalues K lo hi -> 0 < lo -> 1 < cm ->
  eta_eig lo hi cm <= Rmax 0 (eta_w_cond_l2 (INR (nr K)) (hi / lo) cm).
Proof.
  intros CM EX Hlo Hc. assert (TB := trace_bound K lo hi CM EX). destruct CM as (Hn & PS & _). assert (L := eig_nonneg K lo hi PS EX).
  assert (HN : 1 <= INR (nr K)) by (apply (le_INR 1); lia). unfold eta_eig. apply Rmax_lub; [apply Rmax_l|].
  destruct (Rle_dec (hi - lo * cm) 0) as [Z|Z].
  - eapply Rle_trans; [|apply Rmax_l]. unfold Rdiv. assert (0 < / (cm - 1)) by (apply Rinv_0_lt_compat; lra). nra.
  - eapply Rle_trans; [|apply Rmax_r]. unfold eta_w_cond_l2. cbv zeta. set (N := INR (nr K)) in *.
    assert (Dn : 0 < hi / lo + N - 1). { assert (0 < hi / lo) by (apply Rdiv_lt_0_compat; lra). lra. }
    assert (EM : hi <= N * (hi / lo) / (hi / lo + N - 1)).
    { apply (Rmult_le_reg_r (hi / lo + N - 1)); [exact Dn|]. assert (CA : forall q, 0 < q + N - 1 -> N * q / (q + N - 1) * (q + N - 1) = N * q) by (intros; field; lra). rewrite CA by exact Dn.
      apply (Rmult_le_reg_r lo); [exact Hlo|]. replace (hi * (hi / lo + N - 1) * lo) with (hi * (hi + (N - 1) * lo)) by (field; lra). replace (N * (hi / lo) * lo) with (hi * N) by (field; lra). apply Rmult_le_compat_l; lra. }
    replace ((hi - lo * cm) / (cm - 1)) with (hi / (cm - 1) * (1 - cm / (hi / lo))) by (field; lra).
    apply Rmult_le_compat_r.
    + replace (1 - cm / (hi / lo)) with ((hi - lo * cm) / hi) by (field; lra). apply Rcomplements.Rdiv_le_0_compat; lra.
    + unfold Rdiv. apply Rmult_le_compat_r; [left; apply Rinv_0_lt_compat; lra|exact EM].
Qed.

(** C64: every nugget drawn is enough (and so none lies below the curve of minimum nuggets); those computed without the
    eigenvalues: from the trace, from the row sums, from the condition number in the 2-norm and in the 1-norm *)
Theorem C64_every_nugget_suffices :
  forall (K : mat) (n_eval dim : nat) (lo hi cm c1 : R),
  correlation_matrix K -> nr K = (n_eval * (dim + 1))%nat -> extreme_eigenvalues K lo hi -> 1 < cm ->
  let N := INR (nr K) in
  (eta_eig lo hi cm <= eta_Gcircle K cm <= eta_w_trace n_eval dim cm) /\
  cond2_le (with_nugget K (eta_Gcircle K cm)) cm /\ cond2_le (with_nugget K (eta_w_trace n_eval dim cm)) cm /\
  (0 < lo -> eta_eig lo hi cm <= Rmax 0 (eta_w_cond_l2 N (hi / lo) cm) /\ cond2_le (with_nugget K (Rmax 0 (eta_w_cond_l2 N (hi / lo) cm))) cm) /\
  (0 < lo -> cond_norm1 K c1 -> eta_eig lo hi cm <= eta_w_cond_l1 N c1 cm /\ cond2_le (with_nugget K (eta_w_cond_l1 N c1 cm)) cm).
Proof.
  intros K n d lo hi cm c1 CM EN EX Hc N. assert (CM' := CM). destruct CM' as (Hn & PS & D1). assert (L := eig_nonneg K lo hi PS EX).
  destruct (C64_minimal_nugget K lo hi cm CM EX Hc) as (_ & SUF & _).
  assert (PS' := PS). destruct PS' as ((Sq & SY) & P).
  assert (HN : 1 <= N) by (apply (le_INR 1); lia).
  assert (AB : forall i j, (i < nr K)%nat -> (j < nr K)%nat -> Rabs (mat_at K i j) <= 1).
  { apply const_diag_bound; [exact SY| |exact D1]. intros v. rewrite <- qform_bform by exact Sq. apply P. }
  assert (RS : hi <= max_row_sum K).
  { destruct EX as (_ & (w & Nw & Ew) & _). assert (Dp := dotp_pos _ _ Nw).
    assert (G : bform (nr K) (mat_at K) w w <= max_row_sum K * dotp (nr K) w w).
    { apply gershgorin; [exact SY|]. intros i Hi. unfold max_row_sum. rewrite <- Sq. apply (rmaxn_ge (nr K) (fun i => rsum (nr K) (fun j => Rabs (mat_at K i j))) i Hi). }
    rewrite <- qform_bform in G by exact Sq. rewrite (eig_dot K w hi Sq Ew) in G. apply Rmult_le_reg_r in G; assumption. }
  assert (RN : max_row_sum K <= N).
  { unfold max_row_sum. apply rmaxn_le; [exact Hn|]. intros i Hi. rewrite <- Sq. eapply Rle_trans; [apply rsum_le; intros j Hj; apply (AB i j Hi Hj)|]. rewrite rsum_const. unfold N. lra. }
  assert (I1 : 0 < / (cm - 1)) by (apply Rinv_0_lt_compat; lra).
  assert (G1 : eta_eig lo hi cm <= eta_Gcircle K cm).
  { unfold eta_eig, eta_Gcircle, Rdiv. apply Rmax_lub; [apply Rmult_le_pos; lra|]. apply Rmult_le_compat_r; [lra|]. nra. }
  assert (G2 : eta_Gcircle K cm <= eta_w_trace n d cm).
  { unfold eta_Gcircle, eta_w_trace, Rdiv. apply Rmult_le_compat_r; [lra|]. replace (INR n * (INR d + 1)) with N; [exact RN|]. unfold N. rewrite EN, mult_INR, plus_INR. reflexivity. }
  split; [split; assumption|]. split; [apply SUF; exact G1|]. split; [apply SUF; lra|]. split.
  - intros Hlo. assert (G3 := eta_l2_ge K lo hi cm CM EX Hlo Hc). fold N in G3. split; [exact G3|apply SUF; exact G3].
  - intros Hlo C1. assert (G3 := eta_l2_ge K lo hi cm CM EX Hlo Hc). fold N in G3.
    assert (C2 := cond1_ge K lo hi c1 PS EX Hlo C1). assert (Hp : 0 < hi / lo) by (apply Rdiv_lt_0_compat; lra).
    assert (SN : 1 <= sqrt N) by (rewrite <- sqrt_1; apply sqrt_le_1_alt; exact HN).
    assert (G4 : eta_eig lo hi cm <= eta_w_cond_l1 N c1 cm).
    { eapply Rle_trans; [exact G3|]. unfold eta_w_cond_l1. cbv zeta. apply Rmax_lub; [apply Rmax_l|]. eapply Rle_trans; [|apply Rmax_r].
      eapply Rle_trans; [apply (eta_mono N (hi / lo) (sqrt N * c1) cm HN Hc Hp); nra|]. right. unfold eta_w_cond_l2. cbv zeta. replace (N * sqrt N * c1) with (N * (sqrt N * c1)) by ring. replace (c1 * sqrt N) with (sqrt N * c1) by ring. reflexivity. }
    split; [exact G4|apply SUF; exact G4].
Qed.
Print Assumptions C64_every_nugget_suffices.

(** the constant drawn as the Gershgorin bound is the nugget the library computes for the preconditioned Gaussian kernel *)
Theorem C64_constant_is_the_library_nugget :
  forall (c : ncfg) (n_eval : nat), nc_eta_mtd c <> Edflt -> nc_use_grad c = true -> nc_well c = Wprecon -> nc_kernel c = SqExp -> (1 <= n_eval)%nat ->
  exists eb, calc_nugget c n_eval = Ok (eb, Some (eta_Gaussian n_eval (nc_dim c) (nc_target c))).
Proof.
  intros c n E1 E2 E3 E4 Hn. unfold calc_nugget. rewrite E2, E3, E4.
  assert (A : 0.5 = 5 / 10) by lra.
  destruct (Nat.eqb_spec n 1).
  - subst n. exists (calc_nugget_Kbase 1 (nc_target c)). destruct (nc_eta_mtd c); try congruence; do 3 f_equal; unfold calc_nugget_Kbase, eta_Gaussian; cbv zeta; cbn [INR]; f_equal; lra.
  - exists (calc_nugget_Kbase n (nc_target c)). destruct (nc_eta_mtd c); try congruence; do 3 f_equal; unfold precon_ub, eta_Gaussian; cbv zeta; rewrite A; f_equal; ring.
Qed.
Print Assumptions C64_constant_is_the_library_nugget.

(** the flag "diagonally dominant" is set for no correlation matrix with a non-zero correlation, dominant or not *)
Theorem C64_dominance_flag_refuted :
  ~ (forall K, correlation_matrix K -> (forall i, (i < nr K)%nat -> rsum (nc K) (fun j => if (j =? i)%nat then 0 else Rabs (mat_at K i j)) <= mat_at K i i) -> kcor_is_diagdom K = true).
Proof.
  intros H. set (K := mkmat 2 2 (fun i j => if (i =? j)%nat then 1 else 1 / 2)). specialize (H K).
  assert (CM : correlation_matrix K).
  { split; [cbn; lia|]. split.
    - split; [split; [reflexivity|]|]. { intros i j _ _. unfold K. cbn [mat_at]. rewrite (Nat.eqb_sym i j). reflexivity. }
      intros v. unfold qform, K. cbn [nr nc mat_at rsum Nat.eqb]. nra.
    - intros i Hi. unfold K. cbn [mat_at]. rewrite Nat.eqb_refl. reflexivity. }
  assert (X : kcor_is_diagdom K = true).
  { apply H; [exact CM|]. intros i Hi. unfold K in *. cbn [nr nc mat_at] in *. assert (i = 0 \/ i = 1)%nat as [->| ->] by lia; cbn [rsum Nat.eqb]; rewrite ?Rabs_pos_eq by lra; lra. }
  unfold kcor_is_diagdom in X. destruct (Rle_dec (max_row_sum K) 1) as [Z|]; [|discriminate]. unfold max_row_sum, K in Z. cbn [nr nc rmaxn rsum mat_at Nat.eqb] in Z.
  rewrite (Rabs_pos_eq 1), (Rabs_pos_eq (1 / 2)) in Z by lra. pose proof (Rmax_l (0 + 1 + 1 / 2) (0 + 1 / 2 + 1)). lra.
Qed.
Print Assumptions C64_dominance_flag_refuted.

(** a case: correlation 1/2 between two observations *)
Example C64_case : exists K, correlation_matrix K /\ extreme_eigenvalues K (1 / 2) (3 / 2) /\ nr K = (1 * (1 + 1))%nat /\ eta_eig (1 / 2) (3 / 2) 2 = 1 / 2.
Proof.
  exists (mkmat 2 2 (fun i j => if (i =? j)%nat then 1 else 1 / 2)). split; [|split; [|split; [reflexivity|]]].
  - split; [cbn; lia|]. split.
    + split; [split; [reflexivity|]|]. { intros i j _ _. cbn [mat_at]. rewrite (Nat.eqb_sym i j). reflexivity. }
      intros v. unfold qform. cbn [nr nc mat_at rsum Nat.eqb]. nra.
    + intros i Hi. cbn [mat_at]. rewrite Nat.eqb_refl. reflexivity.
  - split; [|split].
    + exists (fun i => if (i =? 0)%nat then 1 else -1). split; [exists 0%nat; split; [cbn; lia|cbn [Nat.eqb]; lra]|]. intros i Hi. cbn [nr] in Hi. unfold mv. cbn [nc mat_at].
      assert (i = 0 \/ i = 1)%nat as [->| ->] by lia; cbn [rsum Nat.eqb]; lra.
    + exists (fun _ => 1). split; [exists 0%nat; split; [cbn; lia|lra]|]. intros i Hi. cbn [nr] in Hi. unfold mv. cbn [nc mat_at].
      assert (i = 0 \/ i = 1)%nat as [->| ->] by lia; cbn [rsum Nat.eqb]; lra.
    + intros v. unfold dotp, qform. cbn [nr nc mat_at rsum Nat.eqb]. pose proof (pow2_ge_0 (v 0%nat + v 1%nat)). pose proof (pow2_ge_0 (v 0%nat - v 1%nat)). split; nra.
  - unfold eta_eig, Rmax. destruct (Rle_dec _ _); lra.
Qed.
