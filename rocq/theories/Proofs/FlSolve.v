(** The error of a solution computed with a rounded factorisation. *)
From Coq Require Import Reals List Arith Bool Lia Lra Psatz.
From Verif.Base Require Import NpLite NpFacts.
From Verif.Spec Require Import KernelSpec LinAlgSpec FloatSpec.
From Verif.Model Require Import Chol CholFl.
From Verif.Proofs Require Import LinAlg CholCorrect FlChol FlMargin.
Import ListNotations.
Local Open Scope R_scope.

(** |L| |L^T| is bounded by the diagonal of the matrix *)
Lemma abs_factor_bound n G A L : 0 <= G < 1 -> (forall i, (i < n)%nat -> 0 < A i i) ->
  (forall j, (j < n)%nat -> diag_ok G A L j) ->
  forall i j, (i < n)%nat -> (j < n)%nat -> rsum n (fun k => Rabs (low L i k) * Rabs (low L j k)) <= (sqrt (A i i) * sqrt (A j j)) / (1 - G).
Proof.
  intros HG HP HD i j Hi Hj.
  assert (D : forall x, 0 <= x -> 0 <= x / (1 - G)). { intros x Hx. apply Rmult_le_pos; [exact Hx|]. left. apply Rinv_0_lt_compat. lra. }
  assert (R1 : forall i, (i < n)%nat -> rsum n (fun k => low L i k * low L i k) <= A i i / (1 - G)).
  { intros r Hr. rewrite low_rows by lia. fold (sqsum L r (S r)). apply diag_row; auto. }
  assert (X := abs_products n (low L i) (low L j) (A i i / (1 - G)) (A j j / (1 - G)) (D _ (Rlt_le _ _ (HP i Hi))) (D _ (Rlt_le _ _ (HP j Hj))) (R1 i Hi) (R1 j Hj)).
  rewrite !sqrt_div_alt in X by lra. assert (SS : sqrt (1 - G) * sqrt (1 - G) = 1 - G) by (apply sqrt_sqrt; lra).
  assert (SP : 0 < sqrt (1 - G)) by (apply sqrt_lt_R0; lra).
  rewrite (rsum_ext n _ (fun k => Rabs (low L i k * low L j k))) by (intros; symmetry; apply Rabs_mult).
  eapply Rle_trans; [exact X|]. right. set (r := sqrt (1 - G)) in *. rewrite <- SS. field. lra.
Qed.

Lemma residual u ar n m A L b : rounds u ar -> symf n A -> (n + 1 <= m)%nat -> gam u m < 1 -> (forall i, (i < n)%nat -> 0 < A i i) ->
  (forall j, (j < n)%nat -> diag_ok (gam u m) A L j) -> (forall i j, (j < i)%nat -> (i < n)%nat -> off_ok (gam u m) A L i j) ->
  let x := bsub_fl ar L (fsub_fl ar L b n) n n (fun _ => 0) in
  forall i, (i < n)%nat -> Rabs (b i - rsum n (fun j => A i j * x j)) <= (3 * gam u m + gam u m ^ 2) / (1 - gam u m) * (sqrt (A i i) * rsum n (fun j => sqrt (A j j) * Rabs (x j))).
Proof.
  intros RO HS Hm HG HP HD HO x i Hi. assert (Hu := ro_u _ _ RO). set (G := gam u m) in *. assert (HG0 : 0 <= G) by (apply gam_nonneg, Hu).
  set (g := gam u (n + 1)). assert (Hg : 0 <= g <= G) by (split; [apply gam_nonneg, Hu | apply gam_mono; [exact Hu|exact Hm]]).
  assert (LD : forall i, (i < n)%nat -> L i i <> 0) by (intros j Hj; destruct (HD j Hj); lra).
  set (y := fsub_fl ar L b n) in *.
  assert (F1 := fsub_fl_err u ar L b n RO LD). fold y g in F1.
  assert (F2 := bsub_fl_err u ar L y n RO LD). cbv zeta in F2. fold x g in F2.
  set (T := fun k => rsum n (fun j => Rabs (low L j k) * Rabs (x j))) in *.
  assert (TN : forall k, 0 <= T k) by (intros k; apply rsum_nonneg; intros; apply Rmult_le_pos; apply Rabs_pos).
  assert (YB : forall k, (k < n)%nat -> Rabs (y k) <= (1 + g) * T k).
  { intros k Hk. assert (X := F2 k Hk). replace (y k) with ((y k - rsum n (fun i => low L i k * x i)) + rsum n (fun i => low L i k * x i)) by ring.
    eapply Rle_trans; [apply Rabs_triang|]. assert (Y : Rabs (rsum n (fun i => low L i k * x i)) <= T k).
    { eapply Rle_trans; [apply rsum_abs|]. right. apply rsum_ext; intros; apply Rabs_mult. }
    fold (T k) in X. lra. }
  (* the products |L| T *)
  set (W := rsum n (fun k => Rabs (low L i k) * T k)).
  set (S := rsum n (fun j => sqrt (A j j) * Rabs (x j))).
  assert (S0 : 0 <= S) by (apply rsum_nonneg; intros; apply Rmult_le_pos; [apply sqrt_pos|apply Rabs_pos]).
  assert (WB : W <= sqrt (A i i) * S / (1 - G)).
  { unfold W, T. rewrite (rsum_ext n _ (fun k => rsum n (fun j => Rabs (low L i k) * Rabs (low L j k) * Rabs (x j)))).
    2:{ intros k Hk. rewrite <- rsum_scal. apply rsum_ext; intros; ring. }
    rewrite rsum_swap. unfold S. replace (sqrt (A i i) * rsum n (fun j => sqrt (A j j) * Rabs (x j)) / (1 - G)) with (rsum n (fun j => (sqrt (A i i) / (1 - G)) * (sqrt (A j j) * Rabs (x j)))) by (rewrite rsum_scal; field; lra).
    apply rsum_le; intros j Hj. rewrite rsum_scal_r. assert (X := abs_factor_bound n G A L (conj HG0 HG) HP HD i j Hi Hj).
    apply Rle_trans with (sqrt (A i i) * sqrt (A j j) / (1 - G) * Rabs (x j)); [apply Rmult_le_compat_r; [apply Rabs_pos|exact X]|right; field; lra]. }
  (* b - L L^T x *)
  assert (R1 : Rabs (b i - rsum n (fun j => rsum n (fun k => low L i k * low L j k) * x j)) <= (g * (1 + g) + g) * W).
  { replace (rsum n (fun j => rsum n (fun k => low L i k * low L j k) * x j)) with (rsum n (fun k => low L i k * rsum n (fun j => low L j k * x j))).
    2:{ rewrite (rsum_ext n (fun j => rsum n (fun k => low L i k * low L j k) * x j) (fun j => rsum n (fun k => low L i k * low L j k * x j))) by (intros; symmetry; apply rsum_scal_r).
        rewrite rsum_swap. apply rsum_ext; intros k Hk. rewrite <- rsum_scal. apply rsum_ext; intros; ring. }
    replace (b i - rsum n (fun k => low L i k * rsum n (fun j => low L j k * x j))) with
      ((b i - rsum n (fun k => low L i k * y k)) + rsum n (fun k => low L i k * (y k - rsum n (fun j => low L j k * x j)))).
    2:{ rewrite (rsum_ext n (fun k => low L i k * (y k - rsum n (fun j => low L j k * x j))) (fun k => low L i k * y k - low L i k * rsum n (fun j => low L j k * x j))) by (intros; ring).
        rewrite rsum_minus. ring. }
    eapply Rle_trans; [apply Rabs_triang|]. replace ((g * (1 + g) + g) * W) with (g * ((1 + g) * W) + g * W) by ring. apply Rplus_le_compat.
    - eapply Rle_trans; [apply F1, Hi|]. apply Rmult_le_compat_l; [lra|]. unfold W. rewrite <- rsum_scal. apply rsum_le; intros k Hk.
      replace ((1 + g) * (Rabs (low L i k) * T k)) with (Rabs (low L i k) * ((1 + g) * T k)) by ring. apply Rmult_le_compat_l; [apply Rabs_pos|]. apply YB, Hk.
    - eapply Rle_trans; [apply rsum_abs|]. unfold W. rewrite <- rsum_scal. apply rsum_le; intros k Hk. rewrite Rabs_mult.
      replace (g * (Rabs (low L i k) * T k)) with (Rabs (low L i k) * (g * T k)) by ring. apply Rmult_le_compat_l; [apply Rabs_pos|]. apply F2, Hk. }
  (* L L^T - A *)
  assert (R2 : Rabs (rsum n (fun j => (rsum n (fun k => low L i k * low L j k) - A i j) * x j)) <= G / (1 - G) * (sqrt (A i i) * S)).
  { eapply Rle_trans; [apply rsum_abs|]. unfold S. rewrite <- !rsum_scal. apply rsum_le; intros j Hj. rewrite Rabs_mult.
    assert (X := product_err n G A L HS (conj HG0 HG) HP HD HO i j Hi Hj).
    apply Rle_trans with (G / (1 - G) * (sqrt (A i i) * sqrt (A j j)) * Rabs (x j)); [apply Rmult_le_compat_r; [apply Rabs_pos|exact X]|right; ring]. }
  replace (b i - rsum n (fun j => A i j * x j)) with
    ((b i - rsum n (fun j => rsum n (fun k => low L i k * low L j k) * x j)) + rsum n (fun j => (rsum n (fun k => low L i k * low L j k) - A i j) * x j)).
  2:{ rewrite (rsum_ext n (fun j => (rsum n (fun k => low L i k * low L j k) - A i j) * x j) (fun j => rsum n (fun k => low L i k * low L j k) * x j - A i j * x j)) by (intros; ring).
      rewrite rsum_minus. ring. }
  eapply Rle_trans; [apply Rabs_triang|].
  set (P := sqrt (A i i) * S) in *. assert (P0 : 0 <= P) by (apply Rmult_le_pos; [apply sqrt_pos|exact S0]).
  assert (W0 : 0 <= W) by (apply rsum_nonneg; intros; apply Rmult_le_pos; [apply Rabs_pos|apply TN]).
  assert (GG : g * (1 + g) + g <= G * (1 + G) + G) by nra.
  apply Rle_trans with ((G * (1 + G) + G) * (P / (1 - G)) + G / (1 - G) * P).
  - apply Rplus_le_compat; [|exact R2]. eapply Rle_trans; [exact R1|]. apply Rmult_le_compat; nra.
  - right. field. lra.
Qed.
