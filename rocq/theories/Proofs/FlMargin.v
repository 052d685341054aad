(** Positive definiteness by a margin: from the condition number, and for rounded entries. *)
From Coq Require Import Reals List Arith Bool Lia Lra Psatz.
From Verif.Base Require Import NpLite NpFacts.
From Verif.Spec Require Import KernelSpec LinAlgSpec FloatSpec.
From Verif.Model Require Import Chol CholFl.
From Verif.Proofs Require Import LinAlg CholCorrect FlChol.
Import ListNotations.
Local Open Scope R_scope.

Definition unitv (i : nat) : nat -> R := fun k => if (k =? i)%nat then 1 else 0.
Lemma unitv_dotp n i v : (i < n)%nat -> dotp n (unitv i) v = v i.
Proof. intros H. unfold dotp, unitv. rewrite (rsum_single n i); [rewrite Nat.eqb_refl; ring|exact H|]. intros j _ Hj. destruct (Nat.eqb_spec j i); [contradiction|ring]. Qed.
Lemma unitv_nrm n i : (i < n)%nat -> nrm n (unitv i) = 1.
Proof. intros H. unfold nrm. rewrite unitv_dotp by exact H. unfold unitv. rewrite Nat.eqb_refl. apply sqrt_1. Qed.
Lemma pd_square A : pd A -> nr A = nc A. Proof. intros ((E & _) & _). exact E. Qed.
Lemma pd_diag A i : pd A -> (i < nr A)%nat -> 0 < mat_at A i i.
Proof.
  intros HP Hi. assert (E := pd_square A HP). destruct HP as (_ & HP). assert (X := HP (unitv i)). rewrite qform_bform in X by exact E.
  unfold unitv in X. rewrite bform_unit in X by assumption. apply X. exists i. split; [exact Hi|]. rewrite Nat.eqb_refl. lra.
Qed.
(** Cauchy-Schwarz in the inner product of a positive semidefinite form *)
Lemma bform_cs n a u v : symf n a -> (forall w, 0 <= bform n a w w) -> bform n a u v ^ 2 <= bform n a u u * bform n a v v.
Proof.
  intros HS HP. apply disc_le. intros t. assert (X := HP (fun i => t * u i + v i)).
  rewrite bform_plus_l, !bform_plus_r, !bform_scal_l, !bform_scal_r in X. rewrite (bform_sym n a v u HS) in X.
  replace (bform n a u u * t ^ 2 + 2 * bform n a u v * t + bform n a v v) with (t * (t * bform n a u u) + t * bform n a u v + (t * bform n a u v + bform n a v v)) by ring. exact X.
Qed.
Lemma cond_margin A k v : pd A -> cond2_le A k ->
  rsum (nr A) (fun i => mat_at A i i * (v i * v i)) <= k * bform (nr A) (mat_at A) v v.
Proof.
  intros HP (_ & _ & HC). assert (E := pd_square A HP). set (n := nr A) in *.
  assert (HS : symf n (mat_at A)). { destruct HP as ((_ & S) & _). intros i j Hi Hj. apply S; assumption || (rewrite <- E; assumption). }
  assert (PSD : forall w, 0 <= bform n (mat_at A) w w).
  { intros w. destruct (nonzero_dec n w) as [N|Z].
    - left. destruct HP as (_ & HP). assert (X := HP w N). rewrite qform_bform in X by exact E. exact X.
    - right. symmetry. unfold bform. apply rsum_0; intros i Hi. apply rsum_0; intros j Hj. rewrite (Z i Hi). ring. }
  destruct (nonzero_dec n v) as [NZ|Z].
  2:{ rewrite (rsum_0 n) by (intros i Hi; rewrite (Z i Hi); ring). right. unfold bform. rewrite (rsum_0 n) by (intros i Hi; apply rsum_0; intros j Hj; rewrite (Z i Hi); ring). ring. }
  assert (V := dotp_pos n v NZ). set (V2 := dotp n v v) in *.
  (* w = A^-1 v *)
  destruct (cho_factor_pd A true HP) as (c & _ & _ & CO). assert (SO := cho_solve_solves c A v CO). set (w := cho_solve_fn c v) in *.
  assert (BW : bform n (mat_at A) v w = V2). { rewrite bform_dotp. unfold V2, dotp. apply rsum_ext; intros i Hi. f_equal. assert (X := SO i Hi). unfold mv in X. rewrite <- E in X. exact X. }
  assert (WW : bform n (mat_at A) w w = dotp n w v). { rewrite bform_dotp. unfold dotp. apply rsum_ext; intros i Hi. f_equal. assert (X := SO i Hi). unfold mv in X. rewrite <- E in X. exact X. }
  assert (CS := bform_cs n (mat_at A) v w HS PSD). rewrite BW, WW in CS.
  assert (W1 := cauchy_schwarz_nrm n w v). assert (NV : nrm n v * nrm n v = V2) by apply nrm_sq. assert (Nv : 0 < nrm n v) by (apply nrm_pos, NZ). assert (Nw := nrm_nonneg n w).
  assert (MW : nrm n (mv A w) = nrm n v). { unfold nrm. f_equal. apply dotp_ext; intros i Hi; apply SO; exact Hi. }
  set (Q := bform n (mat_at A) v v) in *. assert (HQ : 0 <= Q) by apply PSD.
  assert (B1 : V2 * nrm n v <= Q * nrm n w).
  { apply Rmult_le_reg_r with (nrm n v); [exact Nv|]. rewrite !Rmult_assoc, NV. assert (X := Rle_abs (dotp n w v)).
    apply Rle_trans with (Q * dotp n w v); [cbn [pow] in CS; lra|]. apply Rmult_le_compat_l; lra. }
  assert (DI : forall i, (i < n)%nat -> mat_at A i i * V2 <= k * Q).
  { intros i Hi. assert (AI : mat_at A i i <= nrm n (mv A (unitv i))).
    { rewrite <- (bform_unit n (mat_at A) i i Hi Hi). fold (unitv i). rewrite bform_dotp. assert (X := cauchy_schwarz_nrm n (unitv i) (mv A (unitv i))). rewrite unitv_nrm in X by exact Hi.
      assert (Y := Rle_abs (dotp n (unitv i) (mv A (unitv i)))). unfold mv in *. rewrite <- E in *. lra. }
    assert (X := HC (unitv i) w). fold n in X. rewrite MW, unitv_nrm in X by exact Hi.
    assert (PI := pd_diag A i HP Hi).
    apply Rmult_le_reg_r with (nrm n v); [exact Nv|].
    apply Rle_trans with (mat_at A i i * (Q * nrm n w)); [rewrite Rmult_assoc; apply Rmult_le_compat_l; lra|].
    apply Rle_trans with (Q * (nrm n (mv A (unitv i)) * nrm n w)); [|replace (k * Q * nrm n v) with (Q * (k * (nrm n v * 1))) by ring; apply Rmult_le_compat_l; [exact HQ|exact X]].
    replace (mat_at A i i * (Q * nrm n w)) with (Q * (mat_at A i i * nrm n w)) by ring. apply Rmult_le_compat_l; [exact HQ|]. apply Rmult_le_compat_r; assumption. }
  apply Rmult_le_reg_r with V2; [exact V|].
  rewrite <- rsum_scal_r. apply Rle_trans with (rsum n (fun i => k * Q * (v i * v i))).
  - apply rsum_le; intros i Hi. assert (X := DI i Hi). assert (0 <= v i * v i) by nra. replace (mat_at A i i * (v i * v i) * V2) with (mat_at A i i * V2 * (v i * v i)) by ring. apply Rmult_le_compat_r; assumption.
  - right. rewrite rsum_scal. reflexivity.
Qed.
Lemma cond_ge1 A k : (0 < nr A)%nat -> cond2_le A k -> 1 <= k.
Proof.
  intros Hn (_ & H1 & H2). assert (N : nonzero (nr A) (unitv 0)) by (exists 0%nat; split; [exact Hn|]; unfold unitv; cbn; lra).
  assert (X := H1 _ N). assert (Y := H2 (unitv 0) (unitv 0)). rewrite unitv_nrm in Y by exact Hn. nra.
Qed.
(** entries with small errors *)
Lemma margin_perturb n a b lam e v : 0 <= e -> (forall i, (i < n)%nat -> 0 < a i i) -> INR n * e <= lam ->
  (forall i j, (i < n)%nat -> (j < n)%nat -> Rabs (b i j - a i j) <= e * (sqrt (a i i) * sqrt (a j j))) ->
  lam * rsum n (fun i => a i i * (v i * v i)) <= bform n a v v ->
  (lam - INR n * e) / (1 + e) * rsum n (fun i => b i i * (v i * v i)) <= bform n b v v.
Proof.
  intros He HP HL HE HM.
  assert (DS : dotp n (fun i => sqrt (a i i) * v i) (fun i => sqrt (a i i) * v i) = rsum n (fun i => a i i * (v i * v i))).
  { unfold dotp. apply rsum_ext; intros i Hi. assert (X := HP i Hi). replace (sqrt (a i i) * v i * (sqrt (a i i) * v i)) with (sqrt (a i i) * sqrt (a i i) * (v i * v i)) by ring. rewrite sqrt_sqrt by lra. reflexivity. }
  assert (B := bform_small n (fun i j => b i j - a i j) (fun i => sqrt (a i i)) v v e He (fun i _ => sqrt_pos _) HE).
  rewrite nrm_sq, DS in B.
  rewrite (bform_ext n (fun i j => b i j - a i j) (fun i j => b i j + (-1) * a i j) v v v v) in B by (intros; auto; ring). rewrite bform_madd, bform_mscal in B.
  set (S := rsum n (fun i => a i i * (v i * v i))) in *. assert (X := Rle_abs (- (bform n b v v + -1 * bform n a v v))). rewrite Rabs_Ropp in X.
  assert (SB : rsum n (fun i => b i i * (v i * v i)) <= (1 + e) * S).
  { unfold S. rewrite <- rsum_scal. apply rsum_le; intros i Hi. assert (Y := HE i i Hi Hi). assert (P := HP i Hi). rewrite sqrt_sqrt in Y by lra. assert (Z := Rle_abs (b i i - a i i)). assert (0 <= v i * v i) by nra. nra. }
  apply Rle_trans with ((lam - INR n * e) * S); [|nra].
  apply Rle_trans with ((lam - INR n * e) / (1 + e) * ((1 + e) * S)); [|right; field; lra].
  apply Rmult_le_compat_l; [|exact SB]. apply Rmult_le_pos; [lra|]. left. apply Rinv_0_lt_compat. lra.
Qed.

Lemma chol_err_nonneg u n : 0 <= u -> gam u (n + 1) < 1 -> 0 <= chol_err u n.
Proof. intros H1 H2. unfold chol_err. apply Rmult_le_pos; [apply gam_nonneg, H1|]. left. apply Rinv_0_lt_compat. lra. Qed.

(** the factorisation of a matrix that is positive definite by a margin *)
Lemma factor_fl_ok u ar A lower lam : rounds u ar -> symmetric A -> gam u (nr A + 1) < 1 -> INR (nr A) * chol_err u (nr A) < lam ->
  (forall i, (i < nr A)%nat -> 0 < mat_at A i i) -> (forall v, lam * rsum (nr A) (fun i => mat_at A i i * (v i * v i)) <= bform (nr A) (mat_at A) v v) ->
  exists c, cho_factor_fl ar A lower = Ok c /\ snd c = lower /\ nr (fst c) = nr A /\ nc (fst c) = nr A /\
    (forall j, (j < nr A)%nat -> diag_ok (gam u (nr A + 1)) (mat_at A) (chol_read c) j) /\
    (forall i j, (j < i)%nat -> (i < nr A)%nat -> off_ok (gam u (nr A + 1)) (mat_at A) (chol_read c) i j).
Proof.
  intros RO (Esq & HS) HG HL HP HM. unfold cho_factor_fl. rewrite Esq, Nat.eqb_refl. rewrite <- Esq. cbv zeta.
  set (n := nr A) in *.
  set (a := fun i j => if lower then (if (j <=? i)%nat then mat_at A i j else mat_at A j i)
                        else (if (i <=? j)%nat then mat_at A i j else mat_at A j i)).
  assert (Ea : forall i j, (i < n)%nat -> (j < n)%nat -> a i j = mat_at A i j).
  { intros i j Hi Hj. unfold a. destruct lower.
    - destruct (j <=? i)%nat; [reflexivity | symmetry; apply HS; auto].
    - destruct (i <=? j)%nat; [reflexivity | symmetry; apply HS; auto]. }
  destruct (chol_steps_fl_ok u ar n lam (mat_at A) a n 0 (fun _ _ => 0) RO) as (L & EL & P1 & P2); auto; try lia.
  - rewrite EL. cbn [bind]. eexists. split; [reflexivity|]. split; [reflexivity|]. split; [reflexivity|]. split; [reflexivity|].
    assert (RD : forall i j, (j <= i)%nat -> chol_read
      (mkmat n n (fun i j => if lower then (if (j <=? i)%nat then L i j else mat_at A i j)
          else (if (i <=? j)%nat then L j i else mat_at A i j)), lower) i j = L i j).
    { intros i j Hij. unfold chol_read. simpl. destruct lower; apply Nat.leb_le in Hij; rewrite Hij; reflexivity. }
    split.
    + intros j Hj. apply (diag_ok_ext _ _ L); [|apply P1; exact Hj]. intros k Hk. apply RD. exact Hk.
    + intros i j Hij Hi. apply (off_ok_ext _ _ L); [|apply P2; assumption]. intros k Hk. split; apply RD; lia.
Qed.
