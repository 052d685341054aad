(** Upper bound on quadratic forms of jet covariance matrices from pairwise row bounds. *)
From Coq Require Import Reals List Arith Bool Lia Lra Psatz.
From Coquelicot Require Import Coquelicot.
From Verif.Base Require Import NpLite NpFacts.
From Verif.Spec Require Import KernelSpec LinAlgSpec.
From Verif.Model Require Import KernelSqExp KernelMatern KernelRatQuad KernelDispatch.
From Verif.Proofs Require Import KernGradBlocks RadialCalculus KernelExact LinAlg Jets Mixture Psd RowSum.
Import ListNotations.
Local Open Scope R_scope.

Lemma rsum_grow m n h : (m <= n)%nat -> (forall i, 0 <= h i) -> rsum m h <= rsum n h.
Proof.
  intros H P. replace n with (m + (n - m))%nat by lia. rewrite rsum_split.
  assert (0 <= rsum (n - m) (fun i => h (m + i)%nat)) by (apply rsum_nonneg; auto). lra.
Qed.
Lemma rsum_sub g : forall n sl h, (forall i j, (i < j < g)%nat -> (sl i < sl j)%nat) -> (forall i, (i < g)%nat -> (sl i < n)%nat) ->
  (forall i, 0 <= h i) -> rsum g (fun q => h (sl q)) <= rsum n h.
Proof.
  induction g as [|g IH]; intros n sl h Hm Hb P; [apply rsum_nonneg; auto|].
  cbn [rsum]. apply (Rle_trans _ (rsum (S (sl g)) h)).
  - cbn [rsum]. apply Rplus_le_compat_r. apply IH; [intros i j Hij; apply Hm; lia | intros i Hi; apply Hm; lia | auto].
  - apply rsum_grow; auto. assert (Z := Hb g ltac:(lia)). lia.
Qed.
Lemma osel_mono n b i j : mask_ok n b -> (i < j < opt_count n b)%nat -> (osel b i < osel b j)%nat.
Proof. destruct b; simpl; [intros _; apply sel_mono | lia]. Qed.

Section JG.
Variables (c : jcov) (gam : nat -> R) (d : nat) (M : R).
Definition gs (a : obs) : R := match a with Val _ => 1 | Der i _ => gam i end.
Definition rowb (a : obs) (y : pt) : R :=
  Rabs (c a (Val y)) / gs a + rsum d (fun j => Rabs (c a (Der j y)) / (gs a * gam j)).
Definition opt_pt (a : obs) : pt := match a with Val x => x | Der _ x => x end.
Definition oval (a : obs) : Prop := match a with Val _ => True | Der i _ => (i < d)%nat end.
Hypothesis Hg : forall i, (i < d)%nat -> 0 < gam i.
Hypothesis HM : forall a y, oval a -> rowb a y <= M.
Hypothesis H1 : forall a, oval a -> rowb a (opt_pt a) <= 1.
Hypothesis Hsym : forall a b, oval a -> oval b -> c a b = c b a.

Lemma gs_pos a : oval a -> 0 < gs a.
Proof. destruct a; simpl; [lra|apply Hg]. Qed.

Lemma jet_gersh n (X : nat -> pt) b v : mask_ok n b -> (0 < n)%nat ->
  let g := opt_count n b in let N := (n + g * d)%nat in let ob := rowobs n g X (osel b) in
  bform N (fun r s => c (ob r) (ob s)) v v <= (1 + INR (n - 1) * M) * rsum N (fun r => gs (ob r) ^ 2 * v r ^ 2).
Proof.
  intros Mk Hn g N ob.
  assert (Ov : forall r, (r < N)%nat -> oval (ob r)).
  { intros r Hr. destruct (unradr_ok n g d r Hr) as [V _]. unfold ob, rowobs. destruct (unradr n g r); simpl in *; tauto. }
  set (A := fun r s => c (ob r) (ob s) / (gs (ob r) * gs (ob s))).
  assert (E : bform N (fun r s => c (ob r) (ob s)) v v = bform N A (fun r => gs (ob r) * v r) (fun r => gs (ob r) * v r)).
  { unfold bform. apply rsum_ext; intros r Hr. apply rsum_ext; intros s Hs. unfold A.
    assert (P1 := gs_pos _ (Ov r Hr)). assert (P2 := gs_pos _ (Ov s Hs)). field. split; lra. }
  rewrite E. eapply Rle_trans.
  - apply (gershgorin N A (1 + INR (n - 1) * M)).
    + intros i j Hi Hj. unfold A. rewrite (Hsym (ob i) (ob j)) by auto. rewrite (Rmult_comm (gs (ob i))). reflexivity.
    + intros r Hr. assert (Pr := gs_pos _ (Ov r Hr)). set (a := ob r) in *.
      assert (ES : rsum N (fun s => Rabs (A r s)) <= rsum n (fun q => rowb a (X q))).
      { unfold N. rewrite rsum_split. unfold rowb. rewrite rsum_plus. apply Rplus_le_compat.
        - right. apply rsum_ext; intros q Hq. unfold A. assert (Eo : ob q = Val (X q)).
          { unfold ob, rowobs, unradr. destruct (Nat.ltb_spec q n); [reflexivity|lia]. }
          rewrite Eo. simpl. fold a. rewrite Rmult_1_r. unfold Rdiv. rewrite Rabs_mult. f_equal. apply Rabs_pos_eq.
          left. apply Rinv_0_lt_compat. exact Pr.
        - rewrite (Nat.mul_comm g d), rsum_prod. rewrite (rsum_swap n d). apply rsum_le; intros j Hj.
          eapply Rle_trans; [right|apply (rsum_sub g n (osel b) (fun q => Rabs (c a (Der j (X q))) / (gs a * gam j)))].
          + apply rsum_ext; intros q Hq. unfold A. assert (Eo : ob (n + (j * g + q))%nat = Der j (X (osel b q))).
            { unfold ob, rowobs. replace (n + (j * g + q))%nat with (radr n g (G j q)) by (simpl; lia).
              assert (V : rvalid n g d (G j q)) by (simpl; auto).
              destruct (unradr_ok n g d (radr n g (G j q)) (radr_lt _ _ _ _ V)) as [V' E'].
              rewrite (radr_inj n g d _ _ V' V E'). reflexivity. }
            rewrite Eo. fold a. unfold Rdiv. rewrite Rabs_mult. f_equal. apply Rabs_pos_eq. left. apply Rinv_0_lt_compat. simpl.
            apply Rmult_lt_0_compat; auto.
          + intros i k Hik. apply (osel_mono n); auto.
          + intros i Hi. apply osel_lt; auto.
          + intros q. apply Rle_mult_inv_pos; [apply Rabs_pos | apply Rmult_lt_0_compat; auto]. }
      eapply Rle_trans; [exact ES|].
      assert (Own : exists p, (p < n)%nat /\ X p = opt_pt a).
      { unfold a, ob, rowobs. destruct (unradr_ok n g d r Hr) as [V _]. destruct (unradr n g r) as [p|i p]; simpl in *.
        - exists p; auto.
        - exists (osel b p); split; [apply osel_lt; [destruct b; exact Mk|tauto]|reflexivity]. }
      destruct Own as (p & Hp & Ep). rewrite (split_at n p _ Hp), Ep. apply Rplus_le_compat; [apply H1, Ov, Hr|].
      assert (M0 : forall q, (if (q =? p)%nat then 0 else rowb a (X q)) <= (if (q =? p)%nat then 0 else M)).
      { intros q. destruct (q =? p)%nat; [lra | apply HM, Ov, Hr]. }
      eapply Rle_trans; [apply rsum_le; intros; apply M0|]. assert (Z := rsum_upd n p (fun _ => M) 0 Hp). rewrite Z, rsum_const.
      rewrite minus_INR by lia. simpl. lra.
  - right. f_equal. unfold dotp. apply rsum_ext; intros; ring.
Qed.
End JG.
