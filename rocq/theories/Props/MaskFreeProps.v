(** * Property C49: the mask-free kernel classes (KernelSqExpGrad, KernelMatern5f2Grad,
    KernelRatQuadGrad) compute the same arrays as the classes in use, called without a mask.
    Vocabulary: [same_mat], [same_ten] below. *)
From Coq Require Import Reals List Arith Bool Lia Lra.
From Coquelicot Require Import Coquelicot.
From Verif.Base Require Import NpLite NpFacts.
From Verif.Spec Require Import KernelSpec.
From Verif.Model Require Import KernelSqExp KernelMatern KernelRatQuad KernelDispatch KernelMaskFree.
From Verif.Proofs Require Import KernTac KernGradBlocks ThetaGradBlocks RadialCalculus RadialFns KernelExact ThetaGrad AlphaGrad HessX HessX2 MaskFree.
Import ListNotations.
Local Open Scope R_scope.

(** equal shapes and equal entries *)
Definition same_mat (A B : mat) : Prop :=
  nr A = nr B /\ nc A = nc B /\
  forall r c, (r < nr A)%nat -> (c < nc A)%nat -> mat_at A r c = mat_at B r c.
Definition same_ten (A B : ten) : Prop :=
  td A = td B /\ tr A = tr B /\ tc A = tc B /\
  forall k r c, (k < td A)%nat -> (r < tr A)%nat -> (c < tc A)%nat -> tat A k r c = tat B k r c.

Lemma bspec_same n1 g1 d1 n2 g2 d2 A B f :
  bspec n1 g1 d1 n2 g2 d2 A f -> bspec n1 g1 d1 n2 g2 d2 B f -> same_mat A B.
Proof.
  intros (A1 & A2 & HA) (B1 & B2 & HB). split; [congruence|]. split; [congruence|].
  rewrite A1, A2. intros r c Hr Hc.
  destruct (unradr_ok n1 g1 d1 r Hr) as [V1 E1]. destruct (unradr_ok n2 g2 d2 c Hc) as [V2 E2].
  rewrite <- E1, <- E2, HA, HB by assumption. reflexivity.
Qed.
Lemma tbspec_same D n1 g1 d1 n2 g2 d2 A B f :
  tbspec D n1 g1 d1 n2 g2 d2 A f -> tbspec D n1 g1 d1 n2 g2 d2 B f -> same_ten A B.
Proof.
  intros (A0 & A1 & A2 & HA) (B0 & B1 & B2 & HB). split; [congruence|]. split; [congruence|]. split; [congruence|].
  rewrite A0, A1, A2. intros k r c Hk Hr Hc.
  destruct (unradr_ok n1 g1 d1 r Hr) as [V1 E1]. destruct (unradr_ok n2 g2 d2 c Hc) as [V2 E2].
  rewrite <- E1, <- E2, HA, HB by assumption. reflexivity.
Qed.

(** the covariance matrix: same as the one in use, and therefore exact *)
Theorem C49_mask_free_matrix : forall (k : kernel) (X Y : mat) (theta : vec) (hp : option R),
  nc X = nc Y -> vlen theta = nc X -> (forall i, (i < nc X)%nat -> 0 <= vat theta i) -> hp_ok k hp ->
  exists Rt K K', calc_Rtensor X Y = Ok Rt /\
    free_KernGrad k Rt theta hp = Ok K /\ calc_KernGrad k Rt theta hp None None = Ok K' /\ same_mat K K' /\
    is_cov_matrix (kfun k (nc X) (vat theta) (hp_val hp))
      (observations (nr X) (nc X) (rows_of X) None) (observations (nr Y) (nc X) (rows_of Y) None) K.
Proof.
  intros k X Y theta hp E Hd Hpos Hhp.
  assert (Hth := th_ok_nn k _ _ Hpos).
  destruct (KernGrad_exact k X Y theta hp None None E Hd Hth Hhp I I) as (Rt & K' & ER & EK' & C).
  { destruct k; exact I || (intros _; reflexivity). }
  assert (HR := rok_inv _ _ _ (Rtensor_ok X Y E) ER). cbv beta in HR.
  assert (HK' := rok_inv _ _ _ (KernGrad_blocks k Rt theta hp _ _ _ (rows_of X) (rows_of Y) None None HR Hd Hth Hhp I I
     ltac:(destruct k; exact I || (intros _; reflexivity))) EK'). cbv beta in HK'.
  assert (Hv : vspec (nc X) theta (vat theta)) by (split; [exact Hd | auto]).
  assert (HF : rok (free_KernGrad k Rt theta hp)
    (fun K => bspec (nr X) (nr X) (nc X) (nr Y) (nr Y) (nc X) K
                (rkk k (hp_val hp) (nc X) (vat theta) (rows_of X) (rows_of Y) (osel None) (osel None)))).
  { destruct k; simpl in *.
    - exact (sq_exp_free_blocks Rt theta _ _ _ _ _ HR Hv).
    - exact (matern_free_blocks Rt theta _ _ _ _ _ HR Hv Hpos).
    - destruct Hhp as (a & -> & Ha). simpl. exact (rat_free_blocks Rt theta _ _ _ _ _ HR Hv a). }
  destruct (rok_ex _ _ HF) as (K & EK & HK).
  assert (S := bspec_same _ _ _ _ _ _ _ _ _ HK HK').
  exists Rt, K, K'. repeat split; auto; try apply S.
  - destruct C as (C1 & _ & _). destruct S as (S1 & _ & _). congruence.
  - destruct C as (_ & C2 & _). destruct S as (_ & S2 & _). congruence.
  - destruct C as (C1 & C2 & C3). destruct S as (S1 & S2 & S3). intros r c a b Ha Hb.
    rewrite S3; [apply C3; assumption | |].
    + rewrite S1, C1. apply nth_error_Some. congruence.
    + rewrite S2, C2. apply nth_error_Some. congruence.
Qed.
Print Assumptions C49_mask_free_matrix.

(** the derivatives in theta, for any theta *)
Theorem C49_mask_free_theta_gradient : forall (k : kernel) (X : mat) (theta : vec) (hp : option R),
  vlen theta = nc X -> hp_ok k hp ->
  exists Rt T T', calc_Rtensor X X = Ok Rt /\
    free_KernGrad_grad_th k Rt theta hp = Ok T /\ calc_KernGrad_grad_th k Rt theta hp None = Ok T' /\ same_ten T T'.
Proof.
  intros k X theta hp Hd Hhp.
  destruct (rok_ex _ _ (Rtensor_ok X X eq_refl)) as (Rt & ER & HR).
  destruct (rok_ex _ _ (grad_th_blocks k Rt theta hp _ _ (rows_of X) None HR Hd Hhp ltac:(destruct k; exact I))) as (T' & ET' & HT').
  assert (Hv : vspec (nc X) theta (vat theta)) by (split; [exact Hd | auto]).
  assert (Ha : forall i p q, rows_of X q i - rows_of X p i = - (rows_of X p i - rows_of X q i)) by (intros; ring).
  assert (HF : rok (free_KernGrad_grad_th k Rt theta hp) (fun T => same_ten T T')).
  { destruct k; simpl in *.
    - eapply rok_mono; [exact (sq_exp_free_th_blocks Rt theta _ _ _ _ HR Hv)|].
      intros T HT. eapply tbspec_same; [exact HT | exact HT'].
    - eapply rok_mono; [exact (matern_free_th_blocks Rt theta _ _ _ _ HR Hv)|].
      intros T HT. eapply tbspec_same; [exact HT | exact HT'].
    - destruct Hhp as (a & -> & Hal). simpl in *. assert (Hn : a <> 0) by lra.
      eapply rok_mono; [exact (rat_free_th_blocks Rt theta _ _ _ _ HR Hv Ha a Hn)|].
      intros T HT. eapply tbspec_same; [exact HT | exact HT']. }
  destruct (rok_ex _ _ HF) as (T & ET & S). exists Rt, T, T'. auto.
Qed.
Print Assumptions C49_mask_free_theta_gradient.

(** the derivatives in x *)
Theorem C49_mask_free_x_gradient : forall (k : kernel) (X Y : mat) (theta : vec) (hp : option R),
  nc X = nc Y -> vlen theta = nc X -> hp_ok k hp ->
  exists Rt T T', calc_Rtensor X Y = Ok Rt /\
    free_KernGrad_grad_x k Rt theta hp = Ok T /\ calc_KernGrad_grad_x k Rt theta hp None = Ok T' /\ same_ten T T'.
Proof.
  intros k X Y theta hp E Hd Hhp.
  destruct (rok_ex _ _ (Rtensor_ok X Y E)) as (Rt & ER & HR).
  destruct (rok_ex _ _ (grad_x_blocks k Rt theta hp _ _ _ (rows_of X) (rows_of Y) None HR Hd Hhp I)) as (T' & ET' & HT').
  assert (Hv : vspec (nc X) theta (vat theta)) by (split; [exact Hd | auto]).
  assert (HF : rok (free_KernGrad_grad_x k Rt theta hp) (fun T => same_ten T T')).
  { destruct k; simpl in *.
    - eapply rok_mono; [exact (sq_exp_free_x_blocks Rt theta _ _ _ _ _ HR Hv)|].
      intros T HT. eapply tbspec_same; [exact HT | exact HT'].
    - unfold matern_free_KernGrad_grad_x. rewrite ET'. simpl. repeat split; auto.
    - destruct Hhp as (a & -> & Hal). simpl in *. assert (Hn : a <> 0) by lra.
      eapply rok_mono; [exact (rat_free_x_blocks Rt theta _ _ _ _ _ HR Hv a Hn)|].
      intros T HT. eapply tbspec_same; [exact HT | exact HT']. }
  destruct (rok_ex _ _ HF) as (T & ET & S). exists Rt, T, T'. auto.
Qed.
Print Assumptions C49_mask_free_x_gradient.
(** the helper of the class KernelMatern5f2Grad that its own method does not call *)
Theorem C49_matern_unused_helper : forall (X Y : mat) (theta : vec),
  nc X = nc Y -> vlen theta = nc X ->
  exists Rt Hx T T', calc_Rtensor X Y = Ok Rt /\ matern_calc_KernBase_hess_x Rt theta = Ok Hx /\
    matern_free_KernGrad_grad_x_jit Rt theta Hx = Ok T /\
    calc_KernGrad_grad_x Ma5f2 Rt theta None None = Ok T' /\ same_ten T T'.
Proof.
  intros X Y theta E Hd.
  destruct (rok_ex _ _ (Rtensor_ok X Y E)) as (Rt & ER & HR).
  destruct (rok_ex _ _ (grad_x_blocks Ma5f2 Rt theta None _ _ _ (rows_of X) (rows_of Y) None HR Hd I I)) as (T' & ET' & HT').
  assert (Hv : vspec (nc X) theta (vat theta)) by (split; [exact Hd | auto]).
  destruct (rok_ex _ _ (matern_free_x_jit_blocks Rt theta _ _ _ _ _ HR Hv)) as (T & ET & HT).
  destruct (matern_calc_KernBase_hess_x Rt theta) as [Hx|e] eqn:EH; [|discriminate ET]. cbn [bind] in ET.
  exists Rt, Hx, T, T'. repeat split; auto; eapply tbspec_same; [exact HT | exact HT' | exact HT | exact HT' | exact HT | exact HT' | exact HT | exact HT'].
Qed.
Print Assumptions C49_matern_unused_helper.

(** the derivative in alpha; the other two classes raise, like the ones in use *)
Theorem C49_mask_free_alpha_gradient : forall (X : mat) (theta : vec) (alpha : R),
  vlen theta = nc X -> 
  exists Rt T T', calc_Rtensor X X = Ok Rt /\
    free_KernGrad_grad_alpha RatQu Rt theta (Some alpha) = Ok T /\
    calc_KernGrad_grad_alpha RatQu Rt theta (Some alpha) None = Ok T' /\ same_ten T T'.
Proof.
  intros X theta alpha Hd.
  destruct (rok_ex _ _ (Rtensor_ok X X eq_refl)) as (Rt & ER & HR).
  assert (Hv : vspec (nc X) theta (vat theta)) by (split; [exact Hd | auto]).
  assert (Ha : forall i p q, rows_of X q i - rows_of X p i = - (rows_of X p i - rows_of X q i)) by (intros; ring).
  destruct (rok_ex _ _ (rat_grad_alpha_blocks Rt theta _ _ _ _ HR Hv Ha None I alpha)) as (T' & ET' & HT').
  destruct (rok_ex _ _ (rat_free_alpha_blocks Rt theta _ _ _ _ HR Hv alpha)) as (T & ET & HT).
  exists Rt, T, T'. repeat split; auto; eapply tbspec_same; [exact HT | exact HT' | exact HT | exact HT' | exact HT | exact HT' | exact HT | exact HT'].
Qed.
Print Assumptions C49_mask_free_alpha_gradient.
Theorem C49_mask_free_no_alpha : forall (k : kernel) Rt theta hp, k <> RatQu ->
  free_KernGrad_grad_alpha k Rt theta hp = Err EExc.
Proof. intros [] Rt theta hp H; congruence || reflexivity. Qed.
Print Assumptions C49_mask_free_no_alpha.

(** the hypotheses are met by three points in the plane, for each kernel *)
Definition mfX : mat := mkmat 3 2 (fun i j => INR (i * (j + 1))).
Definition mfTheta : vec := mkvec 2 (fun i => INR (i + 1)).
Definition mfHp (k : kernel) : option R := match k with RatQu => Some 2 | _ => None end.
Example C49_hypotheses_met : forall k : kernel,
  nc mfX = nc mfX /\ vlen mfTheta = nc mfX /\ (forall i, (i < nc mfX)%nat -> 0 <= vat mfTheta i) /\ hp_ok k (mfHp k).
Proof.
  intros k. split; [reflexivity|]. split; [reflexivity|]. split; [intros; apply pos_INR|].
  destruct k; simpl; auto. exists 2. split; [reflexivity | lra].
Qed.
