(** * Properties C06-C08: hyperparameter and x-derivatives of the kernel matrices.
    Vocabulary: [Spec/KernelSpec.v] ([is_theta_gradient], [is_mat_derive], [is_hess_tensor]). *)
From Coq Require Import Reals List Arith Bool Lia Lra.
From Coquelicot Require Import Coquelicot.
From Verif.Base Require Import NpLite.
From Verif.Spec Require Import KernelSpec.
From Verif.Model Require Import KernelSqExp KernelMatern KernelRatQuad KernelDispatch.
From Verif.Proofs Require Import KernelExact ThetaGrad ThetaGradBase ThetaGradMask AlphaGrad HessX2 HessXMask.
Import ListNotations.
Local Open Scope R_scope.

(** C06, gradient-enhanced: exact for every kernel with no (or an all-true) mask, and for RatQu with
    any mask.  Missing: Matern with two distinct points whose scaled distance is below the code's
    floor 1e-16, and SqExp/Matern with a mask that drops a point, where the call raises
    ([C06_partial_mask_raises_refuted]). *)
Theorem C06_kern_grad_theta_exact_partial : forall (k : kernel) (X : mat) (theta : vec) (hp : option R) b Rt,
  vlen theta = nc X -> (forall i, (i < nc X)%nat -> 0 < vat theta i) -> hp_ok k hp ->
  (match k with RatQu => mask_ok (nr X) b | _ => b = None \/ b = Some (repeat true (nr X)) end) ->
  (k = Ma5f2 -> forall p q, (p < nr X)%nat -> (q < nr X)%nat ->
     let s := sqd (nc X) (vat theta) (rows_of X p) (rows_of X q) in s = 0 \/ / 10 ^ 16 <= sqrt s) ->
  calc_Rtensor X X = Ok Rt ->
  exists T, calc_KernGrad_grad_th k Rt theta hp b = Ok T /\
    is_theta_gradient (fun th => calc_KernGrad k Rt th hp b b) theta T.
Proof.
  intros k X theta hp b Rt H1 H2 H3 H4 H5 H6. apply (KernGrad_theta_gradient k X theta hp b Rt H1 H2 H3); auto.
  destruct k; simpl; auto; destruct H4; subst b; simpl; auto.
Qed.
Print Assumptions C06_kern_grad_theta_exact_partial.

Theorem C06_partial_mask_raises_refuted : forall (k : kernel) (X : mat) (theta : vec) (m : list bool),
  k <> RatQu -> vlen theta = nc X -> (0 < nc X)%nat -> (2 <= nr X)%nat ->
  length m = nr X -> m <> repeat true (nr X) ->
  exists Rt, calc_Rtensor X X = Ok Rt /\ calc_KernGrad_grad_th k Rt theta None (Some m) = Err EShape.
Proof. exact grad_theta_partial_mask_raises. Qed.
Print Assumptions C06_partial_mask_raises_refuted.

(** gradient-free, squared exponential and rational quadratic *)
Theorem C06_kern_base_grad_theta_exact_partial : forall (k : kernel) (X : mat) (theta : vec) (hp : option R) Rt,
  k <> Ma5f2 -> vlen theta = nc X -> (forall i, (i < nc X)%nat -> 0 < vat theta i) -> hp_ok k hp ->
  calc_Rtensor X X = Ok Rt ->
  exists T, calc_KernBase_grad_th k Rt theta hp = Ok T /\
    is_theta_gradient (fun th => calc_KernBase k Rt th hp) theta T.
Proof. exact KernBase_theta_gradient. Qed.
Print Assumptions C06_kern_base_grad_theta_exact_partial.
(** gradient-free Matern: the returned value is strictly below the true derivative at every pair of
    points that differ in that coordinate (and are further apart than the code's floor 1e-16) *)
Theorem C06_matern_base_grad_theta_refuted : forall (X : mat) (theta : vec) Rt,
  vlen theta = nc X -> (forall i, (i < nc X)%nat -> 0 < vat theta i) ->
  calc_Rtensor X X = Ok Rt ->
  exists T, calc_KernBase_grad_th Ma5f2 Rt theta None = Ok T /\
    forall e p q D, (e < nc X)%nat -> (p < nr X)%nat -> (q < nr X)%nat ->
      mat_at X p e <> mat_at X q e ->
      / 10 ^ 16 <= sqrt (sqd (nc X) (vat theta) (rows_of X p) (rows_of X q)) ->
      is_mat_derive (fun t => calc_KernBase Ma5f2 Rt (vset theta e t) None) (vat theta e) (nr X) (nr X) D ->
      tat T e p q < D p q.
Proof. exact KernBase_theta_gradient_matern_wrong. Qed.
Print Assumptions C06_matern_base_grad_theta_refuted.
(** ... although that derivative exists, so the refutation is not vacuous *)
Theorem C06_matern_base_derivative_exists : forall (k : kernel) (X : mat) (theta : vec) (hp : option R) Rt e,
  vlen theta = nc X -> (forall i, (i < nc X)%nat -> 0 < vat theta i) -> hp_ok k hp ->
  calc_Rtensor X X = Ok Rt -> (e < nc X)%nat ->
  exists D, is_mat_derive (fun t => calc_KernBase k Rt (vset theta e t) hp) (vat theta e) (nr X) (nr X) D.
Proof. exact (fun k X theta hp Rt e H1 H2 H3 H4 H5 => ex_intro _ _ (KernBase_derive k X theta hp Rt e H1 H2 H3 H4 H5)). Qed.
Print Assumptions C06_matern_base_derivative_exists.

(** C07 *)
Theorem C07_kern_grad_alpha_exact : forall (X : mat) (theta : vec) (alpha : R) b Rt,
  vlen theta = nc X -> (forall i, (i < nc X)%nat -> 0 <= vat theta i) -> 0 < alpha ->
  mask_ok (nr X) b -> calc_Rtensor X X = Ok Rt ->
  exists T, calc_KernGrad_grad_alpha RatQu Rt theta (Some alpha) b = Ok T /\ td T = 1%nat /\
    is_mat_derive (fun t => calc_KernGrad RatQu Rt theta (Some t) b b) alpha (tr T) (tc T) (tat T 0).
Proof. exact KernGrad_alpha_gradient. Qed.
Print Assumptions C07_kern_grad_alpha_exact.
Theorem C07_kern_base_grad_alpha_exact : forall (X : mat) (theta : vec) (alpha : R) Rt,
  vlen theta = nc X -> (forall i, (i < nc X)%nat -> 0 <= vat theta i) -> 0 < alpha ->
  calc_Rtensor X X = Ok Rt ->
  exists T, calc_KernBase_grad_alpha RatQu Rt theta (Some alpha) = Ok T /\ td T = 1%nat /\
    is_mat_derive (fun t => calc_KernBase RatQu Rt theta (Some t)) alpha (tr T) (tc T) (tat T 0).
Proof. exact KernBase_alpha_gradient. Qed.
Print Assumptions C07_kern_base_grad_alpha_exact.
Theorem C07_other_kernels_reject : forall (k : kernel) Rt theta hp b, k <> RatQu ->
  calc_KernBase_grad_alpha k Rt theta hp = Err EExc /\ calc_KernGrad_grad_alpha k Rt theta hp b = Err EExc.
Proof. intros [] Rt theta hp b H; try congruence; split; reflexivity. Qed.
Print Assumptions C07_other_kernels_reject.

(** C08: columns of function values, all kernels; non-negative theta *)
Theorem C08_kern_base_hess_exact : forall (k : kernel) (X Y : mat) (theta : vec) (hp : option R),
  nc X = nc Y -> vlen theta = nc X -> (forall i, (i < nc X)%nat -> 0 <= vat theta i) -> hp_ok k hp ->
  exists Rt T, calc_Rtensor X Y = Ok Rt /\ calc_KernBase_hess_x k Rt theta hp = Ok T /\
    is_hess_tensor (kfun k (nc X) (vat theta) (hp_val hp)) (nc X) (nr X) (rows_of X)
      (map (fun q => Val (rows_of Y q)) (seq 0 (nr Y))) T.
Proof. exact (fun k X Y theta hp H1 H2 H3 => KernBase_hess_exact k X Y theta hp H1 H2 (th_ok_nn k _ _ H3)). Qed.
Print Assumptions C08_kern_base_hess_exact.
(** gradient-enhanced, no mask or an all-true one.  Missing: masks that drop a point (false of the
    code, next theorem) and Matern distances below the floor 1e-16 *)
Theorem C08_kern_grad_hess_exact_partial : forall (k : kernel) (X Y : mat) (theta : vec) (hp : option R) b2,
  nc X = nc Y -> vlen theta = nc X -> (forall i, (i < nc X)%nat -> 0 < vat theta i) -> hp_ok k hp ->
  (b2 = None \/ b2 = Some (repeat true (nr Y))) ->
  (k = Ma5f2 -> forall p q, (p < nr X)%nat -> (q < nr Y)%nat ->
     let s := sqd (nc X) (vat theta) (rows_of X p) (rows_of Y q) in s = 0 \/ / 10 ^ 16 <= sqrt s) ->
  exists Rt T, calc_Rtensor X Y = Ok Rt /\ calc_KernGrad_grad_x k Rt theta hp b2 = Ok T /\
    is_hess_tensor (kfun k (nc X) (vat theta) (hp_val hp)) (nc X) (nr X) (rows_of X)
      (observations (nr Y) (nc X) (rows_of Y) b2) T.
Proof.
  intros k X Y theta hp b2 H1 H2 H3 H4 H5 H6. apply KernGrad_hess_exact; auto.
  destruct H5; subst b2; simpl; auto.
Qed.
Print Assumptions C08_kern_grad_hess_exact_partial.
Theorem C08_partial_mask_raises_refuted : forall (k : kernel) (X Y : mat) (theta : vec) (hp : option R) (m : list bool),
  nc X = nc Y -> vlen theta = nc X -> hp_ok k hp -> (2 <= nc X)%nat ->
  length m = nr Y -> (2 <= count_true m < nr Y)%nat ->
  exists Rt, calc_Rtensor X Y = Ok Rt /\ calc_KernGrad_grad_x k Rt theta hp (Some m) = Err EShape.
Proof. exact KernGrad_hess_partial_mask_raises. Qed.
Print Assumptions C08_partial_mask_raises_refuted.

(** Concrete instances: two points at scaled distance >= 1, and coincident points *)
Definition edX : mat := mkmat 3 2 (fun i j => match i with 1%nat => INR j + 1 | _ => 0 end).
Definition edTheta : vec := mkvec 2 (fun i => 1).
Example C06_hypotheses_met :
  vlen edTheta = nc edX /\ (forall i, (i < nc edX)%nat -> 0 < vat edTheta i) /\
  (forall p q, (p < nr edX)%nat -> (q < nr edX)%nat ->
     let s := sqd (nc edX) (vat edTheta) (rows_of edX p) (rows_of edX q) in s = 0 \/ / 10 ^ 16 <= sqrt s) /\
  (exists p q, p <> q /\ mat_at edX p 0 <> mat_at edX q 0 /\
     / 10 ^ 16 <= sqrt (sqd (nc edX) (vat edTheta) (rows_of edX p) (rows_of edX q))).
Proof.
  assert (Big : / 10 ^ 16 <= 1). { rewrite <- Rinv_1. apply Rinv_le_contravar; [lra|]. rewrite <- (pow1 16). apply pow_incr; lra. }
  assert (S5 : / 10 ^ 16 <= sqrt 5). { apply (Rle_trans _ 1); [exact Big|]. rewrite <- sqrt_1 at 1. apply sqrt_le_1; lra. }
  assert (V : forall p q, (p < 3)%nat -> (q < 3)%nat ->
     sqd 2 (vat edTheta) (rows_of edX p) (rows_of edX q) = 0 \/ sqd 2 (vat edTheta) (rows_of edX p) (rows_of edX q) = 5).
  { intros p q Hp Hq. destruct p as [|[|[|p]]]; try lia; destruct q as [|[|[|q]]]; try lia; unfold sqd, rows_of; simpl; (left; lra) || (right; lra). }
  split; [reflexivity|]. split; [intros i _; simpl; lra|]. split.
  - intros p q Hp Hq s. subst s. change (nc edX) with 2%nat. destruct (V p q Hp Hq) as [->| ->]; auto.
  - exists 0%nat, 1%nat. split; [lia|]. split; [simpl; lra|]. change (nc edX) with 2%nat.
    destruct (V 0%nat 1%nat) as [E|E]; try lia; rewrite E; auto.
    exfalso. unfold sqd, rows_of in E; simpl in E. lra.
Qed.
Example C08_refuted_hypotheses_met :
  let m := [true; true; false] in length m = nr edX /\ (2 <= count_true m < nr edX)%nat /\ (2 <= nc edX)%nat
    /\ m <> repeat true (nr edX).
Proof. simpl; repeat split; try lia; discriminate. Qed.
