(** * C06 / C08 for the Matern-5/2 kernel below the floor 1e-16 on the scaled distance.
    The derivatives exist for every pair of points, but the entries returned for two distinct points closer than
    the floor are not these derivatives. Together with [C06_kern_grad_theta_exact_partial] and
    [C08_kern_grad_hess_exact_partial] this settles the unmasked Matern calls for every data set. *)
From Coq Require Import Reals List Arith Bool Lia Lra.
From Coquelicot Require Import Coquelicot.
From Verif.Base Require Import NpLite.
From Verif.Spec Require Import KernelSpec.
From Verif.Model Require Import KernelSqExp KernelMatern KernelRatQuad KernelDispatch.
From Verif.Proofs Require Import FloorFacts.
Local Open Scope R_scope.

(** C06 below the floor: the derivative of the matrix in theta_e exists, and the entry of the returned slice at the
    covariance of the two e-th partial derivatives is strictly below it *)
Theorem C06_matern_below_floor_refuted : forall (X : mat) (theta : vec) (Rt : ten),
  vlen theta = nc X -> (forall i, (i < nc X)%nat -> 0 < vat theta i) ->
  calc_Rtensor X X = Ok Rt ->
  exists T, calc_KernGrad_grad_th Ma5f2 Rt theta None None = Ok T /\
    forall e p q, (e < nc X)%nat -> (p < nr X)%nat -> (q < nr X)%nat ->
      mat_at X p e <> mat_at X q e ->
      sqrt (sqd (nc X) (vat theta) (rows_of X p) (rows_of X q)) < / 10 ^ 16 ->
      (exists D, is_mat_derive (fun t => calc_KernGrad Ma5f2 Rt (vset theta e t) None None None)
         (vat theta e) (nr X + nr X * nc X) (nr X + nr X * nc X) D) /\
      forall D, is_mat_derive (fun t => calc_KernGrad Ma5f2 Rt (vset theta e t) None None None)
         (vat theta e) (nr X + nr X * nc X) (nr X + nr X * nc X) D ->
        tat T e (nr X + e * nr X + p) (nr X + e * nr X + q) < D (nr X + e * nr X + p)%nat (nr X + e * nr X + q)%nat.
Proof. exact matern_theta_below_floor. Qed.
Print Assumptions C06_matern_below_floor_refuted.

(** C08 below the floor: the third derivative d3k/dx_l dx_l dy_l exists and the returned entry is not it *)
Theorem C08_matern_below_floor_refuted : forall (X Y : mat) (theta : vec),
  nc X = nc Y -> vlen theta = nc X -> (forall i, (i < nc X)%nat -> 0 < vat theta i) ->
  exists Rt T, calc_Rtensor X Y = Ok Rt /\ calc_KernGrad_grad_x Ma5f2 Rt theta None None = Ok T /\
    forall l p q, (l < nc X)%nat -> (p < nr X)%nat -> (q < nr Y)%nat ->
      mat_at X p l <> mat_at Y q l ->
      sqrt (sqd (nc X) (vat theta) (rows_of X p) (rows_of Y q)) < / 10 ^ 16 ->
      (exists v, is_cov_dx (k_matern (nc X) (vat theta)) l l (rows_of X p) (Der l (rows_of Y q)) v) /\
      forall v, is_cov_dx (k_matern (nc X) (vat theta)) l l (rows_of X p) (Der l (rows_of Y q)) v ->
        tat T l (l * nr X + p) (nr Y + l * nr Y + q) <> v.
Proof. exact matern_x_below_floor. Qed.
Print Assumptions C08_matern_below_floor_refuted.

(** two points at distance 1e-17, theta = 1: the hypotheses are met *)
Definition flX : mat := mkmat 2 1 (fun i _ => match i with 1%nat => / 10 ^ 17 | _ => 0 end).
Definition flTheta : vec := mkvec 1 (fun _ => 1).
Example C06_below_floor_hypotheses_met :
  vlen flTheta = nc flX /\ (forall i, (i < nc flX)%nat -> 0 < vat flTheta i) /\
  (exists Rt, calc_Rtensor flX flX = Ok Rt) /\
  mat_at flX 1 0 <> mat_at flX 0 0 /\
  sqrt (sqd (nc flX) (vat flTheta) (rows_of flX 1) (rows_of flX 0)) < / 10 ^ 16.
Proof.
  split; [reflexivity|]. split; [intros; simpl; lra|].
  assert (P : 0 < / 10 ^ 17) by (apply Rinv_0_lt_compat, pow_lt; lra).
  split; [unfold calc_Rtensor; simpl; eexists; reflexivity|].
  split; [cbn [mat_at flX]; apply Rgt_not_eq; exact P|].
  assert (E : sqd (nc flX) (vat flTheta) (rows_of flX 1) (rows_of flX 0) = (/ 10 ^ 17) * (/ 10 ^ 17)).
  { unfold sqd, rows_of, flX. cbn [rsum nc mat_at]. change (vat flTheta 0) with 1.
    generalize (/ 10 ^ 17). intros z. ring. }
  rewrite E. rewrite sqrt_square by (left; exact P).
  apply Rinv_lt_contravar; [apply Rmult_lt_0_compat; apply pow_lt; lra|]. apply Rlt_pow; [lra|lia].
Qed.
