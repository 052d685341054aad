(** * Property C09: the kernel matrices are covariance matrices (symmetric positive semidefinite).
    Vocabulary: [Spec/KernelSpec.v] ([psd], [symmetric], [qform]). *)
From Coq Require Import Reals List Arith Bool Lia Lra.
From Coquelicot Require Import Coquelicot.
From Verif.Base Require Import NpLite.
From Verif.Spec Require Import KernelSpec.
From Verif.Model Require Import KernelSqExp KernelMatern KernelRatQuad KernelDispatch.
From Verif.Proofs Require Import KernelExact Psd.
Import ListNotations.
Local Open Scope R_scope.

(** gradient-enhanced: for every kernel, point set, non-negative theta and mask the call succeeds
    and returns a positive semidefinite matrix *)
Theorem C09_kern_grad_psd : forall (k : kernel) (X : mat) (theta : vec) (hp : option R) (b : option (list bool)),
  vlen theta = nc X -> (forall i, (i < nc X)%nat -> 0 <= vat theta i) -> hp_ok k hp -> mask_ok (nr X) b ->
  exists Rt K, calc_Rtensor X X = Ok Rt /\ calc_KernGrad k Rt theta hp b b = Ok K /\ psd K.
Proof.
  intros k X theta hp b H1 H2 H3 H4.
  destruct (KernGrad_exact k X X theta hp b b eq_refl H1 (th_ok_nn k _ _ H2) H3 H4 H4) as (Rt & K & E1 & E2 & _).
  { destruct k; simpl; auto. }
  exists Rt, K. split; [exact E1|]. split; [exact E2|]. exact (KernGrad_psd k X theta hp b Rt K H1 H2 H3 H4 E1 E2).
Qed.
Print Assumptions C09_kern_grad_psd.
(** gradient-free *)
Theorem C09_kern_base_psd : forall (k : kernel) (X : mat) (theta : vec) (hp : option R),
  vlen theta = nc X -> (forall i, (i < nc X)%nat -> 0 <= vat theta i) -> hp_ok k hp ->
  exists Rt K, calc_Rtensor X X = Ok Rt /\ calc_KernBase k Rt theta hp = Ok K /\ psd K.
Proof.
  intros k X theta hp H1 H2 H3.
  destruct (KernBase_exact k X X theta hp eq_refl H1 H3) as (Rt & K & E1 & E2 & _).
  exists Rt, K. split; [exact E1|]. split; [exact E2|]. exact (KernBase_psd k X theta hp Rt K H1 H2 H3 E1 E2).
Qed.
Print Assumptions C09_kern_base_psd.

Definition epX : mat := mkmat 3 2 (fun i j => INR i + INR j * INR (i * i)).
Definition epTheta : vec := mkvec 2 (fun i => 1 / 2 + INR i).
Example C09_hypotheses_met :
  vlen epTheta = nc epX /\ (forall i, (i < nc epX)%nat -> 0 <= vat epTheta i) /\
  hp_ok RatQu (Some 3) /\ mask_ok (nr epX) (Some [true; false; true]).
Proof.
  split; [reflexivity|]. split; [intros i _; simpl; assert (0 <= INR i) by apply pos_INR; lra|].
  split; [exists 3; split; [reflexivity|lra] | reflexivity].
Qed.
