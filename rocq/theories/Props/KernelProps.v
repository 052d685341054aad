(** * Properties C01-C05: the kernel matrices.
    Vocabulary: [Spec/KernelSpec.v] (observations, [is_cov_matrix], [kfun], ...). *)
From Coq Require Import Reals List Arith Bool Lia Lra.
From Coquelicot Require Import Coquelicot.
From Verif.Base Require Import NpLite.
From Verif.Spec Require Import KernelSpec.
From Verif.Model Require Import KernelSqExp KernelMatern KernelRatQuad KernelDispatch.
From Verif.Proofs Require Import KernelExact KernelExtra.
Import ListNotations.
Local Open Scope R_scope.

(** C01: every entry of the SqExp gradient-enhanced matrix is the exact (derivative) covariance. *)
Theorem C01_sqexp_kernel_exact : forall (X Y : mat) (theta : vec) (hp : option R) (b1 b2 : option (list bool)),
  nc X = nc Y -> vlen theta = nc X -> mask_ok (nr X) b1 -> mask_ok (nr Y) b2 ->
  exists Rt K, calc_Rtensor X Y = Ok Rt /\ calc_KernGrad SqExp Rt theta hp b1 b2 = Ok K /\
    is_cov_matrix (k_sqexp (nc X) (vat theta))
      (observations (nr X) (nc X) (rows_of X) b1) (observations (nr Y) (nc X) (rows_of Y) b2) K.
Proof. exact (fun X Y theta hp b1 b2 H1 H2 H3 H4 => KernGrad_exact SqExp X Y theta hp b1 b2 H1 H2 I I H3 H4 I). Qed.
Print Assumptions C01_sqexp_kernel_exact.

(** the gradient-free matrices of the three kernels (no restriction on theta) *)
Theorem C01_kernel_base_exact : forall (k : kernel) (X Y : mat) (theta : vec) (hp : option R),
  nc X = nc Y -> vlen theta = nc X -> hp_ok k hp ->
  exists Rt K, calc_Rtensor X Y = Ok Rt /\ calc_KernBase k Rt theta hp = Ok K /\
    nr K = nr X /\ nc K = nr Y /\
    forall p q, (p < nr X)%nat -> (q < nr Y)%nat ->
      mat_at K p q = kfun k (nc X) (vat theta) (hp_val hp) (rows_of X p) (rows_of Y q).
Proof. exact KernBase_exact. Qed.
Print Assumptions C01_kernel_base_exact.

(** C02 *)
Theorem C02_matern_kernel_exact : forall (X Y : mat) (theta : vec) (hp : option R) (b1 b2 : option (list bool)),
  nc X = nc Y -> vlen theta = nc X -> (forall i, (i < nc X)%nat -> 0 <= vat theta i) ->
  mask_ok (nr X) b1 -> mask_ok (nr Y) b2 ->
  exists Rt K, calc_Rtensor X Y = Ok Rt /\ calc_KernGrad Ma5f2 Rt theta hp b1 b2 = Ok K /\
    is_cov_matrix (k_matern (nc X) (vat theta))
      (observations (nr X) (nc X) (rows_of X) b1) (observations (nr Y) (nc X) (rows_of Y) b2) K.
Proof. exact (fun X Y theta hp b1 b2 H1 H2 H0 H3 H4 => KernGrad_exact Ma5f2 X Y theta hp b1 b2 H1 H2 H0 I H3 H4 I). Qed.
Print Assumptions C02_matern_kernel_exact.

(** C03: exact for every combination of masks except "first mask only"; what is missing is that
    combination, for which the claim is false of the code, see [C03_ratqu_first_mask_only_refuted]. *)
Theorem C03_ratqu_kernel_exact_partial : forall (X Y : mat) (theta : vec) (alpha : R) (b1 b2 : option (list bool)),
  nc X = nc Y -> vlen theta = nc X -> (forall i, (i < nc X)%nat -> 0 <= vat theta i) -> 0 < alpha ->
  mask_ok (nr X) b1 -> mask_ok (nr Y) b2 -> (b2 = None -> b1 = None) ->
  exists Rt K, calc_Rtensor X Y = Ok Rt /\ calc_KernGrad RatQu Rt theta (Some alpha) b1 b2 = Ok K /\
    is_cov_matrix (k_ratqu (nc X) (vat theta) alpha)
      (observations (nr X) (nc X) (rows_of X) b1) (observations (nr Y) (nc X) (rows_of Y) b2) K.
Proof.
  exact (fun X Y theta a b1 b2 H1 H2 H0 Ha H3 H4 H5 =>
    KernGrad_exact RatQu X Y theta (Some a) b1 b2 H1 H2 H0 (ex_intro _ a (conj eq_refl Ha)) H3 H4 H5).
Qed.
Print Assumptions C03_ratqu_kernel_exact_partial.

(** With only the first mask given, the call raises a shape error whenever the mask selects
    neither one nor all of the points ... *)
Theorem C03_ratqu_first_mask_only_refuted : forall (X Y : mat) (theta : vec) (alpha : R) (m : list bool),
  nc X = nc Y -> vlen theta = nc X -> (0 < nc X)%nat ->
  length m = nr X -> (2 <= count_true m < nr X)%nat ->
  exists Rt, calc_Rtensor X Y = Ok Rt /\ calc_KernGrad RatQu Rt theta (Some alpha) (Some m) None = Err EShape.
Proof. exact ratqu_first_mask_raises. Qed.
Print Assumptions C03_ratqu_first_mask_only_refuted.

(** ... and when it selects exactly one point the call succeeds with a wrong matrix. *)
Theorem C03_ratqu_first_mask_silent_refuted :
  exists (X Y : mat) (theta : vec) (m : list bool) Rt K,
    nc X = nc Y /\ vlen theta = nc X /\ vat theta 0 = 1 /\ mask_ok (nr X) (Some m) /\
    calc_Rtensor X Y = Ok Rt /\ calc_KernGrad RatQu Rt theta (Some 1) (Some m) None = Ok K /\
    ~ is_cov_matrix (k_ratqu (nc X) (vat theta) 1)
        (observations (nr X) (nc X) (rows_of X) (Some m)) (observations (nr Y) (nc X) (rows_of Y) None) K.
Proof. exact ratqu_first_mask_wrong. Qed.
Print Assumptions C03_ratqu_first_mask_silent_refuted.

(** the specification determines the matrix: two matrices meeting it are entrywise equal *)
Theorem C01_spec_determines_matrix : forall k oa ob K K',
  is_cov_matrix k oa ob K -> is_cov_matrix k oa ob K' ->
  nr K = nr K' /\ nc K = nc K' /\
  forall r c, (r < nr K)%nat -> (c < nc K)%nat -> mat_at K r c = mat_at K' r c.
Proof. exact is_cov_matrix_unique. Qed.
Print Assumptions C01_spec_determines_matrix.

(** C04: symmetric, prior variance 1 for values and gamma_i^2 for derivatives *)
Theorem C04_kernel_symmetric_diag : forall (k : kernel) (X : mat) (theta : vec) (hp : option R) b Rt K,
  vlen theta = nc X -> (forall i, (i < nc X)%nat -> 0 <= vat theta i) -> hp_ok k hp -> mask_ok (nr X) b ->
  calc_Rtensor X X = Ok Rt -> calc_KernGrad k Rt theta hp b b = Ok K ->
  symmetric K /\
  (forall p, (p < nr X)%nat -> mat_at K p p = 1) /\
  (forall i p, (i < nc X)%nat -> (p < length (grad_points (nr X) b))%nat ->
     let r := (nr X + i * length (grad_points (nr X) b) + p)%nat in
     mat_at K r r = gamma2 k (vat theta i)).
Proof.
  exact (fun k X theta hp b Rt K H1 H2 => KernGrad_sym k X theta hp b Rt K H1 (th_ok_nn k _ _ H2)).
Qed.
Print Assumptions C04_kernel_symmetric_diag.
Theorem C04_kernel_base_symmetric_diag : forall (k : kernel) (X : mat) (theta : vec) (hp : option R) Rt K,
  vlen theta = nc X -> hp_ok k hp ->
  calc_Rtensor X X = Ok Rt -> calc_KernBase k Rt theta hp = Ok K ->
  symmetric K /\ (forall p, (p < nr X)%nat -> mat_at K p p = 1).
Proof. exact KernBase_sym. Qed.
Print Assumptions C04_kernel_base_symmetric_diag.

(** C05: with masks the matrix is the submatrix of the full one that keeps all function rows and
    the selected gradient rows.  Missing: the RatQu "first mask only" combination (refuted above). *)
Theorem C05_mask_is_submatrix_partial : forall (k : kernel) (X Y : mat) (theta : vec) (hp : option R) b1 b2,
  nc X = nc Y -> vlen theta = nc X -> (forall i, (i < nc X)%nat -> 0 <= vat theta i) -> hp_ok k hp ->
  mask_ok (nr X) b1 -> mask_ok (nr Y) b2 -> (k = RatQu -> b2 = None -> b1 = None) ->
  exists Rt Kfull K, calc_Rtensor X Y = Ok Rt /\
    calc_KernGrad k Rt theta hp None None = Ok Kfull /\
    calc_KernGrad k Rt theta hp b1 b2 = Ok K /\
    nr K = length (kept (nr X) (nc X) b1) /\ nc K = length (kept (nr Y) (nc X) b2) /\
    forall r c r' c', nth_error (kept (nr X) (nc X) b1) r = Some r' ->
      nth_error (kept (nr Y) (nc X) b2) c = Some c' -> mat_at K r c = mat_at Kfull r' c'.
Proof. exact KernGrad_mask_guard. Qed.
Print Assumptions C05_mask_is_submatrix_partial.

(** Concrete, non-trivial instances of the hypotheses. *)
Definition exX : mat := mkmat 2 2 (fun i j => INR i + 3 * INR j * INR i).
Definition exTheta : vec := mkvec 2 (fun i => 1 + INR i).
Definition exMask : option (list bool) := Some [false; true].
Example C01_hypotheses_met :
  nc exX = nc exX /\ vlen exTheta = nc exX /\ mask_ok (nr exX) exMask /\ mask_ok (nr exX) None
  /\ (forall i, (i < nc exX)%nat -> 0 <= vat exTheta i) /\ hp_ok RatQu (Some 2).
Proof.
  repeat split; simpl; auto.
  - intros i Hi. assert (0 <= INR i) by apply pos_INR. lra.
  - exists 2. split; [reflexivity | lra].
Qed.
Example C01_layout_concrete :
  observations 2 2 (rows_of exX) exMask
  = [Val (rows_of exX 0); Val (rows_of exX 1); Der 0 (rows_of exX 1); Der 1 (rows_of exX 1)].
Proof. reflexivity. Qed.
Example C03_refuted_hypotheses_met :
  let X := mkmat 3 1 (fun i _ => INR i) in let m := [true; true; false] in
  length m = nr X /\ (2 <= count_true m < nr X)%nat /\ (0 < nc X)%nat.
Proof. simpl; repeat split; lia. Qed.
