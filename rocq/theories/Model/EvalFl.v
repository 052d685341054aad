(** * Model of the evaluation of the surrogate in an arithmetic with rounding errors:
    gpgradpy/src/eval/GpEvalModel.py l.155-168, for one point.
    As in Model/CholFl.v the order of the sums of a matrix product is left to the machine.  Simplifications: the covariances with the point and the value of the mean function are given. *)
From Coq Require Import Reals Arith.
From Verif.Base Require Import NpLite.
From Verif.Spec Require Import FloatSpec.
From Verif.Model Require Import Chol CholFl.
Local Open Scope R_scope.

(** a + b is a - (-b): the change of sign is exact in binary floating-point numbers *)
Definition f_add (ar : arith) (a b : R) : R := f_sub ar a (- b).
(** an entry of the products Kxy @ Kxy_invKernEta.T (l.162) and Kyx.T @ invKernEta_fdiff (l.168) *)
Definition dot_fl (ar : arith) (m : nat) (f g : nat -> R) : R := f_dot ar (pairs f g m).
(** l.155, 162: sig2_wo_sigK = one_nx - diag(Kxy @ cho_solve(KernEta_chofac, Kyx)); [k] is the column of Kyx of the point *)
Definition var_fl (ar : arith) (c : mat * bool) (k : nat -> R) : R :=
  f_sub ar 1 (dot_fl ar (nr (fst c)) k (cho_solve_fl ar c k)).
(** l.163: assert np.min(sig2_wo_sigK) >= 0; l.165-166 (the clipping changes nothing): sig = sqrt(sig2_wo_sigK) * sigK,
    sigK = sqrt(varK) (l.119) *)
Definition sig_fl (ar : arith) (c : mat * bool) (k : nat -> R) (varK : R) : res R :=
  let v := var_fl ar c k in
  if Rle_dec 0 v then Ok (f_mul ar (f_sqrt ar v) (f_sqrt ar varK)) else Err EAssert.
(** l.168 mu = base_model_val + Kyx.T @ invKernEta_fdiff; l.57 invKernEta_fdiff = cho_solve(KernEta_chofac, f_diff) *)
Definition mu_fl (ar : arith) (c : mat * bool) (base : R) (k fdiff : nat -> R) : R :=
  f_add ar base (dot_fl ar (nr (fst c)) k (cho_solve_fl ar c fdiff)).
