(** * Model of the gradient of the predicted standard deviation and variance in an arithmetic with rounding errors:
    gpgradpy/src/eval/GpEvalModel.py l.119, 154, 172, 288-300, 326-354, for one point and one direction.
    As in Model/EvalFl.v the order of the sums of a matrix product is left to the machine.  The products with ones of
    np.kron are exact and left out. *)
From Coq Require Import Reals.
From Verif.Base Require Import NpLite.
From Verif.Spec Require Import FloatSpec.
From Verif.Model Require Import Chol CholFl EvalFl.
Local Open Scope R_scope.

(** l.334, 349: np.dot(dKxy_dx * Kxy_invKernEta, one_ny), with Kxy_invKernEta = cho_solve(KernEta_chofac, Kyx).T (l.154, 288);
    [dk] are the covariances of the data with the derivative, [k] with the value at the point *)
Definition dcov_fl (ar : arith) (c : mat * bool) (dk k : nat -> R) : R :=
  dot_fl ar (nr (fst c)) (fun i => f_mul ar (dk i) (cho_solve_fl ar c k i)) (fun _ => 1).
(** l.339-354 calc_dsigdx: term1 = -(1/sig), 0 where sig is 0; term2 = np.dot(...) * sigK**2; their product.
    sig is the result of l.163-166 *)
Definition dsig_fl (ar : arith) (c : mat * bool) (dk k : nat -> R) (varK : R) : res R :=
  s <- sig_fl ar c k varK ;;
  let sigK := f_sqrt ar varK in
  Ok (f_mul ar (- (if Req_EM_T s 0 then 0 else f_div ar 1 s)) (f_mul ar (dcov_fl ar c dk k) (f_mul ar sigK sigK))).
(** l.296-297 eval_model_var: sig2 = varK * (one_nx - np.diag(...)); assert np.min(sig2) >= 0 *)
Definition sig2_fl (ar : arith) (c : mat * bool) (k : nat -> R) (varK : R) : res R :=
  let v := f_mul ar varK (var_fl ar c k) in if Rle_dec 0 v then Ok v else Err EAssert.
(** l.300, 334 calc_dsig2dx: -2*np.dot(...) * varK *)
Definition dsig2_fl (ar : arith) (c : mat * bool) (dk k : nat -> R) (varK : R) : res R :=
  _ <- sig2_fl ar c k varK ;; Ok (f_mul ar (f_mul ar (-2) (dcov_fl ar c dk k)) varK).
