(** * Model of the log-likelihood in an arithmetic with rounding errors:
    gpgradpy/src/optz/CalcLkd.py, gpgradpy/src/eval/GpMeanFun.py, given the Cholesky factor of the covariance matrix.
    The matrix of the basis has one column [h] (constant mean), so that the system of the normal equations has one unknown.
    As in Model/CholFl.v the order of the sums is left to the machine; overflow and underflow do not occur. *)
From Coq Require Import Reals List Arith.
From Verif.Base Require Import NpLite.
From Verif.Spec Require Import FloatSpec FloatKernSpec.
From Verif.Model Require Import Chol CholFl EvalFl.
Import ListNotations.
Local Open Scope R_scope.

Section M.
Variables (m : machine) (c : mat * bool).
Notation ar := (m_ar m).
Notation n := (nr (fst c)).

(** CalcLkd.py l.225, 354: 2*np.sum(np.log(np.diag(Kcov_chofac[0]))) *)
Definition lndet_fl : R := f_mul ar 2 (m_sum m (map (fun i => m_ln m (mat_at (fst c) i i)) (seq 0 n))).
(** GpMeanFun.py l.102-107: invK_vand = cho_solve(K_chofac, vand_aug);
    term1 = np.linalg.solve(vand_aug.T @ invK_vand, invK_vand.T) (1 x 1: divisions by the only entry); beta = term1 @ data_vec *)
Definition beta_fl (h y : nat -> R) : R :=
  let w := cho_solve_fl ar c h in
  let s := dot_fl ar n h w in
  dot_fl ar n (fun j => f_quo ar (w j) s) y.
(** GpMeanFun.py l.108 model_val = vand_aug @ beta; CalcLkd.py l.220 data_diff = data_vec - mean_model_val *)
Definition diff_fl (h y : nat -> R) (b : R) (i : nat) : R := f_sub ar (y i) (dot_fl ar 1 (fun _ => h i) (fun _ => b)).
(** CalcLkd.py l.221, 226, 257: ln_lkd = -(ln_det_Kcov + np.dot(data_diff, cho_solve(Kcov_chofac, data_diff))) /2;
    the change of sign is exact *)
Definition lkd_fl (h y : nat -> R) : R :=
  let r := diff_fl h y (beta_fl h y) in
  f_div ar (- m_add m lndet_fl (dot_fl ar n r (cho_solve_fl ar c r))) 2.
(** Without noise: CalcLkd.py l.103-107 and 149-158: varK = max(varK_min, np.dot(res, invKern_res) / n_data); [vmin] is the number 1e-32 *)
Definition varK_fl (vmin : R) (h y : nat -> R) : R :=
  let r := diff_fl h y (beta_fl h y) in
  Rmax vmin (f_div ar (dot_fl ar n r (cho_solve_fl ar c r)) (INR n)).
(** CalcLkd.py l.139, 167: ln_lkd = -(n_data * np.log(varK) + ln_det_Kern) /2 - pnlt_val with pnlt_val = 0 (no penalty) *)
Definition lkd_free_fl (vmin : R) (h y : nat -> R) : R :=
  f_div ar (- m_add m (f_mul ar (INR n) (m_ln m (varK_fl vmin h y))) lndet_fl) 2.
End M.
