(** * Model of the gradient of the predicted mean in an arithmetic with rounding errors:
    gpgradpy/src/eval/GpEvalModel.py l.133-145, 171, 319-325, for one point and one direction.
    As in Model/EvalFl.v the order of the sums of a matrix product is left to the machine. *)
From Coq Require Import Reals Arith List.
From Verif.Base Require Import NpLite.
From Verif.Spec Require Import KernelSpec FloatSpec FloatKernSpec.
From Verif.Model Require Import KernelSqExp KernelDispatch GpState Chol CholFl Cov EvalFl KernFl.
Local Open Scope R_scope.

(** l.133-145, one row of dKxy_dx (the column of Kgrad_yx for the derivative in direction j at the scaled point x): the
    covariances of the data with this derivative; calc_Rtensor(x_eval_scl, x2model): the data are the rows *)
Definition cross_der_fl (m : machine) (o : gpopt) (d : gpdata) (hp : hpv) (x : nat -> R) (j : nat) (r : nat) : R :=
  let X := mat_at (fst (get_scl_x_w_dist d)) in
  entry_fl m (o_kernel o) (o_dim o) (vat (hp_theta hp)) (fun k => f_sub (m_ar m) (X (row_point (d_n_eval d) (d_n_grad d) (d_bvec d) r) k) (x k))
    (row_dir (d_n_eval d) (d_n_grad d) r) (Some j).
(** l.171: dmudx = self.calc_dmudx(dKxy_dx) + base_model_grad, the latter zero (the mean function is constant); l.322:
    dKxy_dx @ self.invKernEta_fdiff; l.57 invKernEta_fdiff = cho_solve(KernEta_chofac, f_diff) *)
Definition dmu_fl (m : machine) (c : mat * bool) (dk fdiff : nat -> R) : R :=
  m_add m (dot_fl (m_ar m) (nr (fst c)) dk (cho_solve_fl (m_ar m) c fdiff)) 0.
