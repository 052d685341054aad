(** * Model of the kernel matrices of KernelSqExp.py and KernelMatern5f2.py, and of the assembly of the covariance
    matrix in Kernel.py, in an arithmetic with rounding errors.
    Simplification: the loops over blocks of the matrix are written entry by entry (the blocks do not overlap; every
    operation of the code on blocks is entrywise).  Row r is a value at point r if r < n, otherwise the derivative in direction
    (r - n) / g at the ((r - n) mod g)-th point whose gradient is used (lines cited below).  Overflow and underflow do not occur.
    Products with diagonal matrices (P_inv @ K @ P_inv) add exact zeros to one product per entry. *)
From Coq Require Import Reals List Arith Bool.
From Verif.Base Require Import NpLite.
From Verif.Spec Require Import KernelSpec FloatSpec FloatKernSpec.
From Verif.Model Require Import KernelSqExp KernelDispatch WellCond GpState Chol CholFl Cov.
Local Open Scope R_scope.

Section M.
Variable m : machine.
Notation sub := (f_sub (m_ar m)).
Notation mul := (f_mul (m_ar m)).
Notation div := (f_div (m_ar m)).
Notation sqt := (f_sqrt (m_ar m)).
Notation add := (m_add m).

(** base/CommonFun.py l.58-84 [calc_Rtensor], one entry: X[i,d] - Y[j,d] *)
Definition dist_fl (X : nat -> nat -> R) (p q k : nat) : R := sub (X p k) (X q k).

(** ** KernelSqExp.py l.322-410 *)
(** l.342-345: exp_sum -= theta[i] * Rtensor_sq[i] *)
Fixpoint se_sum_fl (th r : nat -> R) (k : nat) : R :=
  match k with O => 0 | S i => sub (se_sum_fl th r i) (mul (th i) (mul (r i) (r i))) end.
(** l.345: KernBase *)
Definition se_base_fl (d : nat) (th r : nat -> R) : R := m_exp m (se_sum_fl th r d).
(** l.392 rows of derivatives, columns of values: -2*theta[i] * Rtensor_g1[i] * KernBase_g1 *)
Definition se_gf_fl (d : nat) (th r : nat -> R) (i : nat) : R := mul (mul (mul (-2) (th i)) (r i)) (se_base_fl d th r).
(** l.393 rows of values, columns of derivatives *)
Definition se_fg_fl (d : nat) (th r : nat -> R) (i : nat) : R := mul (mul (mul 2 (th i)) (r i)) (se_base_fl d th r).
(** l.396 (2 * theta[i] - 4*theta[i]**2 * Rtensor_gg[i]**2) * KernBase_gg *)
Definition se_gg_fl (d : nat) (th r : nat -> R) (i : nat) : R :=
  mul (sub (mul 2 (th i)) (mul (mul 4 (mul (th i) (th i))) (mul (r i) (r i)))) (se_base_fl d th r).
(** l.406-408, i < j: KernGrad (zero so far) += -4 * theta[i] * theta[j] * (Rtensor_gg[i] * Rtensor_gg[j] * KernBase_gg) *)
Definition se_gh_fl (d : nat) (th r : nat -> R) (i j : nat) : R :=
  add 0 (mul (mul (mul (-4) (th i)) (th j)) (mul (mul (r i) (r j)) (se_base_fl d th r))).

(** ** KernelMatern5f2.py l.354-450 *)
(** l.372-375: nu_mat += theta[i] * Rtensor[i]**2; sqrt *)
Fixpoint ma_sum_fl (th r : nat -> R) (k : nat) : R :=
  match k with O => 0 | S i => add (ma_sum_fl th r i) (mul (th i) (mul (r i) (r i))) end.
Definition ma_nu_fl (d : nat) (th r : nat -> R) : R := sqt (ma_sum_fl th r d).
(** l.376: exp(-sqrt(5) * nu_mat) *)
Definition ma_A_fl (d : nat) (th r : nat -> R) : R := m_exp m (mul (- sqt 5) (ma_nu_fl d th r)).
(** l.378: (5.0/3.0) * (1 + sqrt5 * nu_mat) * Abase *)
Definition ma_mat1_fl (d : nat) (th r : nat -> R) : R :=
  mul (mul (div 5 3) (add 1 (mul (sqt 5) (ma_nu_fl d th r)))) (ma_A_fl d th r).
(** l.422: (1 + sqrt5 * nu_mat + (5.0/3.0) * nu_mat**2) * Abase *)
Definition ma_base_fl (d : nat) (th r : nat -> R) : R :=
  let nu := ma_nu_fl d th r in
  mul (add (add 1 (mul (sqt 5) nu)) (mul (div 5 3) (mul nu nu))) (ma_A_fl d th r).
(** l.432, 433 *)
Definition ma_gf_fl (d : nat) (th r : nat -> R) (i : nat) : R := mul (mul (- th i) (r i)) (ma_mat1_fl d th r).
Definition ma_fg_fl (d : nat) (th r : nat -> R) (i : nat) : R := mul (mul (th i) (r i)) (ma_mat1_fl d th r).
(** l.436: theta[i] * mat1_gg - ((25./3.) * theta[i]**2) * Rtensor_gg[i]**2 * Abase_gg *)
Definition ma_gg_fl (d : nat) (th r : nat -> R) (i : nat) : R :=
  sub (mul (th i) (ma_mat1_fl d th r)) (mul (mul (mul (div 25 3) (mul (th i) (th i))) (mul (r i) (r i))) (ma_A_fl d th r)).
(** l.446-448: (-(25./3.) * theta[i] * theta[j]) * Rtensor_gg[i] * Rtensor_gg[j] * Abase_gg, added to zero *)
Definition ma_gh_fl (d : nat) (th r : nat -> R) (i j : nat) : R :=
  add 0 (mul (mul (mul (mul (mul (- div 25 3) (th i)) (th j)) (r i)) (r j)) (ma_A_fl d th r)).

(** ** an entry of the kernel matrix; None is a value, Some i the derivative in direction i.  'RatQu' is not modelled *)
Definition entry_fl (k : kernel) (d : nat) (th r : nat -> R) (a b : option nat) : R :=
  match k, a, b with
  | SqExp, None, None => se_base_fl d th r
  | SqExp, Some i, None => se_gf_fl d th r i
  | SqExp, None, Some j => se_fg_fl d th r j
  | SqExp, Some i, Some j => if (i =? j)%nat then se_gg_fl d th r i else se_gh_fl d th r (Nat.min i j) (Nat.max i j)
  | Ma5f2, None, None => ma_base_fl d th r
  | Ma5f2, Some i, None => ma_gf_fl d th r i
  | Ma5f2, None, Some j => ma_fg_fl d th r j
  | Ma5f2, Some i, Some j => if (i =? j)%nat then ma_gg_fl d th r i else ma_gh_fl d th r (Nat.min i j) (Nat.max i j)
  | RatQu, _, _ => 0
  end.
(** which observation row r is: its point among all points, and the direction of the derivative.
    KernelSqExp.py l.349-377: [b] selects the points whose gradient is used *)
Definition row_dir (n g r : nat) : option nat := if (r <? n)%nat then None else Some ((r - n) / g)%nat.
Definition row_point (n g : nat) (b : option (list bool)) (r : nat) : nat :=
  if (r <? n)%nat then r
  else match b with None => ((r - n) mod g)%nat | Some l => nth ((r - n) mod g)%nat (true_idx l) 0%nat end.
(** calc_Kern: the matrix of the points X with themselves; n values, g gradients, d coordinates *)
Definition kern_fl (k : kernel) (n g d : nat) (b : option (list bool)) (X : nat -> nat -> R) (th : nat -> R) (r c : nat) : R :=
  entry_fl k d th (dist_fl X (row_point n g b r) (row_point n g b c)) (row_dir n g r) (row_dir n g c).

(** ** Kernel.py l.218-277 *)
(** l.218: Kern + np.diag(noise_vec / varK) *)
Definition noisy_fl (K : nat -> nat -> R) (nz : nat -> R) (varK : R) (i j : nat) : R :=
  add (K i j) (if (i =? j)%nat then div (nz i) varK else 0).
(** l.224: pvec *)
Definition pvec_fl (K : nat -> nat -> R) (nz : nat -> R) (varK : R) (i : nat) : R := sqt (noisy_fl K nz varK i i).
(** l.226-227: P_inv @ Kern_w_noise @ P_inv *)
Definition kcor_fl (K : nat -> nat -> R) (nz : nat -> R) (varK : R) (i j : nat) : R :=
  mul (mul (div 1 (pvec_fl K nz varK i)) (noisy_fl K nz varK i j)) (div 1 (pvec_fl K nz varK j)).
(** l.236: varK * (Kcor + etaK * np.eye(n_data)) *)
Definition kprec_fl (K : nat -> nat -> R) (nz : nat -> R) (varK eta : R) (i j : nat) : R :=
  mul varK (add (kcor_fl K nz varK i j) (mul eta (if (i =? j)%nat then 1 else 0))).
(** l.277: varK * (Kern_w_noise + etaK * np.eye(n_data)) *)
Definition kplain_fl (K : nat -> nat -> R) (nz : nat -> R) (varK eta : R) (i j : nat) : R :=
  mul varK (add (noisy_fl K nz varK i j) (mul eta (if (i =? j)%nat then 1 else 0))).
(** l.232, 272 np.sum(np.abs(.), axis=1); the order is left to the machine (numpy adds in pairs) *)
Definition abs_sum_fl (f : nat -> R) (n : nat) : R := m_sum m (map (fun j => Rabs (f j)) (seq 0 n)).
(** l.232-234, 272-274: the nugget from the largest row sum *)
Definition eta_fl (K : nat -> nat -> R) (n : nat) (target : R) : res R :=
  i <- argmax (mkvec n (fun i => abs_sum_fl (K i) n)) ;; Ok (div (abs_sum_fl (K i) n) (sub target 1)).
(** l.213-216: the kernel matrix of the data.  The scaled points are taken as given. *)
Definition data_kern_fl (o : gpopt) (d : gpdata) (hp : hpv) : nat -> nat -> R :=
  kern_fl (o_kernel o) (d_n_eval d) (d_n_grad d) (o_dim o) (d_bvec d) (mat_at (fst (get_scl_x_w_dist d))) (vat (hp_theta hp)).
(** eval/GpEvalModel.py l.133-148, one column of Kyx: the covariances of the data with the value at the (scaled) point x;
    calc_Rtensor(x_eval_scl, x2model): the data are the rows *)
Definition cross_fl (o : gpopt) (d : gpdata) (hp : hpv) (x : nat -> R) (r : nat) : R :=
  let X := mat_at (fst (get_scl_x_w_dist d)) in
  entry_fl (o_kernel o) (o_dim o) (vat (hp_theta hp)) (fun k => sub (X (row_point (d_n_eval d) (d_n_grad d) (d_bvec d) r) k) (x k))
    (row_dir (d_n_eval d) (d_n_grad d) r) None.
(** l.220-236, 268-277: the matrix that is factored (Kcov_precon or Kcov); [nz] is the vector of the noise variances *)
Definition factored_fl (o : gpopt) (d : gpdata) (hp : hpv) (nz : nat -> R) (varK : R) : res mat :=
  let n := d_n_data d in let K := data_kern_fl o d hp in
  match o_well o with
  | Wprecon =>
      eta <- (if o_eta_const o then need (d_etaK d) else eta_fl (kcor_fl K nz varK) n (o_target o)) ;;
      Ok (mkmat n n (kprec_fl K nz varK eta))
  | _ =>
      eta <- (if o_eta_const o then need (d_etaK d) else eta_fl K n (o_target o)) ;;
      Ok (mkmat n n (kplain_fl K nz varK eta))
  end.
(** l.247-252, 287-291: the Cholesky factor that is used (Kcov_chofac), when it is calculated: with 'precon' the rows of the lower
    factor of Kcov_precon are multiplied by the preconditioner, otherwise it is the upper factor of Kcov *)
Definition chofac_fl (o : gpopt) (d : gpdata) (hp : hpv) (nz : nat -> R) (varK : R) : res (mat * bool) :=
  A <- factored_fl o d hp nz varK ;;
  match o_well o with
  | Wprecon =>
      c <- cho_factor_fl (m_ar m) A true ;;
      Ok (scale_rows_fl (m_ar m) (pvec_fl (data_kern_fl o d hp) nz varK) c)
  | _ => cho_factor_fl (m_ar m) A false
  end.
End M.
