(** * Model of gpgradpy/src/eval/GpMeanFun.py: the constant mean function and its generalised least
    squares coefficient.  l.195-204 [set_mean_fun_op] accepts 'poly_ord_0' only, so n_beta_coeff = 1 and the
    branch l.164-168 of [calc_vand] (linear basis) is unreachable; the other entry points dispatch to the
    polynomial methods. *)
From Coq Require Import Reals List Arith Bool.
From Verif.Base Require Import NpLite.
From Verif.Spec Require Import KernelSpec.
From Verif.Model Require Import KernelSqExp KernelMatern KernelRatQuad KernelDispatch CommonFun WellCond Rescaling GpState Chol.
Import ListNotations.
Local Open Scope R_scope.

Definition n_beta : nat := 1.
(** l.124-170 [calc_vand] with n_beta_coeff = 1: the basis matrix and its x-gradient.  The Hessian (l.155)
    is the zero array. *)
Definition calc_vand (dim : nat) (x : mat) : mat * ten :=
  (mconst (nr x) n_beta 1, tconst dim (nr x) n_beta 0).
(** T.reshape((a*b, c)) of an array of shape (a, b, c) *)
Definition treshape2 (T : ten) : mat := mkmat (td T * tr T) (tc T) (fun r j => tat T (r / tr T) (r mod tr T) j).
(** l.172-191 [calc_aug_vand]; called with bvec_use_grad = self.bvec_use_grad only *)
Definition calc_aug_vand (o : gpopt) (d : gpdata) (x : mat) : res mat :=
  _ <- assert_ (nc x =? o_dim o) ;;
  if o_use_grad o then
    let '(vb, vg) := calc_vand (o_dim o) x in
    T <- match d_bvec d with None => Ok vg | Some b => trows vg b end ;;
    mvstack vb (treshape2 T)
  else Ok (fst (calc_vand (o_dim o) x)).

(** np.linalg.solve(A, B) for a 1 x 1 matrix A (n_beta_coeff = 1); a singular matrix raises LinAlgError *)
Definition np_solve1 (A B : mat) : res mat :=
  if (nr A =? 1) && (nc A =? 1) && (nr B =? 1)
  then if Req_EM_T (mat_at A 0 0) 0 then Err ELinAlg else Ok (mkmat 1 (nc B) (fun _ j => mat_at B 0 j / mat_at A 0 0))
  else Err EShape.
(** np.einsum('ij,kjl,l->ik', A, T, v); einsum's broadcasting of axes of length one is left out *)
Definition einsum_ij_kjl_l (A : mat) (T : ten) (v : vec) : res mat :=
  if (nc A =? tr T) && (tc T =? vlen v)
  then Ok (mkmat (nr A) (td T) (fun i k => rsum (nc A) (fun j => rsum (tc T) (fun l => mat_at A i j * tat T k j l * vat v l))))
  else Err EShape.

(** l.69-122 [calc_model_max_lkd_poly] (and l.217-222 calc_model_max_lkd): values of the mean function at the
    data, their hyperparameter gradient, the coefficients and their gradient *)
Definition calc_model_max_lkd (o : gpopt) (d : gpdata) (cf : mat * bool) (data : vec) (Kg : option ten)
  : res (vec * option mat * vec * option mat) :=
  V <- calc_aug_vand o d (fst (get_scl_x_w_dist d)) ;;
  iKV <- cho_solve_mat cf V ;;
  A <- mdot (mtrans V) iKV ;;
  term1 <- np_solve1 A (mtrans iKV) ;;
  beta <- mdotv term1 data ;;
  mval <- mdotv V beta ;;
  match Kg with
  | None => Ok (mval, None, beta, None)
  | Some T =>
      iKd <- cho_solve cf data ;;
      u <- mdotv iKV beta ;;
      term2 <- vzip Rminus u iKd ;;
      bg <- einsum_ij_kjl_l term1 T term2 ;;
      mg <- mdot V bg ;;
      Ok (mval, Some mg, beta, Some bg)
  end.

(** l.14-67 [eval_mean_fun_poly]: value, gradient ([ji]: one row per point, one column per dimension) and
    Hessian of the mean function; [calc_hess] is ignored unless [calc_grad] *)
Definition eval_mean_fun (o : gpopt) (x : mat) (beta : vec) (bgrad bhess : option (list bool)) (calc_grad calc_hess : bool)
  : res (vec * option mat * option ten) :=
  _ <- assert_ (vlen beta =? n_beta) ;;
  let '(vb, vg) := calc_vand (o_dim o) x in
  mv <- mdotv vb beta ;;
  if calc_grad then
    T <- match bgrad with None => Ok vg | Some b => trows vg b end ;;
    let G := mkmat (tr T) (td T) (fun j i => rsum (tc T) (fun k => tat T i j k * vat beta k)) in
    if calc_hess then
      h <- match bhess with None => Ok (nr x) | Some b => if length b =? nr x then Ok (count_true b) else Err EIndex end ;;
      Ok (mv, Some G, Some (tconst h (o_dim o) (o_dim o) 0))   (* einsum('ijkl,l->kij') of zeros *)
    else Ok (mv, Some G, None)
  else Ok (mv, None, None).
