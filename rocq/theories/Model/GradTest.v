(** * Model of gpgradpy/src/base/CommonFun.py l.86-148 [test_grad_calc]: the comparison of a gradient with finite differences.
    The printed lines (l.142-146) are not modelled.  x0_in is a 1-d array of floats; the function handles may raise. *)
From Coq Require Import Reals List Arith Bool.
From Verif.Base Require Import NpLite.
Import ListNotations.
Local Open Scope R_scope.

(** what fh_grad returns after np.atleast_1d: a 1-d or a 2-d array *)
Inductive garr := A1 (v : vec) | A2 (M : mat).

(** l.123-124 (and l.128-129): a copy of x0 whose entry i is increased by e *)
Definition bump (x0 : vec) (i : nat) (e : R) : vec := mkvec (vlen x0) (fun j => if (j =? i)%nat then vat x0 j + e else vat x0 j).
(** a 1-d array as the column of the slot fd_grad[:, i] *)
Definition colmat (v : vec) : mat := mkmat (vlen v) 1 (fun k _ => vat v k).
(** l.123-135: one column of finite differences *)
Definition fd_column (x0 : vec) (fh_fun : vec -> res vec) (fun_x0 : vec) (eps : R) (cent : bool) (i : nat) : res vec :=
  fun_p <- fh_fun (bump x0 i eps) ;;
  if cent
  then fun_m <- fh_fun (bump x0 i (- eps)) ;; q <- vzip Rminus fun_p fun_m ;; Ok (vmap (fun t => t / (2 * eps)) q)
  else q <- vzip Rminus fun_p fun_x0 ;; Ok (vmap (fun t => t / eps) q).
(** l.141 grad_x0 - fd_grad: the two arrays have the same number of axes by l.137-139; only its success matters, the
    difference is printed but not returned *)
Definition diff_fd (g fd : garr) : res unit :=
  match g, fd with
  | A1 v, A1 w => _ <- vzip Rminus v w ;; Ok tt
  | A2 M, A2 W => _ <- msub M W ;; Ok tt
  | _, _ => Err EShape
  end.
(** l.87-148 *)
Definition test_grad_calc (x0 : vec) (fh_fun : vec -> res vec) (fh_grad : vec -> res garr) (eps : R) (cent : bool) : res (garr * garr) :=
  fun_x0 <- fh_fun x0 ;;
  grad_x0 <- fh_grad x0 ;;
  let n_fun := vlen fun_x0 in
  fd <- for_range 0 (vlen x0) (fun i A => q <- fd_column x0 fh_fun fun_x0 eps cent i ;; mset A 0 n_fun i (i + 1) (colmat q)) (mconst n_fun (vlen x0) 0) ;;
  fd' <- match grad_x0 with
         | A1 _ => _ <- assert_ (n_fun =? 1)%nat ;; Ok (A1 (mkvec (nc fd) (fun i => mat_at fd 0 i)))
         | A2 _ => Ok (A2 fd)
         end ;;
  _ <- diff_fd grad_x0 fd' ;;
  Ok (fd', grad_x0).
