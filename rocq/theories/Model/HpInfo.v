(** * Model of the bookkeeping of the optimised hyperparameters: gpgradpy/src/optz/GpHparaOptz.py
    l.19-32, l.42-138, l.186-198 and gpgradpy/src/base/GpHpara.py l.29-100. *)
From Coq Require Import Reals List Arith Bool.
From Verif.Base Require Import NpLite.
From Verif.Spec Require Import KernelSpec.
From Verif.Model Require Import KernelSqExp KernelMatern KernelRatQuad KernelDispatch CommonFun WellCond Rescaling GpState Chol Cov.
Import ListNotations.
Local Open Scope R_scope.

(** GaussianProcess.py l.38-58, l.117, l.206-212: options of the likelihood and its optimisation *)
Record lkopt := mklk { lk_log_theta : bool; lk_log_var : bool; lk_log_kernel : bool; lk_optz_kernel : bool;
  lk_adj : bool; lk_pnlt : bool; lk_lb : R; lk_c1 : R; lk_c2 : R }.
(** class defaults *)
Definition lk_default : lkopt := mklk true true true true true false (1 / 10) 1 10.

(** Kernel.py l.111 [kernel_has_hp] *)
Definition kernel_has_hp (k : kernel) : bool := match k with RatQu => true | _ => false end.

(** GpHparaOptz.py l.19-32 [HparaOptzInfo].  Index sets are lists (the code uses an array or an int);
    [hi_log] is the boolean array bvec_log_optz of length [hi_n]. *)
Record hpinfo := mkhi { hi_n : nat; hi_theta : option (list nat); hi_kernel : option (list nat);
  hi_varK : option nat; hi_var_fval : option nat; hi_var_fgrad : option nat; hi_log : list bool }.
Definition has {A} (o : option A) : bool := match o with Some _ => true | None => false end.

(** bvec[idx] = 1 *)
Fixpoint bset (b : list bool) (k : nat) : list bool :=
  match b, k with
  | [], _ => []
  | _ :: t, O => true :: t
  | x :: t, S k' => x :: bset t k'
  end.
Definition bsets (b : list bool) (idx : list nat) : list bool := fold_left bset idx b.
Definition b2n (b : bool) : nat := if b then 1 else 0.

(** GpHparaOptz.py l.44-138 [set_hp_optz_info]; [cnt] is the counter of the code *)
Definition set_hp_optz_info (o : gpopt) (d : gpdata) (lo : lkopt) (has_theta has_kernel has_varK has_var_fval has_var_fgrad : bool)
  : res hpinfo :=
  let n := (b2n has_theta * o_dim o + b2n has_kernel + b2n has_varK + b2n has_var_fval + b2n has_var_fgrad)%nat in
  let b := repeat false n in
  let cnt := 0%nat in
  let '(it, cnt, b) :=
    if has_theta then
      let idx := seq cnt (o_dim o) in
      (Some idx, (cnt + o_dim o)%nat, if lk_log_theta lo then bsets b idx else b)
    else (None, cnt, b) in
  r <- (if has_kernel then
          _ <- assert_ (kernel_has_hp (o_kernel o)) ;;
          Ok (Some [cnt], (cnt + 1)%nat, if lk_log_kernel lo then bset b cnt else b)
        else Ok (None, cnt, b)) ;;
  let '(ik, cnt, b) := r in
  let '(iv, cnt, b) := if has_varK then (Some cnt, (cnt + 1)%nat, if lk_log_var lo then bset b cnt else b) else (None, cnt, b) in
  r <- (if has_var_fval then
          _ <- assert_ (negb (d_known_fval d)) ;;
          Ok (Some cnt, (cnt + 1)%nat, if lk_log_var lo then bset b cnt else b)
        else Ok (None, cnt, b)) ;;
  let '(ivf, cnt, b) := r in
  r <- (if has_var_fgrad then
          _ <- assert_ (negb (d_known_fgrad d)) ;;
          Ok (Some cnt, (cnt + 1)%nat, if lk_log_var lo then bset b cnt else b)
        else Ok (None, cnt, b)) ;;
  let '(ivg, cnt, b) := r in
  Ok (mkhi n it ik iv ivf ivg b).
(** GpHparaOptz.py l.187-196 [setup_hp_idx4optz] (called by set_data) *)
Definition setup_hp_idx4optz (o : gpopt) (d : gpdata) (lo : lkopt) : res hpinfo :=
  set_hp_optz_info o d lo true (lk_optz_kernel lo && kernel_has_hp (o_kernel o)) (d_noisy d) (d_opt_fval d) (d_opt_fgrad d).

(** fancy indexing of a 1-d array *)
Definition vtake (v : vec) (idx : list nat) : res vec :=
  if forallb (fun k => k <? vlen v) idx then Ok (mkvec (length idx) (fun i => match nth_error idx i with Some k => vat v k | None => 0 end)) else Err EIndex.

(** GpHpara.py l.56-103 [hp_vec2dataclass].  Simplifications: theta None is an error (the library always
    optimises theta); the kernel hyperparameter is the single entry of the length-one array of the code. *)
Definition hp_vec2dataclass (d : gpdata) (info : hpinfo) (v : vec) : res hpv :=
  _ <- (if length (hi_log info) =? vlen v then Ok tt else Err EIndex) ;;   (* boolean index of another length *)
  let m := mkvec (vlen v) (fun i => if nth i (hi_log info) false then pow10 (vat v i) else vat v i) in
  theta <- match hi_theta info with Some idx => vtake m idx | None => Err EType end ;;
  kern <- match hi_kernel info with Some idx => w <- vtake m idx ;; x <- vget w 0 ;; Ok (Some x) | None => Ok None end ;;
  varK <- match hi_varK info with
    | Some i => _ <- assert_ (d_noisy d) ;; x <- vget m i ;; Ok (Some x)
    | None => Ok None end ;;
  vf <- match hi_var_fval info with
    | Some i => _ <- assert_ (d_opt_fval d) ;; x <- vget m i ;; Ok (Some x)
    | None => Ok None end ;;
  vg <- match hi_var_fgrad info with
    | Some i => _ <- assert_ (d_opt_fgrad d) ;; x <- vget m i ;; Ok (Some x)
    | None => Ok None end ;;
  Ok (mkhp None theta kern varK vf vg).
