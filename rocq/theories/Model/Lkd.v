(** * Model of gpgradpy/src/optz/CalcLkd.py (marginal log-likelihood and its gradient) and of
    gpgradpy/src/optz/GpHparaCon.py l.135-261 (condition number and its gradient). *)
From Coq Require Import Reals List Arith Bool.
From Verif.Base Require Import NpLite.
From Verif.Spec Require Import KernelSpec.
From Verif.Model Require Import KernelSqExp KernelMatern KernelRatQuad KernelDispatch CommonFun WellCond Rescaling GpState Chol Cov HpInfo HpGrad MeanFun.
Import ListNotations.
Local Open Scope R_scope.

(** numpy.linalg routines that are not modelled, as arbitrary functions: cond(., p = cond_norm), cond(., p = 2)
    and eig (eigenvalues, matrix of eigenvectors).  [la_fro]: cond_norm is 'fro' (otherwise 2). *)
Record npla := mknpla { la_cond : mat -> R; la_cond2 : mat -> R; la_eig : mat -> vec * mat; la_fro : bool }.

(** l.14-26 [LkdInfo] *)
Record lkdinfo := mklkd { l_beta : option vec; l_beta_grad : option mat; l_varK : option R; l_varK_grad : option vec;
  l_lndet : option R; l_lndet_grad : option vec; l_ln : option R; l_ln_grad : option vec;
  l_cond : option R; l_cond_grad : option vec; l_data : option vec }.
Definition lkd_cond (c : option R) (g : option vec) : lkdinfo := mklkd None None None None None None None None c g None.
Definition set_cond (l : lkdinfo) (c : option R) (g : option vec) : lkdinfo :=
  mklkd (l_beta l) (l_beta_grad l) (l_varK l) (l_varK_grad l) (l_lndet l) (l_lndet_grad l) (l_ln l) (l_ln_grad l) c g (l_data l).

(** np.einsum('i,kij,j', v, T, v) and np.einsum('ijk,jk', T, A); einsum's broadcasting of axes of length one is left out *)
Definition einsum_i_kij_j (v : vec) (T : ten) : res vec :=
  if (vlen v =? tr T) && (tc T =? vlen v)
  then Ok (mkvec (td T) (fun k => rsum (tr T) (fun i => rsum (tc T) (fun j => vat v i * tat T k i j * vat v j)))) else Err EShape.
Definition einsum_ijk_jk (T : ten) (A : mat) : res vec :=
  if (nr A =? tr T) && (tc T =? nc A)
  then Ok (mkvec (td T) (fun i => rsum (tr T) (fun j => rsum (tc T) (fun k => tat T i j k * mat_at A j k)))) else Err EShape.
Definition vouter (u v : vec) : mat := mkmat (vlen u) (vlen v) (fun i j => vat u i * vat v j).
Definition vdotm (u : vec) (A : mat) : res vec :=   (* u @ A *)
  if vlen u =? nr A then Ok (mkvec (nc A) (fun j => rsum (vlen u) (fun i => vat u i * mat_at A i j))) else Err EShape.
Definition trace (A : mat) : R := vsum (diagv A).
Definition lndet_of (cf : mat * bool) : R := 2 * vsum (vmap ln (diagv (fst cf))).
Definition varK_min : R := / 10 ^ 32.

(** l.349-367 [calc_detKmat] *)
Definition calc_detKmat (cf : mat * bool) (Kg : option ten) : res (R * option vec) :=
  match Kg with
  | None => Ok (lndet_of cf, None)
  | Some T =>
      g <- for_range 0 (td T) (fun i v => A <- tget T i ;; S <- cho_solve_mat cf A ;; Ok (vset v i (trace S))) (vconst (td T) 0) ;;
      Ok (lndet_of cf, Some g)
  end.

(** l.98-116 [calc_lkd_opt_varK] *)
Definition calc_lkd_opt_varK (data mval : vec) (cf : mat * bool) (mg : option mat) (Kg : option ten) : res (R * option vec) :=
  r <- vzip Rminus data mval ;;
  s <- cho_solve cf r ;;
  q <- vdot r s ;;
  let varK := Rmax varK_min (q / INR (vlen data)) in
  match mg, Kg with
  | Some M, Some T =>
      a <- vdotm (vmap (Rmult (-2)) s) M ;;
      e <- einsum_i_kij_j s T ;;
      g <- vzip Rminus a e ;;
      Ok (varK, Some (vmap (fun x => x / INR (vlen data)) g))
  | _, _ => Ok (varK, None)
  end.

(** np.var *)
Definition vvar (v : vec) : R := let m := vsum v / INR (vlen v) in rsum (vlen v) (fun i => (vat v i - m) ^ 2) / INR (vlen v).
(** l.118-133 [calc_lkd_varK_pnlt] *)
Definition calc_lkd_varK_pnlt (lo : lkopt) (varK : R) (fval : vec) : R * R :=
  if lk_pnlt lo then
    let var_fval := Rmax (vvar fval) (lk_lb lo) in
    let max_fun := Rmax (varK - lk_c2 lo * var_fval) 0 in
    (lk_c1 lo * var_fval * max_fun ^ 2, 2 * lk_c1 lo * var_fval * max_fun)
  else (0, 0).

(** l.135-147 [calc_lkd_w_Kern_mtd_direct] *)
Definition calc_lkd_w_Kern_mtd_direct (n : nat) (varK lndet : R) (varKg lndetg : option vec) (pv pg : R) : res (R * option vec) :=
  let l := - (INR n * ln varK + lndet) / 2 - pv in
  match varKg, lndetg with
  | Some vg, Some dg =>
      a <- vzip Rplus (vmap (fun x => INR n * (x / varK)) vg) dg ;;
      g <- vzip Rminus (vmap (Rmult (- 0.5)) a) (vmap (Rmult pg) vg) ;;
      Ok (l, Some g)
  | _, _ => Ok (l, None)
  end.

(** l.149-181 [calc_lkd_w_Kern_mtd_adjoint] with calc_lkd = True (the only value it is ever called with) *)
Definition calc_lkd_w_Kern_mtd_adjoint (lo : lkopt) (fval data mval : vec) (cf : mat * bool) (Kg : option ten)
  : res (R * R * R * option vec) :=
  r <- vzip Rminus data mval ;;
  s <- cho_solve cf r ;;
  let n := INR (vlen data) in
  q <- vdot r s ;;
  let varK := Rmax varK_min (q / n) in
  let '(pv, pg) := calc_lkd_varK_pnlt lo varK fval in
  let lndet := lndet_of cf in
  let l := - (n * ln varK + lndet) / 2 - pv in
  match Kg with
  | None => Ok (varK, lndet, l, None)
  | Some T =>
      let adj_varK := vouter s (vmap (fun x => - x / n) s) in
      W <- cho_solve_mat cf (meye (vlen data)) ;;
      A <- msub (mscal (pg + n / (2 * varK)) (mmap Ropp adj_varK)) (mscal 0.5 W) ;;
      g <- einsum_ijk_jk T A ;;
      Ok (varK, lndet, l, Some g)
  end.

(** l.30-95 [calc_lkd_all_wo_noise]; [adj] is lkd_use_adj_mtd *)
Definition calc_lkd_all_wo_noise (o : gpopt) (d : gpdata) (lo : lkopt) (cf : mat * bool) (Kg : option ten) (adj : bool) : res lkdinfo :=
  e <- get_scl_eval_data d ;;
  let '(fval, _, grad, _) := e in
  let data := make_data_vec fval grad in
  if adj then
    m <- calc_model_max_lkd o d cf data None ;;
    let '(mval, _, beta, bg) := m in
    r <- calc_lkd_w_Kern_mtd_adjoint lo fval data mval cf Kg ;;
    let '(varK, lndet, l, g) := r in
    Ok (mklkd (Some beta) bg (Some varK) None (Some lndet) None (Some l) g None None None)
  else
    m <- calc_model_max_lkd o d cf data Kg ;;
    let '(mval, mg, beta, bg) := m in
    v <- calc_lkd_opt_varK data mval cf mg Kg ;;
    let '(varK, vg) := v in
    let '(pv, pg) := calc_lkd_varK_pnlt lo varK fval in
    ld <- calc_detKmat cf Kg ;;
    let '(lndet, dg) := ld in
    r <- calc_lkd_w_Kern_mtd_direct (vlen data) varK lndet vg dg pv pg ;;
    let '(l, g) := r in
    Ok (mklkd (Some beta) bg (Some varK) vg (Some lndet) dg (Some l) g None None None).

(** l.254-266 [calc_lkd_w_Kcov] *)
Definition calc_lkd_w_Kcov (r s : vec) (lndet : R) (Kg : option ten) (dg : option vec) (mg : option mat) : res (R * option vec) :=
  q <- vdot r s ;;
  let l := - (lndet + q) / 2 in
  match Kg, dg, mg with
  | Some T, Some d, Some M =>
      e <- einsum_i_kij_j s T ;;
      a <- vzip Rplus (vmap (Rmult (- 0.5)) d) (vmap (Rmult 0.5) e) ;;
      b <- vdotm s M ;;
      g <- vzip Rplus a b ;;
      Ok (l, Some g)
  | _, _, _ => Ok (l, None)
  end.

(** l.185-251 [calc_lkd_all_w_noise] *)
Definition calc_lkd_all_w_noise (o : gpopt) (d : gpdata) (cf : mat * bool) (Kg : option ten) (adj : bool) : res lkdinfo :=
  e <- get_scl_eval_data d ;;
  let '(fval, _, grad, _) := e in
  let data := make_data_vec fval grad in
  m <- calc_model_max_lkd o d cf data Kg ;;
  let '(mval, mg, beta, bg) := m in
  r <- vzip Rminus data mval ;;
  s <- cho_solve cf r ;;
  if adj then
    let lndet := lndet_of cf in
    q <- vdot r s ;;
    let l := - (lndet + q) / 2 in
    g <- match Kg with
      | None => Ok None
      | Some T =>
          W <- cho_solve_mat cf (meye (vlen data)) ;;
          B <- msub (vouter s s) W ;;
          g <- einsum_ijk_jk T (mscal 0.5 B) ;;
          Ok (Some g)
      end ;;
    Ok (mklkd (Some beta) bg None None (Some lndet) None (Some l) g None None (Some data))
  else
    ld <- calc_detKmat cf Kg ;;
    let '(lndet, dg) := ld in
    r <- calc_lkd_w_Kcov r s lndet Kg dg mg ;;
    let '(l, g) := r in
    Ok (mklkd (Some beta) bg None None (Some lndet) dg (Some l) g None None (Some data)).

(** GpHparaCon.py l.161-235 [calc_cond_L2_w_grad]: np.linalg.eig is [la_eig]; complex values are left out *)
Definition argmin (v : vec) : res nat := argmax (vmap Ropp v).
Definition calc_cond_L2_w_grad (la : npla) (o : gpopt) (K : mat) (Kg : option ten) : res (R * option vec) :=
  let cond := la_cond2 la K in
  match Kg with
  | None => Ok (cond, None)
  | Some T =>
      match o_well o with
      | Wprecon => Ok (cond, None)
      | _ =>
          _ <- assert_ ((nr K =? tr T) && (tr T =? tc T)) ;;
          let '(ev, E) := la_eig la K in
          imax <- argmax ev ;;
          imin <- argmin ev ;;
          let vmx := mkvec (nr E) (fun i => mat_at E i imax) in
          let vmn := mkvec (nr E) (fun i => mat_at E i imin) in
          let emod := Rmax (vat ev imin) (/ 10 ^ 16) in
          D <- msub (vouter vmx vmx) (mscal cond (vouter vmn vmn)) ;;
          g <- einsum_ijk_jk T D ;;   (* np.sum(v_outer_diff * Kmat_grad_hp[i,:,:]) for every i *)
          Ok (cond, Some (vmap (fun x => x / emod) g))
      end
  end.
(** np.linalg.norm(A, 'fro') *)
Definition fro_norm (A : mat) : R := sqrt (rsum (nr A) (fun i => rsum (nc A) (fun j => mat_at A i j ^ 2))).
(** GpHparaCon.py l.237-261 [calc_cond_fronorm_w_grad]; cho_solve(None, .) is a TypeError *)
Definition calc_cond_fronorm_w_grad (o : gpopt) (K : mat) (cf : option (mat * bool)) (Kg : option ten) : res (R * option vec) :=
  _ <- (if (nr K =? 0) || (nc K =? 0) then Err EIndex else assert_ (if Rlt_dec 1 (mat_at K 0 0) then true else false)) ;;
  match cf with
  | None => Err EType
  | Some c =>
      W <- cho_solve_mat c (meye (nr K)) ;;
      let nK := fro_norm K in
      let nW := fro_norm W in
      let cond := nK * nW in
      match Kg with
      | None => Ok (cond, None)
      | Some T =>
          _ <- assert_ (match o_well o with Wprecon => false | _ => true end) ;;
          W2 <- cho_solve_mat c W ;;
          W3 <- cho_solve_mat c W2 ;;
          let frac := nW / nK in
          D <- msub (mscal frac K) (mmap (fun x => x / frac) W3) ;;
          g <- einsum_ijk_jk T D ;;
          Ok (cond, Some g)
      end
  end.
(** GpHparaCon.py l.135-159 [calc_cond_w_grad] with cond_norm = self.cond_norm *)
Definition calc_cond_w_grad (la : npla) (o : gpopt) (K : mat) (cf : option (mat * bool)) (Kg : option ten) : res (R * option vec) :=
  if la_fro la then calc_cond_fronorm_w_grad o K cf Kg else calc_cond_L2_w_grad la o K Kg.

(** l.270-346 [calc_lkd_all]; [info] is self.hp_info_optz_lkd.  The argument calc_lkd of the code is not
    used.  The boolean of the result is b_chofac_good. *)
Definition calc_lkd_all (la : npla) (o : gpopt) (d : gpdata) (lo : lkopt) (info : hpinfo) (hp : hpv)
  (calc_cond calc_grad adj : bool) : res (lkdinfo * bool) :=
  let Rt := snd (get_scl_x_w_dist d) in
  if d_noisy d then
    k <- calc_all_K_w_chofac o d (la_cond la) Rt hp None true calc_cond None false ;;
    Kg <- (if calc_grad then T <- calc_Kcov_grad_hp o d info hp (k_Kern k) Rt ;; Ok (Some T) else Ok None) ;;
    r <- match k_chofac k with
      | None => c <- calc_cond_L2_w_grad la o (k_Kcov k) Kg ;; Ok (lkd_cond (Some (fst c)) (snd c), false)
      | Some cf => l <- calc_lkd_all_w_noise o d cf Kg adj ;; Ok (l, true)
      end ;;
    if calc_cond && calc_grad then
      c <- calc_cond_w_grad la o (k_Kcov k) (k_chofac k) Kg ;;
      Ok (set_cond (fst r) (Some (fst c)) (snd c), snd r)
    else Ok (set_cond (fst r) (k_cond k) (l_cond_grad (fst r)), snd r)
  else
    k <- calc_Kern_w_chofac o d (la_cond la) Rt hp None true calc_cond ;;
    Kg <- (if calc_grad then T <- calc_KernGrad_hp o d info hp Rt None ;; Ok (Some T) else Ok None) ;;
    match k_chofac k with
    | None => c <- calc_cond_L2_w_grad la o (k_Kcov k) Kg ;; Ok (lkd_cond (Some (fst c)) (snd c), false)
    | Some cf =>
        l <- calc_lkd_all_wo_noise o d lo cf Kg adj ;;
        if calc_cond && calc_grad then
          c <- calc_cond_w_grad la o (k_Kcov k) (k_chofac k) Kg ;;
          Ok (set_cond l (Some (fst c)) (snd c), true)
        else Ok (set_cond l (k_cond k) None, true)
    end.
