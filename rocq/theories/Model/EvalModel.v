(** * Model of gpgradpy/src/eval/GpEvalModel.py: setting the surrogate up and evaluating it.
    Not modelled: calc_model_mean_w_data_init and calc_model_mean_w_data_scl (l.384-440), which nothing calls.
    The two forms of the points and squeeze_nx are in Model/EvalWrap.v. *)
From Coq Require Import Reals List Arith Bool.
From Verif.Base Require Import NpLite.
From Verif.Spec Require Import KernelSpec.
From Verif.Model Require Import KernelSqExp KernelMatern KernelRatQuad KernelDispatch CommonFun WellCond Rescaling GpState Chol Cov MeanFun.
Import ListNotations.
Local Open Scope R_scope.

(** what setup_eval_model stores (l.45-57): the matrices, data_vec and invKernEta_fdiff *)
Record surr := mksurr { su_K : kout; su_data : vec; su_inv : option vec }.
(** beta.size on None raises AttributeError; np.sqrt(None) raises AttributeError/TypeError *)
Definition need_beta (b : option vec) : res vec := match b with Some v => Ok v | None => Err EAttr end.

(** l.17-57 [setup_eval_model] for the hyperparameters [hp] (self.hp_vals) *)
Definition setup_eval_model (o : gpopt) (d : gpdata) (condf : mat -> R) (hp : hpv) (calc_cond : bool) : res surr :=
  let '(X, Rt) := get_scl_x_w_dist d in
  e <- get_scl_eval_data d ;;
  let '(fval, _, grad, _) := e in
  beta <- need_beta (hp_beta hp) ;;
  m <- eval_mean_fun o X beta (d_bvec d) None (o_use_grad o) false ;;
  let '(mval, mgrad, _) := m in
  let mean_vec := make_data_vec mval mgrad in
  let data := make_data_vec fval grad in
  k <- calc_all_K_w_chofac o d condf Rt hp None true calc_cond None true ;;
  f_diff <- vzip Rminus data mean_vec ;;
  inv <- match k_chofac k with None => Ok None | Some c => s <- cho_solve c f_diff ;; Ok (Some s) end ;;
  Ok (mksurr k data inv).

(** np.reshape(v, (nx, dim), order='f') *)
Definition reshape_2f (v : vec) (nx dim : nat) : res mat :=
  if vlen v =? (nx * dim)%nat then Ok (mkmat nx dim (fun p i => vat v (i * nx + p))) else Err EShape.
(** l.319-325 [calc_dmudx] *)
Definition calc_dmudx (dim : nat) (dK : mat) (inv : vec) : res mat :=
  v <- mdotv dK inv ;; reshape_2f v (nr dK / dim) dim.
(** np.kron(np.ones((dim, 1)), A) *)
Definition kron_ones (dim : nat) (A : mat) : mat := mkmat (dim * nr A) (nc A) (fun r c => mat_at A (r mod nr A) c).
(** np.dot(dK * np.kron(one_d, Kinv), one_ny), one_ny of the length of invKernEta_fdiff *)
Definition row_products (dim ny : nat) (dK Kinv : mat) : res vec :=
  P <- mmul dK (kron_ones dim Kinv) ;; mdotv P (vconst ny 1).
(** l.327-337 [calc_dsig2dx] *)
Definition calc_dsig2dx (dim ny : nat) (Kinv dK : mat) (varK : R) : res mat :=
  v <- row_products dim ny dK Kinv ;;
  reshape_2f (vmap (fun t => -2 * t * varK) v) (nr dK / dim) dim.
(** l.339-354 [calc_dsigdx]: 1 / sig where sig is not zero, else 0 *)
Definition calc_dsigdx (dim ny : nat) (sig : vec) (Kinv dK : mat) (sigK : R) : res mat :=
  let inv_sig := vmap (fun s => if Req_EM_T s 0 then 0 else 1 / s) sig in
  let term1 := mkmat (vlen sig) dim (fun p _ => - vat inv_sig p) in
  v <- row_products dim ny dK Kinv ;;
  term2 <- reshape_2f (vmap (fun t => t * sigK ^ 2) v) (nr dK / dim) dim ;;
  mmul term1 term2.
(** np.matmul(T, v[None, :, None])[:, :, 0] *)
Definition tdotv (T : ten) (v : vec) : res mat :=
  if tc T =? vlen v then Ok (mkmat (td T) (tr T) (fun l i => rsum (tc T) (fun c => tat T l i c * vat v c))) else Err EShape.
Definition n_all (o : gpopt) (d : gpdata) : nat := if o_use_grad o then (d_n_eval d * (1 + o_dim o))%nat else d_n_eval d.
Definition hess_shape_ok (o : gpopt) (d : gpdata) (T : ten) : bool :=
  (td T =? o_dim o) && (tr T =? o_dim o) && (tc T =? n_all o d).
(** A[None, :, :] *)
Definition as_ten (A : mat) : ten := mkten 1 (nr A) (nc A) (fun _ => mat_at A).
(** l.356-363 [calc_d2mudx2] *)
Definition calc_d2mudx2 (o : gpopt) (d : gpdata) (d2K : ten) (inv : vec) : res ten :=
  _ <- assert_ (hess_shape_ok o d d2K) ;; A <- tdotv d2K inv ;; Ok (as_ten A).
(** l.365-382 [calc_d2sigdx2]; [None] when sig is zero: the code then returns an array of NaN *)
Definition calc_d2sigdx2 (o : gpopt) (d : gpdata) (cf : mat * bool) (sig : vec) (dsig Kinv dK : mat) (d2K : ten) (sigK : R) : res (option ten) :=
  _ <- assert_ (hess_shape_ok o d d2K) ;;
  term1 <- (if nr Kinv =? 0 then Err EIndex else tdotv d2K (mkvec (nc Kinv) (fun c => mat_at Kinv 0 c))) ;;
  S <- cho_solve_mat cf (mtrans dK) ;;
  term2 <- mdot dK S ;;
  T12 <- madd term1 term2 ;;
  let n := (nr dsig * nc dsig)%nat in
  let ds := mkvec n (fun i => mat_at dsig (i / nc dsig) (i mod nc dsig)) in   (* np.outer flattens *)
  D <- msub (mscal (-2 * sigK ^ 2) T12) (mkmat n n (fun i j => 2 * (vat ds i * vat ds j))) ;;
  s <- vget sig 0 ;;
  Ok (if Req_EM_T s 0 then None else Some (as_ten (mscal (1 / (2 * s)) D))).

(** a + b of arrays of the same shape (base_model_hess has one matrix per point) *)
Definition tadd_same (A B : ten) : res ten :=
  if (td A =? td B) && (tr A =? tr B) && (tc A =? tc B)
  then Ok (mkten (td A) (tr A) (tc A) (fun k i j => tat A k i j + tat B k i j)) else Err EShape.

Record evo := mkevo { e_mu : vec; e_sig : vec; e_dmu : option mat; e_dsig : option mat;
                      e_d2mu : option ten; e_d2sig : option (option ten) }.
Definition vmin_nonneg (v : vec) : res bool :=
  m <- lmin (map (vat v) (seq 0 (vlen v))) ;; Ok (if Rle_dec 0 m then true else false).

(** the kernel blocks of l.133-148: Kyx and (when needed) dKxy_dx *)
Definition eval_blocks (o : gpopt) (d : gpdata) (hp : hpv) (x2 : mat) (calc_grad : bool) : res (mat * option mat) :=
  let X := fst (get_scl_x_w_dist d) in
  let ny := d_n_eval d in
  let nx := nr x2 in
  Rt <- calc_Rtensor X x2 ;;
  if o_use_grad o || calc_grad then
    K <- calc_KernGrad (o_kernel o) Rt (hp_theta hp) (hp_kernel hp) (d_bvec d) None ;;
    if o_use_grad o then Ok (mslice K 0 (nr K) 0 nx, Some (mtrans (mslice K 0 (nr K) nx (nc K))))
    else Ok (mslice K 0 ny 0 nx, Some (mtrans (mslice K 0 ny nx (nc K))))
  else K <- calc_KernBase (o_kernel o) Rt (hp_theta hp) (hp_kernel hp) ;; Ok (K, None).
(** l.150-152 d2Kxy_dx2 (Kernel.py l.113-125: KernGrad_grad_x or KernBase_hess_x); no mask is passed *)
Definition eval_hess (o : gpopt) (d : gpdata) (hp : hpv) (x2 : mat) : res ten :=
  Rt <- calc_Rtensor x2 (fst (get_scl_x_w_dist d)) ;;
  if o_use_grad o then calc_KernGrad_grad_x (o_kernel o) Rt (hp_theta hp) (hp_kernel hp) None
  else calc_KernBase_hess_x (o_kernel o) Rt (hp_theta hp) (hp_kernel hp).
(** l.162: 1 - diag(Kxy K^-1 Kyx) *)
Definition one_minus_quad (Kyx Kinv : mat) : res vec :=
  Q <- mdot (mtrans Kyx) (mtrans Kinv) ;; vzip Rminus (vconst (nc Kyx) 1) (diagv Q).

(** GaussianProcess.py l.447-457 [data_scl_2_init] and Rescaling.py l.160-183 *)
Definition data_scl_2_init (d : gpdata) (e : evo) : res evo :=
  match d_scl d with
  | None => Ok e
  | Some r =>
      let sc := r_obj_scale r in
      g <- omap (obj_grad_2_init (r_scale r) sc) (e_dmu e) ;;
      sg <- omap (obj_grad_2_init (r_scale r) sc) (e_dsig e) ;;
      h <- omap (obj_hess_2_init (r_scale r) sc) (e_d2mu e) ;;
      sh <- omap (fun x => omap (obj_hess_2_init (r_scale r) sc) x) (e_d2sig e) ;;   (* NaN stays NaN *)
      Ok (mkevo (obj_val_2_init (r_obj_shift r) sc (e_mu e)) (obj_std_2_init sc (e_sig e)) g sg h sh)
  end.

(** l.59-198 [eval_model] once the check of the hyperparameters (l.105-111, see Model/Object.v) has passed;
    [hp] is self.hp_vals, [su] what the last setup_eval_model stored *)
Definition eval_model (o : gpopt) (d : gpdata) (hp : hpv) (su : surr) (x2in : mat) (calc_grad calc_hess : bool) : res evo :=
  cf <- match k_chofac (su_K su) with Some c => Ok c | None => Err EAssert end ;;
  inv <- match su_inv su with Some v => Ok v | None => Err EType end ;;
  varK <- need (hp_varK hp) ;;
  let sigK := sqrt varK in
  x2 <- match d_scl d with Some r => x_init_2_scl (r_shift r) (r_scale r) x2in | None => Ok x2in end ;;
  _ <- (if calc_hess then assert_ calc_grad else Ok tt) ;;
  KK <- eval_blocks o d hp x2 calc_grad ;;
  let '(Kyx, dKo) := KK in
  d2K <- (if calc_hess then T <- eval_hess o d hp x2 ;; Ok (Some T) else Ok None) ;;
  S <- cho_solve_mat cf Kyx ;;
  let Kinv := mtrans S in
  beta <- need_beta (hp_beta hp) ;;
  m <- eval_mean_fun o x2 beta None None calc_grad calc_hess ;;
  let '(bv, bg, bh) := m in
  s2 <- one_minus_quad Kyx Kinv ;;
  ok <- vmin_nonneg s2 ;;
  _ <- assert_ ok ;;
  let sig := vmap (fun t => sqrt t * sigK) (vmap (fun t => if Rlt_dec t 0 then 0 else t) s2) in
  t <- mdotv (mtrans Kyx) inv ;;
  mu <- vzip Rplus bv t ;;
  g <- (if calc_grad then
          match dKo, bg with
          | Some dK, Some B =>
              a <- calc_dmudx (o_dim o) dK inv ;; dmu <- madd a B ;;
              ds <- calc_dsigdx (o_dim o) (vlen inv) sig Kinv dK sigK ;; Ok (Some (dmu, ds, dK))
          | _, _ => Err EType
          end
        else Ok None) ;;
  h <- match d2K, g with
       | Some T, Some (_, ds, dK) =>
           match bh with
           | Some BH => a <- calc_d2mudx2 o d T inv ;; d2mu <- tadd_same a BH ;;
                        d2s <- calc_d2sigdx2 o d cf sig ds Kinv dK T sigK ;; Ok (Some (d2mu, d2s))
           | None => Err EType
           end
       | _, _ => Ok None
       end ;;
  data_scl_2_init d (mkevo mu sig (option_map (fun x => fst (fst x)) g) (option_map (fun x => snd (fst x)) g)
                           (option_map fst h) (option_map snd h)).

(** l.200-317 [eval_model_var] under the same conditions: variance and its gradient *)
Definition eval_model_var (o : gpopt) (d : gpdata) (hp : hpv) (su : surr) (x2 : mat) (calc_grad calc_hess : bool) : res (vec * option mat) :=
  varK <- need (hp_varK hp) ;;
  _ <- match d_scl d with Some _ => Err EExc | None => Ok tt end ;;
  _ <- (if calc_hess then assert_ calc_grad else Ok tt) ;;
  KK <- eval_blocks o d hp x2 calc_grad ;;
  let '(Kyx, dKo) := KK in
  _ <- (if calc_hess then T <- eval_hess o d hp x2 ;; Ok tt else Ok tt) ;;
  cf <- match k_chofac (su_K su) with Some c => Ok c | None => Err EType end ;;
  S <- cho_solve_mat cf Kyx ;;
  let Kinv := mtrans S in
  beta <- need_beta (hp_beta hp) ;;
  m <- eval_mean_fun o x2 beta None None calc_grad calc_hess ;;
  s2 <- one_minus_quad Kyx Kinv ;;
  let sig2 := vmap (Rmult varK) s2 in
  ok <- vmin_nonneg sig2 ;;
  _ <- assert_ ok ;;
  g <- (if calc_grad then
          match dKo, su_inv su with
          | Some dK, Some inv => G <- calc_dsig2dx (o_dim o) (vlen inv) Kinv dK varK ;; Ok (Some G)
          | _, _ => Err EType
          end
        else Ok None) ;;
  _ <- (if calc_hess then Err EExc else Ok tt) ;;
  Ok (sig2, g).
