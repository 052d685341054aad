(** * Model of gpgradpy/src/optz/GpHparaGrad.py: derivatives of the (regularised) kernel matrix and of
    the covariance matrix with respect to the optimised hyperparameters. *)
From Coq Require Import Reals List Arith Bool.
From Verif.Base Require Import NpLite.
From Verif.Spec Require Import KernelSpec.
From Verif.Model Require Import KernelSqExp KernelMatern KernelRatQuad KernelDispatch CommonFun WellCond Rescaling GpState Chol Cov HpInfo.
Import ListNotations.
Local Open Scope R_scope.

(** T[idx,:,:] = S for an index array and a rank-3 S with one slice per index *)
Definition tset_idx (T : ten) (idx : list nat) (S : ten) : res ten :=
  _ <- (if td S =? length idx then Ok tt else Err EShape) ;;
  for_range 0 (length idx) (fun j T => A <- tget S j ;; tput T (nth j idx 0%nat) A) T.
Definition tscal (c : R) (T : ten) : ten := tmap (Rmult c) T.

(** l.13-56 [calc_KernGrad_hp]; [etaK] None is self._etaK *)
Definition calc_KernGrad_hp (o : gpopt) (d : gpdata) (info : hpinfo) (hp : hpv) (Rt : ten) (etaK : option R) : res ten :=
  _ <- assert_ (negb (has (hi_varK info))) ;;
  _ <- assert_ (negb (has (hi_var_fval info))) ;;
  _ <- assert_ (negb (has (hi_var_fgrad info))) ;;
  let T := tconst (hi_n info) (d_n_data d) (d_n_data d) 0 in
  T <- match hi_theta info with
    | None => Ok T
    | Some idx =>
        S <- calc_Kern_grad_theta (o_use_grad o) (o_kernel o) Rt (hp_theta hp) (hp_kernel hp) (d_bvec d) ;;
        T <- tset_idx T idx S ;;
        match o_well o with
        | Wprecon =>
            eta <- (match etaK with Some e => Ok e | None => need (d_etaK d) end) ;;
            p <- calc_Kern_precon_vec (o_kernel o) (d_n_eval d) (d_n_grad d) (hp_theta hp) ;;
            let '(pvec, _, gp) := p in
            let gamma_vec := mkmat (vlen pvec - d_n_eval d) 1 (fun i _ => vat pvec (d_n_eval d + i)%nat) in   (* pvec[n_eval:][:,None] *)
            g2 <- mmul (mscal (2 * eta) gamma_vec) (mslice gp (d_n_eval d) (nr gp) 0 (nc gp)) ;;
            for_range 0 (o_dim o) (fun i T =>
              k <- (if i <? length idx then Ok (nth i idx 0%nat) else Err EIndex) ;;
              col <- (if i <? nc g2 then Ok (mkvec (nr g2) (fun r => mat_at g2 r i)) else Err EIndex) ;;
              tadd_at T k (d_n_eval d) (tr T) (d_n_eval d) (tc T) (mdiag col)) T
        | _ => Ok T
        end
    end ;;
  match hi_kernel info with
  | None => Ok T
  | Some idx =>
      S <- calc_Kern_grad_alpha (o_use_grad o) (o_kernel o) Rt (hp_theta hp) (hp_kernel hp) (d_bvec d) ;;
      tset_idx T idx S
  end.

(** l.100-111 [calc_Kcov_grad_theta] and l.113-126 [calc_Kcov_grad_alpha] share this tail: every slice
    gets eta times its diagonal added on the preconditioned path *)
Definition add_eta_diag (o : gpopt) (d : gpdata) (n : nat) (T : ten) : res ten :=
  match o_well o with
  | Wprecon =>
      eta <- need (d_etaK d) ;;
      for_range 0 n (fun i T =>
        A <- tget T i ;;
        A' <- miadd A (mscal eta (mdiag (diagv A))) ;;
        tput T i A') T
  | _ => Ok T
  end.
(** [varK] is hp_vals.varK: calc_Kcov_grad_hp has asserted that it is not None *)
Definition calc_Kcov_grad_theta (o : gpopt) (d : gpdata) (hp : hpv) (Rt : ten) : res ten :=
  varK <- need (hp_varK hp) ;;
  S <- calc_Kern_grad_theta (o_use_grad o) (o_kernel o) Rt (hp_theta hp) (hp_kernel hp) (d_bvec d) ;;
  add_eta_diag o d (o_dim o) (tscal varK S).
Definition calc_Kcov_grad_alpha (o : gpopt) (d : gpdata) (hp : hpv) (Rt : ten) : res ten :=
  varK <- need (hp_varK hp) ;;
  S <- calc_Kern_grad_alpha (o_use_grad o) (o_kernel o) Rt (hp_theta hp) (hp_kernel hp) (d_bvec d) ;;
  add_eta_diag o d (td S) (tscal varK S).
(** l.128-137 [calc_Kcov_grad_varK] *)
Definition calc_Kcov_grad_varK (o : gpopt) (d : gpdata) (Kern : mat) : res mat :=
  eta <- need (d_etaK d) ;;
  match o_well o with
  | Wprecon => madd Kern (mscal eta (mdiag (diagv Kern)))
  | _ => madd Kern (mscal eta (meye (nr Kern)))
  end.
(** l.139-146 and l.148-155 [calc_Kcov_grad_var_fval], [calc_Kcov_grad_var_fgrad] *)
Definition var_scalar (o : gpopt) (d : gpdata) : res R :=
  match o_well o with Wprecon => eta <- need (d_etaK d) ;; Ok (1 + eta) | _ => Ok 1 end.
Definition calc_Kcov_grad_var_fval (o : gpopt) (d : gpdata) : res mat :=
  s <- var_scalar o d ;;
  Ok (mscal s (mdiag (vcat (vconst (d_n_eval d) 1) (vconst (d_n_grad d * o_dim o) 0)))).
Definition calc_Kcov_grad_var_fgrad (o : gpopt) (d : gpdata) : res mat :=
  s <- var_scalar o d ;;
  Ok (mscal s (mdiag (vcat (vconst (d_n_eval d) 0) (vconst (d_n_grad d * o_dim o) 1)))).

(** l.58-98 [calc_Kcov_grad_hp] *)
Definition calc_Kcov_grad_hp (o : gpopt) (d : gpdata) (info : hpinfo) (hp : hpv) (Kern : mat) (Rt : ten) : res ten :=
  _ <- assert_ (has (hp_varK hp)) ;;
  let T := tconst (hi_n info) (d_n_data d) (d_n_data d) 0 in
  T <- match hi_theta info with
       | Some idx => S <- calc_Kcov_grad_theta o d hp Rt ;; tset_idx T idx S | None => Ok T end ;;
  T <- match hi_kernel info with
       | Some idx => S <- calc_Kcov_grad_alpha o d hp Rt ;; tset_idx T idx S | None => Ok T end ;;
  T <- match hi_varK info with
       | Some i => A <- calc_Kcov_grad_varK o d Kern ;; tput T i A | None => Ok T end ;;
  T <- match hi_var_fval info with
       | Some i => A <- calc_Kcov_grad_var_fval o d ;; tput T i A | None => Ok T end ;;
  match hi_var_fgrad info with
  | Some i => A <- calc_Kcov_grad_var_fgrad o d ;; tput T i A | None => Ok T end.
