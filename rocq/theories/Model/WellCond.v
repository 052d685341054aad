(** * Model of gpgradpy/src/base/GpWellCond.py *)
From Coq Require Import Reals List Arith Bool.
From Verif.Base Require Import NpLite.
From Verif.Spec Require Import KernelSpec.
From Verif.Model Require Import CommonFun.
Local Open Scope R_scope.

(** GaussianProcess.py l.84-89 [wellcond_mtd_avail] *)
Inductive wmtd := Wbase | Wprecon | Wresc_origin | Wresc_vary | Wdflt_vmin | Wdflt_vmax.
(** GaussianProcess.py l.92-96: the documented values of [cond_eta_set_mtd], and any other string *)
Inductive emtd := EKbase | EKbase_w_dim | Edflt | Eother.
Definition is_rescale (w : wmtd) : bool := match w with Wresc_origin | Wresc_vary => true | _ => false end.
Definition uses_scl (w : wmtd) : bool := match w with Wbase | Wprecon => false | _ => true end.

(** l.26-40 [calc_mtd_rescale_origin_vreq] *)
Definition calc_vreq (n_eval dim : nat) : R :=
  if n_eval =? 1 then 1
  else
    let dist_star := 2 * sqrt (INR dim) in
    let sqrt_term := sqrt (4 + 2 * exp 2 * ln ((INR n_eval - 1) * (1 + dist_star) / 2)) in
    Rmin ((2 + sqrt_term) / exp 1) dist_star.

(** options of the object that the nugget depends on *)
Record ncfg := mkncfg { nc_dim : nat; nc_use_grad : bool; nc_kernel : kernel; nc_well : wmtd;
  nc_eta_mtd : emtd; nc_eta_dflt : R; nc_target : R }.

(** l.109-114 *)
Definition calc_nugget_Kbase (n_eval : nat) (cond_max : R) : R := INR n_eval / (cond_max - 1).
(** l.78-99 [calc_nugget_Kfull_vreq]; [vmin] None is computed *)
Definition rleb (a b : R) : bool := if Rle_dec a b then true else false.
Definition calc_nugget_Kfull_vreq (c : ncfg) (n_eval : nat) (vmin : option R) : res R :=
  let v := match vmin with Some v => v | None => calc_vreq n_eval (nc_dim c) end in
  let cond_max := nc_target c in
  if n_eval =? 1 then Ok (INR n_eval / (cond_max - 1))
  else
    _ <- assert_ (rleb (sqrt 2) v) ;;
    let v_frac := 2 * sqrt (INR (nc_dim c)) / v in
    let u := 1 + (INR n_eval - 1) * v_frac * exp (1 / v_frac - 1) in
    let eta_Kgrad := u / (cond_max - 1) in
    let eta_Kbase := calc_nugget_Kbase n_eval cond_max in
    _ <- assert_ (rleb (99 / 100) v_frac) ;;
    _ <- assert_ (rleb (99 / 100 * eta_Kbase) eta_Kgrad) ;;
    Ok eta_Kgrad.

(** l.128-140: the bound on the sum of the off-diagonal blocks *)
Definition precon_ub (k : kernel) (n_eval dim : nat) : R :=
  let d := INR dim in
  match k with
  | SqExp | RatQu =>
      5 / 10 * (INR n_eval - 1) * (1 + sqrt (1 + 4 * d)) * exp (- (1 + 2 * d - sqrt (1 + 4 * d)) / (4 * d))
  | Ma5f2 =>
      let alpha := (sqrt (3 * d) - 1 + sqrt (15 * d + 2 * sqrt (3 * d) + 1)) / (2 * (3 * d + sqrt (3 * d))) in
      (INR n_eval - 1) * (1 + (d + sqrt (3 * d)) * alpha + d * (1 + sqrt (3 * d)) * alpha ^ 2)
        * exp (- sqrt (3 * d) * alpha)
  end.
(** l.116-154 [calc_nugget]: (eta_Kbase, eta_Kgrad); NaN is [None] *)
Definition calc_nugget (c : ncfg) (n_eval : nat) : res (R * option R) :=
  match nc_eta_mtd c with
  | Edflt => Ok (nc_eta_dflt c, Some (nc_eta_dflt c))
  | _ =>
      let eta_Kbase := calc_nugget_Kbase n_eval (nc_target c) in
      if nc_use_grad c then
        if n_eval =? 1 then Ok (eta_Kbase, Some eta_Kbase)
        else match nc_well c with
        | Wprecon =>
            Ok (eta_Kbase, Some ((1 + precon_ub (nc_kernel c) n_eval (nc_dim c)) / (nc_target c - 1)))
        | w =>
            if is_rescale w then e <- calc_nugget_Kfull_vreq c n_eval None ;; Ok (eta_Kbase, Some e)
            else match nc_eta_mtd c with
            | EKbase => Ok (eta_Kbase, Some eta_Kbase)
            | EKbase_w_dim => Ok (eta_Kbase, Some (eta_Kbase * (INR (nc_dim c) + 1)))
            | Edflt => Ok (eta_Kbase, Some (nc_eta_dflt c))
            | Eother => Err EExc
            end
        end
      else Ok (eta_Kbase, None)
  end.

(** l.42-76 [rescaling_data_w_theta_sol].  [th] is the argument [hp_theta]: log10(theta) when
    [log_hp] (self.optz_log_hp_theta), else theta.  Returns (theta_out, dist2th_star, xvec_scale_new). *)
Definition pow10 (x : R) : R := exp (x * ln 10).
Definition log10 (x : R) : R := ln x / ln 10.
Definition vmean (v : vec) : R := vsum v / INR (vlen v).
Definition rescaling_data_w_theta_sol (dim : nat) (log_hp : bool) (X1 : mat) (sc1 th : vec) (tol : R)
  : res (vec * R * vec) :=
  let n_eval := nr X1 in
  _ <- assert_ (1 <? n_eval) ;;
  let theta_sol := if log_hp then vmap pow10 th else th in
  let log_theta_sol := if log_hp then th else vmap log10 th in
  let vreq := calc_vreq n_eval dim in
  let theta_star := pow10 (vmean log_theta_sol) in
  let sc2 := vmap (fun t => sqrt (t / theta_star)) theta_sol in
  X2 <- mmul X1 (mkmat 1 (vlen sc2) (fun _ j => vat sc2 j)) ;;
  m <- calc_dist_min X2 ;;
  m2 <- match m with Some m => Ok (Rmax m tol) | None => Err EType end ;;  (* None: unreachable, n_eval > 1 *)
  let correction := vreq / m2 in
  sc12 <- vzip Rmult sc1 sc2 ;;
  let sc_new := vmap (fun s => s * correction) sc12 in
  dd <- vdot log_theta_sol log_theta_sol ;;
  d1 <- vdot log_theta_sol (vconst dim 1) ;;
  let dist2 := dd - d1 ^ 2 / INR dim in
  let est := vconst dim (theta_star / correction ^ 2) in
  Ok (if log_hp then vmap log10 est else est, dist2, sc_new).
