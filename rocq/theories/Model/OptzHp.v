(** * Model of GpHparaOptz.optz_hp (gpgradpy/src/optz/GpHparaOptz.py l.140-184) and of
    OptzLkd.optz_hp_max_lkd_mtd_rescale (gpgradpy/src/optz/OptzLkd.py l.116-186) on the object. *)
From Coq Require Import Reals List Arith Bool.
From Verif.Base Require Import NpLite.
From Verif.Spec Require Import KernelSpec.
From Verif.Model Require Import KernelSqExp KernelMatern KernelRatQuad KernelDispatch CommonFun WellCond Rescaling GpState Chol Cov HpInfo HpGrad MeanFun Lkd OptzLkd RescaleLoop History StartPts.
Import ListNotations.
Local Open Scope R_scope.

Definition with_data (s : gpobj) (d : gpdata) : gpobj := mkobj (g_opt s) (g_lk s) d (g_info s) (g_last s) (g_store s).
(** GaussianProcess.py l.63 hp_const_n_eval, l.111-113 cond_vreq_max_iter and cond_vreq_iter_tol, l.69-73 initial
    values; StartPts.x0opt for the start points *)
Record optzcfg := mkcfg { c_const_n : nat; c_max_iter : nat; c_tol : R; c_init : hpinit; c_x0 : x0opt }.
Definition cfg_default (k : kernel) : optzcfg := mkcfg 1 vreq_max_iter_dflt vreq_iter_tol_dflt hpinit_default (xo_default k).
(** minimize in the [n]-th call of optz_hp_max_lkd: it also gets the bounds *)
Definition minimiser := nat -> fvec * fvec -> vec -> optimiser.

(** OptzLkd.py l.152-171, the while loop, as RescaleLoop.resc_loop but with the real optimiser and the object passed
    along: best_hp and cond_val are those of the last optimisation.  DataScl does not change in the loop. *)
Fixpoint resc_obj (la : npla) (mini : nat -> vec -> optimiser) (k cnt : nat) (tol : R) (xs : mat) (sc : vec) (s : gpobj) (th best : vec) (cond : option R)
  : gpobj * res (list trip * vec * option R) :=
  match k with
  | O => (s, Err EIndex)
  | S k' =>
      match rescaling_data_w_theta_sol (o_dim (g_opt s)) (lk_log_theta (g_lk s)) xs sc th (/ 10 ^ 15) with
      | Err e => (s, Err e)
      | Ok t =>
          if (k' =? 0)%nat || (if Rlt_dec (tr_dist t) tol then true else false) then (s, Ok ([t], best, cond))
          else
            let (s1, r1) := optz_hp_max_lkd la (mini cnt) s [put_theta (o_dim (g_opt s)) best (tr_theta t)] in
            match r1 with
            | Err e => (s1, Err e)
            | Ok (best', cond', _) =>
                let (s2, r2) := resc_obj la mini k' (S cnt) tol xs sc s1 (tr_theta t) best' cond' in
                (s2, x <- r2 ;; let '(l, b, c) := x in Ok (t :: l, b, c))
            end
      end
  end.
(** l.116-186 *)
Definition optz_hp_max_lkd_mtd_rescale (la : npla) (mini : nat -> vec -> optimiser) (max_iter : nat) (tol : R) (s : gpobj) (x0s : list vec)
  : gpobj * res (vec * option R * optzinfo) :=
  if is_rescale (o_well (g_opt s)) then
    let (s1, r1) := optz_hp_max_lkd la (mini 0%nat) s x0s in
    match r1 with
    | Err e => (s1, Err e)
    | Ok (best, cond, inf) =>
        if (1 <? d_n_eval (g_data s1))%nat then
          match d_scl (g_data s1) with
          | None => (s1, Err EAttr)
          | Some r =>
              let dim := o_dim (g_opt s1) in
              let (s2, r2) := resc_obj la mini max_iter 1 tol (r_xscl r) (r_scale r) s1 (get_theta dim best) best cond in
              match (x <- r2 ;; let '(l, b, c) := x in t <- pick_min l ;; d' <- rescale_data (g_data s2) (tr_scale t) ;; Ok (t, d', b, c)) with
              | Err e => (s2, Err e)
              | Ok (t, d', b, c) => (with_data s2 d', Ok (put_theta dim b (tr_theta t), c, inf))
              end
          end
        else (s1, Ok (best, cond, inf))
    end
  else (s, Err EAssert).

(** GpHparaOptz.py l.140-185 [optz_hp] up to the call of store_new_para_surr: the hyperparameters, the condition
    number and the report that are stored (times are left out; plotting is off by default).  [h] is the history,
    which get_hp_x0_lhs_median reads; a start point with a NaN is not followed (StartPts.row_real). *)
Definition optz_hp (la : npla) (lhs : sampler) (mini : minimiser) (c : optzcfg) (h : hist) (i : nat) (s : gpobj)
  : gpobj * res (hpv * option R * option optzinfo) :=
  if (d_n_eval (g_data s) <=? c_const_n c)%nat then
    (s, hp <- get_init_hp_vals (g_opt s) (g_data s) (c_init c) ;;
        k <- calc_all_K_w_chofac (g_opt s) (g_data s) (la_cond la) (snd (get_scl_x_w_dist (g_data s))) hp None false true None false ;;
        Ok (hp, k_cond k, None))
  else
    match (p <- select_hp_optz_x0 la lhs (g_opt s) (g_data s) (g_lk s) (c_x0 c) (g_info s) h i ;; x <- rmap row_real (fst p) ;; Ok (x, snd p)) with
    | Err e => (s, Err e)
    | Ok (x0s, bnd) =>
        let m := fun n => mini n bnd in
        let (s1, r1) :=
          if is_rescale (o_well (g_opt s)) && (1 <? c_max_iter c)%nat
          then optz_hp_max_lkd_mtd_rescale la m (c_max_iter c) (c_tol c) s x0s
          else optz_hp_max_lkd la (m 0%nat) s x0s in
        (s1, r <- r1 ;;
             let '(best, cond, inf) := r in
             hp <- hp_vec2dataclass (g_data s1) (g_info s1) best ;;
             hp' <- optz_closed_form_hp la (g_opt s1) (g_data s1) (g_lk s1) (g_info s1) hp ;;
             Ok (hp', cond, Some inf))
    end.
