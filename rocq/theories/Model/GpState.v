(** * Model of the state of a GaussianProcess object and of set_data, set_wellcond_mtd and the data
    accessors (gpgradpy/src/GaussianProcess.py).  Timers, printing and file options are left out. *)
From Coq Require Import Reals List Arith Bool.
From Verif.Base Require Import NpLite.
From Verif.Spec Require Import KernelSpec.
From Verif.Model Require Import KernelSqExp KernelMatern KernelRatQuad KernelDispatch CommonFun WellCond Rescaling.
Import ListNotations.
Local Open Scope R_scope.

(** GpHpara.py l.12-19 [HparaOptzVal]: fields are None when not set *)
Record hpv := mkhp { hp_beta : option vec; hp_theta : vec; hp_kernel : option R; hp_varK : option R;
                     hp_var_fval : option R; hp_var_fgrad : option R }.

(** class and instance options *)
Record gpopt := mkopt {
  o_dim : nat; o_use_grad : bool; o_kernel : kernel; o_well : wmtd;
  o_eta_mtd : emtd; o_eta_const : bool; o_eta_dflt : R;
  o_target : R; o_cond_max : R; o_cond_max_abs : R; o_dist_min : R; o_dist_max : R; o_vmin_vary : R }.
Definition o_use_scl (o : gpopt) : bool := uses_scl (o_well o).
Definition o_ncfg (o : gpopt) : ncfg :=
  mkncfg (o_dim o) (o_use_grad o) (o_kernel o) (o_well o) (o_eta_mtd o) (o_eta_dflt o) (o_target o).

(** l.192-217 [set_wellcond_mtd]: without gradients the method is 'base'; 'rescale_eta_vary' switches
    the constant nugget off *)
Definition set_wellcond_mtd (o : gpopt) (w : wmtd) : gpopt :=
  mkopt (o_dim o) (o_use_grad o) (o_kernel o) (if o_use_grad o then w else Wbase)
    (o_eta_mtd o) (match w with Wresc_vary => false | _ => o_eta_const o end) (o_eta_dflt o)
    (o_target o) (o_cond_max o) (o_cond_max_abs o) (o_dist_min o) (o_dist_max o) (o_vmin_vary o).
(** l.69-123 class defaults and l.138-190 [__init__] *)
Definition gp_init (dim : nat) (use_grad : bool) (k : kernel) (w : wmtd) : gpopt :=
  set_wellcond_mtd (mkopt dim use_grad k w EKbase true (/ 10 ^ 8) (10 ^ 10) (10 ^ 10) (10 ^ 16) 1 1 1) w.

(** the data part of the object, as set by set_data *)
Record gpdata := mkdata {
  d_n_eval : nat; d_n_grad : nat; d_n_data : nat;
  d_x : mat; d_fval : vec; d_std_fval : option vec; d_grad : option mat; d_std_grad : option mat;
  d_bvec : option (list bool);
  d_known_fval : bool; d_known_fgrad : bool;
  d_opt_fval : bool; d_opt_fgrad : bool; d_fval_zero : bool; d_fgrad_zero : bool; d_noisy : bool;
  d_eta_Kbase : R; d_eta_Kgrad : option R; d_etaK : option R;
  d_scl : option resc; d_Rt : ten }.

(** a float array argument that may contain NaN: [sd_nan] *)
Inductive stdarg (A : Type) := SdNone | SdNan (a : A) | SdOk (a : A).
Arguments SdNone {A}. Arguments SdNan {A} a. Arguments SdOk {A} a.

Definition vmax_lt (v : vec) (t : R) : res bool :=
  m <- lmax (map (vat v) (seq 0 (vlen v))) ;; Ok (if Rlt_dec m t then true else false).
Definition mmax_lt (A : mat) (t : R) : res bool :=
  m <- lmax (flat_map (fun i => map (mat_at A i) (seq 0 (nc A))) (seq 0 (nr A))) ;; Ok (if Rlt_dec m t then true else false).

(** l.219-363 [set_data].  [x_eval], [grad], [std_grad] are 2-d, [fval], [std_fval] 1-d (the ndim
    assertions hold by typing).  The checks appear in the order of the code. *)
Definition set_data (o : gpopt) (x : mat) (fval : vec) (std_fval : stdarg vec)
  (grad : option mat) (std_grad : stdarg mat) (bvec : option (list bool)) : res gpdata :=
  let n_eval := vlen fval in
  n_grad <- (if o_use_grad o then
      match bvec with
      | None => Ok n_eval
      | Some b =>
          let g := count_true b in
          _ <- assert_ (length b =? n_eval) ;;
          match grad with
          | None => Err EAttr
          | Some G => _ <- assert_ (nr G =? g) ;; Ok g
          end
      end
    else _ <- assert_ (match bvec with None => true | _ => false end) ;; Ok 0%nat) ;;
  let n_data := (n_eval + n_grad * o_dim o)%nat in
  std_f <- match std_fval with
    | SdOk s => _ <- assert_ (n_eval =? vlen s) ;; Ok (Some s)
    | _ => Ok None end ;;
  std_g <- match grad with
    | None => _ <- assert_ (negb (o_use_grad o)) ;; Ok None
    | Some G =>
        _ <- assert_ (o_use_grad o) ;;
        _ <- assert_ ((nr G =? n_grad) && (nc G =? o_dim o)) ;;
        match std_grad with
        | SdOk sg => _ <- assert_ ((nr G =? nr sg) && (nc G =? nc sg)) ;; Ok (Some sg)
        | _ => Ok None
        end
    end ;;
  let known_f := match std_f with Some _ => true | None => false end in
  let known_g := match std_g with Some _ => true | None => false end in
  fval_zero <- match std_f with Some s => vmax_lt s (/ 10 ^ 10) | None => Ok false end ;;
  fgrad_zero <- (if o_use_grad o then match std_g with Some sg => mmax_lt sg (/ 10 ^ 10) | None => Ok false end
                 else Ok true) ;;
  let opt_g := if o_use_grad o then negb known_g else false in
  eta <- calc_nugget (o_ncfg o) n_eval ;;
  let etaK := if o_use_grad o then snd eta else Some (fst eta) in
  _ <- calc_dist_min x ;;
  scl <- (if o_use_scl o then
      mt_dist <- match o_well o with
        | Wresc_origin => Ok (Xvmin, calc_vreq n_eval (o_dim o))
        | Wresc_vary => Ok (Xvmin, o_vmin_vary o)
        | Wdflt_vmin => Ok (Xvmin, o_dist_min o)
        | Wdflt_vmax => Ok (Xvmax, o_dist_max o)
        | _ => Err EExc
        end ;;
      r <- rescaling_init x None true (fst mt_dist) (Some (snd mt_dist)) ;;
      r <- set_obj_data r (mkobj fval (match std_fval with SdNone => None | SdNan s | SdOk s => Some s end) grad
                             (match std_grad with SdNone => None | SdNan s | SdOk s => Some s end)) true true ;;
      Ok (Some r)
    else Ok None) ;;
  Rt <- match scl with None => calc_Rtensor x x | Some r => Ok (r_Rt r) end ;;
  Ok (mkdata n_eval n_grad n_data x fval std_f grad std_g bvec known_f known_g
        (negb known_f) opt_g fval_zero fgrad_zero (negb (fval_zero && fgrad_zero))
        (fst eta) (snd eta) etaK scl Rt).

(** l.399-404 [get_scl_x_w_dist] *)
Definition get_scl_x_w_dist (d : gpdata) : mat * ten :=
  match d_scl d with Some r => (r_xscl r, r_Rt r) | None => (d_x d, d_Rt d) end.
(** l.423-433 [get_scl_eval_data] (with l.436-447 data_init_2_scl) *)
Definition get_scl_eval_data (d : gpdata) : res (vec * option vec * option mat * option mat) :=
  let o := mkobj (d_fval d) (d_std_fval d) (d_grad d) (d_std_grad d) in
  s <- match d_scl d with Some r => scl_objdata (r_scale r) (r_obj_shift r) (r_obj_scale r) o | None => Ok o end ;;
  Ok (ob_val s, (if d_known_fval d then ob_std s else None), ob_grad s, (if d_known_fgrad d then ob_stdg s else None)).

(** OptzLkd.py l.176: self.DataScl.set_xscale_data(xvec_scale_in = ...) changes the scaling object in place, and with
    it the points and distances that get_scl_x_w_dist returns *)
Definition with_scl (d : gpdata) (r : resc) : gpdata :=
  mkdata (d_n_eval d) (d_n_grad d) (d_n_data d) (d_x d) (d_fval d) (d_std_fval d) (d_grad d) (d_std_grad d) (d_bvec d)
    (d_known_fval d) (d_known_fgrad d) (d_opt_fval d) (d_opt_fgrad d) (d_fval_zero d) (d_fgrad_zero d) (d_noisy d)
    (d_eta_Kbase d) (d_eta_Kgrad d) (d_etaK d) (Some r) (r_Rt r).
Definition rescale_data (d : gpdata) (scale : vec) : res gpdata :=
  match d_scl d with
  | None => Err EAttr
  | Some r => r' <- set_xscale_data r None (Some scale) ;; Ok (with_scl d r')
  end.
