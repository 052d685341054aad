(** * set_data as a sequence of assignments (gpgradpy/src/GaussianProcess.py l.219-363): what the object holds
    after a call that raises.

    Model/GpState.v gives the attributes after a call of set_data that returns.  The code checks and assigns in
    turns, so that a rejected call leaves some attributes of the new data and some of the old.  Here every
    assignment to an attribute is one function on the data part of the object, in the order of the code.
    Simplifications: an object whose first set_data is rejected is still one without data (its array attributes
    are None, every later use raises); when DataScl has been replaced but has refused the values (l.361), which
    makes every later use raise as well, the object is also one without data; l.338 [_vmin_init] is not an
    attribute of the model, it is computed from the points where it is used. *)
From Coq Require Import Reals List Arith Bool.
From Verif.Base Require Import NpLite.
From Verif.Spec Require Import KernelSpec.
From Verif.Model Require Import KernelSqExp KernelMatern KernelRatQuad KernelDispatch CommonFun WellCond Rescaling GpState.
Import ListNotations.
Local Open Scope R_scope.

(** l.260-262 *)
Definition w_sizes (ne ng nd : nat) (d : gpdata) : gpdata :=
  mkdata ne ng nd (d_x d) (d_fval d) (d_std_fval d) (d_grad d) (d_std_grad d) (d_bvec d) (d_known_fval d) (d_known_fgrad d)
    (d_opt_fval d) (d_opt_fgrad d) (d_fval_zero d) (d_fgrad_zero d) (d_noisy d) (d_eta_Kbase d) (d_eta_Kgrad d) (d_etaK d) (d_scl d) (d_Rt d).
(** l.270, l.272 *)
Definition w_known_f (b : bool) (d : gpdata) : gpdata :=
  mkdata (d_n_eval d) (d_n_grad d) (d_n_data d) (d_x d) (d_fval d) (d_std_fval d) (d_grad d) (d_std_grad d) (d_bvec d) b (d_known_fgrad d)
    (d_opt_fval d) (d_opt_fgrad d) (d_fval_zero d) (d_fgrad_zero d) (d_noisy d) (d_eta_Kbase d) (d_eta_Kgrad d) (d_etaK d) (d_scl d) (d_Rt d).
(** l.279, l.288, l.290 *)
Definition w_known_g (b : bool) (d : gpdata) : gpdata :=
  mkdata (d_n_eval d) (d_n_grad d) (d_n_data d) (d_x d) (d_fval d) (d_std_fval d) (d_grad d) (d_std_grad d) (d_bvec d) (d_known_fval d) b
    (d_opt_fval d) (d_opt_fgrad d) (d_fval_zero d) (d_fgrad_zero d) (d_noisy d) (d_eta_Kbase d) (d_eta_Kgrad d) (d_etaK d) (d_scl d) (d_Rt d).
(** l.296-302 *)
Definition w_arrays (x : mat) (f : vec) (sf : option vec) (g : option mat) (sg : option mat) (b : option (list bool)) (d : gpdata) : gpdata :=
  mkdata (d_n_eval d) (d_n_grad d) (d_n_data d) x f sf g sg b (d_known_fval d) (d_known_fgrad d)
    (d_opt_fval d) (d_opt_fgrad d) (d_fval_zero d) (d_fgrad_zero d) (d_noisy d) (d_eta_Kbase d) (d_eta_Kgrad d) (d_etaK d) (d_scl d) (d_Rt d).
(** l.307, l.310 *)
Definition w_opt_f (b : bool) (d : gpdata) : gpdata :=
  mkdata (d_n_eval d) (d_n_grad d) (d_n_data d) (d_x d) (d_fval d) (d_std_fval d) (d_grad d) (d_std_grad d) (d_bvec d) (d_known_fval d) (d_known_fgrad d)
    b (d_opt_fgrad d) (d_fval_zero d) (d_fgrad_zero d) (d_noisy d) (d_eta_Kbase d) (d_eta_Kgrad d) (d_etaK d) (d_scl d) (d_Rt d).
(** l.308, l.311 *)
Definition w_zero_f (b : bool) (d : gpdata) : gpdata :=
  mkdata (d_n_eval d) (d_n_grad d) (d_n_data d) (d_x d) (d_fval d) (d_std_fval d) (d_grad d) (d_std_grad d) (d_bvec d) (d_known_fval d) (d_known_fgrad d)
    (d_opt_fval d) (d_opt_fgrad d) b (d_fgrad_zero d) (d_noisy d) (d_eta_Kbase d) (d_eta_Kgrad d) (d_etaK d) (d_scl d) (d_Rt d).
(** l.314, l.317, l.320 *)
Definition w_opt_g (b : bool) (d : gpdata) : gpdata :=
  mkdata (d_n_eval d) (d_n_grad d) (d_n_data d) (d_x d) (d_fval d) (d_std_fval d) (d_grad d) (d_std_grad d) (d_bvec d) (d_known_fval d) (d_known_fgrad d)
    (d_opt_fval d) b (d_fval_zero d) (d_fgrad_zero d) (d_noisy d) (d_eta_Kbase d) (d_eta_Kgrad d) (d_etaK d) (d_scl d) (d_Rt d).
(** l.315, l.318, l.321 *)
Definition w_zero_g (b : bool) (d : gpdata) : gpdata :=
  mkdata (d_n_eval d) (d_n_grad d) (d_n_data d) (d_x d) (d_fval d) (d_std_fval d) (d_grad d) (d_std_grad d) (d_bvec d) (d_known_fval d) (d_known_fgrad d)
    (d_opt_fval d) (d_opt_fgrad d) (d_fval_zero d) b (d_noisy d) (d_eta_Kbase d) (d_eta_Kgrad d) (d_etaK d) (d_scl d) (d_Rt d).
(** l.323-326 *)
Definition w_noisy (d : gpdata) : gpdata :=
  mkdata (d_n_eval d) (d_n_grad d) (d_n_data d) (d_x d) (d_fval d) (d_std_fval d) (d_grad d) (d_std_grad d) (d_bvec d) (d_known_fval d) (d_known_fgrad d)
    (d_opt_fval d) (d_opt_fgrad d) (d_fval_zero d) (d_fgrad_zero d) (negb (d_fval_zero d && d_fgrad_zero d)) (d_eta_Kbase d) (d_eta_Kgrad d) (d_etaK d) (d_scl d) (d_Rt d).
(** l.331-332 *)
Definition w_eta (b : R) (g : option R) (e : option R) (d : gpdata) : gpdata :=
  mkdata (d_n_eval d) (d_n_grad d) (d_n_data d) (d_x d) (d_fval d) (d_std_fval d) (d_grad d) (d_std_grad d) (d_bvec d) (d_known_fval d) (d_known_fgrad d)
    (d_opt_fval d) (d_opt_fgrad d) (d_fval_zero d) (d_fgrad_zero d) (d_noisy d) b g e (d_scl d) (d_Rt d).
(** l.360-363 *)
Definition w_scl (r : option resc) (Rt : ten) (d : gpdata) : gpdata :=
  mkdata (d_n_eval d) (d_n_grad d) (d_n_data d) (d_x d) (d_fval d) (d_std_fval d) (d_grad d) (d_std_grad d) (d_bvec d) (d_known_fval d) (d_known_fgrad d)
    (d_opt_fval d) (d_opt_fgrad d) (d_fval_zero d) (d_fgrad_zero d) (d_noisy d) (d_eta_Kbase d) (d_eta_Kgrad d) (d_etaK d) r Rt.

(** a statement: the data part of the object after it (None: unusable), and whether it raised *)
Definition dm := gpdata -> option gpdata * res unit.
Definition dseq (a : dm) (b : dm) : dm := fun d => match a d with (Some d', Ok _) => b d' | r => r end.
Definition dput (f : gpdata -> gpdata) : dm := fun d => (Some (f d), Ok tt).
Definition dassert (b : bool) : dm := fun d => (Some d, assert_ b).
(** an expression: its value goes to the rest, an exception leaves the object as it is *)
Definition dlet {A} (e : res A) (k : A -> dm) : dm := fun d => match e with Ok a => k a d | Err x => (Some d, Err x) end.

(** l.244-258: the number of gradients, before anything is assigned *)
Definition count_grads (o : gpopt) (fval : vec) (grad : option mat) (bvec : option (list bool)) : res nat :=
  if o_use_grad o then
    match bvec with
    | None => Ok (vlen fval)
    | Some b =>
        _ <- assert_ (length b =? vlen fval) ;;
        match grad with
        | None => Err EAttr
        | Some G => _ <- assert_ (nr G =? count_true b) ;; Ok (count_true b)
        end
    end
  else _ <- assert_ (match bvec with None => true | _ => false end) ;; Ok 0%nat.

(** l.260-292: sizes, flags and checks *)
Definition set_data_checks (o : gpopt) (fval : vec) (std_fval : stdarg vec) (grad : option mat) (std_grad : stdarg mat) (ng : nat) : dm :=
  let ne := vlen fval in
  dseq (dput (w_sizes ne ng (ne + ng * o_dim o))) (
  dseq (match std_fval with
        | SdOk s => dseq (dput (w_known_f true)) (dassert (ne =? vlen s))
        | _ => dput (w_known_f false) end)
       (match grad with
        | None => dseq (dassert (negb (o_use_grad o))) (dput (w_known_g false))
        | Some G =>
            dseq (dassert (o_use_grad o)) (dseq (dassert ((nr G =? ng) && (nc G =? o_dim o)))
              (match std_grad with
               | SdOk sg => dseq (dput (w_known_g true)) (dassert ((nr G =? nr sg) && (nc G =? nc sg)))
               | _ => dput (w_known_g false) end))
        end)).
Definition sd_val {A} (a : stdarg A) : option A := match a with SdOk v => Some v | _ => None end.
(** l.296-332: the arrays, the noise flags and the nugget *)
Definition set_data_store (o : gpopt) (x : mat) (fval : vec) (std_fval : stdarg vec) (grad : option mat) (std_grad : stdarg mat) (bvec : option (list bool)) : dm :=
  let sf := sd_val std_fval in
  let sg := match grad with Some _ => sd_val std_grad | None => None end in
  dseq (dput (w_arrays x fval sf grad sg bvec)) (
  dseq (match sf with
        | Some s => dseq (dput (w_opt_f false)) (dlet (vmax_lt s (/ 10 ^ 10)) (fun b => dput (w_zero_f b)))
        | None => dseq (dput (w_opt_f true)) (dput (w_zero_f false)) end) (
  dseq (if o_use_grad o then
          match sg with
          | Some s => dseq (dput (w_opt_g false)) (dlet (mmax_lt s (/ 10 ^ 10)) (fun b => dput (w_zero_g b)))
          | None => dseq (dput (w_opt_g true)) (dput (w_zero_g false)) end
        else dseq (dput (w_opt_g false)) (dput (w_zero_g true))) (
  dseq (dput w_noisy)
       (dlet (calc_nugget (o_ncfg o) (vlen fval)) (fun eta => dput (w_eta (fst eta) (snd eta) (if o_use_grad o then snd eta else Some (fst eta)))))))).
(** l.340 [setup_hp_idx4optz] comes between these two parts (Model/Session.v).
    l.342-363: the scaling or the distances *)
Definition set_data_scale (o : gpopt) (x : mat) (fval : vec) (std_fval : stdarg vec) (grad : option mat) (std_grad : stdarg mat) : dm :=
  if o_use_scl o then
    dlet (match o_well o with
          | Wresc_origin => Ok (Xvmin, calc_vreq (vlen fval) (o_dim o))
          | Wresc_vary => Ok (Xvmin, o_vmin_vary o)
          | Wdflt_vmin => Ok (Xvmin, o_dist_min o)
          | Wdflt_vmax => Ok (Xvmax, o_dist_max o)
          | _ => Err EExc end) (fun md =>
    dlet (rescaling_init x None true (fst md) (Some (snd md))) (fun r d =>
      match set_obj_data r (mkobj fval (match std_fval with SdNone => None | SdNan s | SdOk s => Some s end) grad
                              (match std_grad with SdNone => None | SdNan s | SdOk s => Some s end)) true true with
      | Ok r' => dput (w_scl (Some r') (r_Rt r')) d
      | Err e => (None, Err e)
      end))
  else dlet (calc_Rtensor x x) (fun Rt => dput (w_scl None Rt)).
(** l.219-363; the distance computation of l.338 can raise *)
Definition set_data_head (o : gpopt) (x : mat) (fval : vec) (std_fval : stdarg vec) (grad : option mat) (std_grad : stdarg mat) (bvec : option (list bool)) : dm :=
  dlet (count_grads o fval grad bvec) (fun ng =>
  dseq (set_data_checks o fval std_fval grad std_grad ng) (
  dseq (set_data_store o x fval std_fval grad std_grad bvec)
       (dlet (calc_dist_min x) (fun _ d => (Some d, Ok tt))))).
Definition set_data_run (o : gpopt) (x : mat) (fval : vec) (std_fval : stdarg vec) (grad : option mat) (std_grad : stdarg mat) (bvec : option (list bool)) : dm :=
  dseq (set_data_head o x fval std_fval grad std_grad bvec) (set_data_scale o x fval std_fval grad std_grad).

(** the call on an object that may have no data yet *)
Definition set_data_on (o : gpopt) (old : option gpdata) (x : mat) (fval : vec) (std_fval : stdarg vec) (grad : option mat) (std_grad : stdarg mat) (bvec : option (list bool))
  : option gpdata * res unit :=
  match old with
  | Some d => set_data_run o x fval std_fval grad std_grad bvec d
  | None => match set_data o x fval std_fval grad std_grad bvec with Ok d => (Some d, Ok tt) | Err e => (None, Err e) end
  end.
(** the same up to l.338 *)
Definition set_data_head_on (o : gpopt) (old : option gpdata) (x : mat) (fval : vec) (std_fval : stdarg vec) (grad : option mat) (std_grad : stdarg mat) (bvec : option (list bool))
  : option gpdata * res unit :=
  match old with
  | Some d => set_data_head o x fval std_fval grad std_grad bvec d
  | None => (None, match set_data o x fval std_fval grad std_grad bvec with Ok _ => Ok tt | Err e => Err e end)
  end.
