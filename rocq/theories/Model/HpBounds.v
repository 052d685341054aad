(** * Model of [get_hp_bounds], gpgradpy/src/optz/GpHparaCon.py l.16-131: bounds for the optimisation of the
    hyperparameters, a public method that the library itself does not call.

    As in Model/StartPts.v a float is [fl] (None is NaN) and np.log10 of a number that is not positive is an error
    (the code continues with -inf or NaN).  The message printed for infeasible bounds (l.118-122) and the
    scipy Bounds object built from the two returned arrays (l.128) are left out. *)
From Coq Require Import Reals List Arith Bool.
From Verif.Base Require Import NpLite.
From Verif.Spec Require Import KernelSpec.
From Verif.Model Require Import KernelSqExp CommonFun WellCond Rescaling GpState HpInfo Lkd OptzLkd History StartPts.
Import ListNotations.
Local Open Scope R_scope.

(** np.log10, 10**x, sums and products of floats *)
Definition flog10 (x : fl) : res fl := if log_ok x then Ok (option_map log10 x) else Err EExc.
Definition fpow10 (x : fl) : fl := option_map pow10 x.
Definition fadd (a b : fl) : fl := match a, b with Some x, Some y => Some (x + y) | _, _ => None end.
Definition fsub (a b : fl) : fl := match a, b with Some x, Some y => Some (x - y) | _, _ => None end.
Definition flog_pair (rg : fl * fl) : res (fl * fl) := a <- flog10 (fst rg) ;; b <- flog10 (snd rg) ;; Ok (a, b).
(** l.41-53 [calc_hp_range], always called with use_log10 = True *)
Definition calc_hp_range (frac : R) (rg : fl * fl) (hp_old_in : fl) : fl * fl :=
  let hp_old := fminf (fmaxf hp_old_in (fst rg)) (snd rg) in
  let len := fmulf (fsub (snd rg) (fst rg)) frac in
  let mn := fmaxf (fst rg) (fsub hp_old len) in
  let mx := fminf (snd rg) (fadd hp_old len) in
  (fpow10 mn, fpow10 mx).
(** the pair (para_min, para_max); para_min[idx] = lo, para_max[idx] = hi *)
Definition set_pair (idx : list nat) (lh : fl * fl) (p : fvec * fvec) : res (fvec * fvec) :=
  a <- fputs (fst p) idx 0 (fun _ => fst lh) ;; b <- fputs (snd p) idx 0 (fun _ => snd lh) ;; Ok (a, b).
(** l.87-88, l.98-99, l.110-111: the interval around the median of one column *)
Definition near_column (frac : R) (rg : fl * fl) (h : hist) (rows : list nat) (c : col) : res (fl * fl) :=
  m <- flog10 (col_median h rows c) ;; lr <- flog_pair rg ;; Ok (calc_hp_range frac lr m).
(** l.71-72: the median of the logarithms of all length scales of the rows used *)
Definition theta_entries (h : hist) (rows : list nat) : list fl := flat_map (fun r => map (h_tab h Ttheta r) (seq 0 (h_w h Ttheta))) rows.
Definition near_theta (frac : R) (rg : fl * fl) (h : hist) (rows : list nat) : res (fl * fl) :=
  l <- rmap flog10 (theta_entries h rows) ;; lr <- flog_pair rg ;; Ok (calc_hp_range frac lr (np_median l)).
Definition no_nan (v : fvec) : bool := forallb (fun j => match fv_at v j with Some _ => true | None => false end) (seq 0 (fv_len v)).

(** l.67-113, with [cstr] and the index [i] as after l.56-65; [const_n] is hp_const_n_eval *)
Definition bound_pairs (xo : x0opt) (const_n : nat) (info : hpinfo) (h : hist) (cstr : bool) (i : nat) (frac : R) : res (fvec * fvec) :=
  let rows := rows_used h (xo_n_idx xo) i in
  let late := (const_n + 1 <? i)%nat in
  let nan := mkfv (hi_n info) (fun _ => None) in
  let p := (nan, nan) in
  p <- match hi_theta info with
       | Some idx => lh <- (if cstr then near_theta frac (xo_theta xo) h rows else Ok (xo_theta xo)) ;; set_pair idx lh p
       | None => Ok p end ;;
  p <- match hi_kernel info with Some idx => set_pair idx (xo_kernel xo) p | None => Ok p end ;;
  p <- match hi_varK info with
       | Some j => lh <- (if cstr && late then near_column frac (xo_varK xo) h rows QvarK else Ok (xo_varK xo)) ;; set_pair [j] lh p
       | None => Ok p end ;;
  p <- match hi_var_fval info with
       | Some j => lh <- (if cstr && late then near_column frac (xo_vf xo) h rows Qvar_fval else Ok (xo_vf xo)) ;; set_pair [j] lh p
       | None => Ok p end ;;
  match hi_var_fgrad info with
  | Some j => lh <- (if cstr then near_column frac (xo_vg xo) h rows Qvar_fgrad else Ok (xo_vg xo)) ;; set_pair [j] lh p
  | None => Ok p end.
(** l.16-133 [get_hp_bounds] *)
Definition get_hp_bounds (xo : x0opt) (const_n : nat) (info : hpinfo) (h : hist) (cstr : bool) (i_optz : option nat) (frac : R) : res (fvec * fvec) :=
  let cstr := match i_optz with Some O => false | _ => cstr end in
  i <- (if cstr then _ <- assert_ (rltb 0 frac && rltb frac 1) ;; match i_optz with Some i => Ok i | None => Err EType end else Ok 0%nat) ;;
  p <- bound_pairs xo const_n info h cstr i frac ;;
  _ <- assert_ (no_nan (fst p)) ;;
  _ <- assert_ (no_nan (snd p)) ;;
  a <- log_at (hi_log info) (fst p) ;;
  b <- log_at (hi_log info) (snd p) ;;
  Ok (a, b).
