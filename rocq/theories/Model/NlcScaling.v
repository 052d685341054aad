(** * Model of the scaling of nonlinear-constraint data: class RescalingNonlincon, gpgradpy/src/base/Rescaling.py
    l.254-355, and set_nlc_data, l.488-518.

    The object is the record [resc] of Model/Rescaling.v (which keeps only the flag _nlc_data_set) together with the
    fields nlc_*.  Simplifications: arrays are given with the right number of axes (values: points by constraints,
    gradients: points by constraints by coordinates), so the checks on ndim pass; the Hessians (four axes:
    points, constraints, coordinates, coordinates) are a list with one tensor (points by coordinates by coordinates) for
    each constraint, converted by separate functions; a scale given by the user is a number. *)
From Coq Require Import Reals List Arith Bool.
From Verif.Base Require Import NpLite.
From Verif.Model Require Import KernelSqExp CommonFun Rescaling.
Import ListNotations.
Local Open Scope R_scope.

Record nlcdata := mknlc { nl_val : mat; nl_std : option mat; nl_grad : option ten; nl_stdg : option ten }.
(** l.385-419: nlc_shift and nlc_scale are NaN until they are set, which happens in the call that sets the data *)
Record nresc := mknr { n_r : resc; n_dat : option nlcdata; n_shift : vec; n_scale : R; n_scl : option nlcdata }.

(** l.256-282 [nlc_init_2_scl], first four results *)
Definition nlc_val_2_scl (sh : vec) (sc : R) (A : mat) : res mat := T <- msub A (rowmat sh) ;; Ok (mmap (fun v => v * sc) T).
Definition nlc_std_2_scl (sc : R) (A : mat) : mat := mmap (fun v => v * sc) A.
Definition nlc_grad_2_scl (scale : vec) (sc : R) (T : ten) : res ten := tmul_last T (vmap (fun s => 1 / s * sc) scale).
Definition nlc_init_2_scl (scale sh : vec) (sc : R) (o : nlcdata) : res nlcdata :=
  v <- nlc_val_2_scl sh sc (nl_val o) ;;
  s <- match nl_std o with Some s0 => Ok (nlc_std_2_scl sc s0) | None => Err EType end ;;     (* None * float *)
  g <- omap (nlc_grad_2_scl scale sc) (nl_grad o) ;;
  sg <- omap (nlc_grad_2_scl scale sc) (nl_stdg o) ;;
  Ok (mknlc v (Some s) g sg).
(** l.278-280, the Hessians of [nlc_init_2_scl]: normz_xvec_scale_inv**2 has three axes and is broadcast along the last one *)
Fixpoint rmap {A B} (f : A -> res B) (l : list A) : res (list B) :=
  match l with [] => Ok [] | a :: l' => b <- f a ;; bs <- rmap f l' ;; Ok (b :: bs) end.
Definition nlc_hess_2_scl (scale : vec) (sc : R) (H : list ten) : res (list ten) :=
  rmap (fun T => tmul_last T (vmap (fun s => (1 / s) ^ 2 * sc) scale)) H.
(** l.296, 309-310, the Hessians of [nlc_scl_2_init] *)
Definition nlc_hess_2_init (scale : vec) (sc : R) (H : list ten) : res (list ten) :=
  rmap (fun T => tmul_last T (vmap (fun s => s ^ 2 / sc) scale)) H.
(** l.284-312 [nlc_scl_2_init], first four results; mu_scl is optional in the signature but l.293 reads its ndim *)
Definition nlc_val_2_init (sh : vec) (sc : R) (A : mat) : res mat := madd (mmap (fun v => v / sc) A) (rowmat sh).
Definition nlc_std_2_init (sc : R) (A : mat) : mat := mmap (fun v => v / sc) A.
Definition nlc_grad_2_init (scale : vec) (sc : R) (T : ten) : res ten := tmul_last T (vmap (fun s => s / sc) scale).
Definition nlc_scl_2_init (scale sh : vec) (sc : R) (v s : option mat) (g sg : option ten)
  : res (mat * option mat * option ten * option ten) :=
  match v with
  | None => Err EAttr
  | Some v =>
      v' <- nlc_val_2_init sh sc v ;;
      g' <- omap (nlc_grad_2_init scale sc) g ;;
      sg' <- omap (nlc_grad_2_init scale sc) sg ;;
      Ok (v', option_map (nlc_std_2_init sc) s, g', sg')
  end.
(** l.332-348 [_calc_nlc_scaling] *)
Definition calc_nlc_scaling (r : resc) (use_shift : bool) (m : nlcmtd) (A : mat) : res (vec * R) :=
  sh <- (if use_shift then if r_best r <? nr A then Ok (mkvec (nc A) (fun j => mat_at A (r_best r) j)) else Err EIndex
         else Ok (vconst (nc A) 0)) ;;
  sc <- (if nr (r_x r) =? 1 then Ok 1 else
         match m with
         | Nnone => Ok 1
         | Nobj_scl => _ <- assert_ (match r_obj r with Some _ => true | None => false end) ;; Ok (r_obj_scale r)
         | Ndflt_max => Err EExc
         end) ;;
  Ok (sh, sc).
(** l.488-508 [set_nlc_data] with its call of [set_nlc_scaling]; [set_nlc_data] of Model/Rescaling.v does the checks
    and sets the flag *)
Definition set_nlc (n : nresc) (o : nlcdata) (use_shift : bool) (m : nlcmtd) : res nresc :=
  r <- Rescaling.set_nlc_data (n_r n) (nr (nl_val o)) m ;;
  ss <- calc_nlc_scaling r use_shift m (nl_val o) ;;
  let '(sh, sc) := ss in
  os <- nlc_init_2_scl (r_scale r) sh sc o ;;
  Ok (mknr r (Some o) sh sc (Some os)).
(** l.314-330 [set_nlc_scaling] called by the user *)
Definition set_nlc_scaling (n : nresc) (shift : option vec) (scale : option R) : res nresc :=
  match n_dat n with
  | None => Err EAssert
  | Some o =>
      let sh := match shift with Some v => v | None => n_shift n end in
      let sc := match scale with Some v => v | None => n_scale n end in
      os <- nlc_init_2_scl (r_scale (n_r n)) sh sc o ;;
      Ok (mknr (n_r n) (Some o) sh sc (Some os))
  end.
(** l.510-512 [get_init_nlc_data], [get_scl_nlc_data] *)
Definition get_init_nlc_data (n : nresc) : res nlcdata := match n_dat n with Some o => Ok o | None => Err EAssert end.
Definition get_scl_nlc_data (n : nresc) : res nlcdata :=
  match n_dat n with Some _ => match n_scl n with Some o => Ok o | None => Err EAttr end | None => Err EAssert end.
