(** * Model of gpgradpy/src/base/Rescaling.py.
    The object is the record [resc]; methods that mutate it return the new record.
    The nonlinear-constraint data and its scaling formulas (l.254-355) are in Model/NlcScaling.v; what is kept here is
    the flag [_nlc_data_set] and the two calls [set_xscale_data] makes when it is set (l.60-61, 69-70),
    whose targets do not exist in the class. *)
From Coq Require Import Reals List Arith Bool.
From Verif.Base Require Import NpLite.
From Verif.Model Require Import KernelSqExp CommonFun.
Import ListNotations.
Local Open Scope R_scope.

(** l.373 [x_scl_method_avail] *)
Inductive xmtd := Xnone | Xvmin | Xvmax.
Record objdata := mkobj { ob_val : vec; ob_std : option vec; ob_grad : option mat; ob_stdg : option mat }.
Record resc := mkresc {
  r_x : mat; r_best : nat; r_use_shift : bool; r_mtd : xmtd; r_dist : option R;
  r_shift : vec; r_scale : vec; r_xscl : mat; r_Rt : ten;
  r_obj : option objdata; r_obj_shift : R; r_obj_scale : R; r_obj_scl : option objdata;
  r_nlc : bool;
  r_box : option (vec * vec); r_box_scl : option (vec * vec);
  r_lin : option (mat * vec * vec); r_lin_scl : option (mat * vec * vec) }.
Definition tol_min_range_obj : R := / 10 ^ 20.
Definition tol_min_dist_x : R := / 10 ^ 14.
Definition vmin_dflt : R := 1.
Definition vmax_dflt : R := 1.
Definition rangeobj_max_dflt : R := 100.

(** [v[None,:]] *)
Definition rowmat (v : vec) : mat := mkmat 1 (vlen v) (fun _ j => vat v j).

(** l.23-29, l.31-37 for one point and for a matrix of points *)
Definition x_init_2_scl_v (shift scale x : vec) : res vec := t <- vzip Rminus x shift ;; vzip Rmult t scale.
Definition x_init_2_scl (shift scale : vec) (X : mat) : res mat :=
  T <- msub X (rowmat shift) ;; mmul T (rowmat scale).
Definition x_scl_2_init_v (shift scale x : vec) : res vec := t <- vzip Rdiv x scale ;; vzip Rplus t shift.
Definition x_scl_2_init (shift scale : vec) (X : mat) : res mat :=
  T <- mzip Rdiv X (rowmat scale) ;; madd T (rowmat shift).
(** l.39-43 *)
Definition vec_mean (v : vec) : R := vsum v / INR (vlen v).
Definition dist_init_2_scl (scale : vec) (t : R) : R := t * vec_mean scale.
Definition dist_scl_2_init (scale : vec) (t : R) : R := t / vec_mean scale.

(** l.117-125 [_calc_x2_isoscaling]; distance NaN (single point) does not occur: the caller handles
    n_eval = 1 *)
Definition isoscaling (X : mat) (set_dist : R) (set_vmin : bool) : res R :=
  if set_vmin then
    m <- calc_dist_min X ;;
    match m with Some m => Ok (set_dist / Rmax tol_min_dist_x m) | None => Err EType end
  else
    m <- calc_dist_max X ;;
    match m with Some m => Ok (set_dist / m) | None => Err EType end.

Definition vpositive (v : vec) : bool := forallb (fun i => if Rlt_dec 0 (vat v i) then true else false) (seq 0 (vlen v)).

(** l.72-115 [_calc_x_shift_n_scale].  A given [x_shift_in] reaches [x_shift_in.dim], an attribute
    numpy arrays do not have. *)
Definition calc_x_shift_n_scale (X : mat) (best : nat) (use_shift : bool) (m : xmtd) (dist : option R)
  (shift_in scale_in : option vec) : res (vec * vec) :=
  let dim := nc X in
  shift <- match shift_in with
    | None => if use_shift then
                (if best <? nr X then Ok (mkvec dim (fun i => mat_at X best i)) else Err EIndex)
              else Ok (vconst dim 0)
    | Some v => _ <- assert_ (vlen v =? dim) ;; Err EAttr
    end ;;
  sin <- match scale_in with
    | None => Ok (vconst dim 1)
    | Some v => _ <- assert_ (vlen v =? dim) ;; _ <- assert_ (vpositive v) ;; Ok v
    end ;;
  X1 <- x_init_2_scl shift sin X ;;
  coeff <- (if nr X =? 1 then Ok 1 else
    match m with
    | Xnone => Ok 1
    | Xvmin => isoscaling X1 (match dist with Some v => v | None => vmin_dflt end) true
    | Xvmax => isoscaling X1 (match dist with Some v => v | None => vmax_dflt end) false
    end) ;;
  Ok (shift, vmap (fun s => s * coeff) sin).

(** l.134-183 [obj_init_2_scl] / [obj_scl_2_init]: value, standard deviation, gradient rows, and the
    Hessian with its last axis scaled (broadcast of a row vector) *)
Definition omap {A B} (f : A -> res B) (o : option A) : res (option B) :=
  match o with None => Ok None | Some a => b <- f a ;; Ok (Some b) end.
Definition scl_grad_vec (scale : vec) (osc : R) : vec := vmap (fun s => 1 / s * osc) scale.
Definition scl_hess_vec (scale : vec) (osc : R) : vec := vmap (fun s => (1 / s) ^ 2 * osc) scale.
Definition tmul_last (T : ten) (v : vec) : res ten :=
  if (vlen v =? tc T) then Ok (mkten (td T) (tr T) (tc T) (fun k i j => tat T k i j * vat v j)) else Err EShape.
Definition obj_val_2_scl (osh osc : R) (v : vec) : vec := vmap (fun f => (f - osh) * osc) v.
Definition obj_std_2_scl (osc : R) (v : vec) : vec := vmap (fun s => s * osc) v.
Definition obj_grad_2_scl (scale : vec) (osc : R) (G : mat) : res mat := mmul G (rowmat (scl_grad_vec scale osc)).
Definition obj_hess_2_scl (scale : vec) (osc : R) (H : ten) : res ten := tmul_last H (scl_hess_vec scale osc).
Definition obj_val_2_init (osh osc : R) (v : vec) : vec := vmap (fun f => f / osc + osh) v.
Definition obj_std_2_init (osc : R) (v : vec) : vec := vmap (fun s => s / osc) v.
Definition obj_grad_2_init (scale : vec) (osc : R) (G : mat) : res mat := mmul G (rowmat (vmap (fun s => s / osc) scale)).
Definition obj_hess_2_init (scale : vec) (osc : R) (H : ten) : res ten := tmul_last H (vmap (fun s => s ^ 2 / osc) scale).

(** l.216-221 [_calc_n_set_scl_obj] *)
Definition scl_objdata (scale : vec) (osh osc : R) (o : objdata) : res objdata :=
  g <- omap (obj_grad_2_scl scale osc) (ob_grad o) ;;
  sg <- omap (obj_grad_2_scl scale osc) (ob_stdg o) ;;
  Ok (mkobj (obj_val_2_scl osh osc (ob_val o)) (option_map (obj_std_2_scl osc) (ob_std o)) g sg).
(** l.226-233 *)
Definition boxcon_init_2_scl (shift scale lb ub : vec) : res (vec * vec) :=
  l <- vzip Rminus lb shift ;; l <- vzip Rmult scale l ;;
  u <- vzip Rminus ub shift ;; u <- vzip Rmult scale u ;; Ok (l, u).
(** l.240-248 *)
Definition lincon_init_2_scl (shift scale : vec) (A : mat) (lb ub : vec) : res (mat * vec * vec) :=
  As <- mmul A (rowmat (vmap (fun s => 1 / s) scale)) ;;
  Ash <- mdotv A shift ;;
  l <- vzip Rminus lb Ash ;; u <- vzip Rminus ub Ash ;; Ok (As, l, u).

(** l.44-70 [set_xscale_data] *)
Definition set_xscale_data (r : resc) (shift_in scale_in : option vec) : res resc :=
  ss <- calc_x_shift_n_scale (r_x r) (r_best r) (r_use_shift r) (r_mtd r) (r_dist r) shift_in scale_in ;;
  let '(shift, scale) := ss in
  xs <- x_init_2_scl shift scale (r_x r) ;;
  Rt <- calc_Rtensor xs xs ;;
  os <- match r_obj r with
    | None => Ok (r_obj_scl r)
    | Some o => s <- scl_objdata scale (r_obj_shift r) (r_obj_scale r) o ;; Ok (Some s) end ;;
  _ <- (if r_nlc r then Err EAttr else Ok tt) ;;
  bs <- match r_box r with
    | None => Ok (r_box_scl r)
    | Some (l, u) => b <- boxcon_init_2_scl shift scale l u ;; Ok (Some b) end ;;
  ls <- match r_lin r with
    | None => Ok (r_lin_scl r)
    | Some (A, l, u) => b <- lincon_init_2_scl shift scale A l u ;; Ok (Some b) end ;;
  Ok (mkresc (r_x r) (r_best r) (r_use_shift r) (r_mtd r) (r_dist r) shift scale xs Rt
        (r_obj r) (r_obj_shift r) (r_obj_scale r) os (r_nlc r) (r_box r) bs (r_lin r) ls).

(** l.427-448 [__init__] *)
Definition rescaling_init (X : mat) (best : option nat) (use_shift : bool) (m : xmtd) (dist : option R) : res resc :=
  let idx := match best with Some i => i | None => (nr X - 1)%nat end in
  set_xscale_data (mkresc X idx use_shift m dist (vconst 0 0) (vconst 0 0) X (tconst 0 0 0 0)
     None 0 1 None false None None None None) None None.

(** l.199-214 [_calc_obj_scaling] (obj_scl_method 'dflt_max' or None) *)
Definition vmaxmin (v : vec) : res (R * R) :=
  M <- lmax (map (vat v) (seq 0 (vlen v))) ;; m <- lmin (map (vat v) (seq 0 (vlen v))) ;; Ok (M, m).
Definition calc_obj_scaling (best : nat) (use_shift : bool) (dflt_max : bool) (v : vec) : res (R * R) :=
  sh <- (if use_shift then vget v best else Ok 0) ;;
  sc <- (if (vlen v =? 1) || negb dflt_max then Ok 1 else
           Mm <- vmaxmin v ;; Ok (rangeobj_max_dflt / Rmax tol_min_range_obj (fst Mm - snd Mm))) ;;
  Ok (sh, sc).
(** l.459-478 [set_obj_data] (its call of [set_obj_scaling], l.185-197, inlined) *)
Definition set_obj_data (r : resc) (o : objdata) (use_shift dflt_max : bool) : res resc :=
  _ <- assert_ (nr (r_x r) =? vlen (ob_val o)) ;;
  ss <- calc_obj_scaling (r_best r) use_shift dflt_max (ob_val o) ;;
  let '(sh, sc) := ss in
  os <- scl_objdata (r_scale r) sh sc o ;;
  Ok (mkresc (r_x r) (r_best r) (r_use_shift r) (r_mtd r) (r_dist r) (r_shift r) (r_scale r) (r_xscl r) (r_Rt r)
        (Some o) sh sc (Some os) (r_nlc r) (r_box r) (r_box_scl r) (r_lin r) (r_lin_scl r)).
(** l.185-197 [set_obj_scaling] called by the user *)
Definition set_obj_scaling (r : resc) (shift scale : option R) : res resc :=
  match r_obj r with
  | None => Err EAssert
  | Some o =>
    let sh := match shift with Some v => v | None => r_obj_shift r end in
    let sc := match scale with Some v => v | None => r_obj_scale r end in
    os <- scl_objdata (r_scale r) sh sc o ;;
    Ok (mkresc (r_x r) (r_best r) (r_use_shift r) (r_mtd r) (r_dist r) (r_shift r) (r_scale r) (r_xscl r) (r_Rt r)
          (Some o) sh sc (Some os) (r_nlc r) (r_box r) (r_box_scl r) (r_lin r) (r_lin_scl r))
  end.
(** l.488-508 [set_nlc_data], reduced to its checks and the flag; [avail] says whether the requested
    method is in nlc_scl_method_avail = ['obj_scl', None].  The default argument is 'dflt_max', which is
    not in that list. *)
Inductive nlcmtd := Nobj_scl | Nnone | Ndflt_max.
Definition nlc_dflt : nlcmtd := Ndflt_max.
Definition set_nlc_data (r : resc) (n_eval : nat) (m : nlcmtd) : res resc :=
  _ <- assert_ (n_eval =? nr (r_x r)) ;;
  _ <- assert_ (match m with Ndflt_max => false | _ => true end) ;;
  _ <- match m with
    | Nobj_scl => if nr (r_x r) =? 1 then Ok tt else
                    assert_ (match r_obj r with Some _ => true | None => false end)
    | _ => Ok tt end ;;
  Ok (mkresc (r_x r) (r_best r) (r_use_shift r) (r_mtd r) (r_dist r) (r_shift r) (r_scale r) (r_xscl r) (r_Rt r)
        (r_obj r) (r_obj_shift r) (r_obj_scale r) (r_obj_scl r) true (r_box r) (r_box_scl r) (r_lin r) (r_lin_scl r)).
(** l.520-529 [set_boxcon], l.539-549 [set_lincon] *)
Definition set_boxcon (r : resc) (lb ub : vec) : res resc :=
  b <- boxcon_init_2_scl (r_shift r) (r_scale r) lb ub ;;
  Ok (mkresc (r_x r) (r_best r) (r_use_shift r) (r_mtd r) (r_dist r) (r_shift r) (r_scale r) (r_xscl r) (r_Rt r)
        (r_obj r) (r_obj_shift r) (r_obj_scale r) (r_obj_scl r) (r_nlc r) (Some (lb, ub)) (Some b) (r_lin r) (r_lin_scl r)).
Definition set_lincon (r : resc) (A : mat) (lb ub : vec) : res resc :=
  b <- lincon_init_2_scl (r_shift r) (r_scale r) A lb ub ;;
  Ok (mkresc (r_x r) (r_best r) (r_use_shift r) (r_mtd r) (r_dist r) (r_shift r) (r_scale r) (r_xscl r) (r_Rt r)
        (r_obj r) (r_obj_shift r) (r_obj_scale r) (r_obj_scl r) (r_nlc r) (r_box r) (r_box_scl r) (Some (A, lb, ub)) (Some b)).
