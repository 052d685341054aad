(** * Model of gpgradpy/src/optz/GpHparaX0.py: bounds and start points of the hyperparameter optimisation.

    Floats that may be NaN are [fl] (None is NaN); infinities are left out: np.log10 of a number that is not
    positive is an error here (it gives -inf or NaN in the code), and a division by a factor of zero is not
    modelled.  smt's Latin hypercube sampler is an arbitrary function of the limits and the number of points.
    The timing of l.18 and l.61 is left out. *)
From Coq Require Import Reals List Arith Bool.
From Verif.Base Require Import NpLite.
From Verif.Spec Require Import KernelSpec.
From Verif.Model Require Import KernelSqExp KernelMatern KernelRatQuad KernelDispatch CommonFun WellCond Rescaling GpState Chol Cov MeanFun
  HpInfo HpGrad Lkd OptzLkd History.
Import ListNotations.
Local Open Scope R_scope.

(** np.median of a one-dimensional array: NaN when it is empty or contains NaN *)
Fixpoint rinsert (x : R) (l : list R) : list R :=
  match l with [] => [x] | y :: t => if Rle_dec x y then x :: l else y :: rinsert x t end.
Definition rsort (l : list R) : list R := fold_right rinsert [] l.
Fixpoint all_real (l : list fl) : option (list R) :=
  match l with
  | [] => Some []
  | Some x :: t => option_map (cons x) (all_real t)
  | None :: _ => None
  end.
Definition np_median (l : list fl) : fl :=
  match all_real l with
  | None | Some [] => None
  | Some r => let s := rsort r in let n := List.length s in Some ((nth ((n - 1) / 2) s 0 + nth (n / 2) s 0) / 2)
  end.
(** np.maximum, np.minimum, np.max((a, b)), np.min((a, b)): NaN when one of the two is *)
Definition fmaxf (a b : fl) : fl := match a, b with Some x, Some y => Some (Rmax x y) | _, _ => None end.
Definition fminf (a b : fl) : fl := match a, b with Some x, Some y => Some (Rmin x y) | _, _ => None end.
Definition fdivf (a : fl) (b : R) : fl := option_map (fun x => x / b) a.
Definition fmulf (a : fl) (b : R) : fl := option_map (fun x => x * b) a.

(** GaussianProcess.py l.46-79 and l.52-55: the options used here, with their defaults; hp_kernel_range is set by
    Kernel.py l.31, 58, 85 *)
Inductive startmtd := Slhs | Sbest | Sother.
Record x0opt := mkxo { xo_n_idx : nat; xo_lf : R; xo_bf : R; xo_theta : fl * fl; xo_kernel : fl * fl; xo_varK : fl * fl;
  xo_vf : fl * fl; xo_vg : fl * fl; xo_start : startmtd; xo_n_x0 : nat; xo_n_best : nat }.
Definition kernel_range (k : kernel) : fl * fl := match k with RatQu => (Some (/ 10 ^ 3), Some 10) | _ => (None, None) end.
Definition xo_default (k : kernel) : x0opt :=
  mkxo 5 (10 ^ 3) (10 ^ 5) (Some (/ 10 ^ 18), Some (10 ^ 24)) (kernel_range k) (Some (/ 10 ^ 24), Some (10 ^ 14))
    (Some (/ 10 ^ 8), Some (10 ^ 8)) (Some (/ 10 ^ 8), Some (10 ^ 8)) Sbest 5 40.

(** a[idx] = values, for an index list; [f k] is the value for the k-th index *)
Definition fput (v : fvec) (j : nat) (x : fl) : res fvec :=
  if j <? fv_len v then Ok (mkfv (fv_len v) (fun i => if i =? j then x else fv_at v i)) else Err EIndex.
Fixpoint fputs (v : fvec) (idx : list nat) (k : nat) (f : nat -> fl) : res fvec :=
  match idx with
  | [] => Ok v
  | j :: t => v <- fput v j (f k) ;; fputs v t (S k) f
  end.

(** lhs_lb, lhs_ub, box_lb, box_ub *)
Record boxes := mkbx { b_ll : fvec; b_lu : fvec; b_bl : fvec; b_bu : fvec }.
Definition clampf (rg : fl * fl) (m : fl) : fl := fminf (fmaxf m (fst rg)) (snd rg).
(** the six lines repeated for every kind of hyperparameter, e.g. l.87-98; [m k] is the clamped median *)
Definition set_box (xo : x0opt) (rg : fl * fl) (idx : list nat) (m : nat -> fl) (b : boxes) : res boxes :=
  ll <- fputs (b_ll b) idx 0 (fun k => fmaxf (fdivf (m k) (xo_lf xo)) (fst rg)) ;;
  lu <- fputs (b_lu b) idx 0 (fun k => fminf (fmulf (m k) (xo_lf xo)) (snd rg)) ;;
  bl <- fputs (b_bl b) idx 0 (fun k => fmaxf (fdivf (m k) (xo_bf xo)) (fst rg)) ;;
  bu <- fputs (b_bu b) idx 0 (fun k => fminf (fmulf (m k) (xo_bf xo)) (snd rg)) ;;
  Ok (mkbx ll lu bl bu).

(** l.70-72: the rows idx_min, .., idx_max - 1 of the history; a slice stops at the end of the array *)
Definition rows_used (h : hist) (n_idx i : nat) : list nat := seq (i - n_idx) (Nat.min i (h_n h) - (i - n_idx)).
Definition col_median (h : hist) (rows : list nat) (c : col) : fl := np_median (map (h_col h c) rows).
Definition row_median (h : hist) (rows : list nat) (t : tab) (k : nat) : fl := np_median (map (fun r => h_tab h t r k) rows).

(** l.76-149 *)
Definition all_boxes (xo : x0opt) (info : hpinfo) (h : hist) (i : nat) : res boxes :=
  let rows := rows_used h (xo_n_idx xo) i in
  let nan := mkfv (hi_n info) (fun _ => None) in
  let b := mkbx nan nan nan nan in
  b <- match hi_theta info with
       | Some idx => if List.length idx =? h_w h Ttheta then set_box xo (xo_theta xo) idx (fun k => clampf (xo_theta xo) (row_median h rows Ttheta k)) b
                     else Err EShape
       | None => Ok b end ;;
  b <- match hi_kernel info with
       | Some idx => set_box xo (xo_kernel xo) idx (fun _ => clampf (xo_kernel xo) (col_median h rows Qkernel)) b
       | None => Ok b end ;;
  b <- match hi_varK info with
       | Some j => set_box xo (xo_varK xo) [j] (fun _ => clampf (xo_varK xo) (col_median h rows QvarK)) b
       | None => Ok b end ;;
  b <- match hi_var_fval info with
       | Some j => set_box xo (xo_vf xo) [j] (fun _ => clampf (xo_vf xo) (fmaxf (fst (xo_vf xo)) (col_median h rows Qvar_fval))) b
       | None => Ok b end ;;
  match hi_var_fgrad info with
  | Some j => set_box xo (xo_vg xo) [j] (fun _ => clampf (xo_vg xo) (fmaxf (fst (xo_vg xo)) (col_median h rows Qvar_fgrad))) b
  | None => Ok b end.

(** a[bvec] = np.log10(a[bvec]) *)
Definition log_ok (x : fl) : bool := match x with None => true | Some a => rltb 0 a end.
Definition log_at (b : list bool) (v : fvec) : res fvec :=
  if List.length b =? fv_len v then
    if forallb (fun j => negb (nth j b false) || log_ok (fv_at v j)) (seq 0 (fv_len v))
    then Ok (mkfv (fv_len v) (fun j => if nth j b false then option_map log10 (fv_at v j) else fv_at v j))
    else Err EExc
  else Err EIndex.
(** np.any(lb > ub); comparisons with NaN are False *)
Definition any_gt (lb ub : fvec) : bool :=
  existsb (fun j => match fv_at lb j, fv_at ub j with Some a, Some b => rltb b a | _, _ => false end) (seq 0 (fv_len lb)).

(** np.linspace(a, b, n + 2)[1:-1] *)
Definition flin (a b : fl) (n k : nat) : fl :=
  match a, b with Some x, Some y => Some (x + INR (S k) * ((y - x) / INR (n + 1))) | _, _ => None end.

Definition sampler := list (fl * fl) -> nat -> list fvec.
(** l.67-181 [get_hp_x0_lhs_median]: the start points and the bounds *)
Definition get_hp_x0_lhs_median (lhs : sampler) (xo : x0opt) (info : hpinfo) (h : hist) (i n_x0 : nat) : res (list fvec * (fvec * fvec)) :=
  b <- all_boxes xo info h i ;;
  ll <- log_at (hi_log info) (b_ll b) ;;
  lu <- log_at (hi_log info) (b_lu b) ;;
  bl <- log_at (hi_log info) (b_bl b) ;;
  bu <- log_at (hi_log info) (b_bu b) ;;
  _ <- (if any_gt ll lu then Err EExc else Ok tt) ;;
  _ <- (if any_gt bl bu then Err EExc else Ok tt) ;;
  let x0 := if fv_len ll =? 1 then map (fun k => mkfv 1 (fun _ => flin (fv_at ll 0) (fv_at lu 0) n_x0 k)) (seq 0 n_x0)
            else lhs (map (fun j => (fv_at ll j, fv_at lu j)) (seq 0 (fv_len ll))) n_x0 in
  Ok (x0, (bl, bu)).

(** the row as numbers; a start point with NaN is not followed further (EType) *)
Definition row_real (v : fvec) : res vec :=
  match all_real (map (fv_at v) (seq 0 (fv_len v))) with
  | Some l => Ok (mkvec (fv_len v) (fun j => nth j l 0))
  | None => Err EType
  end.
(** l.38-44: likelihood and condition number at one point; NaN when the factorisation failed *)
Definition start_value (la : npla) (o : gpopt) (d : gpdata) (lo : lkopt) (info : hpinfo) (calc_cond : bool) (x0 : fvec) : res (fl * fl) :=
  v <- row_real x0 ;;
  hp <- hp_vec2dataclass d info v ;;
  r <- calc_lkd_all la o d lo info hp calc_cond false (lk_adj lo) ;;
  Ok (if snd r then (l_ln (fst r), l_cond (fst r)) else (None, None)).
Fixpoint rmap {A B} (f : A -> res B) (l : list A) : res (list B) :=
  match l with [] => Ok [] | a :: t => b <- f a ;; r <- rmap f t ;; Ok (b :: r) end.
(** l.46-58: index of the start point chosen among [vals] (likelihood, condition number) *)
Definition too_big (cond_max : R) (c : fl) : bool := match c with Some x => rltb (12 / 10 * cond_max) x | None => false end.
Definition pick_start (calc_cond : bool) (cond_max : R) (vals : list (fl * fl)) : res nat :=
  lns <- (if calc_cond then
            let bad := map (fun p => too_big cond_max (snd p)) vals in
            bad <- (if forallb (fun x => x) bad then i <- nanargmin (map snd vals) ;; Ok (map (fun k => negb (k =? i) && nth k bad false) (seq 0 (List.length bad)))
                    else Ok bad) ;;
            Ok (map (fun k => if nth k bad false then None else fst (nth k vals (None, None))) (seq 0 (List.length vals)))
          else Ok (map fst vals)) ;;
  nanargmin (map (option_map Ropp) lns).                               (* np.nanargmax *)

(** l.16-65 [select_hp_optz_x0] *)
Definition select_hp_optz_x0 (la : npla) (lhs : sampler) (o : gpopt) (d : gpdata) (lo : lkopt) (xo : x0opt) (info : hpinfo) (h : hist) (i : nat)
  : res (list fvec * (fvec * fvec)) :=
  match xo_start xo with
  | Slhs => get_hp_x0_lhs_median lhs xo info h i (xo_n_x0 xo)
  | Sbest =>
      p <- get_hp_x0_lhs_median lhs xo info h i (xo_n_best xo) ;;
      let calc_cond := match o_well o with Wprecon => false | _ => true end in
      vals <- rmap (fun k => match nth_error (fst p) k with Some x => start_value la o d lo info calc_cond x | None => Err EIndex end)
                   (seq 0 (xo_n_best xo)) ;;
      k <- pick_start calc_cond (o_cond_max o) vals ;;
      match nth_error (fst p) k with Some x => Ok ([x], snd p) | None => Err EIndex end
  | Sother => Err EExc
  end.
