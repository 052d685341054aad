(** * Model of the computations in the plotting and post-processing scripts (gpgradpy/plt, gpgradpy/results)

    Modelled: the functions that compute numbers.  Not modelled: drawing (matplotlib), the Latin hypercube of smt,
    reading and writing of files.  Arrays of one dimension are [vec]; a function that acts on every entry of an array
    is given for one entry. *)
From Coq Require Import Reals List Arith Bool.
From Verif.Base Require Import NpLite.
From Verif.Spec Require Import KernelSpec.
From Verif.Model Require Import KernelSqExp KernelMatern KernelRatQuad.
Import ListNotations.
Local Open Scope R_scope.

(** ** plt_kern_corr.py *)
(** l.53-61 [calc_sq_exp_1d_corr] *)
Definition sq_exp_1d_corr (r : R) : R * R * R :=
  let k := exp (-0.5 * r ^ 2) in (k * 1, - r * k, (1 - r ^ 2) * k).
(** l.63-64 [calc_sq_exp_2d_corr]: the body reads the module variables Xrvec, Yrvec, not its arguments *)
Definition sq_exp_2d_corr (Xrvec Yrvec Xrvec_in Yrvec_in : R) : R := - Xrvec * Yrvec * exp (-0.5 * (Xrvec ^ 2 + Yrvec ^ 2)).
(** l.66-75 [calc_Ma5f2_1d_corr] *)
Definition ma5f2_1d_corr (r : R) : R * R * R :=
  let rnorm := Rabs r in
  let A := exp (- sqrt 3 * rnorm) in
  ((1 + sqrt 3 * rnorm + rnorm ^ 2) * A, - r * (1 + sqrt 3 * rnorm) * A, (1 + sqrt 3 * rnorm - 3 * r ^ 2) * A).
(** l.77-84 [calc_rat_qd_corr] *)
Definition rat_qd_corr (alpha r : R) : R * R * R :=
  let base := 1 + r ^ 2 / (2 * alpha) in
  (Rpower base (- alpha), - r * Rpower base (- alpha - 1), Rpower base (- alpha - 1) - r ^ 2 * ((alpha + 1) / alpha) * Rpower base (- alpha - 2)).

(** ** the functions of interest *)
(** plt_cond.py l.54-63, plt_nugget_1d.py l.47-56 [calc_obj]: Rosenbrock; one row of [xy] per point *)
Definition rosen_obj (xy : mat) (a : R) : res vec :=
  o <- for_range 0 (nc xy - 1) (fun d obj => Ok (fun p => obj p + (a * (mat_at xy p (d + 1) - mat_at xy p d ^ 2) ^ 2 + (1 - mat_at xy p d) ^ 2))) (fun _ => 0) ;;
  Ok (mkvec (nr xy) o).
(** plt_cond.py l.65-85, plt_nugget_1d.py l.58-78 [calc_grad]; columns -1 and -2 are [nc xy - 1] and [nc xy - 2] *)
Definition rosen_grad (xy : mat) (a : R) : res mat :=
  if (nc xy <? 2)%nat then Err EIndex (* l.72-73: xy[:,0], xy[:,1] *) else
  let x p d := mat_at xy p d in
  let dim := nc xy in
  let g0 : nat -> nat -> R := fun _ _ => 0 in
  let g1 p d := if (d =? 0)%nat then -2 * (1 - x p 0%nat) - 4 * a * x p 0%nat * (x p 1%nat - x p 0%nat ^ 2) else g0 p d in
  let g2 p d := if (d =? dim - 1)%nat then 2 * a * (x p (dim - 1)%nat - x p (dim - 2)%nat ^ 2) else g1 p d in
  g <- for_range 1 (dim - 1) (fun d g => Ok (fun p e =>
         if (e =? d)%nat then g p e + (-2 * (1 - x p d) - 4 * a * x p d * (x p (d + 1)%nat - x p d ^ 2) + 2 * a * (x p d - x p (d - 1)%nat ^ 2)) else g p e)) g2 ;;
  Ok (mkmat (nr xy) dim g).
(** plt_acq.py l.25-27, plt_surr_1d.py l.57-59 [calc_obj] *)
Definition sin_obj (x : mat) : res vec :=
  if (nc x =? 0)%nat then Err EIndex else Ok (mkvec (nr x) (fun p => sin (mat_at x p 0%nat) + sin (10 * mat_at x p 0%nat / 3.0))).
(** plt_acq.py l.29-33, plt_surr_1d.py l.61-65 [calc_grad] *)
Definition sin_grad (x : mat) : res mat :=
  if (nc x =? 0)%nat then Err EIndex else Ok (mkmat (nr x) 1 (fun p _ => cos (mat_at x p 0%nat) + 10.0 / 3.0 * cos (10 * mat_at x p 0%nat / 3.0))).

(** ** the acquisition functions: plt_acq.py l.37-42, plt_surr_1d.py l.69-74 *)
Definition acq_upper_conf (fmu fsig beta : R) : R := fmu - beta * fsig.
Definition norm_pdf (z : R) : R := exp (- (z ^ 2 / 2)) / sqrt (2 * PI).
(** [cdf] is scipy's norm.cdf.  With fsig = 0 numpy divides by zero: z is +inf or -inf, or NaN when fmu = fval_best;
    norm.cdf(inf) = 1, norm.cdf(-inf) = 0, norm.pdf(inf) = 0, and 0 * 0 is added.  NaN is [None]. *)
Definition acq_exp_improvement (cdf : R -> R) (fmu fsig fval_best : R) : option R :=
  if Req_EM_T fsig 0 then
    if Req_EM_T fval_best fmu then None
    else if Rlt_dec fmu fval_best then Some (- ((fval_best - fmu) * 1 + 0 * 0)) else Some (- ((fval_best - fmu) * 0 + 0 * 0))
  else let z := (fval_best - fmu) / fsig in
       Some (- ((fval_best - fmu) * cdf z + fsig * norm_pdf z)).

(** ** results/PltOptzResults.py *)
Definition nf := option R. (* NaN is None *)
Definition nan_pick (pick : R -> R -> R) (a b : nf) : nf :=
  match a, b with None, b => b | a, None => a | Some a, Some b => Some (pick a b) end.
(** the largest index below n with a number *)
Fixpoint last_number (n : nat) (v : nat -> nf) : option nat :=
  match n with O => None | S k => match v k with Some _ => Some k | None => last_number k v end end.
Inductive bmethod := Bmin | Bmax | Bother.
(** l.67-99 [best_at_all_iter] on a 1-d array of n numbers *)
Definition best_at_all_iter (n : nat) (data : nat -> nf) (m : bmethod) : res (nat -> nf) :=
  if (n =? 0)%nat then Err EIndex (* l.76 best_vec[0] *) else
  let best0 i := if (i =? 0)%nat then data 0%nat else None in
  match last_number n data with
  | None => Ok best0 (* l.82-83 *)
  | Some k =>
      let n_max := Nat.min n (k + 1) in
      match m with
      | Bmin => for_range 1 n_max (fun i b => Ok (fun j => if (j =? i)%nat then nan_pick Rmin (b (i - 1)%nat) (data i) else b j)) best0
      | Bmax => for_range 1 n_max (fun i b => Ok (fun j => if (j =? i)%nat then nan_pick Rmax (b (i - 1)%nat) (data i) else b j)) best0
      | Bother => Err EExc
      end
  end.
(** an npz file: [npz_ok] says that the name contains '.npz'; each array is a table of numbers or NaN *)
Record ftab := mkftab { ft_r : nat; ft_c : nat; ft_at : nat -> nat -> nf }.
Record npz := mknpz { npz_ok : bool; merit_t : ftab; opt_t : ftab; fsb_t : ftab; merit_nf : ftab; opt_nf : ftab; fsb_nf : ftab }.
Record f3 := mkf3 { f3_d : nat; f3_r : nat; f3_c : nat; f3_at : nat -> nat -> nat -> nf }.
(** [A[i, :r, :c] = T[:, :c]]: numpy clips the slices; T is broadcast *)
Definition put3 (A : f3) (i r c : nat) (T : ftab) : res f3 :=
  let tr := Nat.min r (f3_r A) in let tc := Nat.min c (f3_c A) in let sc := Nat.min c (ft_c T) in
  if ((ft_r T =? tr) || (ft_r T =? 1))%nat && ((sc =? tc) || (sc =? 1))%nat then
    Ok (mkf3 (f3_d A) (f3_r A) (f3_c A) (fun a p q =>
      if (a =? i)%nat && ((p <? tr) && (q <? tc))%nat then ft_at T (bix (ft_r T) p) (bix sc q) else f3_at A a p q))
  else Err EShape.
Definition clip3 (A : f3) (r c : nat) : f3 := mkf3 (f3_d A) (Nat.min r (f3_r A)) (Nat.min c (f3_c A)) (f3_at A).
(** l.22-64 [load_npz_data]; [files] are the contents of the files of [file_vec] *)
Definition load_npz_data (files : list npz) (n_iter_max : option nat) (n_x0_init : nat) (noise_free : bool) : res (f3 * f3 * f3) :=
  let b_clip := match n_iter_max with None => true | Some _ => false end in
  let nit := match n_iter_max with None => 1000%nat | Some n => n end in
  let nfl := List.length files in
  let full := mkf3 nfl n_x0_init nit (fun _ _ _ => None) in
  r <- for_range 0 nfl (fun i '(m, o, f, nx, ni) =>
         match List.nth_error files i with
         | None => Err EIndex
         | Some z =>
             if npz_ok z then
               let n_x0_i := ft_r (merit_t z) in let n_iter_i := Nat.min (ft_c (merit_t z)) nit in
               m' <- put3 m i n_x0_i n_iter_i (if noise_free then merit_nf z else merit_t z) ;;
               o' <- put3 o i n_x0_i n_iter_i (if noise_free then opt_nf z else opt_t z) ;;
               f' <- put3 f i n_x0_i n_iter_i (if noise_free then fsb_nf z else fsb_t z) ;;
               Ok (m', o', f', Nat.max nx n_x0_i, Nat.max ni n_iter_i)
             else Err EExc
         end) (full, full, full, 0%nat, 0%nat) ;;
  let '(m, o, f, nx, ni) := r in
  if b_clip then Ok (clip3 m nx ni, clip3 o nx ni, clip3 f nx ni)
  else Ok (clip3 m nx nit, clip3 o nx nit, f) (* l.61-62: fsb_all is left as it is *).

(** ** plt_nugget_1d.py l.82-83 and the nuggets of the loop (l.168-199) *)
Definition eta_w_trace (n_eval dim : nat) (cond_max : R) : R := INR n_eval * (INR dim + 1) / (cond_max - 1).
Definition eta_Gaussian (n_eval dim : nat) (cond_max : R) : R :=
  let d := INR dim in
  (1 + (INR n_eval - 1) * 0.5 * (1 + sqrt (1 + 4 * d)) * exp (- (1 + 2 * d - sqrt (1 + 4 * d)) / (4 * d))) / (cond_max - 1).
(** np.max(np.sum(np.abs(Kcor), axis=1)) *)
Fixpoint rmaxn (n : nat) (f : nat -> R) : R := match n with O => 0 | S O => f 0%nat | S k => Rmax (rmaxn k f) (f k) end.
Definition max_row_sum (K : mat) : R := rmaxn (nr K) (fun i => rsum (nc K) (fun j => Rabs (mat_at K i j))).
Definition kcor_is_diagdom (K : mat) : bool := if Rle_dec (max_row_sum K) 1 then true else false.
Definition eta_Gcircle (K : mat) (cond_max : R) : R := max_row_sum K / (cond_max - 1).
(** [emin], [emax]: np.min and np.max of the eigenvalues *)
Definition eta_eig (emin emax cond_max : R) : R := Rmax 0 ((emax - emin * cond_max) / (cond_max - 1)).
Definition eta_w_cond_l2 (ndata condK_l2 cond_max : R) : R :=
  let eigmax_est := ndata * condK_l2 / (condK_l2 + ndata - 1) in
  eigmax_est / (cond_max - 1) * (1 - cond_max / condK_l2).
Definition eta_w_cond_l1 (ndata condK_l1 cond_max : R) : R :=
  let eigmax_est := ndata * sqrt ndata * condK_l1 / (condK_l1 * sqrt ndata + ndata - 1) in
  Rmax 0 (eigmax_est / (cond_max - 1) * (1 - cond_max / (sqrt ndata * condK_l1))).

(** ** scaling of curves *)
(** np.nanmin / np.nanmax over all entries (NaN when there is no number) *)
Fixpoint nan_fold (pick : R -> R -> R) (n : nat) (data : nat -> nf) : nf :=
  match n with O => None | S k => nan_pick pick (nan_fold pick k data) (data k) end.
(** plt_cond.py l.209-215 [calc_scl_data]: entry i; a division by zero is NaN (the numerator is zero too) *)
Definition calc_scl_data (n : nat) (data : nat -> nf) (i : nat) : nf :=
  match nan_fold Rmin n data, nan_fold Rmax n data, data i with
  | Some lo, Some hi, Some x => if Req_EM_T (hi - lo) 0 then None else Some ((x - lo) / (hi - lo))
  | _, _, _ => None
  end.
Fixpoint rminn (n : nat) (f : nat -> R) : R := match n with O => 0 | S O => f 0%nat | S k => Rmin (rminn k f) (f k) end.
(** SurrPlt.py l.86-90: the scaled column of an acquisition function *)
Definition scl_acq (n : nat) (acq : nat -> R) (i : nat) : R :=
  let lo := rminn n acq in let hi := rmaxn n acq in (acq i - lo) / Rmax 1e-8 (hi - lo).

(** ** plt_cond.py l.177-203 [calc_cond_lkd]: the tables and the mark *)
(** np.nanargmax: the first index at which the largest number stands; None: there is no number *)
Fixpoint nan_argmax (n : nat) (data : nat -> nf) : option nat :=
  match n with
  | O => None
  | S k => match data k, nan_argmax k data with
           | None, r => r
           | Some _, None => Some k
           | Some x, Some j => match data j with Some y => if Rlt_dec y x then Some k else Some j | None => Some k end
           end
  end.
(** l.177-186: entry (i,j) of the table is the quantity at theta = [theta_vec[i], theta_vec[j]] *)
Definition lkd_table (q : R -> R -> nf) (theta : nat -> R) (i j : nat) : nf := q (theta i) (theta j).
(** l.192-201 *)
Definition loc_max_lkd (n : nat) (lkd : nat -> nat -> nf) (gamma : nat -> R) : option (R * R) :=
  let max_each_row i := nan_fold Rmax n (lkd i) in
  match nan_argmax n max_each_row with
  | None => None
  | Some idx_max_col => match nan_argmax n (lkd idx_max_col) with None => None | Some idx_max_row => Some (gamma idx_max_row, gamma idx_max_col) end
  end.
(** l.128, l.243: contourf(Xmat_para, Ymat_para, Z) with meshgrid draws Z[i,j] at the point (gamma_vec[j], gamma_vec[i]);
    the axes are labelled gamma_1 and gamma_2 (l.139-141) *)
Definition drawn_at (gamma : nat -> R) (i j : nat) : R * R := (gamma j, gamma i).
