(** * Model of OptzLkd.optz_hp_max_lkd_mtd_rescale (gpgradpy/src/optz/OptzLkd.py l.116-186).
    The numerical optimiser optz_hp_max_lkd is an arbitrary function [opt] of the number of the call and of
    its starting vector (the first call, whose start is the matrix hp_x0, is made by the caller: its result is
    the argument [best]).  The condition number and the statistics it also returns are left out.
    hp_info_optz_lkd.idx_theta is np.arange(dim) (GpHparaOptz.py l.82): the first dim entries. *)
From Coq Require Import Reals List Arith Bool.
From Verif.Base Require Import NpLite.
From Verif.Model Require Import WellCond Rescaling.
Import ListNotations.
Local Open Scope R_scope.

Definition get_theta (dim : nat) (hp : vec) : vec := mkvec dim (vat hp).
Definition put_theta (dim : nat) (hp th : vec) : vec := mkvec (vlen hp) (fun i => if i <? dim then vat th i else vat hp i).
Definition trip : Type := (vec * R * vec)%type.
Definition tr_theta (t : trip) : vec := fst (fst t).
Definition tr_dist (t : trip) : R := snd (fst t).
Definition tr_scale (t : trip) : vec := snd t.

(** l.152-171: the while loop; [k] = max_iter - cnt.  Rows cnt, cnt+1, .. of the three arrays. *)
Fixpoint resc_loop (k cnt dim : nat) (log_hp : bool) (tol : R) (xs : mat) (sc : vec) (opt : nat -> vec -> res vec) (th best : vec)
  : res (list trip * vec) :=
  match k with
  | O => Err EIndex
  | S k' =>
      t <- rescaling_data_w_theta_sol dim log_hp xs sc th (/ 10 ^ 15) ;;
      if (k' =? 0)%nat || (if Rlt_dec (tr_dist t) tol then true else false) then Ok ([t], best)
      else
        best' <- opt cnt (put_theta dim best (tr_theta t)) ;;
        r <- resc_loop k' (S cnt) dim log_hp tol xs sc opt (tr_theta t) best' ;;
        Ok (t :: fst r, snd r)
  end.
(** np.nanargmin over the filled entries (the others are NaN): first minimum *)
Fixpoint argmin_from (b : trip) (l : list trip) : trip :=
  match l with [] => b | t :: l' => if Rlt_dec (tr_dist t) (tr_dist b) then argmin_from t l' else argmin_from b l' end.
Definition pick_min (l : list trip) : res trip := match l with [] => Err EExc | t :: l' => Ok (argmin_from t l') end.

(** l.136-186 after the first optimisation; [r] is self.DataScl *)
Definition optz_rescale (dim n_eval max_iter : nat) (log_hp : bool) (tol : R) (opt : nat -> vec -> res vec) (r : resc) (best : vec) : res (vec * resc) :=
  if (1 <? n_eval)%nat then
    l <- resc_loop max_iter 1 dim log_hp tol (r_xscl r) (r_scale r) opt (get_theta dim best) best ;;
    t <- pick_min (fst l) ;;
    r' <- set_xscale_data r None (Some (tr_scale t)) ;;
    Ok (put_theta dim (snd l) (tr_theta t), r')
  else Ok (best, r).
(** GaussianProcess.py l.111-113 defaults *)
Definition vreq_max_iter_dflt : nat := 3.
Definition vreq_iter_tol_dflt : R := 1 / 10.
