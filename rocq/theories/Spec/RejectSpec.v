(** * Specification for C59: what a call that raises may leave behind *)
From Coq Require Import Reals List Arith Bool.
From Verif.Base Require Import NpLite.
From Verif.Model Require Import GpState EvalModel History Object.
From Verif.Spec Require Import ObjSpec.
Import ListNotations.

(** the points, the values and what was derived from them are the same; the three sizes n_eval, n_grad, n_data and
    the two flags known_eps_fval, known_eps_fgrad need not be *)
Definition same_but_sizes (d d' : gpdata) : Prop :=
  d_x d' = d_x d /\ d_fval d' = d_fval d /\ d_std_fval d' = d_std_fval d /\ d_grad d' = d_grad d /\ d_std_grad d' = d_std_grad d /\ d_bvec d' = d_bvec d /\
  d_opt_fval d' = d_opt_fval d /\ d_opt_fgrad d' = d_opt_fgrad d /\ d_fval_zero d' = d_fval_zero d /\ d_fgrad_zero d' = d_fgrad_zero d /\ d_noisy d' = d_noisy d /\
  d_eta_Kbase d' = d_eta_Kbase d /\ d_eta_Kgrad d' = d_eta_Kgrad d /\ d_etaK d' = d_etaK d /\ d_scl d' = d_scl d /\ d_Rt d' = d_Rt d.
Definition same_sizes (d d' : gpdata) : Prop :=
  d_n_eval d' = d_n_eval d /\ d_n_grad d' = d_n_grad d /\ d_n_data d' = d_n_data d /\ d_known_fval d' = d_known_fval d /\ d_known_fgrad d' = d_known_fgrad d.
(** everything else about the object is the same *)
Definition same_outside_data (s s' : gp) : Prop :=
  p_opt s' = p_opt s /\ p_hp s' = p_hp s /\ p_setup s' = p_setup s /\ p_surr s' = p_surr s /\ p_arr s' = p_arr s /\ p_hist s' = p_hist s /\ p_cur s' = p_cur s /\ p_new s' = p_new s.

(** a mask that is refused before anything else is looked at: given without gradients, of the wrong length, or not
    selecting as many points as there are gradients *)
Definition bad_mask (o : gpopt) (fval : vec) (grad : option mat) (b : option (list bool)) : Prop :=
  exists m, b = Some m /\
  (o_use_grad o = true -> length m <> vlen fval \/ match grad with None => True | Some g => nr g <> length (filter (fun t => t) m) end).

(** requests about hyperparameters that are refused on their own account: a variance that is not positive, an
    iteration that the history does not have, no current hyperparameters, an array that does not exist *)
Definition refused_request (s : gp) (x : op) : Prop :=
  match x with
  | WriteArray _ _ | SetCustomHp _ | AssignHp _ | SetHpFromIdx _ | FinishOptz _ => True
  | SetHparaStored i _ => forall h, current_history s = Some h -> h_n h <= i
  | SetHparaCurrent i _ => i = 0 \/ p_hp s = None
  | _ => False
  end.
