(** * Specification for C33: what may happen between setting a surrogate up and evaluating it *)
From Coq Require Import Reals List Arith Bool String.
From Verif.Base Require Import NpLite.
From Verif.Model Require Import GpState EvalModel History Object.
From Verif.Spec Require Import HistSpec.
Import ListNotations.

(** the values of the hyperparameters of the object (None: not set) *)
Definition hp_now (s : gp) : option hpx := option_map (rd_hp s) (p_hp s).
Definition same_ohp (a b : option hpx) : Prop := match a, b with Some x, Some y => same_hp x y | None, None => True | _, _ => False end.

(** Operations that the check of eval_model is meant to guard against and that do not reach into memory the
    hyperparameters live in: giving the object new hyperparameters by any means that does not set the surrogate up,
    and unrelated operations.  Not here: set_data, writing into an array in place, and the operations that
    write into the rows of the current history or change the noise flags. *)
Definition replaces_hp_only (x : op) : Prop :=
  match x with
  | NewArray _ | SetCustomHp _ | AssignHp _ | InitOptz _ | FinishOptz _ => True
  | _ => False
  end.
(** a state that some program reaches from a new object *)
Definition reachable (condf : mat -> R) (s : gp) : Prop := exists o xs, s = run condf xs (gp_new o).

(** ** C43: the hyperparameters a call asks for *)
(** a scalar as the user writes it *)
Definition py_of (x : option fl) : pyf := match x with None => PNone | Some None => PNan | Some (Some v) => PNum v end.
(** hyperparameters given by the user: the present contents of the arrays, and the scalars *)
Definition given_hp (s : gp) (g : hparg) : hpx :=
  mkhpx (option_map (p_arr s) (g_beta g)) (option_map (p_arr s) (g_theta g)) (py_of (g_kernel g)) (py_of (g_varK g)) (py_of (g_vf g)) (py_of (g_vg g)).
(** hyperparameters found by an optimisation *)
Definition found_hp (u : optout) : hpx :=
  mkhpx (Some (u_beta u)) (Some (u_theta u)) (py_of (u_kernel u)) (py_of (u_varK u)) (py_of (u_vf u)) (py_of (u_vg u)).
(** what the current history holds about iteration i (None: no history, or no such iteration) *)
Definition current_history (s : gp) : option hist := option_map (p_hist s) (p_cur s).
Definition recorded_hp (h : hist) (i : nat) (x : hpx) : Prop :=
  i < h_n h /\
  same_oarr (x_beta x) (Some (mkfv (h_w h Tbeta) (h_tab h Tbeta i))) /\ same_oarr (x_theta x) (Some (mkfv (h_w h Ttheta) (h_tab h Ttheta i))) /\
  x_kernel x = match h_col h Qkernel i with Some v => PNum v | None => PNan end /\
  x_varK x = match h_col h QvarK i with Some v => PNum v | None => PNan end /\
  x_var_fval x = match h_col h Qvar_fval i with Some v => PNum v | None => PNone end /\
  x_var_fgrad x = match h_col h Qvar_fgrad i with Some v => PNum v | None => PNone end.
(** an operation that leaves iteration i of the current history alone *)
Definition spares_iteration (i : nat) (x : op) : Prop :=
  match x with
  | SetHparaOptz j _ _ | StorePara j _ _ _ _ _ _ => j <> i
  | InitOptz _ => False
  | FinishOptz n => i < n
  | LoadData _ (Some e) => h_n (ex_hist e) * h_w (ex_hist e) Tbeta <= i
  | _ => True
  end.
(** what an optimisation finds: arrays of the right widths, a number for the variance of the kernel, and numbers or
    nothing for the rest (the SE and Matern kernels have no kernel hyperparameter) *)
Definition complete_found (nb dim : nat) (u : optout) : Prop :=
  fv_len (u_beta u) = nb /\ fv_len (u_theta u) = dim /\ num_or_absent (py_of (u_kernel u)) /\ is_num (py_of (u_varK u)) /\
  num_or_absent (py_of (u_vf u)) /\ num_or_absent (py_of (u_vg u)).
