(** * Specification for C47: a session *)
From Coq Require Import Reals List Arith Bool.
From Verif.Base Require Import NpLite.
From Verif.Model Require Import CommonFun Rescaling HpInfo GpState MeanFun EvalModel OptzLkd History Object Session.
Import ListNotations.

(** what may happen between set_data and the optimisation: everything but new data, and but reading hyperparameters
    back from the history, which changes whether the noise counts as known (C43_stored) *)
Definition leaves_data (x : zop) : Prop :=
  match x with ZOp (SetData _ _ _ _ _ _) | ZOp (SetHpFromIdx _) | ZOp (SetHparaStored _ _) => False | _ => True end.
(** hyperparameters as a user sees them *)
Definition float_array (v : vec) : fvec := mkfv (vlen v) (fun i => Some (vat v i)).
Definition float_or_none (x : option R) : pyf := match x with Some v => PNum v | None => PNone end.
Definition seen_hp (hp : hpv) : hpx :=
  mkhpx (option_map float_array (hp_beta hp)) (Some (float_array (hp_theta hp))) (float_or_none (hp_kernel hp)) (float_or_none (hp_varK hp))
    (float_or_none (hp_var_fval hp)) (float_or_none (hp_var_fgrad hp)).
(** the history holds these hyperparameters about iteration i *)
Definition holds_hp (h : hist) (i : nat) (hp : hpv) : Prop :=
  i < h_n h /\
  (forall k, k < h_w h Ttheta -> h_tab h Ttheta i k = Some (vat (hp_theta hp) k)) /\
  (forall k, k < h_w h Tbeta -> exists b, hp_beta hp = Some b /\ h_tab h Tbeta i k = Some (vat b k)) /\
  h_col h Qkernel i = hp_kernel hp /\ h_col h QvarK i = hp_varK hp /\ h_col h Qvar_fval i = hp_var_fval hp /\ h_col h Qvar_fgrad i = hp_var_fgrad hp.
(** the history holds this report of the optimisation and these timings about iteration i *)
Definition holds_report (h : hist) (i : nat) (rep : option optzinfo) : Prop :=
  forall r, rep = Some r ->
  h_col h Qsuccess i = Some (oi_success r) /\ h_col h Qiter_mean i = Some (oi_iter_mean r) /\ h_col h Qiter_max i = Some (INR (oi_iter_max r)) /\ h_col h Qcon_good i = Some (oi_con_good r) /\
  h_col h Qcho_fail i = Some (INR (is_fail (oi_init r))) /\ h_col h Qcond2big i = Some (INR (is_big (oi_init r))) /\ h_col h Qmax_init i = is_max (oi_init r).
Definition holds_times (h : hist) (i : nat) (t_optz t_chofac t_pick : fl) : Prop :=
  h_col h Qt_optz i = t_optz /\ h_col h Qt_chofac i = t_chofac /\ h_col h Qt_pick i = t_pick.
(** the history holds this state of the object about iteration i: the nuggets, whether the condition number reached (99 per
    cent of) the limit cond_max, the smallest distance of the points, the scaling factors if there are any, the
    variance of the values and its ratio to varK *)
Definition pop_mean (v : vec) : R := (rsum (vlen v) (vat v) / INR (vlen v))%R.
Definition pop_var (v : vec) : R := (rsum (vlen v) (fun k => (vat v k - pop_mean v) ^ 2) / INR (vlen v))%R.
Definition holds_state (h : hist) (i : nat) (o : gpopt) (d : gpdata) (hp : hpv) (cond : option R) : Prop :=
  h_col h Qeta_Kbase i = Some (d_eta_Kbase d) /\ h_col h Qeta_Kgrad i = d_eta_Kgrad d /\
  h_col h Qmin_nugget i = (if o_use_grad o then d_eta_Kgrad d else Some (d_eta_Kbase d)) /\
  (h_at_max h i = true <-> exists c, cond = Some c /\ (c >= 99 / 100 * o_cond_max o)%R) /\
  (forall m, calc_dist_min (d_x d) = Ok m -> h_col h Qvmin_init i = m) /\
  (forall r k, d_scl d = Some r -> k < o_dim o -> h_tab h Txscl i k = Some (vat (r_scale r) k)) /\
  h_col h Qdata_var i = Some (pop_var (d_fval d)) /\
  ((0 < pop_var (d_fval d))%R -> h_col h QvarK_data_var i = option_map (fun v => (v / pop_var (d_fval d))%R) (hp_varK hp)).
(** the same numbers, as far as an object with these options reads them *)
Definition same_numbers (o : gpopt) (a b : hpv) : Prop :=
  vlen (hp_theta a) = vlen (hp_theta b) /\ (forall i, i < o_dim o -> vat (hp_theta a) i = vat (hp_theta b) i) /\
  (exists u v, hp_beta a = Some u /\ hp_beta b = Some v /\ vlen u = 1 /\ vlen v = 1 /\ vat u 0 = vat v 0) /\
  (kernel_has_hp (o_kernel o) = true -> hp_kernel a = hp_kernel b) /\ hp_varK a = hp_varK b /\ hp_var_fval a = hp_var_fval b /\ hp_var_fgrad a = hp_var_fgrad b.
