(** * Independent specification vocabulary for Gaussian process objects: which calls are legitimate. *)
From Coq Require Import Reals List Arith Bool.
From Verif.Base Require Import NpLite.
From Verif.Spec Require Import KernelSpec LinAlgSpec.
From Verif.Model Require Import WellCond Rescaling GpState.
Local Open Scope R_scope.

(** options: at least one dimension, cond_max_target > 1, positive default nugget *)
Definition opts_ok (o : gpopt) : Prop := (0 < o_dim o)%nat /\ 1 < o_target o /\ 0 < o_eta_dflt o.
(** [d] is a state the object can be in after that set_data call: the one it leaves, or one obtained from it
    when the optimisation of the hyperparameters has changed the scaling factors of the coordinates, any number
    of times *)
Inductive data_after (o : gpopt) (x : mat) (fval : vec) (sf : stdarg vec) (G : option mat) (sg : stdarg mat) (b : option (list bool)) : gpdata -> Prop :=
| after_set d : set_data o x fval sf G sg b = Ok d -> data_after o x fval sf G sg b d
| after_rescale d scale d' : data_after o x fval sf G sg b d -> rescale_data d scale = Ok d' -> data_after o x fval sf G sg b d'.
(** [d] is a state after a set_data call with at least one point and as many points, of the
    dimension of the object, as function values (set_data itself does not check this) *)
Definition data_set (o : gpopt) (d : gpdata) : Prop :=
  exists x fval std_fval grad std_grad bvec,
    (0 < vlen fval)%nat /\ nr x = vlen fval /\ nc x = o_dim o /\
    data_after o x fval std_fval grad std_grad bvec d.
(** hyperparameters: one positive theta per dimension, alpha > 0 when the kernel has it *)
Definition hyper_ok (o : gpopt) (hp : hpv) : Prop :=
  vlen (hp_theta hp) = o_dim o /\ (forall i, (i < o_dim o)%nat -> 0 < vat (hp_theta hp) i) /\ hp_ok (o_kernel o) (hp_kernel hp).
(** a noise variance is a hyperparameter exactly when the corresponding noise is unknown; without
    gradients the noise of the function values has to be known *)
Definition noise_cfg (o : gpopt) (d : gpdata) (hp : hpv) : Prop :=
  (if d_known_fval d then hp_var_fval hp = None else o_use_grad o = true /\ exists v, hp_var_fval hp = Some v) /\
  (o_use_grad o = true -> if d_known_fgrad d then hp_var_fgrad hp = None else exists v, hp_var_fgrad hp = Some v).
Definition noise_nn (hp : hpv) : Prop :=
  (forall v, hp_var_fval hp = Some v -> 0 <= v) /\ (forall v, hp_var_fgrad hp = Some v -> 0 <= v).
(** the argument [noise_vec]: given (one non-negative variance per data), or derived *)
Definition noise_arg_ok (o : gpopt) (d : gpdata) (hp : hpv) (noise : option vec) : Prop :=
  match noise with
  | Some v => vlen v = d_n_data d /\ forall r, (r < vlen v)%nat -> 0 <= vat v r
  | None => noise_cfg o d hp /\ noise_nn hp
  end.
(** the value of varK in force: the argument, else that of the hyperparameters; 1 when normalised *)
Definition eff_varK (hp : hpv) (varK : option R) (bn : bool) : option R :=
  match (match varK with Some v => Some v | None => hp_varK hp end) with
  | Some v => if bn then Some 1 else Some v
  | None => None
  end.
