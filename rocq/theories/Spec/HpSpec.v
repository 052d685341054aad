(** * Independent specification vocabulary: the individual hyperparameters and the documented order in
    which those that are optimised numerically are listed. *)
From Coq Require Import Reals List Arith Bool.
From Verif.Base Require Import NpLite.
From Verif.Spec Require Import KernelSpec GpSpec.
From Verif.Model Require Import GpState.
Import ListNotations.
Local Open Scope R_scope.

(** one hyperparameter: an entry of theta, the kernel's alpha, varK, var_fval, var_fgrad *)
Inductive hslot := HTheta (e : nat) | HKernel | HVarK | HVarF | HVarG.
Definition hp_get (hp : hpv) (s : hslot) : option R :=
  match s with
  | HTheta e => if e <? vlen (hp_theta hp) then Some (vat (hp_theta hp) e) else None
  | HKernel => hp_kernel hp | HVarK => hp_varK hp | HVarF => hp_var_fval hp | HVarG => hp_var_fgrad hp
  end.
(** [hp] with one hyperparameter replaced *)
Definition hp_put (hp : hpv) (s : hslot) (t : R) : hpv :=
  match s with
  | HTheta e => mkhp (hp_beta hp) (vset (hp_theta hp) e t) (hp_kernel hp) (hp_varK hp) (hp_var_fval hp) (hp_var_fgrad hp)
  | HKernel => mkhp (hp_beta hp) (hp_theta hp) (Some t) (hp_varK hp) (hp_var_fval hp) (hp_var_fgrad hp)
  | HVarK => mkhp (hp_beta hp) (hp_theta hp) (hp_kernel hp) (Some t) (hp_var_fval hp) (hp_var_fgrad hp)
  | HVarF => mkhp (hp_beta hp) (hp_theta hp) (hp_kernel hp) (hp_varK hp) (Some t) (hp_var_fgrad hp)
  | HVarG => mkhp (hp_beta hp) (hp_theta hp) (hp_kernel hp) (hp_varK hp) (hp_var_fval hp) (Some t)
  end.
(** theta, then the kernel hyperparameter, varK, var_fval, var_fgrad, each if it is optimised *)
Definition slots (dim : nat) (has_theta has_kernel has_varK has_var_fval has_var_fgrad : bool) : list hslot :=
  (if has_theta then map HTheta (seq 0 dim) else []) ++ (if has_kernel then [HKernel] else [])
  ++ (if has_varK then [HVarK] else []) ++ (if has_var_fval then [HVarF] else []) ++ (if has_var_fgrad then [HVarG] else []).
(** where calc_Kern_grad_theta is the theta-derivative of the kernel matrix (see C06): gradient-enhanced
    with all gradients used (any selection for RatQu), distinct points at least 1e-16 apart in the scaled
    distance for Ma5f2; gradient-free except for Ma5f2 *)
Definition theta_grad_supported (o : gpopt) (d : gpdata) (hp : hpv) : Prop :=
  if o_use_grad o then
    (o_kernel o <> RatQu -> d_bvec d = None \/ d_bvec d = Some (repeat true (d_n_eval d))) /\
    (o_kernel o = Ma5f2 -> forall p q, (p < d_n_eval d)%nat -> (q < d_n_eval d)%nat ->
       let X := fst (get_scl_x_w_dist d) in
       let s := sqd (o_dim o) (vat (hp_theta hp)) (rows_of X p) (rows_of X q) in s = 0 \/ / 10 ^ 16 <= sqrt s)
  else o_kernel o <> Ma5f2.
(** noise variances that are hyperparameters are positive *)
Definition noise_pos (hp : hpv) : Prop :=
  (forall v, hp_var_fval hp = Some v -> 0 < v) /\ (forall v, hp_var_fgrad hp = Some v -> 0 < v).
