(** * Model of gpgradpy/src/kernel/Kernel.py l.20-125: binding of the kernel methods by
    [kernel_type].  The type [kernel] (the three strings) is the one of the specification. *)
From Coq Require Import Reals List Arith Bool.
From Verif.Base Require Import NpLite.
From Verif.Spec Require Import KernelSpec.
From Verif.Model Require Import KernelSqExp KernelMatern KernelRatQuad.
Local Open Scope R_scope.

(** RatQu uses [hp_kernel] in arithmetic: [None] is a TypeError *)
Definition need_alpha (hp : option R) : res R :=
  match hp with Some a => Ok a | None => Err EType end.

(** l.28-106: calc_KernBase, calc_KernGrad, calc_KernBase_grad_th, ... *)
Definition calc_KernBase (k : kernel) (Rt : ten) (theta : vec) (hp : option R) : res mat :=
  match k with
  | SqExp => sq_exp_calc_KernBase Rt theta
  | Ma5f2 => matern_calc_KernBase Rt theta
  | RatQu => a <- need_alpha hp ;; rat_calc_KernBase Rt theta a
  end.
Definition calc_KernGrad (k : kernel) (Rt : ten) (theta : vec) (hp : option R)
  (b1 b2 : option (list bool)) : res mat :=
  match k with
  | SqExp => sq_exp_calc_KernGrad Rt theta b1 b2
  | Ma5f2 => matern_calc_KernGrad Rt theta b1 b2
  | RatQu => a <- need_alpha hp ;; rat_calc_KernGrad Rt theta a b1 b2
  end.
Definition calc_KernBase_grad_th (k : kernel) (Rt : ten) (theta : vec) (hp : option R) : res ten :=
  match k with
  | SqExp => sq_exp_calc_KernBase_grad_th Rt theta
  | Ma5f2 => matern_calc_KernBase_grad_th Rt theta
  | RatQu => a <- need_alpha hp ;; rat_calc_KernBase_grad_th Rt theta a
  end.
Definition calc_KernGrad_grad_th (k : kernel) (Rt : ten) (theta : vec) (hp : option R)
  (b : option (list bool)) : res ten :=
  match k with
  | SqExp => sq_exp_calc_KernGrad_grad_th Rt theta b
  | Ma5f2 => matern_calc_KernGrad_grad_th Rt theta b
  | RatQu => a <- need_alpha hp ;; rat_calc_KernGrad_grad_th Rt theta a b
  end.
Definition calc_KernBase_grad_alpha (k : kernel) (Rt : ten) (theta : vec) (hp : option R) : res ten :=
  match k with
  | SqExp => sq_exp_calc_Kern_grad_alpha
  | Ma5f2 => matern_calc_Kern_grad_alpha
  | RatQu => a <- need_alpha hp ;; rat_calc_KernBase_grad_alpha Rt theta a
  end.
Definition calc_KernGrad_grad_alpha (k : kernel) (Rt : ten) (theta : vec) (hp : option R)
  (b : option (list bool)) : res ten :=
  match k with
  | SqExp => sq_exp_calc_Kern_grad_alpha
  | Ma5f2 => matern_calc_Kern_grad_alpha
  | RatQu => a <- need_alpha hp ;; rat_calc_KernGrad_grad_alpha Rt theta a b
  end.
Definition calc_KernBase_hess_x (k : kernel) (Rt : ten) (theta : vec) (hp : option R) : res ten :=
  match k with
  | SqExp => sq_exp_calc_KernBase_hess_x Rt theta
  | Ma5f2 => matern_calc_KernBase_hess_x Rt theta
  | RatQu => a <- need_alpha hp ;; rat_calc_KernBase_hess_x Rt theta a
  end.
Definition calc_KernGrad_grad_x (k : kernel) (Rt : ten) (theta : vec) (hp : option R)
  (b2 : option (list bool)) : res ten :=
  match k with
  | SqExp => sq_exp_calc_KernGrad_grad_x Rt theta b2
  | Ma5f2 => matern_calc_KernGrad_grad_x Rt theta b2
  | RatQu => a <- need_alpha hp ;; rat_calc_KernGrad_grad_x Rt theta a b2
  end.
Definition theta2gamma (k : kernel) (theta : vec) : vec :=
  match k with
  | SqExp => sq_exp_theta2gamma theta
  | Ma5f2 => matern_theta2gamma theta
  | RatQu => rat_theta2gamma theta
  end.
Definition gamma2theta (k : kernel) (gamma : vec) : vec :=
  match k with
  | SqExp => sq_exp_gamma2theta gamma
  | Ma5f2 => matern_gamma2theta gamma
  | RatQu => rat_gamma2theta gamma
  end.
(** l.43, 69, 95: calc_Kern_precon, in its matrix form and vector form *)
Definition calc_Kern_precon (k : kernel) (n_eval n_grad : nat) (theta : vec) : res (mat * mat * ten) :=
  match k with
  | SqExp => sq_exp_Kern_precon n_eval n_grad theta
  | Ma5f2 => matern_Kern_precon n_eval n_grad theta
  | RatQu => rat_Kern_precon n_eval n_grad theta
  end.
Definition calc_Kern_precon_vec (k : kernel) (n_eval n_grad : nat) (theta : vec) : res (vec * vec * mat) :=
  match k with
  | SqExp => sq_exp_Kern_precon_vec n_eval n_grad theta
  | Ma5f2 => matern_Kern_precon_vec n_eval n_grad theta
  | RatQu => rat_Kern_precon_vec n_eval n_grad theta
  end.

(** l.113-125: calc_Kern and the derivative methods bound by [use_grad].  Without gradients the
    mask arguments are not part of the signature. *)
Definition calc_Kern (use_grad : bool) k Rt theta hp (b1 b2 : option (list bool)) : res mat :=
  if use_grad then calc_KernGrad k Rt theta hp b1 b2 else calc_KernBase k Rt theta hp.
Definition calc_Kern_grad_theta (use_grad : bool) k Rt theta hp (b : option (list bool)) : res ten :=
  if use_grad then calc_KernGrad_grad_th k Rt theta hp b else calc_KernBase_grad_th k Rt theta hp.
Definition calc_Kern_grad_alpha (use_grad : bool) k Rt theta hp (b : option (list bool)) : res ten :=
  if use_grad then calc_KernGrad_grad_alpha k Rt theta hp b else calc_KernBase_grad_alpha k Rt theta hp.
