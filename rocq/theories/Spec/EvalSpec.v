(** * Independent specification: prediction with a Gaussian process with a constant mean. *)
From Coq Require Import Reals List Arith.
From Coquelicot Require Import Coquelicot.
From Verif.Base Require Import NpLite.
From Verif.Spec Require Import KernelSpec LinAlgSpec DataSpec RescaleSpec.
From Verif.Model Require Import Rescaling GpState.
Local Open Scope R_scope.

(** covariances of the observations with the value of the function at x *)
Definition cross_cov (k : pt -> pt -> R) (ob : list obs) (x : pt) (kx : nat -> R) : Prop :=
  forall r a, nth_error ob r = Some a -> is_cov k a (Val x) (kx r).
(** [S] is the covariance matrix of the observations plus the diagonal [D] (noise and nugget) *)
Definition noisy_cov (k : pt -> pt -> R) (ob : list obs) (S : mat) (D : nat -> R) : Prop :=
  nr S = length ob /\ nc S = length ob /\
  forall r s a b, nth_error ob r = Some a -> nth_error ob s = Some b ->
    exists v, is_cov k a b v /\ mat_at S r s = v + (if (r =? s)%nat then D r else 0).
(** posterior mean and variance at x of a process with constant mean [b] and covariance function [k] given
    observations [ob] with residuals [y] (observed minus prior mean) and covariance matrix [S] *)
Definition posterior_mean (k : pt -> pt -> R) (ob : list obs) (S : mat) (y : nat -> R) (b : R) (x : pt) (m : R) : Prop :=
  exists kx w, cross_cov k ob x kx /\ solves S w y /\ m = b + dotp (length ob) kx w.
Definition posterior_var (k : pt -> pt -> R) (ob : list obs) (S : mat) (x : pt) (v : R) : Prop :=
  exists kx z, cross_cov k ob x kx /\ solves S z kx /\ v = k x x - dotp (length ob) kx z.

(** the point the model works with: scaled when the object scales its data *)
Definition model_point (d : gpdata) (x : pt) : pt :=
  match d_scl d with Some r => scaled (r_shift r) (r_scale r) x | None => x end.
(** [v] is the derivative in coordinate l of the i-th partial derivative of [f], which exists near x *)
Definition is_partial2_near (f : pt -> R) (l i : nat) (x : pt) (v : R) : Prop :=
  exists g del, 0 < del /\ (forall t, Rabs (t - x l) < del -> is_partial f i (upd x l t) (g t)) /\ is_derive g (x l) v.
(** prior variance of an observation *)
Definition obs_prior (k : kernel) (th : vec) (l : label) : R := match l with LVal _ => 1 | LDer i _ => gamma2 k (vat th i) end.
(** its noise variance *)
Definition obs_noise (d : gpdata) (hp : hpv) (l : label) : R :=
  if d_noisy d then noise_variance (out_scale d) (in_scale d) (d_std_fval d) (d_std_grad d) (hp_var_fval hp) (hp_var_fgrad hp) l else 0.
(** what a nugget [eta] and the noise add to its variance: with 'precon' the nugget is relative *)
Definition added_var (o : gpopt) (d : gpdata) (hp : hpv) (eta : R) (l : label) : R :=
  match o_well o with
  | WellCond.Wprecon => obs_noise d hp l + eta * (obs_prior (o_kernel o) (hp_theta hp) l + obs_noise d hp l)
  | _ => obs_noise d hp l + eta
  end.
