(** * Independent specification: observations at the same places with less noise, possibly among others. *)
From Coq Require Import Reals List Arith Bool.
From Verif.Base Require Import NpLite.
From Verif.Spec Require Import KernelSpec DataSpec OrderSpec EvalSpec.
From Verif.Model Require Import WellCond Rescaling GpState.
Local Open Scope R_scope.

(** Every observation of [d1] has a counterpart in [d2], of the same kind and at the same place: point p of [d1] is
    point [f p] of [d2]; row q of the gradients of [d1] is taken at the point at which row [h q] of [d2] is.  Nothing is
    said about the observed values or their standard deviations. *)
Record design_in (o : gpopt) (d1 d2 : gpdata) (f h : nat -> nat) : Prop := mkdesin {
  di_point : forall p, (p < d_n_eval d1)%nat -> (f p < d_n_eval d2)%nat /\ forall i, (i < o_dim o)%nat -> mat_at (d_x d2) (f p) i = mat_at (d_x d1) p i;
  di_inj : injective_below (d_n_eval d1) f;
  di_gpoint : o_use_grad o = true -> forall q, (q < n_used (d_n_eval d1) (d_bvec d1))%nat -> (h q < n_used (d_n_eval d2) (d_bvec d2))%nat /\
    nth (h q) (grad_points (d_n_eval d2) (d_bvec d2)) 0%nat = f (nth q (grad_points (d_n_eval d1) (d_bvec d1)) 0%nat);
  di_ginj : o_use_grad o = true -> injective_below (n_used (d_n_eval d1) (d_bvec d1)) h }.
(** the hyperparameters of the covariance agree (the mean and the variances of the noise need not) *)
Definition same_covariance (hp1 hp2 : hpv) : Prop := hp_theta hp2 = hp_theta hp1 /\ hp_kernel hp2 = hp_kernel hp1 /\ hp_varK hp2 = hp_varK hp1.
(** no counterpart is noisier *)
Definition less_noise (o : gpopt) (d1 d2 : gpdata) (hp1 hp2 : hpv) (f h : nat -> nat) : Prop :=
  (forall p, (p < d_n_eval d1)%nat -> obs_noise d2 hp2 (LVal (f p)) <= obs_noise d1 hp1 (LVal p)) /\
  (o_use_grad o = true -> forall i q, (i < o_dim o)%nat -> (q < n_used (d_n_eval d1) (d_bvec d1))%nat -> obs_noise d2 hp2 (LDer i (h q)) <= obs_noise d1 hp1 (LDer i q)).
(** the same places, numbered alike *)
Definition same_design (o : gpopt) (d1 d2 : gpdata) : Prop :=
  d_n_eval d2 = d_n_eval d1 /\ d_bvec d2 = d_bvec d1 /\ forall p i, (p < d_n_eval d1)%nat -> (i < o_dim o)%nat -> mat_at (d_x d2) p i = mat_at (d_x d1) p i.
(** noise as it is given: [a] is at least [b] *)
Definition std_grows (n m : nat) (s1 s2 : option mat) : Prop :=
  both (fun S1 S2 => forall q i, (q < n)%nat -> (i < m)%nat -> 0 <= mat_at S2 q i <= mat_at S1 q i) s1 s2.
Definition stdv_grows (n : nat) (s1 s2 : option vec) : Prop :=
  both (fun S1 S2 => forall p, (p < n)%nat -> 0 <= vat S2 p <= vat S1 p) s1 s2.
Definition var_grows (v1 v2 : option R) : Prop := both (fun a b => 0 <= b <= a) v1 v2.
