(** * Independent specification: the same data in other units. *)
From Coq Require Import Reals List Arith Bool.
From Verif.Base Require Import NpLite.
From Verif.Spec Require Import KernelSpec DataSpec OrderSpec.
From Verif.Model Require Import WellCond Rescaling GpState.
Local Open Scope R_scope.

(** [d2] holds the observations of [d1] in other units: coordinate x_i becomes [s i] x_i + [t i] and the value y
    becomes [a] y + [b]; so derivatives are multiplied by [a] / [s i], and standard deviations with them. *)
Record other_units (o : gpopt) (d1 d2 : gpdata) (s t : nat -> R) (a b : R) : Prop := mkunits {
  ou_pos : 0 < a /\ forall i, 0 < s i;
  ou_n : d_n_eval d2 = d_n_eval d1;
  ou_mask : d_bvec d2 = d_bvec d1;
  ou_noisy : d_noisy d2 = d_noisy d1;
  ou_x : forall p i, (p < d_n_eval d1)%nat -> (i < o_dim o)%nat -> mat_at (d_x d2) p i = s i * mat_at (d_x d1) p i + t i;
  ou_f : forall p, (p < d_n_eval d1)%nat -> vat (d_fval d2) p = a * vat (d_fval d1) p + b;
  ou_std : both (fun s1 s2 => forall p, (p < d_n_eval d1)%nat -> vat s2 p = a * vat s1 p) (d_std_fval d1) (d_std_fval d2);
  ou_grad : o_use_grad o = true -> both (fun G1 G2 => forall q i, (q < n_used (d_n_eval d1) (d_bvec d1))%nat -> (i < o_dim o)%nat -> mat_at G2 q i = a / s i * mat_at G1 q i) (d_grad d1) (d_grad d2);
  ou_stdg : o_use_grad o = true -> both (fun G1 G2 => forall q i, (q < n_used (d_n_eval d1) (d_bvec d1))%nat -> (i < o_dim o)%nat -> mat_at G2 q i = a / s i * mat_at G1 q i) (d_std_grad d1) (d_std_grad d2) }.

(** Hyperparameters in the units of the data: theta is an inverse square length, varK and the noise variance of the
    values are squares of values, the noise variance of the gradients is a square of a derivative. *)
Definition theta_in_units (d : gpdata) (hp : hpv) (i : nat) : R := vat (hp_theta hp) i * in_scale d i ^ 2.
Definition var_in_units (d : gpdata) (v : R) : R := v / out_scale d ^ 2.
Definition gvar_in_units (d : gpdata) (i : nat) (v : R) : R := v * (in_scale d i / out_scale d) ^ 2.
(** [hp2] with mean [b2] are the hyperparameters [hp1] with mean [b1] in the other units *)
Record hp_other_units (o : gpopt) (d1 d2 : gpdata) (hp1 hp2 : hpv) (b1 b2 : R) (s : nat -> R) (a b : R) : Prop := mkhpu {
  hu_theta : forall i, (i < o_dim o)%nat -> theta_in_units d2 hp2 i = theta_in_units d1 hp1 i / s i ^ 2;
  hu_kernel : hp_kernel hp2 = hp_kernel hp1;
  hu_varK : both (fun v1 v2 => var_in_units d2 v2 = a ^ 2 * var_in_units d1 v1) (hp_varK hp1) (hp_varK hp2);
  hu_var_f : both (fun v1 v2 => var_in_units d2 v2 = a ^ 2 * var_in_units d1 v1) (hp_var_fval hp1) (hp_var_fval hp2);
  hu_var_g : both (fun v1 v2 => forall i, (i < o_dim o)%nat -> gvar_in_units d2 i v2 = (a / s i) ^ 2 * gvar_in_units d1 i v1) (hp_var_fgrad hp1) (hp_var_fgrad hp2);
  hu_mean : mean_in_units d2 b2 = a * mean_in_units d1 b1 + b }.

(** the evaluation points in the other units *)
Definition points_in_units (dim : nat) (s t : nat -> R) (x1 x2 : mat) : Prop :=
  nr x2 = nr x1 /\ nc x1 = dim /\ nc x2 = dim /\ forall p i, (p < nr x1)%nat -> (i < dim)%nat -> mat_at x2 p i = s i * mat_at x1 p i + t i.
(** results in the other units *)
Definition vec_units (n : nat) (a b : R) (u v : vec) : Prop := vlen u = n /\ vlen v = n /\ forall p, (p < n)%nat -> vat v p = a * vat u p + b.
Definition grad_units (n m : nat) (s : nat -> R) (a : R) (A B : mat) : Prop :=
  nr A = n /\ nr B = n /\ nc A = m /\ nc B = m /\ forall p i, (p < n)%nat -> (i < m)%nat -> mat_at B p i = a / s i * mat_at A p i.
