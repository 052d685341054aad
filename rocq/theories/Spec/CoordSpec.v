(** * Independent specification: the same problem with its coordinates in another order. *)
From Coq Require Import Reals List Arith Bool.
From Verif.Base Require Import NpLite.
From Verif.Spec Require Import KernelSpec DataSpec OrderSpec.
From Verif.Model Require Import WellCond Rescaling GpState.
Local Open Scope R_scope.

(** Coordinate i of [d1] is coordinate [pi i] of [d2]: the points, the gradients and the standard deviations of
    the gradients have their columns in another order, everything else is the same. *)
Record coords_renamed (o : gpopt) (d1 d2 : gpdata) (pi : nat -> nat) : Prop := mkcoords {
  cr_perm : exists pi', inverse_below (o_dim o) pi pi';
  cr_n : d_n_eval d2 = d_n_eval d1;
  cr_mask : d_bvec d2 = d_bvec d1;
  cr_noisy : d_noisy d2 = d_noisy d1;
  cr_x : forall p i, (p < d_n_eval d1)%nat -> (i < o_dim o)%nat -> mat_at (d_x d2) p (pi i) = mat_at (d_x d1) p i;
  cr_val : forall p, (p < d_n_eval d1)%nat -> vat (d_fval d2) p = vat (d_fval d1) p;
  cr_std : both (fun s1 s2 => forall p, (p < d_n_eval d1)%nat -> vat s2 p = vat s1 p) (d_std_fval d1) (d_std_fval d2);
  cr_grad : o_use_grad o = true -> both (fun G1 G2 => forall q i, (q < n_used (d_n_eval d1) (d_bvec d1))%nat -> (i < o_dim o)%nat -> mat_at G2 q (pi i) = mat_at G1 q i) (d_grad d1) (d_grad d2);
  cr_stdg : o_use_grad o = true -> both (fun G1 G2 => forall q i, (q < n_used (d_n_eval d1) (d_bvec d1))%nat -> (i < o_dim o)%nat -> mat_at G2 q (pi i) = mat_at G1 q i) (d_std_grad d1) (d_std_grad d2) }.
(** the data are scaled by the same factors, those of the coordinates in the other order (the shifts may differ) *)
Definition renamed_factors (o : gpopt) (d1 d2 : gpdata) (pi : nat -> nat) : Prop :=
  out_scale d2 = out_scale d1 /\ forall i, (i < o_dim o)%nat -> in_scale d2 (pi i) = in_scale d1 i.
(** the same hyperparameters, one per coordinate in the other order, except for the coefficient of the mean function *)
Definition renamed_hp (o : gpopt) (pi : nat -> nat) (hp1 hp2 : hpv) : Prop :=
  (forall i, (i < o_dim o)%nat -> vat (hp_theta hp2) (pi i) = vat (hp_theta hp1) i) /\
  hp_kernel hp2 = hp_kernel hp1 /\ hp_varK hp2 = hp_varK hp1 /\ hp_var_fval hp2 = hp_var_fval hp1 /\ hp_var_fgrad hp2 = hp_var_fgrad hp1.
(** n rows of dimension m: the columns of [B] are those of [A] in the other order *)
Definition cols_renamed (n m : nat) (pi : nat -> nat) (A B : mat) : Prop :=
  nr A = n /\ nr B = n /\ nc A = m /\ nc B = m /\ forall p i, (p < n)%nat -> (i < m)%nat -> mat_at B p (pi i) = mat_at A p i.
(** n square matrices: rows and columns in the other order *)
Definition hess_renamed (n m : nat) (pi : nat -> nat) (A B : ten) : Prop :=
  td A = n /\ td B = n /\ tr A = m /\ tr B = m /\ tc A = m /\ tc B = m /\
  forall p i j, (p < n)%nat -> (i < m)%nat -> (j < m)%nat -> tat B p (pi i) (pi j) = tat A p i j.
