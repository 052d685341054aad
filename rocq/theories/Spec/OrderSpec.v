(** * Independent specification: the same observations in another order, or among others. *)
From Coq Require Import Reals List Arith Bool.
From Verif.Base Require Import NpLite.
From Verif.Spec Require Import KernelSpec DataSpec.
From Verif.Model Require Import WellCond Rescaling GpState.
Local Open Scope R_scope.

Definition injective_below (n : nat) (f : nat -> nat) : Prop := forall p q, (p < n)%nat -> (q < n)%nat -> f p = f q -> p = q.
(** [g] undoes [f] on the numbers below n, both stay below n *)
Definition inverse_below (n : nat) (f g : nat -> nat) : Prop :=
  (forall p, (p < n)%nat -> (f p < n)%nat /\ g (f p) = p) /\ (forall p, (p < n)%nat -> (g p < n)%nat /\ f (g p) = p).
(** two arrays, both given or both absent, agree *)
Definition both {A} (P : A -> A -> Prop) (a b : option A) : Prop :=
  match a, b with Some x, Some y => P x y | None, None => True | _, _ => False end.
(** Every observation of [d1] is one of [d2]: point p of [d1] is point [f p] of [d2], with the same coordinates,
    function value and standard deviation; row q of the gradients of [d1] is row [h q] of those of [d2], taken at the
    same point, with the same entries and standard deviations; no observation of [d2] is used twice.  The standard
    deviations are known, or not, in both, and both are noisy or both are free of noise. *)
Record observations_in (o : gpopt) (d1 d2 : gpdata) (f h : nat -> nat) : Prop := mkobsin {
  oi_point : forall p, (p < d_n_eval d1)%nat -> (f p < d_n_eval d2)%nat /\ vat (d_fval d2) (f p) = vat (d_fval d1) p /\
    forall i, (i < o_dim o)%nat -> mat_at (d_x d2) (f p) i = mat_at (d_x d1) p i;
  oi_inj : injective_below (d_n_eval d1) f;
  oi_std : both (fun s1 s2 => forall p, (p < d_n_eval d1)%nat -> vat s2 (f p) = vat s1 p) (d_std_fval d1) (d_std_fval d2);
  oi_gpoint : o_use_grad o = true -> forall q, (q < n_used (d_n_eval d1) (d_bvec d1))%nat -> (h q < n_used (d_n_eval d2) (d_bvec d2))%nat /\
    nth (h q) (grad_points (d_n_eval d2) (d_bvec d2)) 0%nat = f (nth q (grad_points (d_n_eval d1) (d_bvec d1)) 0%nat);
  oi_ginj : o_use_grad o = true -> injective_below (n_used (d_n_eval d1) (d_bvec d1)) h;
  oi_grad : o_use_grad o = true -> both (fun G1 G2 => forall q i, (q < n_used (d_n_eval d1) (d_bvec d1))%nat -> (i < o_dim o)%nat -> mat_at G2 (h q) i = mat_at G1 q i) (d_grad d1) (d_grad d2);
  oi_stdg : o_use_grad o = true -> both (fun G1 G2 => forall q i, (q < n_used (d_n_eval d1) (d_bvec d1))%nat -> (i < o_dim o)%nat -> mat_at G2 (h q) i = mat_at G1 q i) (d_std_grad d1) (d_std_grad d2);
  oi_noisy : d_noisy d2 = d_noisy d1 }.
(** the data are scaled by the same factors (the shifts may differ) *)
Definition same_factors (o : gpopt) (d1 d2 : gpdata) : Prop :=
  out_scale d2 = out_scale d1 /\ forall i, (i < o_dim o)%nat -> in_scale d2 i = in_scale d1 i.
(** [d2] holds the observations of [d1], and no others, in another order *)
Definition reordered (o : gpopt) (d1 d2 : gpdata) (f h : nat -> nat) : Prop :=
  observations_in o d1 d2 f h /\ d_n_eval d2 = d_n_eval d1 /\ (exists g, inverse_below (d_n_eval d1) f g) /\
  (o_use_grad o = true -> n_used (d_n_eval d2) (d_bvec d2) = n_used (d_n_eval d1) (d_bvec d1) /\
     exists g, inverse_below (n_used (d_n_eval d1) (d_bvec d1)) h g).
(** the hyperparameters agree, except for the coefficient of the mean function *)
Definition same_but_beta (hp1 hp2 : hpv) : Prop :=
  hp_theta hp2 = hp_theta hp1 /\ hp_kernel hp2 = hp_kernel hp1 /\ hp_varK hp2 = hp_varK hp1 /\ hp_var_fval hp2 = hp_var_fval hp1 /\ hp_var_fgrad hp2 = hp_var_fgrad hp1.
(** the mean [b] of the process in the units of the data *)
Definition mean_in_units (d : gpdata) (b : R) : R := b / out_scale d + out_shift d.
(** two evaluations at n points of dimension m return the same numbers *)
Definition same_vec (n : nat) (a b : vec) : Prop := vlen a = n /\ vlen b = n /\ forall p, (p < n)%nat -> vat a p = vat b p.
Definition same_mat (n m : nat) (a b : mat) : Prop :=
  nr a = n /\ nr b = n /\ nc a = m /\ nc b = m /\ forall p i, (p < n)%nat -> (i < m)%nat -> mat_at a p i = mat_at b p i.
Definition same_ten (n m : nat) (a b : ten) : Prop :=
  td a = n /\ td b = n /\ tr a = m /\ tr b = m /\ tc a = m /\ tc b = m /\ forall p i j, (p < n)%nat -> (i < m)%nat -> (j < m)%nat -> tat a p i j = tat b p i j.
