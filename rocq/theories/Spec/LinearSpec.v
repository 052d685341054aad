(** * Independent specification: data that differ in what was observed only. *)
From Coq Require Import Reals List Arith Bool.
From Verif.Base Require Import NpLite.
From Verif.Spec Require Import KernelSpec DataSpec OrderSpec.
From Verif.Model Require Import WellCond Rescaling GpState.
Local Open Scope R_scope.

(** the same points, the same gradients available, the same standard deviations, the same scaling factors; the observed
    values and gradients may be different *)
Record same_sites (o : gpopt) (d1 d2 : gpdata) : Prop := mksites {
  ss_n : d_n_eval d2 = d_n_eval d1;
  ss_mask : d_bvec d2 = d_bvec d1;
  ss_noisy : d_noisy d2 = d_noisy d1;
  ss_x : forall p i, (p < d_n_eval d1)%nat -> (i < o_dim o)%nat -> mat_at (d_x d2) p i = mat_at (d_x d1) p i;
  ss_std : both (fun s1 s2 => forall p, (p < d_n_eval d1)%nat -> vat s2 p = vat s1 p) (d_std_fval d1) (d_std_fval d2);
  ss_stdg : o_use_grad o = true -> both (fun G1 G2 => forall q i, (q < n_used (d_n_eval d1) (d_bvec d1))%nat -> (i < o_dim o)%nat -> mat_at G2 q i = mat_at G1 q i) (d_std_grad d1) (d_std_grad d2);
  ss_factors : same_factors o d1 d2 }.

(** the values and gradients of [d3] are [c1] times those of [d1] plus [c2] times those of [d2] *)
Definition grad_rows (d : gpdata) (q i : nat) : R := match d_grad d with Some G => mat_at G q i | None => 0 end.
Record superposed (o : gpopt) (d1 d2 d3 : gpdata) (c1 c2 : R) : Prop := mksup {
  sp_f : forall p, (p < d_n_eval d1)%nat -> vat (d_fval d3) p = c1 * vat (d_fval d1) p + c2 * vat (d_fval d2) p;
  sp_g : o_use_grad o = true -> forall q i, (q < n_used (d_n_eval d1) (d_bvec d1))%nat -> (i < o_dim o)%nat -> grad_rows d3 q i = c1 * grad_rows d1 q i + c2 * grad_rows d2 q i }.
Definition vec_sup (n : nat) (c1 c2 : R) (u v w : vec) : Prop := vlen u = n /\ vlen v = n /\ vlen w = n /\ forall p, (p < n)%nat -> vat w p = c1 * vat u p + c2 * vat v p.
Definition mat_sup (n m : nat) (c1 c2 : R) (A B C : mat) : Prop :=
  nr A = n /\ nr B = n /\ nr C = n /\ nc A = m /\ nc B = m /\ nc C = m /\ forall p i, (p < n)%nat -> (i < m)%nat -> mat_at C p i = c1 * mat_at A p i + c2 * mat_at B p i.
Definition ten_sup (n m : nat) (c1 c2 : R) (A B C : ten) : Prop :=
  td A = n /\ td B = n /\ td C = n /\ tr A = m /\ tr B = m /\ tr C = m /\ tc A = m /\ tc B = m /\ tc C = m /\
  forall p i j, (p < n)%nat -> (i < m)%nat -> (j < m)%nat -> tat C p i j = c1 * tat A p i j + c2 * tat B p i j.
(** all three present or all three absent *)
Definition all3 {A} (P : A -> A -> A -> Prop) (x y z : option A) : Prop :=
  match x, y, z with Some u, Some v, Some w => P u v w | None, None, None => True | _, _, _ => False end.
