(** * Independent specification: further observations that agree with what was predicted for them. *)
From Coq Require Import Reals List Arith Bool.
From Verif.Base Require Import NpLite.
From Verif.Spec Require Import KernelSpec DataSpec OrderSpec.
From Verif.Model Require Import WellCond Rescaling GpState.
Local Open Scope R_scope.

(** [mu] and [D]: predicted values and gradients at the points of [d2], row by row.  Every value of [d2] that is not one of
    [d1] is the predicted one, and so is every partial derivative. *)
Definition as_predicted (o : gpopt) (d1 d2 : gpdata) (f h : nat -> nat) (mu : vec) (D : mat) : Prop :=
  (forall p2, (p2 < d_n_eval d2)%nat -> (forall p, (p < d_n_eval d1)%nat -> f p <> p2) -> vat (d_fval d2) p2 = vat mu p2) /\
  (o_use_grad o = true -> exists G2, d_grad d2 = Some G2 /\
     forall q2 i, (q2 < n_used (d_n_eval d2) (d_bvec d2))%nat -> (i < o_dim o)%nat -> (forall q, (q < n_used (d_n_eval d1) (d_bvec d1))%nat -> h q <> q2) ->
       mat_at G2 q2 i = mat_at D (nth q2 (grad_points (d_n_eval d2) (d_bvec d2)) 0%nat) i).
