(** * Independent specification: functions made of the kernel. *)
From Coq Require Import Reals List Arith Bool.
From Verif.Base Require Import NpLite.
From Verif.Spec Require Import KernelSpec DataSpec RescaleSpec EvalSpec.
From Verif.Model Require Import WellCond Rescaling GpState.
Local Open Scope R_scope.

(** the function m + sum_j c_j k(x, z_j) of the coordinates of the data; [k] is the kernel of the model *)
Definition native_fun (d : gpdata) (k : pt -> pt -> R) (m : R) (J : nat) (c : nat -> R) (z : nat -> pt) (x : pt) : R :=
  m + rsum J (fun j => c j * k (model_point d x) (model_point d (z j))).
(** its squared size in the metric of the kernel *)
Definition native_size (d : gpdata) (k : pt -> pt -> R) (J : nat) (c : nat -> R) (z : nat -> pt) : R :=
  rsum J (fun i => rsum J (fun j => c i * k (model_point d (z i)) (model_point d (z j)) * c j)).
(** the data are values and partial derivatives of [F] *)
Definition data_of (o : gpopt) (d : gpdata) (F : pt -> R) : Prop :=
  (forall p, (p < d_n_eval d)%nat -> vat (d_fval d) p = F (rows_of (d_x d) p)) /\
  (o_use_grad o = true -> exists G, d_grad d = Some G /\ forall q i, (q < n_used (d_n_eval d) (d_bvec d))%nat -> (i < o_dim o)%nat ->
     is_partial F i (rows_of (d_x d) (nth q (grad_points (d_n_eval d) (d_bvec d)) 0%nat)) (mat_at G q i)).
