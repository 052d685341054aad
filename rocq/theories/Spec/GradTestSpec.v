(** * Vocabulary for C58: functions given by handles, and their finite differences *)
From Coq Require Import Reals List Arith Bool.
From Coquelicot Require Import Coquelicot.
From Verif.Base Require Import NpLite.
From Verif.Spec Require Import KernelSpec.
From Verif.Model Require Import GradTest.
Local Open Scope R_scope.

(** on points with [dim] coordinates the handle returns the values f 0, ..., f (m - 1) *)
Definition handle_of (dim m : nat) (f : nat -> pt -> R) (fh : vec -> res vec) : Prop :=
  forall x, vlen x = dim -> exists v, fh x = Ok v /\ vlen v = m /\ forall k, (k < m)%nat -> vat v k = f k (vat x).
(** shapes of gradients: (dim,) for one function, (m, dim) in general *)
Definition grad_shape (dim m : nat) (g : garr) : Prop :=
  match g with A1 v => vlen v = dim /\ m = 1%nat | A2 M => nr M = m /\ nc M = dim end.
Definition same_axes (g h : garr) : Prop := match g, h with A1 _, A1 _ | A2 _, A2 _ => True | _, _ => False end.
Definition gentry (g : garr) (k i : nat) : R := match g with A1 v => vat v i | A2 M => mat_at M k i end.
(** the function along coordinate i through x *)
Definition along (f : pt -> R) (x : pt) (i : nat) : R -> R := fun t => f (upd x i t).
(** polynomials of degree at most 1 and 2 along a coordinate *)
Definition affine_along (f : pt -> R) (x : pt) (i : nat) (a : R) : Prop := exists c, forall t, along f x i t = c + a * t.
Definition quadratic_along (f : pt -> R) (x : pt) (i : nat) : Prop := exists c a b, forall t, along f x i t = c + a * t + b * t ^ 2.
