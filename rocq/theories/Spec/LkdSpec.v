(** * Independent specification: the Gaussian log-likelihood of observations around a constant mean. *)
From Coq Require Import Reals List Arith.
From Coquelicot Require Import Coquelicot.
From Verif.Base Require Import NpLite.
From Verif.Spec Require Import KernelSpec LinAlgSpec DataSpec.
From Verif.Model Require Import GpState.
Local Open Scope R_scope.

(** observations minus a constant mean [b]: the mean is subtracted from the function values; its
    derivatives vanish *)
Definition residual (labs : list label) (val : label -> R) (b : R) (r : nat) : R :=
  match nth_error labs r with
  | Some (LVal p) => val (LVal p) - b
  | Some (LDer i q) => val (LDer i q)
  | None => 0
  end.
(** [q] = r^T A^-1 r *)
Definition weighted_square (A : mat) (r : nat -> R) (q : R) : Prop :=
  exists x, solves A x r /\ q = dotp (nr A) r x.
(** [l] = log of the density of N(0, A) at r, without the constant -(n/2) ln(2 pi) *)
Definition log_likelihood (A : mat) (r : nat -> R) (l : R) : Prop :=
  exists q, weighted_square A r q /\ l = - (ln (det (nr A) (mat_at A)) + q) / 2.
Definition times (c : R) (A : mat) : mat := mkmat (nr A) (nc A) (fun i j => c * mat_at A i j).
(** [g] is the derivative at x of a computed quantity that exists near x *)
Definition is_derivative_of (f : R -> option R) (x g : R) : Prop :=
  exists del F, 0 < del /\ (forall t, Rabs (t - x) < del -> f t = Some (F t)) /\ is_derive F x g.
