(** * Independent specification of the covariance functions and of gradient-enhanced
    covariance matrices.  Nothing here refers to the model. *)
From Coq Require Import Reals List Arith.
From Coquelicot Require Import Coquelicot.
From Verif.Base Require Import NpLite.
Import ListNotations.
Local Open Scope R_scope.

(** A point of the parameter space: its coordinates (only those below [d] matter). *)
Definition pt := nat -> R.

(** sum_{i<d} theta_i (x_i - y_i)^2 *)
Definition sqd (d : nat) (th : nat -> R) (x y : pt) : R :=
  rsum d (fun i => th i * (x i - y i) ^ 2).

(** The three covariance functions of the documentation. *)
Definition k_sqexp d th (x y : pt) : R := exp (- sqd d th x y).
Definition matern52 (nu : R) : R := (1 + sqrt 5 * nu + 5 / 3 * nu ^ 2) * exp (- (sqrt 5 * nu)).
Definition k_matern d th (x y : pt) : R := matern52 (sqrt (sqd d th x y)).
Definition k_ratqu d th alpha (x y : pt) : R := Rpower (1 + sqd d th x y / alpha) (- alpha).

(** [x] with its i-th coordinate replaced by [t] *)
Definition upd (x : pt) (i : nat) (t : R) : pt := fun j => if (j =? i)%nat then t else x j.

(** What is observed at a row of the covariance matrix: the function at a point, or its
    i-th partial derivative at a point. *)
Inductive obs := Val (x : pt) | Der (i : nat) (x : pt).

(** [is_cov k a b v]: [v] is the covariance of observations [a] and [b] of a process with
    covariance function [k]: the corresponding partial derivative of [k]. *)
Definition is_cov (k : pt -> pt -> R) (a b : obs) (v : R) : Prop :=
  match a, b with
  | Val x, Val y => v = k x y
  | Der i x, Val y => is_derive (fun t => k (upd x i t) y) (x i) v
  | Val x, Der j y => is_derive (fun t => k x (upd y j t)) (y j) v
  | Der i x, Der j y =>
      exists g : pt -> R,
        (forall x', is_derive (fun t => k x' (upd y j t)) (y j) (g x')) /\
        is_derive (fun t => g (upd x i t)) (x i) v
  end.

(** The points whose gradient is used: all, or those flagged by the mask, in order. *)
Definition grad_points (n : nat) (b : option (list bool)) : list nat :=
  match b with
  | None => seq 0 n
  | Some m => filter (fun p => nth p m false) (seq 0 n)
  end.
(** Documented layout: n function values, then for each dimension the partial derivatives in
    that dimension at the selected points. *)
Definition observations (n d : nat) (X : nat -> pt) (b : option (list bool)) : list obs :=
  map (fun p => Val (X p)) (seq 0 n)
  ++ flat_map (fun i => map (fun p => Der i (X p)) (grad_points n b)) (seq 0 d).

(** [K] is the covariance matrix of the observations [oa] (rows) and [ob] (columns). *)
Definition is_cov_matrix (k : pt -> pt -> R) (oa ob : list obs) (K : mat) : Prop :=
  nr K = length oa /\ nc K = length ob /\
  forall r c a b, nth_error oa r = Some a -> nth_error ob c = Some b ->
    is_cov k a b (mat_at K r c).

(** rows of a matrix as points *)
Definition rows_of (X : mat) : nat -> pt := fun p i => mat_at X p i.
(** a mask is usable for n points *)
Definition mask_ok (n : nat) (b : option (list bool)) : Prop :=
  match b with None => True | Some m => length m = n end.

(** The three values of the API argument [kernel_type]. *)
Inductive kernel := SqExp | Ma5f2 | RatQu.
(** the covariance function selected by [kernel_type]; [a] is the kernel hyperparameter alpha,
    which only 'RatQu' uses *)
Definition kfun (k : kernel) (d : nat) (th : nat -> R) (a : R) : pt -> pt -> R :=
  match k with
  | SqExp => k_sqexp d th
  | Ma5f2 => k_matern d th
  | RatQu => k_ratqu d th a
  end.
(** the kernel hyperparameter passed to the API: only 'RatQu' needs one, and it is positive *)
Definition hp_ok (k : kernel) (hp : option R) : Prop :=
  match k with RatQu => exists a, hp = Some a /\ 0 < a | _ => True end.
Definition hp_val (hp : option R) : R := match hp with Some a => a | None => 0 end.
(** prior variance of a partial derivative in a direction with parameter [t]: gamma^2 *)
Definition gamma2 (k : kernel) (t : R) : R :=
  match k with Ma5f2 => 5 / 3 * t | _ => 2 * t end.

(** Positions, in the list of all observations, of the observations kept by the mask [b]. *)
Definition kept (n d : nat) (b : option (list bool)) : list nat :=
  seq 0 n ++ flat_map (fun i => map (fun p => (n + i * n + p)%nat) (grad_points n b)) (seq 0 d).

Definition symmetric (A : mat) : Prop :=
  nr A = nc A /\ forall i j, (i < nr A)%nat -> (j < nr A)%nat -> mat_at A i j = mat_at A j i.
(** quadratic form v^T A v *)
Definition qform (A : mat) (v : nat -> R) : R :=
  rsum (nr A) (fun i => rsum (nc A) (fun j => v i * mat_at A i j * v j)).
Definition psd (A : mat) : Prop := symmetric A /\ forall v, 0 <= qform A v.

(** ** Derivatives of matrices with respect to a parameter *)
(** [theta] with entry [e] replaced by [t] *)
Definition vset (v : vec) (e : nat) (t : R) : vec := mkvec (vlen v) (upd (vat v) e t).
(** the function [f] of one real parameter succeeds near [t0], returns n x m matrices there,
    and [D] is the entrywise derivative of what it returns at [t0] *)
Definition is_mat_derive (f : R -> res mat) (t0 : R) (n m : nat) (D : nat -> nat -> R) : Prop :=
  exists (del : R) (Kt : R -> mat), 0 < del /\
    (forall t, Rabs (t - t0) < del -> f t = Ok (Kt t) /\ nr (Kt t) = n /\ nc (Kt t) = m) /\
    forall r c, (r < n)%nat -> (c < m)%nat ->
      is_derive (fun t => mat_at (Kt t) r c) t0 (D r c).
(** [T] holds, slice by slice, the partial derivatives of [f] in the entries of [theta] *)
Definition is_theta_gradient (f : vec -> res mat) (theta : vec) (T : ten) : Prop :=
  td T = vlen theta /\
  forall e, (e < vlen theta)%nat ->
    is_mat_derive (fun t => f (vset theta e t)) (vat theta e) (tr T) (tc T) (tat T e).

(** ** Second x-derivatives *)
(** [v] is the derivative in coordinate [l] of [x] of the covariance between the i-th partial
    derivative at [x] and the observation [b]: for [b] a function value it is d2k/dx_l dx_i, for
    [b] a partial derivative in y_j it is d3k/dx_l dx_i dy_j *)
Definition is_cov_dx (k : pt -> pt -> R) (l i : nat) (x : pt) (b : obs) (v : R) : Prop :=
  exists g : pt -> R, (forall x', is_cov k (Der i x') b (g x')) /\
    is_derive (fun t => g (upd x l t)) (x l) v.
(** documented layout of the Hessian tensors: slice l, one block of n rows per dimension i,
    columns as in the kernel matrix *)
Definition is_hess_tensor (k : pt -> pt -> R) (d n : nat) (X : nat -> pt) (ob : list obs) (T : ten) : Prop :=
  td T = d /\ tr T = (d * n)%nat /\ tc T = length ob /\
  forall l i p c b, (l < d)%nat -> (i < d)%nat -> (p < n)%nat -> nth_error ob c = Some b ->
    is_cov_dx k l i (X p) b (tat T l (i * n + p) c).
