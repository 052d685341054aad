(** * Specification: arithmetic with rounding errors, in the usual way (Higham, Accuracy and Stability, (2.4), (2.5)):
    the result of an operation differs from the exact one by at most the unit roundoff [u] times the exact result, and
    also by at most [u] times the result itself.  Overflow and underflow are not part of it. *)
From Coq Require Import Reals List Arith Permutation.
From Verif.Base Require Import NpLite.
From Verif.Spec Require KernelSpec LinAlgSpec.
Import ListNotations.
Local Open Scope R_scope.

(** [y] is a rounded [x] *)
Definition near (u x y : R) : Prop := Rabs (y - x) <= u * Rabs x /\ Rabs (y - x) <= u * Rabs y.

(** the accumulated error of [k] roundings: (1+u)^k - 1, about k u *)
Definition gam (u : R) (k : nat) : R := (1 + u) ^ k - 1.

(** the sum of products of pairs, and of their absolute values *)
Definition total (l : list R) : R := fold_right Rplus 0 l.
Definition sum_products (l : list (R * R)) : R := total (map (fun p => fst p * snd p) l).
Definition sum_abs_products (l : list (R * R)) : R := total (map (fun p => Rabs (fst p * snd p)) l).

(** Subtraction, multiplication, division, square root of a machine; [f_quo] is a division that may be done as a multiplication
    by the reciprocal; [f_res i j c l] is c minus the sum of the products of the pairs [l], computed in an order that may depend
    on where (i, j) it is needed; [f_dot l] is the sum of the products. *)
Record arith := mkar { f_sub : R -> R -> R; f_mul : R -> R -> R; f_div : R -> R -> R; f_sqrt : R -> R;
  f_quo : R -> R -> R; f_res : nat -> nat -> R -> list (R * R) -> R; f_dot : list (R * R) -> R }.
(** All of them with unit roundoff [u].  The bounds for sums hold for every order of summation, with or without fused
    multiplications and additions ([FloatProps2.C66_any_order_of_summation]). *)
Record rounds (u : R) (ar : arith) : Prop := mkrounds {
  ro_u : 0 <= u;
  ro_sub : forall a b, near u (a - b) (f_sub ar a b);
  ro_mul : forall a b, near u (a * b) (f_mul ar a b);
  ro_div : forall a b, b <> 0 -> near u (a / b) (f_div ar a b);
  ro_sqrt : forall a, 0 <= a -> near u (sqrt a) (f_sqrt ar a);
  ro_quo : forall a b, b <> 0 -> near (gam u 2) (a / b) (f_quo ar a b);
  ro_res : forall i j c l, Rabs (c - sum_products l - f_res ar i j c l) <= gam u (length l) * (Rabs (f_res ar i j c l) + sum_abs_products l);
  ro_dot : forall l, Rabs (f_dot ar l - sum_products l) <= gam u (length l + 1) * sum_abs_products l }.

(** ** Orders of summation; every operation is the exact one followed by the rounding function [rnd] *)
(** [e] is the sum of the products of the pairs, in some order, with or without fused operations *)
Inductive summed (rnd : R -> R) : list (R * R) -> R -> Prop :=
| s_one a b : summed rnd [(a, b)] (rnd (a * b))
| s_add l1 l2 e1 e2 : summed rnd l1 e1 -> summed rnd l2 e2 -> summed rnd (l1 ++ l2) (rnd (e1 + e2))
| s_fma l a b e : summed rnd l e -> summed rnd ((a, b) :: l) (rnd (e + a * b))
| s_perm l l' e : Permutation l l' -> summed rnd l e -> summed rnd l' e.
(** [e] is c minus the products, in some order, in one or more blocks *)
Inductive left_over (rnd : R -> R) (c : R) : list (R * R) -> R -> Prop :=
| l_start : left_over rnd c [] c
| l_sub l1 l2 e1 e2 : left_over rnd c l1 e1 -> summed rnd l2 e2 -> left_over rnd c (l1 ++ l2) (rnd (e1 - e2))
| l_fma l a b e : left_over rnd c l e -> left_over rnd c ((a, b) :: l) (rnd (e - a * b))
| l_perm l l' e : Permutation l l' -> left_over rnd c l e -> left_over rnd c l' e.
(** [e] is the sum of the numbers, in some order *)
Inductive added (rnd : R -> R) : list R -> R -> Prop :=
| a_one a : added rnd [a] a
| a_add l1 l2 e1 e2 : added rnd l1 e1 -> added rnd l2 e2 -> added rnd (l1 ++ l2) (rnd (e1 + e2))
| a_perm l l' e : Permutation l l' -> added rnd l e -> added rnd l' e.
Definition any_order (rnd : R -> R) (ar : arith) : Prop :=
  (forall a b, f_sub ar a b = rnd (a - b)) /\ (forall a b, f_mul ar a b = rnd (a * b)) /\ (forall a b, f_div ar a b = rnd (a / b)) /\
  (forall a, f_sqrt ar a = rnd (sqrt a)) /\ (forall a b, f_quo ar a b = rnd (a / b) \/ f_quo ar a b = rnd (a * rnd (1 / b))) /\
  (forall i j c l, left_over rnd c l (f_res ar i j c l)) /\ (forall l, l = [] /\ f_dot ar l = 0 \/ summed rnd l (f_dot ar l)).
(** for instance one product after the other *)
Definition sequential (rnd : R -> R) : arith :=
  mkar (fun a b => rnd (a - b)) (fun a b => rnd (a * b)) (fun a b => rnd (a / b)) (fun a => rnd (sqrt a)) (fun a b => rnd (a / b))
    (fun _ _ c l => fold_left (fun s p => rnd (s - rnd (fst p * snd p))) l c)
    (fun l => match l with [] => 0 | p :: l => fold_left (fun s p => rnd (s + rnd (fst p * snd p))) l (rnd (fst p * snd p)) end).

(** the relative backward error of a Cholesky factorisation of size n *)
Definition chol_err (u : R) (n : nat) : R := gam u (n + 1) / (1 - gam u (n + 1)).
(** the largest entry of row i and column j of a positive semidefinite matrix with diagonal [a] *)
Definition size_ij (A : mat) (i j : nat) : R := sqrt (mat_at A i i) * sqrt (mat_at A j j).
(** [Ah] is a computed version of [A]: symmetric, of the same shape, each entry right up to [e] in relation to the
    diagonal *)
Definition computed (e : R) (A Ah : mat) : Prop :=
  nr Ah = nr A /\ nc Ah = nc A /\ (forall i j, mat_at Ah i j = mat_at Ah j i) /\
  forall i j, (i < nr A)%nat -> (j < nr A)%nat -> Rabs (mat_at Ah i j - mat_at A i j) <= e * size_ij A i j.
(** the precision is high enough for the condition number [k] and the size [n]: essentially k n (e + n u) < 1 *)
Definition precise (u e k : R) (n : nat) : Prop :=
  0 <= e /\ gam u (n + 7) < 1 /\ k * (INR n * (e + (1 + e) * chol_err u n)) < 1.
(** the relative backward error of factorisation and solution *)
Definition solve_err (u : R) (n : nat) : R := (3 * gam u (n + 7) + gam u (n + 7) ^ 2) / (1 - gam u (n + 7)).
(** the relative error of the solution of a system of size n with condition number [k], whose entries are right up to [e] *)
Definition sol_err (u e k : R) (n : nat) : R := k * (INR n * (e + (1 + e) * solve_err u n)).
(** ... the relative residual of that solution *)
Definition sys_err (u e : R) (n : nat) : R := e + (1 + e) * solve_err u n.
(** the length of [x] in units given by the diagonal of [A] *)
Definition len (A : mat) (x : nat -> R) : R := LinAlgSpec.nrm (nr A) (fun i => sqrt (mat_at A i i) * x i).
(** the condition number of [A] after scaling to unit diagonal is at most [k] *)
Definition scaled_cond_le (A : mat) (k : R) : Prop := forall v, len A v * len A v <= k * KernelSpec.qform A v.
(** the length of [x] in the inner product of [A] *)
Definition energy (A : mat) (x : nat -> R) : R := sqrt (KernelSpec.qform A x).
(** [xh] is [x] with relative error [r] in the length [N]: in relation to [xh], and, when [r] is less than 1, in relation
    to [x] *)
Definition rel_error (N : (nat -> R) -> R) (r : R) (xh x : nat -> R) : Prop :=
  N (fun i => xh i - x i) <= r * N xh /\ (r < 1 -> N (fun i => xh i - x i) <= r / (1 - r) * N x).
Definition accurate (A : mat) (r : R) (xh x : nat -> R) : Prop := rel_error (len A) r xh x /\ rel_error (energy A) r xh x.
(** the logarithm of the determinant of a matrix, from the diagonal of its Cholesky factor *)
Definition log_det (n : nat) (c : mat * bool) : R := 2 * rsum n (fun i => ln (mat_at (fst c) i i)).
(** [v] at most [g] in the units given by the diagonal of [A] *)
Definition within (A : mat) (g : R) (v : nat -> R) : Prop := forall i, (i < nr A)%nat -> Rabs (v i) <= g * sqrt (mat_at A i i).
(** [A] is the covariance matrix of data of which the share [eta] of the variance (at least) is independent noise, and [k] the
    covariances of the data with a number of variance 1: the variance of any linear predictor w of this number is at least the
    part of the noise *)
Definition covariances (A : mat) (eta : R) (k : nat -> R) : Prop :=
  forall w, eta * rsum (nr A) (fun i => mat_at A i i * (w i * w i)) <= 1 - 2 * LinAlgSpec.dotp (nr A) k w + KernelSpec.qform A w.
(** the error of a computed variance in relation to the noise of n data: about n (3 e + 4 n u) *)
Definition var_err (u e : R) (n : nat) : R :=
  INR n * (sys_err u e n + (1 + gam u (n + 1)) * (1 + e) * (2 * e + gam u (n + 1) * (1 + e))).
(** the error of a computed mean in relation to the length of the data: about r + sqrt(n k) (e + n u), where [r] is the error of
    the weights, [k] the condition number *)
Definition mean_err (u e r k : R) (n : nat) : R := (r + sqrt (INR n * k) * (e + gam u (n + 1) * (1 + e))) / (1 - r).
(** the error of a computed variance in relation to the prior variance: about r + sqrt(n k) (2 e + n u) *)
Definition var_acc (u e r k : R) (n : nat) : R :=
  let a := sqrt (INR n * k) in let b := 1 + a * e in
  (r * (b * b) + gam u (n + 1) * (1 + e) * (a * b)) / (1 - r) + a * e * (1 + b).
(** [s] is a computed standard deviation of a number with exact variance [v], both in relation to [varK]: it comes from a
    variance with absolute error [D] (and a rounding), the square roots and their product have three roundings *)
Definition deviation_within (u D v varK s : R) : Prop :=
  exists vh, 0 <= vh /\ Rabs (vh - v) <= D + u * (v + D) /\ 0 <= s /\
    Rabs (s - sqrt vh * sqrt varK) <= gam u 3 * (sqrt vh * sqrt varK).
