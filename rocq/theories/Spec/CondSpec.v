(** * Independent specification of numpy.linalg.eig and numpy.linalg.cond on symmetric matrices *)
From Coq Require Import Reals List Arith.
From Verif.Base Require Import NpLite.
From Verif.Spec Require Import KernelSpec LinAlgSpec.
From Verif.Model Require Import Lkd.
Local Open Scope R_scope.

Definition column (E : mat) (k : nat) : nat -> R := fun i => mat_at E i k.
(** [(ev, E)]: eigenvalues and, in the columns of E, eigenvectors of length one; the largest and the smallest
    eigenvalue (the extreme values of the quadratic form on the unit sphere) are in the list *)
Definition eigensystem (A : mat) (r : vec * mat) : Prop :=
  let (ev, E) := r in let n := nr A in
  vlen ev = n /\ nr E = n /\ nc E = n /\
  (forall k, (k < n)%nat -> dotp n (column E k) (column E k) = 1 /\ forall i, (i < n)%nat -> mv A (column E k) i = vat ev k * column E k i) /\
  (forall lo, (forall k, (k < n)%nat -> lo <= vat ev k) -> forall v, lo * dotp n v v <= qform A v) /\
  (forall hi, (forall k, (k < n)%nat -> vat ev k <= hi) -> forall v, qform A v <= hi * dotp n v v).
(** the numpy routines return what they are for, on the matrix A *)
Definition numpy_ok (la : npla) (A : mat) : Prop :=
  la_cond2 la A = cond2 A /\ (la_fro la = false -> la_cond la A = cond2 A) /\ eigensystem A (la_eig la A).
(** all eigenvalues of the symmetric matrix A are at least m *)
Definition eigenvalues_at_least (A : mat) (m : R) : Prop := forall v, m * dotp (nr A) v v <= qform A v.
(** condition number in the Frobenius norm: |A| |A^-1| *)
Definition frobenius (n : nat) (K : nat -> nat -> R) : R := sqrt (rsum n (fun i => rsum n (fun j => K i j ^ 2))).
Definition inverse_of (n : nat) (K W : nat -> nat -> R) : Prop :=
  forall i j, (i < n)%nat -> (j < n)%nat -> rsum n (fun k => K i k * W k j) = if (i =? j)%nat then 1 else 0.
Definition cond_frobenius (A : mat) (c : R) : Prop :=
  exists W, inverse_of (nr A) (mat_at A) W /\ c = frobenius (nr A) (mat_at A) * frobenius (nr A) W.
