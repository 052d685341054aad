(** * Independent specification: linear algebra vocabulary over real vectors. *)
From Coq Require Import Reals List Arith.
From Coquelicot Require Import Coquelicot.
From Verif.Base Require Import NpLite.
From Verif.Spec Require Import KernelSpec.
Local Open Scope R_scope.

(** Vectors of length n are functions read below n. *)
Definition dotp (n : nat) (u v : nat -> R) : R := rsum n (fun i => u i * v i).
Definition nrm (n : nat) (v : nat -> R) : R := sqrt (dotp n v v).
(** matrix-vector product *)
Definition mv (A : mat) (v : nat -> R) : nat -> R := fun i => rsum (nc A) (fun j => mat_at A i j * v j).
Definition nonzero (n : nat) (v : nat -> R) : Prop := exists i, (i < n)%nat /\ v i <> 0.

(** symmetric positive definite *)
Definition pd (A : mat) : Prop := symmetric A /\ forall v, nonzero (nr A) v -> 0 < qform A v.

(** The 2-norm condition number  (max_x |Ax|/|x|) / (min_y |Ay|/|y|)  is finite and at most [k]. *)
Definition cond2_le (A : mat) (k : R) : Prop :=
  nr A = nc A /\
  (forall y, nonzero (nr A) y -> 0 < nrm (nr A) (mv A y)) /\
  forall x y, nrm (nr A) (mv A x) * nrm (nr A) y <= k * (nrm (nr A) (mv A y) * nrm (nr A) x).

(** [x] solves A x = b *)
Definition solves (A : mat) (x b : nat -> R) : Prop := forall i, (i < nr A)%nat -> mv A x i = b i.

(** [L] (read in its lower triangle) is a Cholesky factor of [A]: positive diagonal, L L^T = A *)
Definition low (L : nat -> nat -> R) (i j : nat) : R := if (j <=? i)%nat then L i j else 0.
Definition is_chol (n : nat) (L : nat -> nat -> R) (A : mat) : Prop :=
  nr A = n /\ nc A = n /\ (forall i, (i < n)%nat -> 0 < L i i) /\
  forall i j, (i < n)%nat -> (j < n)%nat -> mat_at A i j = rsum n (fun k => low L i k * low L j k).

(** Determinant, by expansion along the first row. *)
Fixpoint det (n : nat) (A : nat -> nat -> R) : R :=
  match n with
  | O => 1
  | S m => rsum (S m) (fun j => (-1) ^ j * A 0%nat j *
              det m (fun i k => A (S i) (if (k <? j)%nat then k else S k)))
  end.

(** The 2-norm condition number itself: the least such [k]. *)
Definition cond2 (A : mat) : R := real (Glb_Rbar (cond2_le A)).
