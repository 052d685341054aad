(** * Specification: a machine that also adds, and has the exponential function and the logarithm of a numerical library.
    Continues [Spec/FloatSpec.v]. *)
From Coq Require Import Reals List Arith.
From Verif.Base Require Import NpLite.
From Verif.Spec Require Import FloatSpec.
Local Open Scope R_scope.

(** [m_sum]: the sum of a list of numbers *)
Record machine := mkmach { m_ar : arith; m_add : R -> R -> R; m_exp : R -> R; m_sum : list R -> R; m_ln : R -> R }.
(** the exponential function and the logarithm may be wrong by two roundings (one unit in the last place), the other operations by one *)
Record machine_rounds (u : R) (m : machine) : Prop := mkmr {
  mr_ar : rounds u (m_ar m);
  mr_add : forall a b, near u (a + b) (m_add m a b);
  mr_exp : forall a, near (gam u 2) (exp a) (m_exp m a);
  mr_sum : forall l, (forall x, In x l -> 0 <= x) -> 0 <= m_sum m l /\ near (gam u (length l)) (total l) (m_sum m l);
  mr_any : forall l, Rabs (m_sum m l - total l) <= gam u (length l) * total (map Rabs l);
  mr_ln : forall a, 0 < a -> near (gam u 2) (ln a) (m_ln m a) }.

(** the error of the entries of a kernel matrix for points with d coordinates, in relation to the diagonal: about
    (6 d + 48) u *)
Definition kern_err (u : R) (d : nat) : R := 2 * gam u (d + 14) + 4 * gam u (d + 5).
(** the error of the entries of the covariance matrix, after noise, preconditioner and nugget, in relation to the diagonal, when
    the nugget has the relative error [w]: about (8 d + 88) u + w *)
Definition cov_err (u : R) (d : nat) (w : R) : R := (1 + (kern_err u d + w)) * (1 + gam u (2 * d + 40)) - 1.

(** the relative error of a nugget computed from the row sums of n data: about n (8 d + 89) u *)
Definition eta_err (u : R) (d n : nat) : R := (1 + INR n * cov_err u d 0) * (1 + gam u (n + 2)) - 1.

(** ... when the preconditioner is computed, too: about (9 d + 106) u + w *)
Definition total_err (u : R) (d : nat) (w : R) : R := (1 + cov_err u d w) * (1 + gam u (d + 18)) - 1.

(** the symmetric matrix of which a Cholesky factorisation reads one half *)
Definition read_half (lower : bool) (A : mat) : mat :=
  mkmat (nr A) (nr A) (fun i j => if lower then (if (j <=? i)%nat then mat_at A i j else mat_at A j i)
                                  else (if (i <=? j)%nat then mat_at A i j else mat_at A j i)).
