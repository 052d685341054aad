(** * Specification: the best likelihood over all constant means, and error bounds for the likelihood.
    Continues [Spec/FloatSpec.v], [Spec/LkdSpec.v]. *)
From Coq Require Import Reals List Arith.
From Verif.Base Require Import NpLite.
From Verif.Spec Require Import LinAlgSpec LkdSpec FloatSpec.
Local Open Scope R_scope.

(** [L] is the largest log-likelihood of the residuals [res b], over all numbers [b], and [b0] is where it is taken *)
Definition best_likelihood (A : mat) (res : R -> nat -> R) (b0 L : R) : Prop :=
  log_likelihood A (res b0) L /\ forall b L', log_likelihood A (res b) L' -> L' <= L.

(** the error of a product of two vectors in the inner product of the inverse, in relation to their lengths there:
    about r + sqrt(n k) n u, where [r] is the error of solutions, [k] the condition number *)
Definition prod_acc (u r k : R) (n : nat) : R := (r + sqrt (INR n * k) * gam u (n + 3)) / (1 - r).
(** ... of the mean, in relation to the length of the data and that of the basis: about twice as much *)
Definition beta_acc (u r k : R) (n : nat) : R := 2 * prod_acc u r k n / (1 - prod_acc u r k n).
(** ... of the weighted sum of squares, in relation to that of the data: about r + sqrt(n k) (n + 12) u *)
Definition quad_acc (u r k : R) (n : nat) : R :=
  let p := prod_acc u r k n in let c := beta_acc u r k n in let e := sqrt (INR n * k) * gam u 3 * (2 + c) in
  p * (1 + c + e) ^ 2 + c ^ 2 + e * (2 * (1 + c) + e).
(** ... of the logarithm of the determinant: about n r + n u (the sum of the absolute values of the logarithms) *)
Definition det_acc (u r k : R) (A : mat) : R :=
  let n := nr A in
  - (INR n * ln (1 - r)) + gam u (n + 3) * (rsum n (fun i => Rabs (ln (mat_at A i i))) + INR n * (ln k - ln (1 - r))).
(** ... of the log-likelihood [L]; [y2] is the weighted sum of squares of the data *)
Definition lkd_acc (u r k : R) (A : mat) (y2 L : R) : R :=
  let D := (det_acc u r k A + quad_acc u r k (nr A) * y2) / 2 in D + gam u 2 * (Rabs L + D).

(** Without noise: [v] is the closed form of the variance for the residuals from the best constant mean [b0], not below 1e-32, and [L] the value the
    library maximises (the largest likelihood over all variances and means plus n / 2, when [v] is above that limit: [closed_form_best]) *)
Definition closed_form (A : mat) (res : R -> nat -> R) (b0 v L : R) : Prop :=
  exists q, weighted_square A (res b0) q /\ (forall b q', weighted_square A (res b) q' -> q <= q') /\
    v = Rmax (/ 10 ^ 32) (q / INR (nr A)) /\ L = - (INR (nr A) * ln v + ln (det (nr A) (mat_at A))) / 2.
(** the relative error of the variance *)
Definition varK_acc (u r k y2 v : R) (n : nat) : R := ((1 + u) * quad_acc u r k n + u) * y2 / (INR n * v) + u.
(** ... of the value [L]; [t] is the relative error of the variance *)
Definition lkd_free_acc (u r k t : R) (A : mat) (v L : R) : R :=
  let N := INR (nr A) in let l := - ln (1 - t) in
  let D := (N * l + gam u 3 * (N * (Rabs (ln v) + l)) + det_acc u r k A) / 2 in D + gam u 2 * (Rabs L + D).
