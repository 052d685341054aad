(** * Independent specification for the example scripts *)
From Coq Require Import Reals List Arith.
From Coquelicot Require Import Coquelicot.
From Verif.Base Require Import NpLite.
Local Open Scope R_scope.

(** the table of points with coordinate i of point p replaced *)
Definition replace_entry (X : mat) (p i : nat) (t : R) : mat :=
  mkmat (nr X) (nc X) (fun q j => if andb (q =? p)%nat (j =? i)%nat then t else mat_at X q j).
(** the value a function of points returns for point p *)
Definition value_at (f : mat -> res vec) (X : mat) (p : nat) : R := match f X with Ok v => vat v p | Err _ => 0 end.
(** [G] holds, in row p and column i, the partial derivative of f at point p in coordinate i *)
Definition gradient_of (f : mat -> res vec) (X G : mat) : Prop :=
  nr G = nr X /\ nc G = nc X /\
  forall p i, (p < nr X)%nat -> (i < nc X)%nat -> is_derive (fun t => value_at f (replace_entry X p i t) p) (mat_at X p i) (mat_at G p i).
(** the Rosenbrock function in d coordinates *)
Definition rosenbrock (a : R) (d : nat) (x : nat -> R) : R := rsum (d - 1) (fun j => a * (x (S j) - x j ^ 2) ^ 2 + (1 - x j) ^ 2).

(** density of the normal distribution with mean mu and standard deviation s *)
Definition normal_density (mu s y : R) : R := / (s * sqrt (2 * PI)) * exp (- (y - mu) ^ 2 / (2 * s ^ 2)).
(** L is the integral of f over (-inf, b] *)
Definition integral_to (f : R -> R) (b L : R) : Prop := is_lim (fun A => RInt f A b) m_infty L.
(** the distribution function of the standard normal distribution *)
Definition normal_cdf (cdf : R -> R) : Prop := forall z, integral_to (normal_density 0 1) z (cdf z).
(** E[max(best - Y, 0)] for Y normal with mean mu and standard deviation s: the integral of (best - y) times the density over y <= best *)
Definition expected_improvement (mu s best L : R) : Prop := integral_to (fun y => (best - y) * normal_density mu s y) best L.

(** ** results of optimisations: a history is a list of numbers and NaN (None) *)
(** [m] is the best (for the order [le]) of the numbers among the entries 0..i *)
Definition best_so_far (le : R -> R -> Prop) (data : nat -> option R) (i : nat) (m : R) : Prop :=
  (exists j, (j <= i)%nat /\ data j = Some m) /\ forall j x, (j <= i)%nat -> data j = Some x -> le m x.
(** no number among the entries 0..i *)
Definition nothing_so_far (data : nat -> option R) (i : nat) : Prop := forall j, (j <= i)%nat -> data j = None.
(** the run goes on after entry i, or i is its last number *)
Definition within_run (n : nat) (data : nat -> option R) (i : nat) : Prop := exists j x, (i <= j < n)%nat /\ data j = Some x.
(** the largest of the first n numbers (0 when there is none) *)
Definition largest (n : nat) (f : nat -> nat) (m : nat) : Prop := (forall i, (i < n)%nat -> (f i <= m)%nat) /\ (m = 0%nat \/ exists i, (i < n)%nat /\ f i = m).

(** ** nuggets *)
(** the matrix with e added on the diagonal *)
Definition with_nugget (K : mat) (e : R) : mat := mkmat (nr K) (nc K) (fun i j => mat_at K i j + if (i =? j)%nat then e else 0).
(** the 1-norm of a square table of numbers: the largest column sum of absolute values *)
Definition is_norm1 (n : nat) (A : nat -> nat -> R) (m : R) : Prop :=
  (forall j, (j < n)%nat -> rsum n (fun i => Rabs (A i j)) <= m) /\ exists j, (j < n)%nat /\ rsum n (fun i => Rabs (A i j)) = m.
