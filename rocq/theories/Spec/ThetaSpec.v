(** * Independent specification vocabulary for the theta-based rescaling. *)
From Coq Require Import Reals List Arith.
From Verif.Base Require Import NpLite.
From Verif.Spec Require Import KernelSpec.
Local Open Scope R_scope.

(** the parameters theta described by a vector that holds them, or their decimal logarithms *)
Definition theta_of (log_hp : bool) (v : vec) : nat -> R := fun i => if log_hp then Rpower 10 (vat v i) else vat v i.
(** geometric mean of the first d parameters *)
Definition geo_mean (d : nat) (th : nat -> R) : R := exp (rsum d (fun i => ln (th i)) / INR d).
(** squared distance of the vector of decimal logarithms from the line of equal entries *)
Definition dist2_line (d : nat) (th : nat -> R) : R :=
  rsum d (fun i => (ln (th i) / ln 10 - rsum d (fun j => ln (th j) / ln 10) / INR d) ^ 2).
