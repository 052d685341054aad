(** * Vocabulary for C73: the error of the gradient of a computed variance *)
From Coq Require Import Reals.
From Verif.Spec Require Import FloatSpec.
Local Open Scope R_scope.

(** the error of half the derivative of a computed variance, in relation to the prior standard deviation of the derivative: about
    r + sqrt(n k) (2 e + n u), where [r] is the error of the weights, [k] the condition number, [e] the error of the entries *)
Definition std_err (u e r k : R) (n : nat) : R :=
  let a := sqrt (INR n * k) in (r + a * (e + gam u (n + 2) * (1 + e))) / (1 - r) * (1 + a * e) + a * e.
