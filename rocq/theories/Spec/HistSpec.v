(** * Specification of the round trip of stored hyperparameters (C35) *)
From Coq Require Import Reals List Arith Bool String.
From Verif.Model Require Import GpState History.
From Verif.Base Require Import NpLite.
Import ListNotations.

(** two arrays hold the same entries (NaN is the same as NaN here) *)
Definition same_arr (a b : fvec) : Prop := fv_len a = fv_len b /\ forall k, k < fv_len a -> fv_at a k = fv_at b k.
Definition same_oarr (a b : option fvec) : Prop :=
  match a, b with Some u, Some v => same_arr u v | None, None => True | _, _ => False end.
(** two sets of hyperparameters are the same *)
Definition same_hp (p q : hpx) : Prop :=
  same_oarr (x_beta p) (x_beta q) /\ same_oarr (x_theta p) (x_theta q) /\ x_kernel p = x_kernel q /\ x_varK p = x_varK q /\
  x_var_fval p = x_var_fval q /\ x_var_fgrad p = x_var_fgrad q.
(** complete hyperparameters, as an optimisation produces them: both arrays with the widths of the history, and
    numbers (None only for the variances of noise that is given with the data) *)
Definition is_num (p : pyf) : Prop := exists x, p = PNum x.
Definition num_or_absent (p : pyf) : Prop := p = PNone \/ is_num p.
Definition complete_hp (nb dim : nat) (p : hpx) : Prop :=
  (exists b, x_beta p = Some b /\ fv_len b = nb) /\ (exists t, x_theta p = Some t /\ fv_len t = dim) /\
  is_num (x_kernel p) /\ is_num (x_varK p) /\ num_or_absent (x_var_fval p) /\ num_or_absent (x_var_fgrad p).

(** what a user can do to the history of an object between storing and reading back *)
Inductive hop :=
| OpStore (a : hattr) (j : nat) (hp : hpx) (info : option hinfo) (cond : pyf) (t1 t2 t3 : fl)
| OpFinish (n : nat)
| OpLoad (name : string) (data : option exported).
(** the history after an operation, whether or not it raised *)
Definition hop_run (h : hist) (x : hop) : hist :=
  match x with
  | OpStore a j hp info cond t1 t2 t3 => fst (store_row a j hp info cond t1 t2 t3 h)
  | OpFinish n => finish_optz_surr h n
  | OpLoad name data => fst (load_data_surr name data h)
  end.
(** the operation does not concern iteration i: it stores another one, keeps more than i iterations, or loads
    at most i of them *)
Definition hop_elsewhere (i : nat) (x : hop) : Prop :=
  match x with
  | OpStore _ j _ _ _ _ _ _ => j <> i
  | OpFinish n => i < n
  | OpLoad _ data => match data with Some e => h_n (ex_hist e) * h_w (ex_hist e) Tbeta <= i | None => True end
  end.
(** everything recorded about iteration i *)
Definition same_iteration (g h : hist) (i : nat) : Prop :=
  (forall t k, k < h_w g t -> h_tab g t i k = h_tab h t i k) /\ (forall c, h_col g c i = h_col h c i) /\ h_at_max g i = h_at_max h i.
(** the variance of a set of values: the mean of the squares of their differences to their mean *)
Definition average (n : nat) (f : nat -> R) : R := (rsum n f / INR n)%R.
Definition variance (v : vec) : R := average (vlen v) (fun i => (vat v i - average (vlen v) (vat v)) ^ 2)%R.
