(** * Specification for C44: nonlinear constraints in scaled coordinates *)
From Coq Require Import Reals List Arith Bool.
From Verif.Base Require Import NpLite.
From Verif.Spec Require Import KernelSpec LinAlgSpec RescaleSpec.
From Verif.Model Require Import KernelSqExp CommonFun Rescaling NlcScaling.
Local Open Scope R_scope.

(** histories of a scaling object that also has constraint data *)
Inductive ncall :=
| NBase (c : call)
| NData (o : nlcdata) (use_shift : bool) (m : nlcmtd)
| NScl (shift : option vec) (scale : option R).
Definition do_ncall (n : nresc) (c : ncall) : res nresc :=
  match c with
  | NBase (CNlc _ _) => Err EAssert                (* written NData here *)
  | NBase c => r <- do_call (n_r n) c ;; Ok (mknr r (n_dat n) (n_shift n) (n_scale n) (n_scl n))
  | NData o us m => set_nlc n o us m
  | NScl a b => set_nlc_scaling n a b
  end.
Fixpoint do_ncalls (n : nresc) (l : list ncall) : res nresc :=
  match l with nil => Ok n | cons c t => n' <- do_ncall n c ;; do_ncalls n' t end.
Definition fresh_nlc (r : resc) : nresc := mknr r None (vconst 0 0) 1 None.
(** scales given by the user are positive *)
Definition ncall_pos (c : ncall) : Prop :=
  match c with NBase b => call_pos b | NScl _ (Some v) => 0 < v | _ => True end.
(** the gradients of the constraints [c 0], [c 1], ... of d coordinates at the points in the rows of Y *)
Definition is_con_gradients (d m : nat) (c : nat -> pt -> R) (Y : mat) (T : ten) : Prop :=
  td T = nr Y /\ tr T = m /\ tc T = d /\
  forall p j i, (p < nr Y)%nat -> (j < m)%nat -> (i < d)%nat -> is_partial (c j) i (rows_of Y p) (tat T p j i).
Definition is_con_values (m : nat) (c : nat -> pt -> R) (Y A : mat) : Prop :=
  nr A = nr Y /\ nc A = m /\ forall p j, (p < nr Y)%nat -> (j < m)%nat -> mat_at A p j = c j (rows_of Y p).
