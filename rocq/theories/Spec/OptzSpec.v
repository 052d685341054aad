(** * Independent specification vocabulary for the evaluation of the objective and the selection of the
    hyperparameters. *)
From Coq Require Import Reals List Arith Bool.
From Verif.Base Require Import NpLite.
From Verif.Spec Require Import KernelSpec.
From Verif.Model Require Import GpState HpInfo Lkd OptzLkd.
Import ListNotations.
Local Open Scope R_scope.

(** an object on which nothing has been evaluated yet *)
Definition new_obj (o : gpopt) (lo : lkopt) (d : gpdata) (info : hpinfo) : gpobj := mkobj o lo d info LNone None.
(** What can happen to an object: evaluations of the objective (or the constraint) at any vector, complete
    runs of the optimisation with any optimiser and any starting points, and any change of the data and
    options. *)
Inductive event :=
| EvEval (v : vec) (always_calc_cond calc_grad : bool)
| EvOptz (mini : vec -> optimiser) (x0s : list vec)
| EvData (o : gpopt) (lo : lkopt) (d : gpdata) (info : hpinfo).
Definition do_event (la : npla) (s : gpobj) (e : event) : gpobj :=
  match e with
  | EvEval v a g => fst (calc_store_likelihood la s v a g)
  | EvOptz mini x0s => fst (optz_hp_max_lkd la mini s x0s)
  | EvData o lo d info => mkobj o lo d info (g_last s) (g_store s)
  end.
Definition do_events (la : npla) (s : gpobj) (h : list event) : gpobj := fold_left (do_event la) h s.

(** [best] is the first of the candidates with the smallest objective among those that satisfy the constraint
    and have a number as objective *)
Definition obj_le (a b : option R) : Prop := match a, b with Some x, Some y => x <= y | Some _, None => True | None, _ => False end.
