(** * The assignments of set_data, one by one, and the data it returns (Model/SetDataState.v, Model/GpState.v) *)
From Coq Require Import Reals List Arith Bool Lia Lra.
From Verif.Base Require Import NpLite NpFacts.
From Verif.Spec Require Import KernelSpec.
From Verif.Model Require Import KernelSqExp KernelDispatch CommonFun WellCond Rescaling GpState SetDataState.
Import ListNotations.
Local Open Scope R_scope.

(** a call returns exactly when set_data does, and then the object holds what set_data gives; an exception is the same *)
Lemma set_data_run_eq o x f sf g sg b d :
  match set_data o x f sf g sg b with
  | Ok d' => set_data_run o x f sf g sg b d = (Some d', Ok tt)
  | Err e => snd (set_data_run o x f sf g sg b d) = Err e
  end.
Proof.
  unfold set_data, set_data_run, set_data_head. cbv zeta.
  match goal with |- context [bind ?e _] => change e with (count_grads o f g b) end.
  destruct (count_grads o f g b) as [ng|e] eqn:En; [|reflexivity]. cbn [bind].
  unfold set_data_checks, set_data_store, set_data_scale, dseq, dput, dlet, dassert, sd_val, assert_.
  destruct sf as [|sa|sa]; destruct g as [G|]; destruct (o_use_grad o) eqn:EU; cbn [negb bind assert_ fst snd]; try reflexivity;
  repeat (match goal with |- context [if ?e then Ok tt else Err EAssert] => destruct e eqn:? | |- context [match sg with _ => _ end] => destruct sg | |- context [vmax_lt ?a ?b] => destruct (vmax_lt a b) | |- context [mmax_lt ?a ?b] => destruct (mmax_lt a b)
   | |- context [calc_nugget ?a ?b] => destruct (calc_nugget a b) as [(eb, egr)|] | |- context [calc_dist_min ?a] => destruct (calc_dist_min a)
   | |- context [if o_use_scl o then _ else _] => destruct (o_use_scl o) | |- context [match o_well o with _ => _ end] => destruct (o_well o)
   | |- context [rescaling_init ?a ?b ?c ?d ?e] => destruct (rescaling_init a b c d e) | |- context [set_obj_data ?a ?b ?c ?d] => destruct (set_obj_data a b c d)
   | |- context [calc_Rtensor ?a ?b] => destruct (calc_Rtensor a b) end; cbn [bind fst snd]; try reflexivity).
Qed.
Lemma set_data_on_eq o old x f sf g sg b :
  match set_data o x f sf g sg b with
  | Ok d' => set_data_on o old x f sf g sg b = (Some d', Ok tt)
  | Err e => snd (set_data_on o old x f sf g sg b) = Err e
  end.
Proof. destruct old as [d|]; cbn [set_data_on]; [apply set_data_run_eq|destruct (set_data _ _ _ _ _ _ _); reflexivity]. Qed.
