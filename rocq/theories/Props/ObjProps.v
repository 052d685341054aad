(** * C33: stale surrogate state is rejected *)
From Coq Require Import Reals List Arith Bool String Lia Lra.
From Verif.Base Require Import NpLite NpFacts.
From Verif.Model Require Import KernelDispatch WellCond Rescaling GpState Chol Cov MeanFun EvalModel HpInfo History Object.
From Verif.Spec Require Import KernelSpec LinAlgSpec DataSpec RescaleSpec EvalSpec HistSpec ObjSpec.
From Verif.Proofs Require Import HistFacts ObjFacts.
Import ListNotations.
Local Open Scope R_scope.

(** Whatever the program did before: if evaluation returns anything, the values of the current hyperparameters are
    those of the hyperparameters of the last set-up (as their memory is now).  Otherwise it raises. *)
Theorem C33_evaluation_checks_the_hyperparameters :
  forall (s : gp) (x2 : mat) (cg ch : bool) (r : option evo), do_eval s x2 cg ch = Ok r ->
  exists q q0, p_hp s = Some q /\ p_setup s = Some q0 /\ same_hp (rd_hp s q) (rd_hp s q0).
Proof.
  intros s x2 cg ch r H. destruct (do_eval_inv s x2 cg ch r H) as (d & q & q0 & _ & E1 & E2 & S & _).
  exists q, q0. split; [exact E1|]. split; [exact E2|]. apply same_hx_hp, S.
Qed.
Print Assumptions C33_evaluation_checks_the_hyperparameters.

(** Partial: after a successful set-up and any operations that give the object other hyperparameters without
    touching the memory of those of the set-up, an evaluation that returns a result is one with the
    values of the set-up, and returns exactly what it would return after a new set-up (so with the current
    hyperparameters and data).  Missing: data replaced by set_data, arrays written in place, and a set-up that fails;
    they go unnoticed, see the refutations below. *)
Theorem C33_no_stale_result_partial :
  forall (condf : mat -> R) (s0 s1 : gp) (cc : bool) (xs : list op) (x2 : mat) (cg ch : bool) (r : option evo),
  reachable condf s0 -> do_setup condf cc s0 = (s1, Ok tt) -> Forall replaces_hp_only xs ->
  let s2 := run condf xs s1 in
  do_eval s2 x2 cg ch = Ok r ->
  same_ohp (hp_now s2) (hp_now s0) /\
  exists s3, do_setup condf cc s2 = (s3, Ok tt) /\ do_eval s3 x2 cg ch = Ok r.
Proof.
  intros condf s0 s1 cc xs x2 cg ch r HR HS HF s2 HE.
  assert (W0 := wf_reachable condf s0 HR). assert (W1 : wf s1) by (assert (X := wf_setup_step condf cc s0 W0); rewrite HS in X; exact X).
  assert (X := ext_run condf xs s1 W1 HF). fold s2 in X.
  destruct (do_setup_inv condf cc s0 s1 HS) as (d & q0 & v & D0 & Q0 & V0 & K).
  destruct (do_eval_inv s2 x2 cg ch r HE) as (d' & q & q0' & D2 & Q2 & S2 & SM & EV).
  assert (F : p_data s1 = Some d /\ p_setup s1 = Some q0 /\ p_opt s1 = p_opt s0 /\ rd_hp s1 q0 = rd_hp s0 q0 /\
     p_surr s1 = match v with None => SuNan | Some hp => p_surr s1 end).
  { destruct v as [hp|]; [destruct K as (su & _ & ->)|subst s1]; cbn; auto. }
  destruct F as (F1 & F2 & F3 & F4 & F5).
  destruct X as [X1 X2 X3 X4 X5 X6]. assert (X : ext s1 s2) by (constructor; assumption).
  assert (d' = d) by congruence. subst d'. assert (q0' = q0) by congruence. subst q0'.
  assert (I0 : hpo_in s1 (Some q0)) by (rewrite <- F2; apply W1).
  rewrite (ext_hp s1 s2 q0 X I0), F4 in SM.
  split. { unfold hp_now. rewrite Q2, Q0. cbn. apply same_hx_hp, SM. }
  assert (HV : hpv_of (o_kernel (p_opt s2)) (rd_hp s2 q) = Ok v) by (rewrite (hpv_same _ _ _ SM), X1, F3; exact V0).
  unfold do_setup. cbn [upd_setup p_data p_hp p_opt]. rewrite D2, Q2. change (rd_hp (upd_setup s2 (Some q)) q) with (rd_hp s2 q). rewrite HV.
  destruct v as [hp|].
  - destruct K as (su & Es & E1). rewrite X1, F3, Es. eexists. split; [reflexivity|].
    rewrite X3 in EV. subst s1. cbn [upd_surr p_surr] in EV. destruct EV as (Ec & v' & Ev' & EV).
    assert (v' = Some hp) by congruence. subst v'. destruct EV as (e & Ee & ->).
    unfold do_eval. cbn [upd_surr upd_setup p_surr p_data p_hp p_setup p_opt]. rewrite D2, Q2, Ec. cbn [assert_ bind].
    rewrite hpo_eq_refl. cbn [bind]. 
    change (rd_hp (upd_surr (upd_setup s2 (Some q)) (SuOk su)) q) with (rd_hp s2 q). rewrite HV. cbn [bind]. rewrite Ee. reflexivity.
  - subst s1. eexists. split; [reflexivity|]. rewrite X3 in EV. cbn [upd_surr p_surr] in EV. subst r.
    unfold do_eval. cbn [upd_surr upd_setup p_surr p_data p_hp p_setup p_opt]. rewrite D2, Q2. cbn [assert_ bind].
    rewrite hpo_eq_refl. reflexivity.
Qed.
Print Assumptions C33_no_stale_result_partial.

(** So new hyperparameters with any other value are rejected. *)
Theorem C33_other_hyperparameters_are_rejected :
  forall (condf : mat -> R) (s0 s1 : gp) (cc : bool) (xs : list op) (x2 : mat) (cg ch : bool),
  reachable condf s0 -> do_setup condf cc s0 = (s1, Ok tt) -> Forall replaces_hp_only xs ->
  let s2 := run condf xs s1 in
  ~ same_ohp (hp_now s2) (hp_now s0) -> exists e, do_eval s2 x2 cg ch = Err e.
Proof.
  intros condf s0 s1 cc xs x2 cg ch HR HS HF s2 HN. destruct (do_eval s2 x2 cg ch) as [r|e] eqn:E; [|exists e; reflexivity].
  exfalso. apply HN. apply (C33_no_stale_result_partial condf s0 s1 cc xs x2 cg ch r HR HS HF E).
Qed.
Print Assumptions C33_other_hyperparameters_are_rejected.
