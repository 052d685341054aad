(** * Property C28, continued: what the selection gives with an optimiser that does not return a point worse than the one
    it started from.  Vocabulary: [Spec/OptzSpec.v]. *)
From Coq Require Import Reals List Arith Bool Lia Lra.
From Verif.Base Require Import NpLite.
From Verif.Spec Require Import KernelSpec LinAlgSpec GpSpec HpSpec LkdSpec OptzSpec.
From Verif.Model Require Import CommonFun WellCond Rescaling GpState HpInfo Lkd OptzLkd History StartPts OptzHp.
From Verif.Proofs Require Import StateFacts OptzHpFacts.
From Verif.Props Require Import OptzProps OptzHpProps.
Import ListNotations.
Local Open Scope R_scope.

(** the objective (minus the log likelihood) the object gives for a vector; None when the evaluation raises *)
Definition objective (la : npla) (s : gpobj) (v : vec) : option R := match snd (return_optz_val la s v) with Ok f => Some f | Err _ => None end.
(** started from [x0] the optimiser returns a point, its objective, and that is not larger than the one at [x0] *)
Definition descends (la : npla) (s : gpobj) (mini : vec -> optimiser) (x0 : vec) : Prop :=
  forall r, snd (run_opt la s (mini x0)) = Ok r ->
    or_fun r = objective la s (or_x r) /\ forall f0, objective la s x0 = Some f0 -> exists f, or_fun r = Some f /\ f <= f0.

Theorem C28_never_worse_than_a_start :
  forall (la : npla) (h : list event) (o : gpopt) (lo : lkopt) (d : gpdata) (info : hpinfo) (mini : vec -> optimiser) (x0s : list vec) (best : vec) (cond : option R) (rep : optzinfo),
  let s := do_events la (new_obj o lo d info) h in
  (forall x0, In x0 x0s -> descends la s mini x0) ->
  (* the constraint on the condition number, when there is one, holds where the optimiser ends *)
  (forall x0 r, In x0 x0s -> snd (run_opt la s (mini x0)) = Ok r -> good_result la s r) ->
  snd (optz_hp_max_lkd la mini s x0s) = Ok (best, cond, rep) ->
  exists f, objective la s best = Some f /\ good_result la s (mkor best (Some f) true 0) /\
    (* no starting point and no point an optimisation ended at has a larger likelihood *)
    (forall x0 f0, In x0 x0s -> objective la s x0 = Some f0 -> f <= f0) /\
    (forall x0 r f', In x0 x0s -> snd (run_opt la s (mini x0)) = Ok r -> objective la s (or_x r) = Some f' -> f <= f').
Proof.
  intros la h o lo d info mini x0s best cond rep s HD HG H.
  destruct (C28_selection la h o lo d info mini x0s best cond rep H) as (rs & F2 & r & f & I1 & -> & Ef & EL & M). fold s in F2, EL, M.
  assert (B1 : forall r', In r' rs -> exists x0, In x0 x0s /\ snd (run_opt la s (mini x0)) = Ok r').
  { clear - F2. induction F2; [intros r' []|]. intros r' [<-|Hr]; [exists x; split; [left; reflexivity|assumption]|].
    destruct (IHF2 r' Hr) as (x0 & Hx & E). exists x0. split; [right; exact Hx|exact E]. }
  assert (B2 : forall x0, In x0 x0s -> exists r', In r' rs /\ snd (run_opt la s (mini x0)) = Ok r').
  { clear - F2. induction F2; [intros x0 []|]. intros x0 [<-|Hx]; [exists y; split; [left; reflexivity|assumption]|].
    destruct (IHF2 x0 Hx) as (r' & Hr & E). exists r'. split; [right; exact Hr|exact E]. }
  assert (GA : forall r', In r' rs -> good_result la s r') by (intros r' Hr; destruct (B1 r' Hr) as (x0 & Hx & E); exact (HG x0 r' Hx E)).
  destruct (B1 r I1) as (xr & Hxr & Er). destruct (HD xr Hxr r Er) as (Fr & _). rewrite Ef in Fr.
  exists f. split; [symmetry; exact Fr|]. split; [exact (GA r I1)|].
  assert (MM : forall r' f', In r' rs -> or_fun r' = Some f' -> f <= f') by (intros r' f' Hr' Ef'; apply (M r' f' Hr'); [intros _; apply GA, Hr'|exact Ef']).
  split.
  - intros x0 f0 Hx E0. destruct (B2 x0 Hx) as (r' & Hr' & E'). destruct (HD x0 Hx r' E') as (_ & Q). destruct (Q f0 E0) as (f' & Ef' & L).
    assert (A := MM r' f' Hr' Ef'). lra.
  - intros x0 r' f' Hx E' Ef'. destruct (B2 x0 Hx) as (r2 & Hr2 & E2). rewrite E' in E2. injection E2 as <-.
    destruct (HD x0 Hx r' E') as (Q & _). apply (MM r' f' Hr2). congruence.
Qed.
Print Assumptions C28_never_worse_than_a_start.

(** the same for the hyperparameters that set_hpara('optz') stores *)
Theorem C28_fit_never_worse_than_a_start :
  forall (la : npla) (lhs : sampler) (mini : minimiser) (c : optzcfg) (hst : hist) (i : nat) (o : gpopt) (lo : lkopt) (d : gpdata) (info : hpinfo) (h : list event),
  let s := do_events la (new_obj o lo d info) h in
  optz_ready s -> (c_const_n c < d_n_eval (g_data s))%nat -> is_rescale (o_well (g_opt s)) = false \/ (c_max_iter c <= 1)%nat ->
  (forall bnd x0, descends la s (mini 0%nat bnd) x0) ->
  (forall bnd x0 r, snd (run_opt la s (mini 0%nat bnd x0)) = Ok r -> good_result la s r) ->
  forall hp cond rep, snd (optz_hp la lhs mini c hst i s) = Ok (hp, cond, rep) ->
  exists starts bnd x0s best f,
    select_hp_optz_x0 la lhs (g_opt s) (g_data s) (g_lk s) (c_x0 c) (g_info s) hst i = Ok (starts, bnd) /\ rmap row_real starts = Ok x0s /\
    stands_for (g_data s) (g_info s) best hp /\ objective la s best = Some f /\
    forall x0 f0, In x0 x0s -> objective la s x0 = Some f0 -> f <= f0.
Proof.
  intros la lhs mini c hst i o lo d info h s HR HN HB HD HG hp cond rep H.
  destruct (C41_stored_hyperparameters la lhs mini c hst i o lo d info h HR HN HB hp cond rep H) as (st & bnd & x0s & best & inf & E1 & E2 & E3 & _ & SF & _).
  destruct (C28_never_worse_than_a_start la h o lo d info (mini 0%nat bnd) x0s best cond inf (fun x0 _ => HD bnd x0) (fun x0 r _ => HG bnd x0 r) E3) as (f & F1 & _ & F2 & _).
  exists st, bnd, x0s, best, f. auto 6.
Qed.
Print Assumptions C28_fit_never_worse_than_a_start.

(** ** An optimiser that meets the hypothesis on every object: one step along a direction, kept if it improves *)
Definition step_opt (dir : vec) (x0 : vec) : optimiser :=
  OVal x0 (fun f0 => let x1 := mkvec (vlen x0) (fun i => vat x0 i + vat dir i) in
  OVal x1 (fun f1 => if Rlt_dec f1 f0 then ODone x1 (Some f1) true 1 else ODone x0 (Some f0) true 1)).
Example C28_descent_hypothesis_met : forall la h o lo d info dir x0,
  let s := do_events la (new_obj o lo d info) h in descends la s (step_opt dir) x0.
Proof.
  intros la h o lo d info dir x0 s r. assert (C : clean s) by (apply events_clean; exact I). unfold step_opt. cbn [run_opt].
  destruct (return_optz_val la s x0) as [s1 r1] eqn:E1. destruct r1 as [f0|]; [|discriminate].
  set (x1 := mkvec (vlen x0) (fun i => vat x0 i + vat dir i)).
  assert (C1 : clean s1 /\ same_data s s1).
  { unfold return_optz_val, lift_st in E1. injection E1 as <- _. destruct (eval_clean la s x0 false true C) as (_ & A & B); split; assumption. }
  destruct C1 as (C1 & SD).
  assert (AG : snd (return_optz_val la s1 x1) = snd (return_optz_val la s x1)) by (unfold return_optz_val; symmetry; apply (lift_agree s s1), eval_agree; assumption).
  destruct (return_optz_val la s1 x1) as [s2 r2] eqn:E2. cbn [snd] in AG. destruct r2 as [f1|]; [|discriminate].
  assert (O0 : objective la s x0 = Some f0) by (unfold objective; rewrite E1; reflexivity).
  assert (O1 : objective la s x1 = Some f1) by (unfold objective; rewrite <- AG; reflexivity).
  destruct (Rlt_dec f1 f0) as [L|L]; cbn [run_opt snd]; intros E; injection E as <-; cbn [or_fun or_x].
  - split; [symmetry; exact O1|]. intros f' Ef'. exists f1. split; [reflexivity|]. rewrite O0 in Ef'. injection Ef' as <-. lra.
  - split; [symmetry; exact O0|]. intros f' Ef'. exists f0. split; [reflexivity|]. rewrite O0 in Ef'. injection Ef' as <-. lra.
Qed.
