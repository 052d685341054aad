(** * C58 applied: the surrogate's mean and standard deviation with the gradients it returns pass the check *)
From Coq Require Import Reals List Arith Bool Lia Lra.
From Coquelicot Require Import Coquelicot.
From Verif.Base Require Import NpLite NpFacts Deriv.
From Verif.Spec Require Import KernelSpec LinAlgSpec GpSpec HpSpec DataSpec LkdSpec RescaleSpec EvalSpec GradTestSpec.
From Verif.Model Require Import KernelSqExp KernelMatern KernelRatQuad KernelDispatch CommonFun WellCond Rescaling GpState Chol Cov HpInfo MeanFun EvalModel GradTest.
From Verif.Proofs Require Import StateFacts CovStruct.
From Verif.Props Require Import CondProps DataProps LkdProps EvalProps EvalProps2 GradTestProps.
Import ListNotations.
Local Open Scope R_scope.

(** handles a user passes: the values, and the gradients, of the mean and of the standard deviation at one point *)
Definition one_row (x : vec) : mat := mkmat 1 (vlen x) (fun _ => vat x).
Definition mean_handle (o : gpopt) (d : gpdata) (hp : hpv) (su : surr) (x : vec) : res vec := ev <- eval_model o d hp su (one_row x) false false ;; Ok (e_mu ev).
Definition std_handle (o : gpopt) (d : gpdata) (hp : hpv) (su : surr) (x : vec) : res vec := ev <- eval_model o d hp su (one_row x) false false ;; Ok (e_sig ev).
Definition mean_grad_handle (o : gpopt) (d : gpdata) (hp : hpv) (su : surr) (x : vec) : res garr :=
  ev <- eval_model o d hp su (one_row x) true false ;; match e_dmu ev with Some M => Ok (A2 M) | None => Err EType end.
Definition std_grad_handle (o : gpopt) (d : gpdata) (hp : hpv) (su : surr) (x : vec) : res garr :=
  ev <- eval_model o d hp su (one_row x) true false ;; match e_dsig ev with Some M => Ok (A2 M) | None => Err EType end.

Theorem C58_surrogate_passes_the_check :
  forall (o : gpopt) (d : gpdata) (condf : mat -> R) (hp : hpv) (vK b0 : R) (cc : bool) (su : surr) (x0 : vec) (cent : bool) (i : nat) (tol : R),
  eval_input o d hp vK b0 -> mask_supported o d -> set_up o d condf hp cc su -> vlen x0 = o_dim o -> (i < o_dim o)%nat -> 0 < tol ->
  exists del, 0 < del /\ forall eps, eps <> 0 -> Rabs eps < del ->
    (exists fd g, test_grad_calc x0 (mean_handle o d hp su) (mean_grad_handle o d hp su) eps cent = Ok (fd, g) /\ Rabs (gentry fd 0 i - gentry g 0 i) < tol) /\
    ((exists s, std_handle o d hp su x0 = Ok s /\ 0 < vat s 0) ->
     exists fd g, test_grad_calc x0 (std_handle o d hp su) (std_grad_handle o d hp su) eps cent = Ok (fd, g) /\ Rabs (gentry fd 0 i - gentry g 0 i) < tol).
Proof.
  intros o d condf hp vK b0 cc su x0 cent i tol HI MS SU Hd Hi Ht.
  destruct (C31_mean_gradient_and_hessian_partial o d condf hp vK b0 cc su HI MS SU) as (M & HM).
  destruct (C32_standard_deviation_gradient_and_hessian_partial o d condf hp vK b0 cc su HI MS SU) as (Sg & HS).
  assert (FM : handle_of (o_dim o) 1 (fun _ => M) (mean_handle o d hp su)).
  { intros x Hx. destruct (HM (one_row x) false false Hx ltac:(simpl; lia) ltac:(discriminate)) as (ev & E & L & V & _). exists (e_mu ev). unfold mean_handle. rewrite E, bind_Ok.
    split; [reflexivity|]. split; [exact L|]. intros k Hk. replace k with 0%nat by lia. apply V. simpl; lia. }
  assert (FS : handle_of (o_dim o) 1 (fun _ => Sg) (std_handle o d hp su)).
  { intros x Hx. destruct (HS (one_row x) false false Hx ltac:(simpl; lia) ltac:(discriminate)) as (ev & E & L & V & _). exists (e_sig ev). unfold std_handle. rewrite E, bind_Ok.
    split; [reflexivity|]. split; [exact L|]. intros k Hk. replace k with 0%nat by lia. apply V. simpl; lia. }
  destruct (HM (one_row x0) true false Hd ltac:(simpl; lia) ltac:(discriminate)) as (ev & E & _ & _ & (G1 & EG & L1 & L2 & D1) & _).
  destruct (HS (one_row x0) true false Hd ltac:(simpl; lia) ltac:(discriminate)) as (ev' & E' & _ & _ & (G2 & EG2 & K1 & K2 & D2) & _). assert (ev' = ev) by congruence. subst ev'.
  specialize (D1 0%nat i ltac:(simpl; lia) Hi). specialize (D2 0%nat i ltac:(simpl; lia) Hi). change (rows_of (one_row x0) 0%nat) with (vat x0) in *.
  assert (GM : mean_grad_handle o d hp su x0 = Ok (A2 G1)) by (unfold mean_grad_handle; rewrite E, bind_Ok, EG; reflexivity).
  assert (GS : std_grad_handle o d hp su x0 = Ok (A2 G2)) by (unfold std_grad_handle; rewrite E, bind_Ok, EG2; reflexivity).
  destruct (C58_finite_differences_converge (o_dim o) 1 (fun _ => M) _ _ x0 (A2 G1) cent 0 i _ tol FM Hd GM ltac:(split; assumption) Nat.lt_0_1 Hi D1 Ht) as (del1 & P1 & R1).
  destruct (Rlt_dec 0 (Sg (vat x0))) as [Pos|NP].
  - destruct (C58_finite_differences_converge (o_dim o) 1 (fun _ => Sg) _ _ x0 (A2 G2) cent 0 i _ tol FS Hd GS ltac:(split; assumption) Nat.lt_0_1 Hi D2 Ht) as (del2 & P2 & R2).
    exists (Rmin del1 del2). split; [apply Rmin_glb_lt; assumption|]. intros eps He Hlt.
    destruct (R1 eps He ltac:(eapply Rlt_le_trans; [exact Hlt|apply Rmin_l])) as (fd & F1 & _ & _ & F2). destruct (R2 eps He ltac:(eapply Rlt_le_trans; [exact Hlt|apply Rmin_r])) as (fd2 & F3 & _ & _ & F4).
    split; [exists fd, (A2 G1); auto|]. intros _. exists fd2, (A2 G2). auto.
  - exists del1. split; [exact P1|]. intros eps He Hlt. destruct (R1 eps He Hlt) as (fd & F1 & _ & _ & F2). split; [exists fd, (A2 G1); auto|].
    intros (s & Es & Ps). exfalso. apply NP. destruct (FS x0 Hd) as (v & Ev & _ & Vv). rewrite <- (Vv 0%nat Nat.lt_0_1). assert (s = v) by congruence. subst s. exact Ps.
Qed.
Print Assumptions C58_surrogate_passes_the_check.

(** three points of the plane with values and gradients *)
Example C58_hypotheses_met : exists d su, let o := gp_init 2 true SqExp Wbase in
  eval_input o d ev_hp0 2 (1 / 3) /\ mask_supported o d /\ set_up o d (fun _ => 1) ev_hp0 false su /\ vlen (mkvec 2 INR) = o_dim o.
Proof. destruct C31_C32_C37_hypotheses_met as (d & su & A & HI & MS & SU & _). exists d, su. cbv zeta. auto. Qed.
(** two functions of two variables with a gradient that has a wrong entry *)
Definition two_h (x : vec) : res vec := Ok (mkvec 2 (fun k => if (k =? 0)%nat then vat x 0 ^ 2 * vat x 1 else sin (vat x 1))).
Definition two_f (k : nat) (x : pt) : R := if (k =? 0)%nat then x 0%nat ^ 2 * x 1%nat else sin (x 1%nat).
Example C58_wrong_gradient_met : handle_of 2 2 two_f two_h /\ grad_shape 2 2 (A2 (mconst 2 2 1)) /\
  is_partial (two_f 0) 0 (vat (mkvec 2 (fun i => INR i + 1))) 4 /\ gentry (A2 (mconst 2 2 1)) 0 0 <> 4.
Proof.
  split; [intros x _; eexists; split; [reflexivity|]; split; reflexivity|]. split; [split; reflexivity|]. split; [|simpl; lra].
  unfold is_partial, two_f, upd. cbn. auto_derive; [exact I|]. lazymatch goal with |- @eq _ ?a ?b => change (@eq R a b) end. ring.
Qed.
