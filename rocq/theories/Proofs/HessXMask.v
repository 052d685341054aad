(** C08: with a mask that keeps some but not all points, the Hessian tensor of the
    gradient-enhanced kernels raises (dim >= 2). *)
From Coq Require Import Reals List Arith Bool Lia Lra Psatz.
From Coquelicot Require Import Coquelicot.
From Verif.Base Require Import NpLite NpFacts Deriv.
From Verif.Spec Require Import KernelSpec.
From Verif.Model Require Import KernelSqExp KernelMatern KernelRatQuad KernelDispatch.
From Verif.Proofs Require Import KernTac KernGradBlocks ThetaGradBlocks RadialCalculus RadialFns KernelExact KernelExtra ThetaGrad ThetaGradBase ThetaGradMask HessX HessX2.
Import ListNotations.
Local Open Scope R_scope.

Lemma tupd_err_col op D n1 g1 d1 n2 g2 d2 T f k r1 V m1 m2 v lo1 hi1 lo2 hi2 :
  tbspec D n1 g1 d1 n2 g2 d2 T f -> (k < D)%nat -> rgv d1 r1 ->
  lo1 = rlo n1 g1 r1 -> hi1 = rhi n1 g1 r1 ->
  mspec m1 m2 V v -> m2 <> (Nat.min hi2 (n2 + g2 * d2) - lo2)%nat -> m2 <> 1%nat ->
  rerr (tupd op T k lo1 hi1 lo2 hi2 V) EShape.
Proof.
  intros (H0 & H1 & H2 & H) Hk R1 -> -> (V1 & V2 & _) N1 N2.
  unfold rerr, tupd, tget. rewrite H0. destruct (Nat.ltb_spec k D); [simpl|lia].
  unfold mupd. simpl. rewrite H1, H2.
  unfold bcast_to. rewrite V2.
  destruct (Nat.eqb_spec m2 (Nat.min hi2 (n2 + g2 * d2) - lo2)) as [E|_]; [contradiction|].
  destruct (Nat.eqb_spec m2 1); [contradiction|]. rewrite andb_false_r. reflexivity.
Qed.

Section mask.
Variables (Rt : ten) (theta : vec) (d n1 n2 : nat) (Rr : nat -> nat -> nat -> R) (th : nat -> R).
Hypothesis (HR : tspec d n1 n2 Rt Rr) (Hth : vspec d theta th).
Variables (b2 : option (list bool)).
Hypotheses (M : mok n2 b2) (Hd : (2 <= d)%nat) (Hg : (2 <= opt_count n2 b2 < n2)%nat).
Local Notation g := (opt_count n2 b2).
Local Notation s p q := (rsum d (fun i => th i * Rr i p q ^ 2)).
Ltac ostepe := eapply rerr_bind; [first [eapply opt_tcols_ok | eapply opt_cols_ok]; [mspec_tac | assumption] | let x := fresh "O" in let Hx := fresh "H" x in intros x Hx; cbv beta in Hx].

Ltac estep2 := cbv beta zeta; first [estep1 | eapply rerr_bind; [eapply mzip_ok; mspec_tac | let x := fresh "v" in let Hx := fresh "H" x in intros x Hx; cbv beta in Hx]].
Lemma sq_exp_grad_x_err : rerr (sq_exp_calc_KernGrad_grad_x Rt theta b2) EShape.
Proof.
  unfold sq_exp_calc_KernGrad_grad_x. cbv zeta.
  eapply (rerr_bind _ _ (fun K => mspec n1 n2 K (fun p q => se0 (s p q)))).
  { unfold sq_exp_calc_KernBase. eapply rok_bind; [eapply sq_exp_sum_ok; eassumption|].
    intros A HA. cbv beta in HA. simpl. eapply mspec_ext; [mspec_tac|]. intros; reflexivity. }
  intros K HK. eapply rerr_bind; [apply (sq_exp_hess_blocks Rt theta d n1 n2 Rr th HR Hth K HK)|]. intros Hs HHs; cbv beta in HHs.
  assert (H := HR); destruct H as (-> & -> & -> & _).
  do 2 ostepe.
  assert (T0 := tbspec_const d 0 n1 d n2 g d 0).
  eapply rerr_bind; [eapply (tset_cols_b d 0 n1 d n2 g d _ _ _ _ T0 HHs)|].
  intros T1 HT1; cbv beta in HT1.
  do 3 (apply rerr_for_first; [lia|]; cbv beta zeta).
  repeat estep2.
  eapply (tupd_err_col _ d 0 n1 d n2 g d _ _ _ (RG 0)); [eassumption | lia | simpl; lia | reflexivity | reflexivity | mspec_tac | nia | lia].
Qed.
Lemma matern_grad_x_err : rerr (matern_calc_KernGrad_grad_x Rt theta b2) EShape.
Proof.
  unfold matern_calc_KernGrad_grad_x. cbv zeta.
  eapply rerr_bind; [apply (matern_hess_blocks Rt theta d n1 n2 Rr th HR Hth)|]. intros Hs HHs; cbv beta in HHs.
  eapply rerr_bind; [eapply nu_mat_ok; eassumption|]. intros nu Hnu; cbv beta in Hnu.
  assert (H := HR); destruct H as (-> & -> & -> & _).
  do 2 ostepe.
  assert (T0 := tbspec_const d 0 n1 d n2 g d 0).
  eapply rerr_bind; [eapply (tset_cols_b d 0 n1 d n2 g d _ _ _ _ T0 HHs)|].
  intros T1 HT1; cbv beta in HT1.
  do 3 (apply rerr_for_first; [lia|]; cbv beta zeta).
  repeat estep2.
  eapply (tupd_err_col _ d 0 n1 d n2 g d _ _ _ (RG 0)); [eassumption | lia | simpl; lia | reflexivity | reflexivity | mspec_tac | nia | lia].
Qed.
Ltac eupd r1 r2 :=
  eapply rerr_bind;
  [ eapply (tupd_b _ d 0 n1 d n2 g d _ _ _ r1 r2);
    [ eassumption | first [lia | assumption]
    | simpl; first [exact I | lia | assumption] | simpl; first [exact I | lia | assumption]
    | reflexivity | reflexivity | reflexivity | reflexivity
    | simpl; mspec_tac ]
  | let x := fresh "KG" in let Hx := fresh "H" x in intros x Hx; cbv beta in Hx ].
Lemma rat_grad_x_err al : rerr (rat_calc_KernGrad_grad_x Rt theta al b2) EShape.
Proof.
  unfold rat_calc_KernGrad_grad_x. cbv zeta.
  eapply rerr_bind; [eapply pos_sum_ok; eassumption|]. intros nu Hnu; cbv beta in Hnu.
  assert (H := HR); destruct H as (-> & -> & -> & _).
  do 3 ostepe.
  assert (T0 := tbspec_const d 0 n1 d n2 g d 0).
  apply rerr_for_first; [lia|]; cbv beta zeta.
  estep1. eupd (RG 0) RF.
  apply rerr_for_first; [lia|]; cbv beta zeta.
  do 5 estep1. eupd (RG 0) RF. do 3 estep1. apply rerr_bind0.
  eapply (tupd_err_col _ d 0 n1 d n2 g d _ _ _ (RG 0)); [eassumption | lia | simpl; lia | reflexivity | reflexivity | mspec_tac | nia | lia].
Qed.
End mask.

Theorem KernGrad_hess_partial_mask_raises k X Y theta hp m :
  nc X = nc Y -> vlen theta = nc X -> hp_ok k hp -> (2 <= nc X)%nat ->
  length m = nr Y -> (2 <= count_true m < nr Y)%nat ->
  exists Rt, calc_Rtensor X Y = Ok Rt /\ calc_KernGrad_grad_x k Rt theta hp (Some m) = Err EShape.
Proof.
  intros E Hd Hhp D Hm Hc.
  destruct (rok_ex _ _ (Rtensor_ok X Y E)) as (Rt & ERt & HR). exists Rt; split; [exact ERt|].
  assert (Hth : vspec (nc X) theta (vat theta)) by (split; [exact Hd | auto]).
  destruct k; simpl.
  - exact (sq_exp_grad_x_err Rt theta _ _ _ _ _ HR Hth (Some m) Hm D Hc).
  - exact (matern_grad_x_err Rt theta _ _ _ _ _ HR Hth (Some m) Hm D Hc).
  - destruct Hhp as (a & -> & Ha). simpl.
    exact (rat_grad_x_err Rt theta _ _ _ _ _ HR Hth (Some m) Hm D Hc a).
Qed.
