(** C06: with a partial mask the theta-derivative of the SqExp and Ma5f2 kernels raises. *)
From Coq Require Import Reals List Arith Bool Lia Lra Psatz.
From Coquelicot Require Import Coquelicot.
From Verif.Base Require Import NpLite NpFacts Deriv.
From Verif.Spec Require Import KernelSpec.
From Verif.Model Require Import KernelSqExp KernelMatern KernelRatQuad KernelDispatch.
From Verif.Proofs Require Import KernTac KernGradBlocks ThetaGradBlocks RadialCalculus RadialFns KernelExact KernelExtra ThetaGrad.
Import ListNotations.
Local Open Scope R_scope.

Lemma tupd_err op D n1 g1 d1 n2 g2 d2 T f k r1 r2 V m1 m2 v lo1 hi1 lo2 hi2 :
  tbspec D n1 g1 d1 n2 g2 d2 T f -> (k < D)%nat -> rgv d1 r1 -> rgv d2 r2 ->
  lo1 = rlo n1 g1 r1 -> hi1 = rhi n1 g1 r1 -> lo2 = rlo n2 g2 r2 -> hi2 = rhi n2 g2 r2 ->
  mspec m1 m2 V v -> m1 <> rht n1 g1 r1 -> m1 <> 1%nat ->
  rerr (tupd op T k lo1 hi1 lo2 hi2 V) EShape.
Proof.
  intros (H0 & H1 & H2 & H) Hk R1 R2 -> -> -> -> (V1 & V2 & _) N1 N2.
  unfold rerr, tupd, tget. rewrite H0. destruct (Nat.ltb_spec k D); [simpl|lia].
  unfold mupd. simpl. rewrite H1, H2.
  assert (L1 := rhi_le n1 g1 d1 r1 R1). rewrite (Nat.min_l _ _ L1).
  unfold bcast_to. rewrite V1.
  destruct (Nat.eqb_spec m1 (rhi n1 g1 r1 - rlo n1 g1 r1)) as [E|_].
  { exfalso. apply N1. rewrite rhi_lo in E. lia. }
  destruct (Nat.eqb_spec m1 1); [contradiction|]. reflexivity.
Qed.

Lemma count_true_le m : (count_true m <= length m)%nat.
Proof. induction m as [|[|] m IH]; simpl; lia. Qed.

Section mask.
Variables (Rt : ten) (theta : vec) (d n : nat) (Rr : nat -> nat -> nat -> R) (th : nat -> R).
Hypothesis (HR : tspec d n n Rt Rr) (Hth : vspec d theta th).
Variables (b : option (list bool)).
Hypotheses (M : mok n b) (Hd : (0 < d)%nat) (Hn : (2 <= n)%nat) (Hg : (opt_count n b <> n)%nat).
Local Notation g := (opt_count n b).
Ltac eupd r1 r2 :=
  eapply rerr_bind;
  [ eapply (tupd_b _ _ _ _ _ _ _ _ _ _ _ r1 r2);
    [ eassumption | first [lia | assumption]
    | simpl; first [exact I | lia | assumption] | simpl; first [exact I | lia | assumption]
    | reflexivity | reflexivity | reflexivity | reflexivity
    | simpl; mspec_tac ]
  | let x := fresh "KG" in let Hx := fresh "H" x in intros x Hx; cbv beta in Hx ].
Lemma matern_grad_th_err : rerr (matern_calc_KernGrad_grad_th Rt theta b) EShape.
Proof.
  unfold matern_calc_KernGrad_grad_th.
  assert (H := HR); destruct H as (-> & -> & -> & _). rewrite Nat.eqb_refl. cbn [assert_ bind]. cbv zeta.
  eapply rerr_bind; [eapply nu_mat_ok; eassumption|]. intros tmp Htmp; cbv beta in Htmp.
  do 9 estep1. apply rerr_for_first; [exact Hd|]. cbv beta zeta.
  assert (HK0 := tbspec_const d n g d n g d 0).
  do 2 estep1. eupd RF RF. do 2 estep1. eupd (RG 0) RF. eupd RF (RG 0).
  apply rerr_bind0.
  eapply (tupd_err _ _ _ _ _ _ _ _ _ _ _ (RG 0) (RG 0)); [eassumption | exact Hd | exact Hd | exact Hd | reflexivity | reflexivity | reflexivity | reflexivity | mspec_tac | simpl; lia | lia].
Qed.
Lemma sq_exp_grad_th_err : rerr (sq_exp_calc_KernGrad_grad_th Rt theta b) EShape.
Proof.
  unfold sq_exp_calc_KernGrad_grad_th.
  eapply rerr_bind; [eapply (sq_exp_KernGrad_blocks Rt theta d n n Rr th HR Hth b b M M)|].
  intros KG0 HKG0. cbv beta in HKG0.
  assert (H := HR); destruct H as (-> & -> & -> & _). rewrite Nat.eqb_refl. cbn [assert_ bind]. cbv zeta.
  assert (HB := mslice_b _ _ _ _ _ _ _ _ RF RF 0 n 0 n HKG0 I I eq_refl eq_refl eq_refl eq_refl). cbn [rht mkr] in HB.
  assert (HB2 := mslice_b _ _ _ _ _ _ _ _ (RG 0) RF _ _ 0 n HKG0 Hd I eq_refl eq_refl eq_refl eq_refl). cbn [rlo rhi rht mkr] in HB2.
  set (KB := mslice KG0 0 n 0 n) in *. clearbody KB.
  do 5 estep1. apply rerr_for_first; [exact Hd|]. cbv beta zeta.
  assert (HK0 := tbspec_const d n g d n g d 0).
  do 2 estep1. eupd RF RF. do 2 estep1. eupd (RG 0) RF. eupd RF (RG 0). eupd (RG 0) (RG 0).
  apply rerr_for_first; [exact Hd|]. cbv beta zeta.
  set (KB2 := mslice KG0 (n + 0 * g) (n + 0 * g + g) 0 n) in *. clearbody KB2.
  do 2 estep1. eupd (RG 0) RF. eupd RF (RG 0). do 5 estep1.
  apply rerr_bind0.
  eapply (tupd_err _ _ _ _ _ _ _ _ _ _ _ (RG 0) (RG 0)); [eassumption | exact Hd | exact Hd | exact Hd | reflexivity | reflexivity | reflexivity | reflexivity | mspec_tac | simpl; lia | lia].
Qed.
End mask.

Theorem grad_theta_partial_mask_raises k X theta m :
  k <> RatQu -> vlen theta = nc X -> (0 < nc X)%nat -> (2 <= nr X)%nat ->
  length m = nr X -> m <> repeat true (nr X) ->
  exists Rt, calc_Rtensor X X = Ok Rt /\ calc_KernGrad_grad_th k Rt theta None (Some m) = Err EShape.
Proof.
  intros Hk Hd Hpos Hn Hm Hne.
  destruct (rok_ex _ _ (Rtensor_ok X X eq_refl)) as (Rt & ERt & HR). exists Rt; split; [exact ERt|].
  assert (Hth : vspec (nc X) theta (vat theta)) by (split; [exact Hd | auto]).
  assert (Hc : count_true m <> nr X).
  { intros E. apply Hne. rewrite <- Hm in *. clear - E.
    induction m as [|[|] m IH]; simpl in *; [reflexivity | f_equal; apply IH; lia |].
    assert (L := count_true_le m). lia. }
  destruct k; [| |congruence].
  - exact (sq_exp_grad_th_err Rt theta _ _ _ _ HR Hth (Some m) Hm Hpos Hn Hc).
  - exact (matern_grad_th_err Rt theta _ _ _ _ HR Hth (Some m) Hm Hpos Hn Hc).
Qed.
