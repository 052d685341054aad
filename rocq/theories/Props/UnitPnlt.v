(** * Property C52, continued: with the penalty on varK the likelihood depends on the unit of the values.
    Vocabulary: [Spec/UnitSpec.v], [Spec/LkdSpec.v]. *)
From Coq Require Import Reals List Arith Bool Lia Lra Psatz.
From Coquelicot Require Import Coquelicot.
From Verif.Base Require Import NpLite NpFacts Deriv.
From Verif.Spec Require Import KernelSpec LinAlgSpec GpSpec HpSpec DataSpec LkdSpec RescaleSpec EvalSpec OrderSpec UnitSpec.
From Verif.Model Require Import KernelSqExp KernelMatern KernelRatQuad KernelDispatch CommonFun WellCond Rescaling GpState Chol Cov HpInfo HpGrad MeanFun Lkd EvalModel.
From Verif.Proofs Require Import KernTac KernGradBlocks RadialCalculus KernelExact LinAlg CholCorrect Det Jets Psd CovStruct ThetaGrad HessX2 StateFacts NoiseFacts DataFacts NuggetCond NuggetMain MinMax RescaleFacts
  LinDeriv LkdCore LkdFacts LkdMain EvalKern EvalFacts EvalMain EvalInterp HpInfoFacts HpGradFacts HpGradMain HpGradFree Reorder.
From Verif.Props Require Import CondProps DataProps LkdProps LkdFloorProps EvalProps EvalProps2 OrderProps OrderLkd UnitProps UnitProps2 UnitLkd.
Import ListNotations.
Local Open Scope R_scope.

(** the class defaults with the penalty on varK switched on *)
Definition lk_pen : lkopt := mklk true true true true true true (1 / 10) 1 10.

(** one value and one gradient: the returned varK, and the returned likelihood with and without the penalty *)
Lemma pen_run la d g x th infoD infoP :
  data_set nf_opt d -> d_known_fval d = true -> d_known_fgrad d = true -> d_noisy d = false -> d_bvec d = None -> d_scl d = None ->
  d_n_eval d = 1%nat -> d_n_grad d = 1%nat -> d_etaK d = Some (1 / (10 ^ 10 - 1)) -> vat (ydata d) 1 = g -> (forall hp r, (r < 2)%nat -> noise_fn d hp None r = 0) ->
  d_x d = mconst 1 1 x -> d_fval d = vconst 1 0 -> d_grad d = Some (mconst 1 1 g) -> 0 < th -> 1 <= g ^ 2 -> th <= 1 ->
  lkd_input nf_opt d (nz_hp th) ->
  set_hp_optz_info nf_opt d lk_default true false false false false = Ok infoD -> set_hp_optz_info nf_opt d lk_pen true false false false false = Ok infoP ->
  exists lD lP xD, calc_lkd_all la nf_opt d lk_default infoD (nz_hp th) false false false = Ok (lD, true) /\ calc_lkd_all la nf_opt d lk_pen infoP (nz_hp th) false false false = Ok (lP, true) /\
    let v := g ^ 2 / (2 * (1 + 1 / (10 ^ 10 - 1)) * th) / 2 in
    l_varK lD = Some v /\ l_varK lP = Some v /\ l_ln lD = Some xD /\ l_ln lP = Some (xD - 1 / 10 * Rmax (v - 1) 0 ^ 2).
Proof.
  intros D K1 K2 Z B SC N1 N2 ET Y NF DX DF DG Ht Hg Ht1 LI JD JP. assert (RD := li_ready _ _ _ LI). set (e := 1 / (10 ^ 10 - 1)) in *.
  assert (Ep : 0 < e <= 1) by (unfold e; split; [apply Rdiv_lt_0_compat; lra|apply Rle_div_l; lra]).
  assert (N : cN nf_opt d = 2%nat) by (unfold cN; rewrite N1, N2; reflexivity).
  set (K := kcovE nf_opt d (nz_hp th) e 1).
  assert (HK : pdf (cN nf_opt d) K).
  { destruct (rok_ex _ _ (kcov_call nf_opt d (la_cond la) true false RD eq_refl (fun _ => eq_refl) (nz_hp th) (Some 1) false 1 _ ltac:(apply LI) (li_noise _ _ _ LI) eq_refl Rlt_0_1 ET)) as (out & _ & _ & KC & PD & _).
    apply (pd_pdf _ _ _ KC PD). }
  assert (EN : K 0%nat 1%nat = 0 /\ K 1%nat 0%nat = 0 /\ K 1%nat 1%nat = 2 * (1 + e) * th).
  { unfold K, kcovE. cbn [o_well nf_opt gp_init set_wellcond_mtd o_use_grad]. rewrite !NF by lia. unfold dl. cbn [Nat.eqb].
    unfold ckf, cobs, rowobs, unradr. rewrite N1, N2, B. cbn. assert (X0 : rows_of (fst (get_scl_x_w_dist d)) 0%nat 0%nat = x) by (unfold get_scl_x_w_dist; rewrite SC, DX; reflexivity).
    rewrite ?X0. rewrite !Rminus_eq_0. unfold KernGradBlocks.se1. split; [|split]; try ring. replace (- (0 + th * (0 * (0 * 1)))) with 0 by ring. rewrite exp_0. ring. }
  assert (GQ : gq (cN nf_opt d) (basis d) (vat (ydata d)) K = g ^ 2 / (2 * (1 + e) * th)).
  { destruct EN as (E1 & E2 & E3). rewrite <- E3, <- Y. rewrite N in *. apply diag2; auto; try (unfold basis; rewrite N1; reflexivity). rewrite E3. apply Rmult_lt_0_compat; [lra|exact Ht]. }
  assert (DP : 0 < 2 * (1 + e) * th <= 4) by (split; [apply Rmult_lt_0_compat; lra|]; assert (e * th <= 1) by (rewrite <- (Rmult_1_r 1); apply Rmult_le_compat; lra); lra).
  assert (NV : nvarK nf_opt d K = g ^ 2 / (2 * (1 + e) * th) / 2).
  { unfold nvarK, varK_min. rewrite GQ, N. replace (INR 2) with 2 by (simpl; lra). apply Rmax_right.
    assert (/ 4 <= g ^ 2 / (2 * (1 + e) * th)). { apply Rle_div_r; [lra|]. assert (/ 4 * (2 * (1 + e) * th) <= / 4 * 4) by (apply Rmult_le_compat_l; lra). lra. }
    assert (/ 10 ^ 32 < / 10) by (apply Rinv_lt_contravar; lra). lra. }
  assert (VF : vvar (nfval d) = 0).
  { assert (EV := nfval_at nf_opt d (nz_hp th) 0 LI ltac:(lia)). destruct (at_call la nf_opt d lk_default true false false false false infoD (nz_hp th) e 1 false false LI eq_refl JD ET ltac:(discriminate) ltac:(auto) ltac:(rewrite Z; reflexivity)) as (T & _ & Q).
    unfold nfval. unfold get_scl_eval_data. rewrite SC, DF, DG. cbn. unfold vvar, vmean. cbn. field. }
  destruct (at_call la nf_opt d lk_default true false false false false infoD (nz_hp th) e 1 false false LI eq_refl JD ET ltac:(discriminate) ltac:(auto) ltac:(rewrite Z; reflexivity)) as (T & _ & Q).
  destruct (at_call la nf_opt d lk_pen true false false false false infoP (nz_hp th) e 1 false false LI eq_refl JP ET ltac:(discriminate) ltac:(auto) ltac:(rewrite Z; reflexivity)) as (T' & _ & Q').
  destruct (proj2 (Q false) eq_refl) as (lD & ED). destruct (proj2 (Q' false) eq_refl) as (lP & EP).
  assert (P := proj1 (Q false) lD ED). assert (P' := proj1 (Q' false) lP EP). rewrite Z in P, P'. fold K in P, P'.
  destruct P as (P1 & _ & P3 & _). destruct P' as (P1' & _ & P3' & _).
  exists lD, lP, (nlkd nf_opt d K lk_default). split; [exact ED|]. split; [exact EP|]. cbv zeta. rewrite <- NV. split; [exact P3|]. split; [exact P3'|]. split; [exact P1|].
  rewrite P1'. f_equal. unfold nlkd, calc_lkd_varK_pnlt. cbn [lk_pnlt lk_pen lk_default fst lk_lb lk_c1 lk_c2]. rewrite VF. rewrite (Rmax_right 0 (1 / 10)) by lra.
  replace (10 * (1 / 10)) with 1 by lra. ring.
Qed.

(** ** C52, likelihood with the penalty: one exact value 0 with an exact gradient 1; and the same data with the value in
    half the unit (so that all values double and theta is the same).  The log-likelihoods do not differ by a constant. *)
Theorem C52_penalty_refuted : exists (d1 d2 : gpdata) (info1 info2 : hpinfo),
  (forall i, (i < o_dim nf_opt)%nat -> 0 < in_scale d1 i /\ 0 < in_scale d2 i) /\ other_units nf_opt d1 d2 (fun _ => 1) (fun _ => 0) 2 0 /\ is_precon (o_well nf_opt) = true /\ d_noisy d1 = false /\
  set_hp_optz_info nf_opt d1 lk_pen true false false false false = Ok info1 /\ set_hp_optz_info nf_opt d2 lk_pen true false false false false = Ok info2 /\
  (forall th, 0 < th -> lkd_input nf_opt d1 (nz_hp th) /\ lkd_input nf_opt d2 (nz_hp th) /\ hp_other_units nf_opt d1 d2 (nz_hp th) (nz_hp th) 0 0 (fun _ => 1) 2 0) /\
  forall (la : npla) (c : R), exists th l1 l2 v x1 x2, 0 < th /\
    calc_lkd_all la nf_opt d1 lk_pen info1 (nz_hp th) false false false = Ok (l1, true) /\ calc_lkd_all la nf_opt d2 lk_pen info2 (nz_hp th) false false false = Ok (l2, true) /\
    l_varK l1 = Some v /\ / 10 ^ 32 < v /\ l_varK l2 = Some (2 ^ 2 * v) /\ l_ln l1 = Some x1 /\ l_ln l2 = Some x2 /\ x2 <> x1 + c.
Proof.
  destruct (nz_data 0 0 1) as (d1 & E1 & D1 & A1 & A2 & A3 & A4 & A5 & A6 & A7 & A8 & A9 & A10 & A11 & A12 & A13 & A14 & A15).
  destruct (nz_data 0 0 2) as (d2 & E2 & D2 & B1 & B2 & B3 & B4 & B5 & B6 & B7 & B8 & B9 & B10 & B11 & B12 & B13 & B14 & B15).
  destruct (info_total nf_opt d1 lk_pen true false false false false) as (i1 & J1); auto; try discriminate. destruct (info_total nf_opt d2 lk_pen true false false false false) as (i2 & J2); auto; try discriminate.
  destruct (info_total nf_opt d1 lk_default true false false false false) as (k1 & H1); auto; try discriminate. destruct (info_total nf_opt d2 lk_default true false false false false) as (k2 & H2); auto; try discriminate.
  assert (LI : forall d th, data_set nf_opt d -> d_known_fval d = true -> d_known_fgrad d = true -> d_noisy d = false -> 0 < th -> lkd_input nf_opt d (nz_hp th)).
  { intros d th D K1 K2 Z Ht. split; [split; [simpl; lia|split; simpl; lra]|]. split; [exact D|]. split; [reflexivity|]. split; [split; [reflexivity|]; split; [intros; exact Ht|exact I]|].
    split; [split; [rewrite K1; reflexivity|rewrite K2; reflexivity]|]. split; [split; discriminate|rewrite Z; discriminate]. }
  assert (SP : forall i, (i < o_dim nf_opt)%nat -> 0 < in_scale d1 i /\ 0 < in_scale d2 i) by (intros i _; unfold in_scale; rewrite A5, B5; lra).
  assert (OU : other_units nf_opt d1 d2 (fun _ => 1) (fun _ => 0) 2 0).
  { constructor; try congruence.
    - split; intros; lra.
    - intros p i Hp Hi. rewrite A11, B11. cbn. ring.
    - intros p Hp. rewrite A12, B12. cbn. ring.
    - rewrite A13, B13. cbn. intros. ring.
    - intros _. rewrite A14, B14. cbn. intros. field.
    - intros _. rewrite A15, B15. cbn. intros. field. }
  assert (HO : forall th, hp_other_units nf_opt d1 d2 (nz_hp th) (nz_hp th) 0 0 (fun _ => 1) 2 0).
  { intros th. constructor; unfold theta_in_units, var_in_units, mean_in_units, in_scale, out_scale, out_shift; rewrite ?A5, ?B5; cbn; try reflexivity; try exact I; try lra. intros i Hi. field. }
  exists d1, d2, i1, i2. split; [exact SP|]. split; [exact OU|]. split; [reflexivity|]. split; [exact A3|]. split; [exact J1|]. split; [exact J2|].
  split; [intros th Ht; split; [apply LI; assumption|split; [apply LI; assumption|apply HO]]|].
  intros la c.
  destruct (C52_likelihood_partial nf_opt d1 d2 lk_default (fun _ => 1) (fun _ => 0) 2 0 SP OU (or_introl eq_refl) (or_introl eq_refl)) as (c0 & CC).
  set (e := 1 / (10 ^ 10 - 1)) in *.
  assert (Ep : 0 < e <= / 10) by (unfold e; split; [apply Rdiv_lt_0_compat; lra|apply Rle_div_l; lra]).
  assert (PI : / 10 ^ 32 < / 10) by (apply Rinv_lt_contravar; lra).
  assert (RUN : forall th, 0 < th -> th <= 1 -> exists l1 l2 v x1 x2,
    calc_lkd_all la nf_opt d1 lk_pen i1 (nz_hp th) false false false = Ok (l1, true) /\ calc_lkd_all la nf_opt d2 lk_pen i2 (nz_hp th) false false false = Ok (l2, true) /\
    v = 1 / (4 * (1 + e) * th) /\ l_varK l1 = Some v /\ / 10 ^ 32 < v /\ l_varK l2 = Some (2 ^ 2 * v) /\ l_ln l1 = Some x1 /\ l_ln l2 = Some x2 /\
    x2 = x1 + c0 + 1 / 10 * Rmax (v - 1) 0 ^ 2 - 1 / 10 * Rmax (2 ^ 2 * v - 1) 0 ^ 2).
  { intros th Ht Ht1.
    destruct (pen_run la d1 1 0 th k1 i1 D1 A1 A2 A3 A4 A5 A6 A7 A8 A9 A10 A11 A12 A14 Ht ltac:(lra) Ht1 (LI d1 th D1 A1 A2 A3 Ht) H1 J1) as (m1 & l1 & y1 & M1 & L1 & V1 & W1 & X1 & Y1).
    destruct (pen_run la d2 2 0 th k2 i2 D2 B1 B2 B3 B4 B5 B6 B7 B8 B9 B10 B11 B12 B14 Ht ltac:(lra) Ht1 (LI d2 th D2 B1 B2 B3 Ht) H2 J2) as (m2 & l2 & y2 & M2 & L2 & V2 & W2 & X2 & Y2).
    fold e in V1, W1, Y1, V2, W2, Y2.
    assert (EV : 1 ^ 2 / (2 * (1 + e) * th) / 2 = 1 / (4 * (1 + e) * th)) by (field; lra).
    assert (EV2 : 2 ^ 2 / (2 * (1 + e) * th) / 2 = 2 ^ 2 * (1 / (4 * (1 + e) * th))) by (field; lra).
    rewrite EV in *. rewrite EV2 in *. set (v := 1 / (4 * (1 + e) * th)) in *.
    assert (DP : 0 < 4 * (1 + e) * th <= 5) by (split; [apply Rmult_lt_0_compat; lra|]; assert (e * th <= / 10 * 1) by (apply Rmult_le_compat; lra); lra).
    assert (VP : / 10 < v) by (unfold v; apply Rlt_div_r; [lra|]; lra).
    destruct (CC la true false false false false k1 k2 (nz_hp th) (nz_hp th) 0 0 false false false false m1 m2 (LI d1 th D1 A1 A2 A3 Ht) (LI d2 th D2 B1 B2 B3 Ht) (HO th) H1 H2 M1 M2) as ((x & Q1 & Q2) & _).
    { intros v0 Hv. rewrite V1 in Hv. injection Hv as <-. unfold out_scale. rewrite A5, B5. split; lra. }
    rewrite X1 in Q1. injection Q1 as Q1. rewrite X2 in Q2. injection Q2 as Q2.
    exists l1, l2, v. do 2 eexists. split; [exact L1|]. split; [exact L2|]. split; [reflexivity|]. split; [exact W1|]. split; [lra|]. split; [exact W2|]. split; [exact Y1|]. split; [exact Y2|]. lra. }
  destruct (RUN 1 Rlt_0_1 (Rle_refl 1)) as (l1 & l2 & v & x1 & x2 & L1 & L2 & EV & V1 & VP & V2 & X1 & X2 & EX).
  assert (VB : v < / 4). { rewrite EV. unfold Rdiv. rewrite Rmult_1_l. apply Rinv_lt_contravar; lra. }
  rewrite !Rmax_right in EX by lra.
  destruct (Req_dec c c0) as [->|NE].
  - destruct (RUN (/ 16) ltac:(lra) ltac:(lra)) as (m1 & m2 & u & y1 & y2 & M1 & M2 & EU & U1 & UP & U2 & Y1 & Y2 & EY).
    exists (/ 16), m1, m2, u, y1, y2. repeat (split; [lra || assumption|]). intros C.
    assert (UB : 3 < u). { rewrite EU. apply Rlt_div_r; lra. }
    rewrite !Rmax_left in EY by lra. nra.
  - exists 1, l1, l2, v, x1, x2. repeat (split; [lra || assumption|]). intros C. apply NE. lra.
Qed.
Print Assumptions C52_penalty_refuted.
