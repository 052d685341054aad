(** * Property C52, continued: methods that rescale the data; examples and refutations. *)
From Coq Require Import Reals List Arith Bool Lia Lra Psatz.
From Coquelicot Require Import Coquelicot.
From Verif.Base Require Import NpLite NpFacts Deriv.
From Verif.Spec Require Import KernelSpec LinAlgSpec GpSpec HpSpec DataSpec LkdSpec RescaleSpec EvalSpec OrderSpec UnitSpec.
From Verif.Model Require Import KernelSqExp KernelMatern KernelRatQuad KernelDispatch CommonFun WellCond Rescaling GpState Chol Cov HpInfo HpGrad MeanFun Lkd EvalModel.
From Verif.Proofs Require Import KernTac KernGradBlocks RadialCalculus KernelExact LinAlg CholCorrect Jets Psd CovStruct ThetaGrad HessX2 StateFacts NoiseFacts DataFacts NuggetCond NuggetMain MinMax RescaleFacts
  LinDeriv LkdCore LkdFacts LkdMain EvalKern EvalFacts EvalMain EvalInterp Reorder.
From Verif.Props Require Import CondProps DataProps LkdProps EvalProps EvalProps2 OrderProps OrderLkd UnitProps.
Import ListNotations.
Local Open Scope R_scope.

(** two sets of points which are the same up to one positive factor and a shift *)
Lemma dist_scaled D X1 X2 p q s : 0 <= s -> nc X1 = D -> nc X2 = D -> (forall i, (i < D)%nat -> mat_at X2 p i - mat_at X2 q i = s * (mat_at X1 p i - mat_at X1 q i)) ->
  dist (nc X2) (rows_of X2 p) (rows_of X2 q) = s * dist (nc X1) (rows_of X1 p) (rows_of X1 q).
Proof.
  intros Hs -> -> H. unfold dist, rows_of. rewrite <- (sqrt_pow2 s Hs) at 1. rewrite <- sqrt_mult_alt by (apply pow2_ge_0). f_equal. rewrite <- rsum_scal. apply rsum_ext; intros i Hi.
  rewrite H by exact Hi. ring.
Qed.
Lemma scale_units X1 X2 n D best us m ds sh1 sh2 sc1 sc2 s t :
  nr X1 = n -> nr X2 = n -> nc X1 = D -> nc X2 = D -> 0 < s -> (2 <= n)%nat -> m <> Xnone ->
  (forall p i, (p < n)%nat -> (i < D)%nat -> mat_at X2 p i = s * mat_at X1 p i + t i) ->
  (forall p q, (p < n)%nat -> (q < n)%nat -> p <> q -> tol_min_dist_x <= dist D (rows_of X1 p) (rows_of X1 q) /\ tol_min_dist_x <= dist D (rows_of X2 p) (rows_of X2 q)) ->
  calc_x_shift_n_scale X1 best us m (Some ds) None None = Ok (sh1, sc1) -> calc_x_shift_n_scale X2 best us m (Some ds) None None = Ok (sh2, sc2) ->
  forall i, (i < D)%nat -> vat sc2 i * s = vat sc1 i.
Proof.
  intros R1 R2 C1 C2 Hs Hn Hm HX HD H1 H2 i Hi. apply calc_scale_inv in H1. apply calc_scale_inv in H2.
  destruct H1 as (_ & _ & _ & L1 & _ & S1 & _ & Y1 & c1 & (M1 & M1' & M1'') & V1 & E1). destruct H2 as (_ & _ & _ & L2 & _ & S2 & _ & Y2 & c2 & (M2 & M2' & M2'') & V2 & E2).
  rewrite ?R1, ?R2, ?C1, ?C2 in *. rewrite V1, V2 by exact Hi. cbn [base_scale] in *. replace (n =? 1)%nat with false in * by (symmetry; apply Nat.eqb_neq; lia).
  assert (D1 : forall p q, (p < n)%nat -> (q < n)%nat -> dist (nc Y1) (rows_of Y1 p) (rows_of Y1 q) = dist D (rows_of X1 p) (rows_of X1 q)).
  { intros p q Hp Hq. rewrite M1'. unfold dist, rows_of. f_equal. apply rsum_ext; intros k Hk. rewrite !M1'' by assumption. ring. }
  assert (D2 : forall p q, (p < n)%nat -> (q < n)%nat -> dist (nc Y2) (rows_of Y2 p) (rows_of Y2 q) = dist D (rows_of X2 p) (rows_of X2 q)).
  { intros p q Hp Hq. rewrite M2'. unfold dist, rows_of. f_equal. apply rsum_ext; intros k Hk. rewrite !M2'' by assumption. ring. }
  assert (DD : forall p q, (p < n)%nat -> (q < n)%nat -> dist D (rows_of X2 p) (rows_of X2 q) = s * dist D (rows_of X1 p) (rows_of X1 q)).
  { intros p q Hp Hq. assert (Z := dist_scaled D X1 X2 p q s ltac:(lra) C1 C2 ltac:(intros k Hk; rewrite !HX by assumption; ring)). rewrite C1, C2 in Z. exact Z. }
  assert (T0 : 0 < tol_min_dist_x) by (unfold tol_min_dist_x; apply Rinv_0_lt_compat, pow_lt; lra).
  rewrite !Rmult_1_l. destruct m; [congruence| |]; destruct E1 as (m1 & ((p & q & P) & K1) & ->), E2 as (m2 & ((p2 & q2 & Q) & K2) & ->); cbn [req_dist]; rewrite ?M1, ?M2 in *.
  - destruct P as (Hp & Hq & Hne & E1), Q as (Hp2 & Hq2 & Hne2 & E2).
    assert (F1 : tol_min_dist_x <= m1) by (rewrite E1, D1 by assumption; apply HD; assumption).
    assert (F2 : tol_min_dist_x <= m2) by (rewrite E2, D2 by assumption; apply HD; assumption).
    rewrite !Rmax_right by assumption. replace m2 with (s * m1); [field; lra|]. apply Rle_antisym.
    + rewrite E2, D2, DD, <- D1 by assumption. apply Rmult_le_compat_l; [lra|]. apply K1; assumption.
    + rewrite E1, D1, <- DD, <- D2 by assumption. apply K2; assumption.
  - destruct P as (Hp & Hq & E1), Q as (Hp2 & Hq2 & E2).
    assert (F1 : 0 < m1). { eapply Rlt_le_trans; [exact T0|]. apply (Rle_trans _ _ _ (proj1 (HD 0%nat 1%nat ltac:(lia) ltac:(lia) ltac:(lia)))). rewrite <- D1 by lia. apply K1; lia. }
    replace m2 with (s * m1); [field; lra|]. apply Rle_antisym.
    + rewrite E1, D1, <- DD, <- D2 by assumption. apply K2; assumption.
    + rewrite E2, D2, DD, <- D1 by assumption. apply Rmult_le_compat_l; [lra|]. apply K1; assumption.
Qed.
Lemma range_units n v1 v2 a b M1 m1 M2 m2 : vlen v1 = n -> vlen v2 = n -> 0 < a -> (forall p, (p < n)%nat -> vat v2 p = a * vat v1 p + b) ->
  vmaxmin v1 = Ok (M1, m1) -> vmaxmin v2 = Ok (M2, m2) -> M2 - m2 = a * (M1 - m1) /\ forall p q, (p < n)%nat -> (q < n)%nat -> Rabs (vat v1 p - vat v1 q) <= M1 - m1.
Proof.
  intros L1 L2 Ha HV H1 H2. unfold vmaxmin in H1, H2. rewrite L1 in H1. rewrite L2 in H2. binv H1 A1 E1. binv H1 A2 E2. injection H1 as <- <-. binv H2 B1 E3. binv H2 B2 E4. injection H2 as <- <-.
  assert (NE : map (vat v1) (seq 0 n) <> []). { intros E. rewrite E in E1. discriminate. } assert (NE2 : map (vat v2) (seq 0 n) <> []). { intros E. rewrite E in E3. discriminate. }
  destruct (rok_inv _ _ _ (lmax_ok _ NE) E1) as (P1 & P2). destruct (rok_inv _ _ _ (lmin_ok _ NE) E2) as (P3 & P4).
  destruct (rok_inv _ _ _ (lmax_ok _ NE2) E3) as (Q1 & Q2). destruct (rok_inv _ _ _ (lmin_ok _ NE2) E4) as (Q3 & Q4).
  assert (IN : forall x, In x (map (vat v1) (seq 0 n)) <-> In (a * x + b) (map (vat v2) (seq 0 n))).
  { intros x. rewrite !in_map_iff. split; intros (p & E & Hp); exists p; (split; [|exact Hp]); apply in_seq in Hp; rewrite ?HV in * by lia; [rewrite E; reflexivity|nra]. }
  split.
  - assert (B1 = a * A1 + b).
    { apply Rle_antisym; [|apply Q2, IN, P1]. assert (Z := P2 ((B1 - b) / a)). assert ((B1 - b) / a <= A1); [|replace B1 with (a * ((B1 - b) / a) + b) by (field; lra); nra]. apply Z, IN. replace (a * ((B1 - b) / a) + b) with B1 by (field; lra). exact Q1. }
    assert (B2 = a * A2 + b).
    { apply Rle_antisym; [apply Q4, IN, P3|]. assert (Z := P4 ((B2 - b) / a)). assert (A2 <= (B2 - b) / a); [|replace B2 with (a * ((B2 - b) / a) + b) by (field; lra); nra]. apply Z, IN. replace (a * ((B2 - b) / a) + b) with B2 by (field; lra). exact Q3. }
    subst. ring.
  - intros p q Hp Hq. assert (I1 : In (vat v1 p) (map (vat v1) (seq 0 n))) by (apply in_map, in_seq; lia). assert (I2 : In (vat v1 q) (map (vat v1) (seq 0 n))) by (apply in_map, in_seq; lia).
    assert (Z1 := P2 _ I1). assert (Z2 := P2 _ I2). assert (Z3 := P4 _ I1). assert (Z4 := P4 _ I2). apply Rabs_le. lra.
Qed.

(** ** With a method that rescales the data, one change of units for all coordinates is undone by the scaling: right
    after set_data the same hyperparameters describe the same model, and the hypotheses of C52_other_units_partial
    about the scaled data hold.  The points are further apart than the floor 1e-14 of the scaling and the values spread
    over more than its floor 1e-20, in both units. *)
Theorem C52_rescaled_after_set_data :
  forall (o : gpopt) (x1 x2 : mat) (fv1 fv2 : vec) (sf1 sf2 : stdarg vec) (G1 G2 : option mat) (sg1 sg2 : stdarg mat) (m1 m2 : option (list bool)) (d1 d2 : gpdata) (s : R) (t : nat -> R) (a b : R),
  o_use_scl o = true -> (2 <= vlen fv1)%nat -> nr x1 = vlen fv1 -> nc x1 = o_dim o -> nr x2 = vlen fv2 -> nc x2 = o_dim o ->
  set_data o x1 fv1 sf1 G1 sg1 m1 = Ok d1 -> set_data o x2 fv2 sf2 G2 sg2 m2 = Ok d2 ->
  other_units o d1 d2 (fun _ => s) t a b ->
  (forall p q, (p < vlen fv1)%nat -> (q < vlen fv1)%nat -> p <> q -> / 10 ^ 14 <= dist (o_dim o) (rows_of x1 p) (rows_of x1 q) /\ / 10 ^ 14 <= dist (o_dim o) (rows_of x2 p) (rows_of x2 q)) ->
  (exists p q, (p < vlen fv1)%nat /\ (q < vlen fv1)%nat /\ / 10 ^ 20 <= Rabs (vat fv1 p - vat fv1 q) /\ / 10 ^ 20 <= Rabs (vat fv2 p - vat fv2 q)) ->
  (forall i, (i < o_dim o)%nat -> in_scale d2 i * s = in_scale d1 i) /\ out_scale d2 * a = out_scale d1 /\
  forall (hp : hpv) (b0 : R), hp_other_units o d1 d2 hp hp b0 b0 (fun _ => s) a b.
Proof.
  intros o x1 x2 fv1 fv2 sf1 sf2 G1 G2 sg1 sg2 m1 m2 d1 d2 s t a b US Hn A1 A2 A3 A4 H1 H2 HU HX HV.
  assert (J1 := set_data_inv _ _ _ _ _ _ _ _ H1). assert (J2 := set_data_inv _ _ _ _ _ _ _ _ H2).
  destruct J1 as (N1 & X1 & _ & V1 & _). destruct J2 as (N2 & X2 & _ & V2 & _).
  assert (EL : vlen fv2 = vlen fv1) by (rewrite <- N1, <- N2; apply HU). destruct (ou_pos _ _ _ _ _ _ _ HU) as (Pa & Ps). specialize (Ps 0%nat). cbv beta in Ps.
  assert (PX : forall p i, (p < vlen fv1)%nat -> (i < o_dim o)%nat -> mat_at x2 p i = s * mat_at x1 p i + t i) by (intros p i Hp Hi; rewrite <- X1, <- X2; apply (ou_x _ _ _ _ _ _ _ HU p i); [rewrite N1; exact Hp|exact Hi]).
  assert (PV : forall p, (p < vlen fv1)%nat -> vat fv2 p = a * vat fv1 p + b) by (intros p Hp; rewrite <- V1, <- V2; apply (ou_f _ _ _ _ _ _ _ HU); rewrite N1; exact Hp).
  assert (K : (forall i, (i < o_dim o)%nat -> in_scale d2 i * s = in_scale d1 i) /\ out_scale d2 * a = out_scale d1 /\ out_scale d2 <> 0 /\ out_shift d2 = a * out_shift d1 + b).
  2: { destruct K as (K1 & K2 & K3 & K4). split; [exact K1|]. split; [exact K2|]. intros hp b0. constructor; unfold theta_in_units, var_in_units, gvar_in_units, mean_in_units; rewrite <- ?K2, ?K4.
       - intros i Hi. rewrite <- (K1 i Hi). field. lra.
       - reflexivity.
       - destruct (hp_varK hp); cbn [OrderSpec.both]; [|exact I]. field. split; lra.
       - destruct (hp_var_fval hp); cbn [OrderSpec.both]; [|exact I]. field. split; lra.
       - destruct (hp_var_fgrad hp); cbn [OrderSpec.both]; [|exact I]. intros i Hi. rewrite <- (K1 i Hi). field. split; lra.
       - field. split; lra. }
  unfold out_scale, in_scale, out_shift.
  unfold set_data in H1, H2. cbv zeta in H1, H2. binv H1 ng Eng. binv H1 stf Estf. binv H1 stg Estg. binv H1 fz Efz. binv H1 gz Egz. binv H1 eta Eeta. binv H1 dm Edm. binv H1 scl Escl. binv H1 Rt ERt. injection H1 as E1.
  binv H2 ng' Eng'. binv H2 stf' Estf'. binv H2 stg' Estg'. binv H2 fz' Efz'. binv H2 gz' Egz'. binv H2 eta' Eeta'. binv H2 dm' Edm'. binv H2 scl' Escl'. binv H2 Rt' ERt'. injection H2 as E2.
  assert (T1 : d_scl d1 = scl) by (rewrite <- E1; reflexivity). assert (T2 : d_scl d2 = scl') by (rewrite <- E2; reflexivity). rewrite T1, T2. clear E1 E2 ERt ERt' Estg Estg' Estf Estf' Egz Egz' Efz Efz' Eng Eng' Edm Edm' T1 T2 Eeta Eeta'.
  rewrite US in Escl, Escl'.
  binv Escl md Emd. binv Escl r1 Er1. binv Escl r2 Er2. injection Escl as <-. binv Escl' md' Emd'. binv Escl' r1' Er1'. binv Escl' r2' Er2'. injection Escl' as <-.
  assert (EM : md' = md) by (rewrite EL, Emd in Emd'; injection Emd'; auto). subst md'.
  assert (MX : fst md <> Xnone) by (destruct (o_well o); try discriminate; injection Emd as <-; discriminate).
  destruct (set_obj_data_inv _ _ _ _ _ Er2) as (Z1 & Z2 & Z3 & Z4 & Z5 & _ & _ & Z6). destruct (set_obj_data_inv _ _ _ _ _ Er2') as (W1 & W2 & W3 & W4 & W5 & _ & _ & W6). cbn [ob_val] in Z6, W6.
  assert (B1 : r_best r1 = (nr x1 - 1)%nat) by (unfold rescaling_init, set_xscale_data in Er1; binv Er1 ss Q1; destruct ss; binv Er1 xs Q2; binv Er1 Rt1 Q3; binv Er1 os Q4; binv Er1 u Q5; binv Er1 bs Q6; binv Er1 ls Q7; injection Er1 as <-; reflexivity).
  assert (B2 : r_best r1' = (nr x2 - 1)%nat) by (unfold rescaling_init, set_xscale_data in Er1'; binv Er1' ss Q1; destruct ss; binv Er1' xs Q2; binv Er1' Rt1 Q3; binv Er1' os Q4; binv Er1' u Q5; binv Er1' bs Q6; binv Er1' ls Q7; injection Er1' as <-; reflexivity).
  apply set_xscale_data_inv in Er1. destruct Er1 as (_ & Y4 & _). apply set_xscale_data_inv in Er1'. destruct Er1' as (_ & Y4' & _). cbn [r_x r_best r_use_shift r_mtd r_dist] in Y4, Y4'.
  rewrite Z3, W3. split.
  - intros i Hi. refine (scale_units x1 x2 (vlen fv1) (o_dim o) _ _ _ _ _ _ _ _ s t A1 (eq_trans A3 EL) A2 A4 Ps Hn MX PX HX Y4 _ i Hi). rewrite A1, <- EL, <- A3. exact Y4'.
  - rewrite B1, A1 in Z6. rewrite B2, A3, EL in W6. unfold calc_obj_scaling in Z6, W6. binv Z6 a1 Q1. binv Z6 c1 Q2. injection Z6 as F1 F2. binv W6 a2 Q3. binv W6 c2 Q4. injection W6 as F3 F4. rewrite <- F1, <- F2, <- F3, <- F4. rewrite EL in Q4.
    replace (vlen fv1 =? 1)%nat with false in * by (symmetry; apply Nat.eqb_neq; lia). cbn [orb negb] in Q2, Q4. binv Q2 Mm1 QM1. binv Q4 Mm2 QM2. destruct Mm1 as (M1, l1), Mm2 as (M2, l2). injection Q2 as <-. injection Q4 as <-. cbn [fst snd].
    destruct (range_units (vlen fv1) fv1 fv2 a b M1 l1 M2 l2 eq_refl EL Pa PV QM1 QM2) as (RA & RB). destruct HV as (p & q & Hp & Hq & HV1 & HV2).
    assert (T0 : 0 < / 10 ^ 20) by (apply Rinv_0_lt_compat, pow_lt; lra).
    assert (G1' : tol_min_range_obj <= M1 - l1) by (eapply Rle_trans; [exact HV1|]; apply RB; assumption).
    assert (G2' : tol_min_range_obj <= M2 - l2).
    { eapply Rle_trans; [exact HV2|]. rewrite RA, !PV by assumption. replace (a * vat fv1 p + b - (a * vat fv1 q + b)) with (a * (vat fv1 p - vat fv1 q)) by ring. rewrite Rabs_mult, (Rabs_pos_eq a) by lra. apply Rmult_le_compat_l; [lra|]. apply RB; assumption. }
    rewrite !Rmax_right by assumption. unfold tol_min_range_obj in *. split; [rewrite RA; field; split; lra|]. split; [unfold rangeobj_max_dflt; apply Rmult_integral_contrapositive_currified; [lra|apply Rinv_neq_0_compat; lra]|].
    unfold vget in Q1, Q3. rewrite EL in Q3. replace (vlen fv1 - 1 <? vlen fv1)%nat with true in * by (symmetry; apply Nat.ltb_lt; lia). injection Q1 as <-. injection Q3 as <-. apply PV. lia.
Qed.
Print Assumptions C52_rescaled_after_set_data.

(** ** What fails.  The noise variance is added to the correlation matrix without being divided by varK, so the model of
    noisy data depends on the unit of the values. *)
Definition un_hp (v : R) : hpv := mkhp (Some (vconst 1 0)) (vconst 1 1) None (Some v) None None.
Lemma un_data v : 1 <= v -> exists d, eval_input ap_opt d (un_hp (v ^ 2)) (v ^ 2) 0 /\
  d_scl d = None /\ d_n_eval d = 1%nat /\ d_n_grad d = 0%nat /\ d_bvec d = None /\ d_noisy d = true /\ d_x d = ap_x 1 /\ d_fval d = vconst 1 0 /\ d_std_fval d = Some (vconst 1 v) /\ d_etaK d = Some (1 / (10 ^ 10 - 1)) /\ d_fval_zero d && d_fgrad_zero d = false.
Proof.
  intros Hv. assert (P : / 10 ^ 10 < 1) by (apply (Rmult_lt_reg_r (10 ^ 10)); [|rewrite Rinv_l]; lra).
  destruct (C36_accepts_consistent_data ap_opt (ap_x 1) (vconst 1 0) (SdOk (vconst 1 v)) None SdNone None) as (d & E).
  - split; [simpl; lia|split; simpl; lra].
  - intros C; discriminate.
  - simpl; lia.
  - split; reflexivity.
  - split; [intros s Es; injection Es as <-; reflexivity|]. split; reflexivity.
  - intros s Es; discriminate.
  - discriminate.
  - destruct (C36_rejects_inconsistent_data _ _ _ _ _ _ _ _ E) as (_ & _ & _ & _ & Eb & ES & _). destruct (C36_noise_flags _ _ _ _ _ _ _ _ E) as (F1 & _ & _ & _ & F5).
    assert (J := set_data_inv _ _ _ _ _ _ _ _ E). destruct J as (J1 & J2 & J3 & J4 & _ & (ek & eg & J5 & _ & _ & J6) & J7 & _ & _ & (Xs & _ & _ & _ & _ & J8) & _ & J9 & _).
    assert (K1 : d_known_fval d = true) by (apply F1; discriminate).
    assert (NZ : d_noisy d = true). { destruct (d_noisy d); [reflexivity|]. destruct (proj1 F5 eq_refl) as ((s & Es & Hs) & _). injection Es as <-. specialize (Hs 0%nat ltac:(simpl; lia)). simpl in Hs. lra. }
    destruct (J8 eq_refl) as (_ & NS).
    exists d. split.
    + split; [split; [simpl; lia|split; simpl; lra]|]. split; [do 6 eexists; split; [|split; [|split; [|apply after_set; exact E]]]; simpl; auto|].
      split; [discriminate|]. split; [split; [reflexivity|split; [intros i _; simpl; lra|exact I]]|].
      split; [split; [rewrite K1; reflexivity|discriminate]|]. split; [split; intros w Ew; discriminate|]. split; [reflexivity|]. split; [nra|]. split; [exists (vconst 1 0); repeat split|].
      intros i _. unfold in_scale. rewrite NS. lra.
    + split; [exact NS|]. split; [exact J1|]. split; [exact J7|]. split; [exact J3|]. split; [exact NZ|].
      split; [exact J2|]. split; [exact J4|]. split; [exact ES|]. split; [rewrite J6; simpl in J5; injection J5 as <- <-; simpl; reflexivity|]. rewrite NZ in J9. destruct (d_fval_zero d && d_fgrad_zero d); [discriminate|reflexivity].
Qed.
Lemma un_sig d v w su : 0 < v -> eval_input ap_opt d (un_hp v) v 0 -> set_up ap_opt d (fun _ => 1) (un_hp v) false su ->
  d_scl d = None -> d_n_eval d = 1%nat -> d_n_grad d = 0%nat -> d_x d = ap_x 1 -> d_fval_zero d && d_fgrad_zero d = false -> d_std_fval d = Some (vconst 1 w) -> v = w ^ 2 -> d_etaK d = Some (1 / (10 ^ 10 - 1)) ->
  exists ev, eval_model ap_opt d (un_hp v) su ap_p false false = Ok ev /\ vlen (e_sig ev) = 1%nat /\ vat (e_sig ev) 0 = sqrt (1 - 1 / (1 + v + 1 / (10 ^ 10 - 1))) * sqrt v.
Proof.
  intros Hv HI SU A1 A2 A3 A4 A5 A7 VW A6.
  destruct (ei_main ap_opt d (un_hp v) v 0 HI _ false su SU) as (e & c & inv & Q1 & Q2 & Q3 & Q4 & Q5 & Q6 & Q7 & Q8 & Q9).
  destruct (ei_eval ap_opt d (un_hp v) v 0 HI (fun _ => 1) false su e c inv ap_p false false SU ltac:(intros C; discriminate) Q1 Q3 Q4 Q5 Q6 Q7 Q8 Q9 eq_refl ltac:(simpl; lia) ltac:(discriminate)) as (ev & E & _ & (V1 & W1) & _).
  exists ev. split; [exact E|]. split; [exact V1|]. rewrite W1 by (simpl; lia).
  assert (EE : e = 1 / (10 ^ 10 - 1)). { assert (Z := setup_eta _ _ _ _ _ _ _ _ HI (proj1 SU)). unfold eta_is in Z. cbn [o_eta_const ap_opt gp_init] in Z. cbn in Z. rewrite A6, Q2 in Z. injection Z as <-. reflexivity. }
  assert (NN : cN ap_opt d = 1%nat) by (unfold cN; rewrite A2, A3; reflexivity).
  unfold Si, Psig, Pv, pv, out_scale. rewrite A1. rewrite NN in *. unfold Rdiv at 1. rewrite Rinv_1, Rmult_1_r. f_equal. f_equal. f_equal.
  assert (KK : ckf ap_opt d (un_hp v) (fst (get_scl_x_w_dist d)) 0 0 = 1).
  { unfold ckf, cobs, rowobs, unradr, get_scl_x_w_dist. rewrite A1, A2, A4. cbn [fst Nat.ltb Nat.leb]. cbn. unfold se0. rewrite <- exp_0. f_equal. ring. }
  assert (KX : kxf ap_opt d (un_hp v) (to_scl d (rows_of ap_p 0)) 0 = 1).
  { unfold kxf, cobs, rowobs, unradr, get_scl_x_w_dist, to_scl, in_shift, in_scale. rewrite A1, A2, A4. cbn [fst Nat.ltb Nat.leb]. cbn. unfold se0. rewrite <- exp_0. f_equal. ring. }
  assert (NF : noise_fn d (un_hp v) None 0 = v) by (unfold noise_fn, noise_row, unradr; rewrite A2, A5; cbn; unfold noise_fval, std_scale; rewrite A1, A7, VW; cbn; ring).
  assert (SM : smat ap_opt d (un_hp v) e 0 0 = 1 + v + e) by (unfold smat, sdiag; rewrite KK, NF; cbn; ring).
  assert (P := Q6). clear P. unfold pz, dotp. cbn [rsum]. rewrite KX, Rplus_0_l, Rmult_1_l.
  assert (EP : 0 < e) by exact Q1.
  rewrite <- (ksol_unique 1 (smat ap_opt d (un_hp v) e) (fun _ => 1 / (1 + v + e)) (kxf ap_opt d (un_hp v) (to_scl d (rows_of ap_p 0))) Q3); [rewrite EE; reflexivity| |lia].
  intros r Hr. replace r with 0%nat by lia. unfold mv. cbn [rsum]. rewrite SM, KX. field. lra.
Qed.
Theorem C52_noise_refuted :
  exists (o : gpopt) (d1 d2 : gpdata) (hp1 hp2 : hpv) (v1 v2 : R) (su1 su2 : surr) (s t : nat -> R) (a b : R) (x1 x2 : mat) (ev1 ev2 : evo),
  eval_input o d1 hp1 v1 0 /\ eval_input o d2 hp2 v2 0 /\ mask_supported o d1 /\ mask_supported o d2 /\
  other_units o d1 d2 s t a b /\ hp_other_units o d1 d2 hp1 hp2 0 0 s a b /\ o_use_grad o = false /\ set_up o d1 (fun _ => 1) hp1 false su1 /\ set_up o d2 (fun _ => 1) hp2 false su2 /\
  points_in_units (o_dim o) s t x1 x2 /\ eval_model o d1 hp1 su1 x1 false false = Ok ev1 /\ eval_model o d2 hp2 su2 x2 false false = Ok ev2 /\
  ~ vec_units (nr x1) a 0 (e_sig ev1) (e_sig ev2).
Proof.
  destruct (un_data 1 ltac:(lra)) as (d & I1 & A1 & A2 & A3 & A4 & A5 & A6 & A7 & A8 & A9 & A10). destruct (un_data 2 ltac:(lra)) as (d' & I2 & B1 & B2 & B3 & B4 & B5 & B6 & B7 & B8 & B9 & B10).
  replace (1 ^ 2) with 1 in I1 by ring. replace (2 ^ 2) with 4 in I2 by ring.
  destruct (C30_setup_succeeds ap_opt d (fun _ => 1) (un_hp 1) 1 0 false I1) as (su1 & _ & HS1). destruct (C30_setup_succeeds ap_opt d' (fun _ => 1) (un_hp 4) 4 0 false I2) as (su2 & _ & HS2).
  specialize (HS1 (or_intror (or_introl eq_refl))). specialize (HS2 (or_intror (or_introl eq_refl))).
  destruct (un_sig d 1 1 su1 ltac:(lra) I1 HS1 A1 A2 A3 A6 A10 A8 ltac:(ring) A9) as (ev1 & V1 & L1 & W1). destruct (un_sig d' 4 2 su2 ltac:(lra) I2 HS2 B1 B2 B3 B6 B10 B8 ltac:(ring) B9) as (ev2 & V2 & L2 & W2).
  exists ap_opt, d, d', (un_hp 1), (un_hp 4), 1, 4, su1, su2, (fun _ => 1), (fun _ => 0), 2, 0, ap_p, ap_p, ev1, ev2.
  split; [exact I1|]. split; [exact I2|]. split; [intros C; discriminate|]. split; [intros C; discriminate|]. split.
  { constructor; try congruence; try discriminate.
    - split; intros; lra.
    - intros p i Hp Hi. rewrite A6, B6. ring.
    - intros p Hp. rewrite A7, B7. cbn. ring.
    - rewrite A8, B8. cbn. intros p Hp. ring. }
  split.
  { constructor; unfold theta_in_units, var_in_units, mean_in_units, in_scale, out_scale, out_shift; rewrite ?A1, ?B1; cbn; try reflexivity; try exact I; try lra. intros i Hi. lra. }
  split; [reflexivity|]. split; [exact HS1|]. split; [exact HS2|]. split; [split; [reflexivity|]; split; [reflexivity|]; split; [reflexivity|]; intros; ring|]. split; [exact V1|]. split; [exact V2|].
  intros (_ & _ & H). specialize (H 0%nat ltac:(simpl; lia)). rewrite W1, W2, sqrt_1 in H. replace (sqrt 4) with 2 in H by (replace 4 with (2 * 2) by ring; rewrite sqrt_square; lra).
  set (w := 1 / (10 ^ 10 - 1)) in *. assert (0 < w) by (unfold w; apply Rdiv_lt_0_compat; lra). clearbody w.
  assert (1 - 1 / (1 + 1 + w) < 1 - 1 / (1 + 4 + w)). { assert (1 / (1 + 4 + w) < 1 / (1 + 1 + w)); [|lra]. unfold Rdiv. rewrite !Rmult_1_l. apply Rinv_lt_contravar; nra. }
  assert (sqrt (1 - 1 / (1 + 1 + w)) < sqrt (1 - 1 / (1 + 4 + w))); [|lra]. apply sqrt_lt_1_alt. split; [|assumption].
  replace (1 - 1 / (1 + 1 + w)) with ((1 + w) / (2 + w)) by (field; lra). apply Rlt_le, Rdiv_lt_0_compat; lra.
Qed.
Print Assumptions C52_noise_refuted.

(** The nugget of the methods other than 'precon' is added to the derivative rows as it is, so with gradients the model
    depends on the unit of the coordinates. *)
Definition ul_opt : gpopt := gp_init 1 true SqExp Wbase.
Definition ul_hp (t : R) : hpv := mkhp (Some (vconst 1 0)) (vconst 1 t) None (Some 1) None None.
Lemma ul_data g t : 0 < t -> exists d, eval_input ul_opt d (ul_hp t) 1 0 /\
  d_scl d = None /\ d_n_eval d = 1%nat /\ d_n_grad d = 1%nat /\ d_bvec d = None /\ d_noisy d = false /\ d_x d = ap_x 1 /\ d_fval d = vconst 1 0 /\ d_std_fval d = Some (vconst 1 0) /\
  d_grad d = Some (mconst 1 1 g) /\ d_std_grad d = Some (mconst 1 1 0) /\ d_etaK d = snd (match calc_nugget (o_ncfg ul_opt) 1 with Ok e => e | Err _ => (0, None) end) /\ d_fval_zero d && d_fgrad_zero d = true.
Proof.
  intros Ht. assert (P : 0 < / 10 ^ 10) by (apply Rinv_0_lt_compat, pow_lt; lra).
  destruct (C36_accepts_consistent_data ul_opt (ap_x 1) (vconst 1 0) (SdOk (vconst 1 0)) (Some (mconst 1 1 g)) (SdOk (mconst 1 1 0)) None) as (d & E).
  - split; [simpl; lia|split; simpl; lra].
  - intros C; discriminate.
  - simpl; lia.
  - split; reflexivity.
  - split; [intros s Es; injection Es as <-; reflexivity|]. simpl. split; [exact I|]. exists (mconst 1 1 g). repeat split; intros; injection H as <-; reflexivity.
  - intros s Es; injection Es as <-; reflexivity.
  - intros _ _. vm_compute; lia.
  - destruct (C36_rejects_inconsistent_data _ _ _ _ _ _ _ _ E) as (_ & _ & _ & _ & Eb & ES & ESG & _). destruct (C36_noise_flags _ _ _ _ _ _ _ _ E) as (F1 & F2 & _ & _ & F5).
    assert (J := set_data_inv _ _ _ _ _ _ _ _ E). destruct J as (J1 & J2 & J3 & J4 & J4' & (ek & eg & J5 & _ & _ & J6) & J7 & _ & _ & (Xs & _ & _ & _ & _ & J8) & _ & J9 & _).
    assert (K1 : d_known_fval d = true) by (apply F1; discriminate). assert (K2 : d_known_fgrad d = true) by (apply F2; [reflexivity|discriminate]).
    assert (NZ : d_noisy d = false). { apply F5. split; [eexists; split; [reflexivity|]|intros _; eexists; split; [reflexivity|]]; intros i; intros; simpl; exact P. }
    destruct (J8 eq_refl) as (_ & NS).
    exists d. split.
    + split; [split; [simpl; lia|split; simpl; lra]|]. split; [do 6 eexists; split; [|split; [|split; [|apply after_set; exact E]]]; simpl; auto|].
      split; [discriminate|]. split; [split; [reflexivity|split; [intros i _; exact Ht|exact I]]|].
      split; [split; [rewrite K1; reflexivity|intros _; rewrite K2; reflexivity]|]. split; [split; intros w Ew; discriminate|]. split; [reflexivity|]. split; [lra|]. split; [exists (vconst 1 0); repeat split|].
      intros i _. unfold in_scale. rewrite NS. lra.
    + split; [exact NS|]. split; [exact J1|]. split; [exact J7|]. split; [exact J3|]. split; [exact NZ|].
      split; [exact J2|]. split; [exact J4|]. split; [exact ES|]. split; [exact J4'|]. split; [exact ESG|]. split; [rewrite J6; cbn [vlen vconst] in J5; rewrite J5; reflexivity|]. rewrite NZ in J9. destruct (d_fval_zero d && d_fgrad_zero d); [reflexivity|discriminate].
Qed.
Lemma ul_mu d g t x su : 0 < t -> eval_input ul_opt d (ul_hp t) 1 0 -> set_up ul_opt d (fun _ => 1) (ul_hp t) false su ->
  d_scl d = None -> d_n_eval d = 1%nat -> d_n_grad d = 1%nat -> d_x d = ap_x 1 -> d_bvec d = None -> d_fval d = vconst 1 0 -> d_grad d = Some (mconst 1 1 g) -> d_fval_zero d && d_fgrad_zero d = true ->
  exists ev e, 0 < e /\ d_etaK d = Some e /\ eval_model ul_opt d (ul_hp t) su (mkmat 1 1 (fun _ _ => x)) false false = Ok ev /\ vat (e_mu ev) 0 = 2 * t * x * exp (- (t * x ^ 2)) * (g / (2 * t + e)).
Proof.
  intros Ht HI SU A1 A2 A3 A4 A6 A7 A8 A5. set (xm := mkmat 1 1 (fun _ _ => x)).
  destruct (ei_main ul_opt d (ul_hp t) 1 0 HI _ false su SU) as (e & c & inv & Q1 & Q2 & Q3 & Q4 & Q5 & Q6 & Q7 & Q8 & Q9).
  destruct (ei_eval ul_opt d (ul_hp t) 1 0 HI (fun _ => 1) false su e c inv xm false false SU ltac:(intros C; discriminate) Q1 Q3 Q4 Q5 Q6 Q7 Q8 Q9 eq_refl ltac:(simpl; lia) ltac:(discriminate)) as (ev & E & (V1 & W1) & _).
  exists ev, e. split; [exact Q1|].
  assert (EE : d_etaK d = Some e). { assert (Z := setup_eta _ _ _ _ _ _ _ _ HI (proj1 SU)). unfold eta_is in Z. cbn [o_eta_const ul_opt gp_init] in Z. cbn in Z. rewrite Q2 in Z. exact Z. }
  split; [exact EE|]. split; [exact E|]. rewrite W1 by (simpl; lia).
  assert (NN : cN ul_opt d = 2%nat) by (unfold cN; rewrite A2, A3; reflexivity).
  unfold Mi, Pmu, pmu, out_scale, out_shift. rewrite A1. rewrite NN in *. unfold Rdiv at 1. rewrite Rinv_1, Rmult_1_r, Rplus_0_r, Rplus_0_l.
  assert (KK : forall r s, (r < 2)%nat -> (s < 2)%nat -> ckf ul_opt d (ul_hp t) (fst (get_scl_x_w_dist d)) r s = if (r =? s)%nat then (if (r =? 0)%nat then 1 else 2 * t) else 0).
  { intros r s Hr Hs. unfold ckf, cobs, rowobs, unradr, get_scl_x_w_dist. rewrite A1, A2, A3, A4, A6. cbn [fst].
    destruct r as [|[|]], s as [|[|]]; try lia; cbn; unfold se0, se1, se2; match goal with |- context [exp ?u] => replace (exp u) with 1 by (replace u with 0 by ring; symmetry; apply exp_0) end; ring. }
  assert (KX : forall r, (r < 2)%nat -> kxf ul_opt d (ul_hp t) (to_scl d (rows_of xm 0)) r = (if (r =? 0)%nat then 1 else 2 * t * x) * exp (- (t * x ^ 2))).
  { intros r Hr. unfold kxf, cobs, rowobs, unradr, get_scl_x_w_dist, to_scl, in_shift, in_scale. rewrite A1, A2, A3, A4, A6. cbn [fst].
    set (q := exp (- (t * x ^ 2))). destruct r as [|[|]]; try lia; cbn; unfold se0, se1, se2; match goal with |- context [exp ?u] => replace (exp u) with q by (unfold q; f_equal; ring) end; ring. }
  assert (SR : forall r, (r < 2)%nat -> sres d 0 r = if (r =? 0)%nat then 0 else g).
  { intros r Hr. unfold sres, gres, ydata, get_scl_eval_data. rewrite A1, A7, A8. destruct r as [|[|]]; try lia; cbn; ring. }
  assert (SM : forall r s, (r < 2)%nat -> (s < 2)%nat -> smat ul_opt d (ul_hp t) e r s = if (r =? s)%nat then (if (r =? 0)%nat then 1 else 2 * t) + e else 0).
  { intros r s Hr Hs. unfold smat, sdiag. rewrite !KK by assumption. replace (noise_fn d (ul_hp t) None r) with 0 by (unfold noise_fn, noise_row; rewrite A5; reflexivity). cbn [o_well ul_opt gp_init set_wellcond_mtd is_precon]. destruct (r =? s)%nat; cbn; ring. }
  unfold dotp. rewrite (rsum_ext 2 _ (fun r => ((if (r =? 0)%nat then 1 else 2 * t * x) * exp (- (t * x ^ 2))) * (if (r =? 0)%nat then 0 else g / (2 * t + e)))).
  - cbn [rsum Nat.eqb]. ring.
  - intros r Hr. rewrite KX by exact Hr. f_equal. unfold pw. symmetry. apply (ksol_unique 2 (smat ul_opt d (ul_hp t) e) (fun r => if (r =? 0)%nat then 0 else g / (2 * t + e))); [exact Q3| |exact Hr].
    intros i Hi. unfold mv. rewrite SR by exact Hi. cbn [rsum]. rewrite !SM by lia. destruct i as [|[|]]; try lia; cbn [Nat.eqb]; field; lra.
Qed.
Theorem C52_lengths_refuted :
  exists (o : gpopt) (d1 d2 : gpdata) (hp1 hp2 : hpv) (su1 su2 : surr) (s t : nat -> R) (a b : R) (x1 x2 : mat) (ev1 ev2 : evo),
  eval_input o d1 hp1 1 0 /\ eval_input o d2 hp2 1 0 /\ mask_supported o d1 /\ mask_supported o d2 /\
  other_units o d1 d2 s t a b /\ hp_other_units o d1 d2 hp1 hp2 0 0 s a b /\ d_noisy d1 = false /\ set_up o d1 (fun _ => 1) hp1 false su1 /\ set_up o d2 (fun _ => 1) hp2 false su2 /\
  points_in_units (o_dim o) s t x1 x2 /\ eval_model o d1 hp1 su1 x1 false false = Ok ev1 /\ eval_model o d2 hp2 su2 x2 false false = Ok ev2 /\
  ~ vec_units (nr x1) a b (e_mu ev1) (e_mu ev2).
Proof.
  destruct (ul_data 1 1 ltac:(lra)) as (d & I1 & A1 & A2 & A3 & A4 & A5 & A6 & A7 & A8 & A9 & A10 & A11 & A12). destruct (ul_data (1 / 2) (1 / 4) ltac:(lra)) as (d' & I2 & B1 & B2 & B3 & B4 & B5 & B6 & B7 & B8 & B9 & B10 & B11 & B12).
  destruct (C30_setup_succeeds ul_opt d (fun _ => 1) (ul_hp 1) 1 0 false I1) as (su1 & _ & HS1). destruct (C30_setup_succeeds ul_opt d' (fun _ => 1) (ul_hp (1 / 4)) 1 0 false I2) as (su2 & _ & HS2).
  specialize (HS1 (or_intror (or_introl eq_refl))). specialize (HS2 (or_intror (or_introl eq_refl))).
  destruct (ul_mu d 1 1 1 su1 ltac:(lra) I1 HS1 A1 A2 A3 A6 A4 A7 A9 A12) as (ev1 & e & EP & EE & V1 & W1). destruct (ul_mu d' (1 / 2) (1 / 4) 2 su2 ltac:(lra) I2 HS2 B1 B2 B3 B6 B4 B7 B9 B12) as (ev2 & e' & EP' & EE' & V2 & W2).
  assert (e' = e) as -> by congruence.
  exists ul_opt, d, d', (ul_hp 1), (ul_hp (1 / 4)), su1, su2, (fun _ => 2), (fun _ => 0), 1, 0, (mkmat 1 1 (fun _ _ => 1)), (mkmat 1 1 (fun _ _ => 2)), ev1, ev2.
  split; [exact I1|]. split; [exact I2|]. split; [intros _ C; discriminate|]. split; [intros _ C; discriminate|]. split.
  { constructor; try congruence.
    - split; intros; lra.
    - intros p i Hp Hi. rewrite A6, B6. rewrite A2 in Hp. replace p with 0%nat by lia. cbn. ring.
    - intros p Hp. rewrite A7, B7. cbn. ring.
    - rewrite A8, B8. cbn. intros p Hp. ring.
    - intros _. rewrite A9, B9. cbn. intros. lra.
    - intros _. rewrite A10, B10. cbn. intros. lra. }
  split.
  { constructor; unfold theta_in_units, var_in_units, mean_in_units, in_scale, out_scale, out_shift; rewrite ?A1, ?B1; cbn; try reflexivity; try exact I; try lra. intros i Hi. lra. }
  split; [exact A5|]. split; [exact HS1|]. split; [exact HS2|]. split; [split; [reflexivity|]; split; [reflexivity|]; split; [reflexivity|]; intros; cbn; ring|]. split; [exact V1|]. split; [exact V2|].
  intros (_ & _ & H). specialize (H 0%nat ltac:(simpl; lia)). rewrite W1, W2 in H. replace (1 / 4 * 2 ^ 2) with (1 * 1 ^ 2) in H by field. set (q := exp (- (1 * 1 ^ 2))) in *. assert (0 < q) by apply exp_pos. clearbody q.
  apply (f_equal (fun z => z * ((2 * 1 + e) * (2 * (1 / 4) + e)))) in H.
  replace (2 * (1 / 4) * 2 * q * (1 / 2 / (2 * (1 / 4) + e)) * ((2 * 1 + e) * (2 * (1 / 4) + e))) with (q * (1 / 2) * (2 + e)) in H by (field; lra).
  replace ((1 * (2 * 1 * 1 * q * (1 / (2 * 1 + e))) + 0) * ((2 * 1 + e) * (2 * (1 / 4) + e))) with (2 * q * (1 / 2 + e)) in H by (field; lra). nra.
Qed.
Print Assumptions C52_lengths_refuted.

(** ** The hypotheses are met: three points in the plane with gradients, 'precon', each coordinate in its own unit. *)
Definition ue_opt : gpopt := gp_init 2 true SqExp Wprecon.
Definition ue_hp (th : nat -> R) (v b : R) : hpv := mkhp (Some (vconst 1 b)) (mkvec 2 th) None (Some v) None None.
Lemma ue_data x f g th v b : nr x = 3%nat -> nc x = 2%nat -> vlen f = 3%nat -> nr g = 3%nat -> nc g = 2%nat -> (forall i, (i < 2)%nat -> 0 < th i) -> 0 < v ->
  exists d, eval_input ue_opt d (ue_hp th v b) v b /\ d_scl d = None /\ d_n_eval d = 3%nat /\ d_bvec d = None /\ d_noisy d = false /\ d_x d = x /\ d_fval d = f /\ d_std_fval d = Some (vconst 3 0) /\
  d_grad d = Some g /\ d_std_grad d = Some (mconst 3 2 0).
Proof.
  intros X1 X2 F G1 G2 Ht Hv. assert (P : 0 < / 10 ^ 10) by (apply Rinv_0_lt_compat, pow_lt; lra).
  destruct (C36_accepts_consistent_data ue_opt x f (SdOk (vconst 3 0)) (Some g) (SdOk (mconst 3 2 0)) None) as (d & E).
  - split; [simpl; lia|split; simpl; lra].
  - intros C; discriminate.
  - lia.
  - split; simpl; congruence.
  - split; [intros s Es; injection Es as <-; auto|]. simpl. split; [exact I|]. exists g. unfold n_used. rewrite F. repeat split; auto; intros; injection H as <-; auto.
  - intros s Es; injection Es as <-; reflexivity.
  - intros _ _. rewrite F. vm_compute. lia.
  - destruct (C36_rejects_inconsistent_data _ _ _ _ _ _ _ _ E) as (_ & _ & _ & _ & Eb & ES & ESG & _). destruct (C36_noise_flags _ _ _ _ _ _ _ _ E) as (F1 & F2 & _ & _ & F5).
    assert (J := set_data_inv _ _ _ _ _ _ _ _ E). destruct J as (J1 & J2 & J3 & J4 & J4' & _ & J7 & _ & _ & (Xs & _ & _ & _ & _ & J8) & _ & J9 & _).
    assert (K1 : d_known_fval d = true) by (apply F1; discriminate). assert (K2 : d_known_fgrad d = true) by (apply F2; [reflexivity|discriminate]).
    assert (NZ : d_noisy d = false). { apply F5. split; [eexists; split; [reflexivity|]|intros _; eexists; split; [reflexivity|]]; intros i; intros; simpl; exact P. }
    destruct (J8 eq_refl) as (_ & NS). rewrite F in J1.
    exists d. split.
    + split; [split; [simpl; lia|split; simpl; lra]|]. split; [do 6 eexists; split; [|split; [|split; [|apply after_set; exact E]]]; simpl; congruence || lia|].
      split; [reflexivity|]. split; [split; [reflexivity|split; [exact Ht|exact I]]|].
      split; [split; [rewrite K1; reflexivity|intros _; rewrite K2; reflexivity]|]. split; [split; intros w Ew; discriminate|]. split; [reflexivity|]. split; [exact Hv|]. split; [exists (vconst 1 b); repeat split|].
      intros i _. unfold in_scale. rewrite NS. lra.
    + repeat (split; [assumption|]). exact ESG.
Qed.
Definition ue_s (i : nat) : R := 1000 * INR (S i).
Definition ue_t (i : nat) : R := INR i - 7.
Definition ue_g : mat := mkmat 3 2 (fun i j => INR i - INR j).
Example C52_hypotheses_met : exists d1 d2 hp1 hp2 v1 v2 b1 b2 su1 su2,
  eval_input ue_opt d1 hp1 v1 b1 /\ eval_input ue_opt d2 hp2 v2 b2 /\ mask_supported ue_opt d1 /\ mask_supported ue_opt d2 /\
  other_units ue_opt d1 d2 ue_s ue_t 3 5 /\ hp_other_units ue_opt d1 d2 hp1 hp2 b1 b2 ue_s 3 5 /\ is_precon (o_well ue_opt) = true /\ d_noisy d1 = false /\
  set_up ue_opt d1 (fun _ => 1) hp1 true su1 /\ set_up ue_opt d2 (fun _ => 1) hp2 true su2 /\
  points_in_units 2 ue_s ue_t (mkmat 1 2 (fun _ j => INR j)) (mkmat 1 2 (fun _ j => ue_s j * INR j + ue_t j)).
Proof.
  assert (SP : forall i, 0 < ue_s i) by (intros i; unfold ue_s; assert (Z := lt_0_INR (S i) ltac:(lia)); lra).
  destruct (ue_data ex_x ex_f ue_g (fun i => 1 / 2 + INR i) 2 (1 / 3) eq_refl eq_refl eq_refl eq_refl eq_refl ltac:(intros i _; assert (Z := pos_INR i); lra) ltac:(lra)) as (d1 & I1 & A1 & A2 & A3 & A4 & A5 & A6 & A7 & A8 & A9).
  destruct (ue_data (mkmat 3 2 (fun p i => ue_s i * mat_at ex_x p i + ue_t i)) (mkvec 3 (fun p => 3 * vat ex_f p + 5)) (mkmat 3 2 (fun q i => 3 / ue_s i * mat_at ue_g q i)) (fun i => (1 / 2 + INR i) / ue_s i ^ 2) 18 6 eq_refl eq_refl eq_refl eq_refl eq_refl
    ltac:(intros i _; assert (Z := pos_INR i); apply Rdiv_lt_0_compat; [lra|apply pow_lt, SP]) ltac:(lra)) as (d2 & I2 & B1 & B2 & B3 & B4 & B5 & B6 & B7 & B8 & B9).
  destruct (C30_setup_succeeds ue_opt d1 (fun _ => 1) _ _ _ true I1) as (su1 & _ & HS1). destruct (C30_setup_succeeds ue_opt d2 (fun _ => 1) _ _ _ true I2) as (su2 & _ & HS2).
  exists d1, d2. do 6 eexists. exists su1, su2. split; [exact I1|]. split; [exact I2|]. split; [intros _ C; discriminate|]. split; [intros _ C; discriminate|]. split.
  { constructor; try congruence.
    - split; [lra|exact SP].
    - intros p i Hp Hi. rewrite A5, B5. reflexivity.
    - intros p Hp. rewrite A6, B6. reflexivity.
    - rewrite A7, B7. cbn. intros. ring.
    - intros _. rewrite A8, B8. cbn. intros. reflexivity.
    - intros _. rewrite A9, B9. cbn. intros. ring. }
  split.
  { constructor; unfold theta_in_units, var_in_units, mean_in_units, in_scale, out_scale, out_shift; rewrite ?A1, ?B1; cbn; try reflexivity; try exact I; try lra. intros i Hi. assert (Z := SP i). field. lra. }
  split; [reflexivity|]. split; [exact A4|]. split; [apply HS1; left; reflexivity|]. split; [apply HS2; left; reflexivity|]. repeat split.
Qed.
(** two points on a line with 'dflt_vmin', in millimetres instead of metres *)
Example C52_rescaled_hypotheses_met : exists o x1 x2 fv1 fv2 G1 G2 d1 d2 s t a b,
  o_use_scl o = true /\ set_data o x1 fv1 SdNone (Some G1) SdNone None = Ok d1 /\ set_data o x2 fv2 SdNone (Some G2) SdNone None = Ok d2 /\ nr x1 = vlen fv1 /\ nc x1 = o_dim o /\ nr x2 = vlen fv2 /\ nc x2 = o_dim o /\
  other_units o d1 d2 (fun _ => s) t a b /\ s = 1000 /\ a = 7 /\ (2 <= vlen fv1)%nat /\
  (forall p q, (p < vlen fv1)%nat -> (q < vlen fv1)%nat -> p <> q -> / 10 ^ 14 <= dist (o_dim o) (rows_of x1 p) (rows_of x1 q) /\ / 10 ^ 14 <= dist (o_dim o) (rows_of x2 p) (rows_of x2 q)) /\
  (exists p q, (p < vlen fv1)%nat /\ (q < vlen fv1)%nat /\ / 10 ^ 20 <= Rabs (vat fv1 p - vat fv1 q) /\ / 10 ^ 20 <= Rabs (vat fv2 p - vat fv2 q)).
Proof.
  set (o := gp_init 1 true SqExp Wdflt_vmin). set (x1 := mkmat 2 1 (fun p _ => INR p)). set (x2 := mkmat 2 1 (fun p _ => 1000 * INR p + 3)). set (f1 := mkvec 2 INR). set (g1 := mconst 2 1 1). set (g2 := mconst 2 1 (7 / 1000)). set (f2 := mkvec 2 (fun p => 7 * INR p + 1)).
  assert (DATA : forall x f g, nr g = 2%nat -> nc g = 1%nat -> nr x = 2%nat -> nc x = 1%nat -> vlen f = 2%nat -> exists d, set_data o x f SdNone (Some g) SdNone None = Ok d /\ d_n_eval d = 2%nat /\ d_bvec d = None /\ d_noisy d = true /\ d_x d = x /\ d_fval d = f /\ d_std_fval d = None /\ d_grad d = Some g /\ d_std_grad d = None).
  { intros x f g G1 G2 X1 X2 F. destruct (C36_accepts_consistent_data o x f SdNone (Some g) SdNone None) as (d & E).
    - split; [simpl; lia|split; simpl; lra].
    - intros C; discriminate.
    - lia.
    - split; simpl; congruence.
    - split; [intros s Es; discriminate|]. split; [exact I|]. exists g. unfold n_used. rewrite F. repeat split; auto; discriminate.
    - intros s Es; discriminate.
    - intros _ C. exfalso. apply C. reflexivity.
    - destruct (C36_rejects_inconsistent_data _ _ _ _ _ _ _ _ E) as (_ & _ & _ & _ & Eb & ES & ESG & _). destruct (C36_noise_flags _ _ _ _ _ _ _ _ E) as (_ & _ & _ & _ & F5).
      assert (J := set_data_inv _ _ _ _ _ _ _ _ E). destruct J as (J1 & J2 & J3 & J4 & J5 & _).
      exists d. split; [exact E|]. split; [congruence|]. split; [exact J3|]. split; [|repeat (split; [assumption|]); exact ESG]. destruct (d_noisy d); [reflexivity|]. destruct (proj1 F5 eq_refl) as ((s & Es & _) & _). discriminate. }
  destruct (DATA x1 f1 g1 eq_refl eq_refl eq_refl eq_refl eq_refl) as (d1 & E1 & A1 & A2 & A3 & A4 & A5 & A6 & A7 & A8). destruct (DATA x2 f2 g2 eq_refl eq_refl eq_refl eq_refl eq_refl) as (d2 & E2 & B1 & B2 & B3 & B4 & B5 & B6 & B7 & B8).
  assert (T14 : / 10 ^ 14 <= 1) by (apply (Rmult_le_reg_r (10 ^ 14)); [|rewrite Rinv_l]; lra). assert (T20 : / 10 ^ 20 <= 1) by (apply (Rmult_le_reg_r (10 ^ 20)); [|rewrite Rinv_l]; lra).
  exists o, x1, x2, f1, f2, g1, g2, d1, d2, 1000, (fun _ => 3), 7, 1. split; [reflexivity|]. split; [exact E1|]. split; [exact E2|]. repeat (split; [reflexivity|]). split.
  { constructor; try congruence; try discriminate.
    - split; intros; lra.
    - intros p i Hp Hi. rewrite A4, B4. reflexivity.
    - intros p Hp. rewrite A5, B5. reflexivity.
    - rewrite A6, B6. exact I.
    - intros _. rewrite A7, B7. cbn. intros. field.
    - intros _. rewrite A8, B8. exact I. }
  split; [reflexivity|]. split; [reflexivity|]. split; [simpl; lia|]. split.
    assert (Q0 : forall c, 1 <= c -> / 10 ^ 14 <= sqrt (0 + (c * 0) ^ 2 + c ^ 2)). { intros c Hc. replace (0 + (c * 0) ^ 2 + c ^ 2) with (c ^ 2) by ring. rewrite sqrt_pow2; lra. }
    intros [|[|p]] [|[|q]] Hp Hq Hne; simpl in Hp, Hq; try lia; unfold dist, rows_of; cbn [rsum o_dim o gp_init set_wellcond_mtd mat_at x1 x2 INR]; (split; [refine (Rle_trans _ _ _ _ (Req_le _ _ _)); [apply (Q0 1); lra|f_equal; ring]|refine (Rle_trans _ _ _ _ (Req_le _ _ _)); [apply (Q0 1000); lra|f_equal; ring]]).
  - exists 1%nat, 0%nat. split; [simpl; lia|]. split; [simpl; lia|]. cbn. split; (rewrite Rabs_pos_eq; lra).
Qed.
