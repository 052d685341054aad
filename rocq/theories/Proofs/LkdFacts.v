(** The likelihood functions of the code compute the quantities of LkdCore. *)
From Coq Require Import Reals List Arith Bool Lia Lra Psatz.
From Coquelicot Require Import Coquelicot.
From Verif.Base Require Import NpLite NpFacts Deriv.
From Verif.Spec Require Import KernelSpec LinAlgSpec GpSpec HpSpec.
From Verif.Model Require Import KernelSqExp KernelMatern KernelRatQuad KernelDispatch CommonFun WellCond Rescaling GpState Chol Cov HpInfo HpGrad MeanFun Lkd.
From Verif.Proofs Require Import KernTac LinAlg CholCorrect Det CovStruct StateFacts NoiseFacts NuggetCond NuggetMain LinDeriv LkdCore.
Import ListNotations.
Local Open Scope R_scope.

Lemma vspec_ext n x f g : vspec n x f -> (forall i, (i < n)%nat -> f i = g i) -> vspec n x g.
Proof. intros (A & B) E. split; [exact A|]. intros i Hi. rewrite B by exact Hi. apply E, Hi. Qed.
Lemma mvstack_ok n1 n2 m A B f g : mspec n1 m A f -> mspec n2 m B g ->
  rok (mvstack A B) (fun C => mspec (n1 + n2) m C (fun i j => if (i <? n1)%nat then f i j else g (i - n1)%nat j)).
Proof.
  intros (A1 & A2 & A3) (B1 & B2 & B3). unfold mvstack. rewrite A2, B2, Nat.eqb_refl. cbn [rok].
  split; [cbn [nr]; congruence|]. split; [reflexivity|]. intros i j Hi Hj. cbn [mat_at]. rewrite A1. destruct (Nat.ltb_spec i n1); [apply A3; lia|apply B3; lia].
Qed.

Section C.
Variables (N : nat) (A : mat) (K : nat -> nat -> R) (c : mat * bool).
Hypothesis HA : mspec N N A K.
Hypothesis HK : pdf N K.
Hypothesis HC : chol_of c A.

Lemma mspec_solves x b : (forall i, (i < N)%nat -> True) -> solves A x b -> fsolves N K x b.
Proof.
  intros _ H i Hi. destruct HA as (A1 & A2 & A3). rewrite <- (H i) by (rewrite A1; exact Hi). unfold mv. rewrite A2. apply rsum_ext. intros j Hj. rewrite A3 by assumption. reflexivity.
Qed.
Lemma csolve b f : vspec N b f -> rok (cho_solve c b) (fun x => vspec N x (ksol N K f)).
Proof.
  intros (B1 & B2). destruct HA as (A1 & A2 & A3).
  eapply rok_mono; [apply (cho_solve_ok c A b HC); congruence|]. intros x (X1 & X2). split; [congruence|].
  apply (ksol_unique N K (vat x) f HK). apply (fsolves_ext N K K (vat x) (vat b) f); auto.
  apply mspec_solves; auto.
Qed.
Lemma csolve_mat m B f : mspec N m B f -> rok (cho_solve_mat c B) (fun X => mspec N m X (fun i j => ksol N K (fun k => f k j) i)).
Proof.
  intros (B1 & B2 & B3). destruct HA as (A1 & A2 & A3).
  eapply rok_mono; [apply (cho_solve_mat_ok c A B HC); congruence|]. intros X (X1 & X2 & X3). split; [congruence|]. split; [congruence|].
  intros i j Hi Hj. apply (ksol_unique N K (fun i => mat_at X i j) (fun k => f k j) HK); [|exact Hi].
  apply (fsolves_ext N K K (fun i => mat_at X i j) (fun i => mat_at B i j)); auto.
  apply mspec_solves; auto. apply X3. congruence.
Qed.
Lemma lndet_ok : lndet_of c = ln (det N K).
Proof.
  destruct HC as (C1 & C2 & C3). destruct HA as (A1 & A2 & A3). rewrite A1 in *.
  destruct (logdet_chol _ _ _ C3) as (_ & E). rewrite (det_ext N K (mat_at A)) by (intros; symmetry; apply A3; assumption). rewrite E.
  unfold lndet_of, vsum. cbn [vlen vmap diagv]. rewrite C1, C2, Nat.min_id. f_equal. apply rsum_ext. intros i Hi. cbn [vat vmap diagv]. f_equal.
  unfold chol_read. destruct (snd c); reflexivity.
Qed.
Lemma einv_ok : rok (cho_solve_mat c (meye N)) (fun X => mspec N N X (kinv N K)).
Proof. eapply rok_mono; [apply (csolve_mat N _ _ (meye_spec N))|]. intros X HX. exact HX. Qed.

Lemma einsum1_ok D v T f g : vspec N v f -> tspec D N N T g -> rok (einsum_i_kij_j v T) (fun x => vspec D x (fun k => bform N (g k) f f)).
Proof.
  intros (V1 & V2) (T1 & T2 & T3 & T4). unfold einsum_i_kij_j. rewrite V1, T2, T3, Nat.eqb_refl. cbn [andb rok]. split; [exact T1|].
  intros k Hk. cbn [vat]. unfold bform. apply rsum_ext; intros i Hi. apply rsum_ext; intros j Hj. rewrite !V2, T4 by assumption. ring.
Qed.
Lemma einsum2_ok D M T f g : mspec N N M f -> tspec D N N T g -> rok (einsum_ijk_jk T M) (fun x => vspec D x (fun k => rsum N (fun i => rsum N (fun j => g k i j * f i j)))).
Proof.
  intros (M1 & M2 & M3) (T1 & T2 & T3 & T4). unfold einsum_ijk_jk. rewrite M1, M2, T2, T3, Nat.eqb_refl. cbn [andb rok]. split; [exact T1|].
  intros k Hk. cbn [vat]. apply rsum_ext; intros i Hi. apply rsum_ext; intros j Hj. rewrite M3, T4 by assumption. ring.
Qed.
Lemma vdotm_ok m u M f g : vspec N u f -> mspec N m M g -> rok (vdotm u M) (fun x => vspec m x (fun j => rsum N (fun i => f i * g i j))).
Proof.
  intros (U1 & U2) (M1 & M2 & M3). unfold vdotm. rewrite U1, M1, Nat.eqb_refl. cbn [rok]. split; [exact M2|].
  intros j Hj. cbn [vat]. apply rsum_ext; intros i Hi. rewrite U2, M3 by assumption. reflexivity.
Qed.
Lemma vouter_ok u v f g : vspec N u f -> vspec N v g -> mspec N N (vouter u v) (fun i j => f i * g j).
Proof. intros (U1 & U2) (V1 & V2). split; [exact U1|]. split; [exact V1|]. intros i j Hi Hj. cbn [vouter mat_at]. rewrite U2, V2 by assumption. reflexivity. Qed.

(** trace of K^-1 D *)
Definition trKD (D : nat -> nat -> R) : R := rsum N (fun i => rsum N (fun j => D i j * kinv N K i j)).
Lemma detK_ok D T g : tspec D N N T g -> rok (calc_detKmat c (Some T)) (fun r => fst r = ln (det N K) /\ exists x, snd r = Some x /\ vspec D x (fun k => trKD (g k))).
Proof.
  intros HT. unfold calc_detKmat. assert (ET : td T = D) by apply HT. rewrite ET.
  eapply rok_bind with (P := fun x => vspec D x (fun k => trKD (g k))).
  2:{ intros x Hx. cbn [rok fst snd]. split; [apply lndet_ok|]. eauto. }
  eapply rok_mono.
  - apply (rok_for_range (fun m x => vspec D x (fun k => if (k <? m)%nat then trKD (g k) else 0))).
    + lia.
    + split; [reflexivity|]. intros k Hk. reflexivity.
    + intros m x Hm (X1 & X2). eapply rok_bind; [eapply tget_ok; [exact HT|lia]|]. intros B HB. cbv beta in HB.
      eapply rok_bind; [apply (csolve_mat N _ _ HB)|]. intros S HS. cbv beta in HS. cbn [rok]. split; [exact X1|]. intros k Hk.
      cbn [vset vat]. unfold upd. destruct (Nat.eqb_spec k m) as [->|Ne].
      * destruct (Nat.ltb_spec m (Datatypes.S m)); [|lia]. unfold trace, vsum. destruct (diagv_spec N S _ HS) as (D1 & D2). rewrite D1.
        rewrite (rsum_ext N _ _ D2). unfold trKD. rewrite rsum_swap. apply rsum_ext. intros j Hj. rewrite (kinv_apply N K _ HK j Hj).
        apply rsum_ext. intros i Hi. rewrite (kinv_sym N K HK j i Hj Hi). ring.
      * rewrite X2 by exact Hk. destruct (Nat.ltb_spec k m), (Nat.ltb_spec k (Datatypes.S m)); try lia; reflexivity.
  - intros x Hx. eapply vspec_ext; [exact Hx|]. intros k Hk. cbv beta. destruct (Nat.ltb_spec k D); [reflexivity|lia].
Qed.
End C.

Definition basis (d : gpdata) (i : nat) : R := if (i <? d_n_eval d)%nat then 1 else 0.
(** the (scaled) data vector of the object *)
Definition ydata (d : gpdata) : vec :=
  match get_scl_eval_data d with Ok (fv, _, g, _) => make_data_vec fv g | Err _ => vconst 0 0 end.

Section G.
Variables (o : gpopt) (d : gpdata).
Hypothesis HR : gp_ready o d.
Notation N := (cN o d).
Notation X := (fst (get_scl_x_w_dist d)).
Notation v := (basis d).
Notation y := (vat (ydata d)).

Lemma basis_nz : nonzero N v.
Proof.
  exists 0%nat. assert (P := gr_n _ _ HR). unfold cN. split; [lia|]. unfold basis. destruct (Nat.ltb_spec 0 (d_n_eval d)); [lra|lia].
Qed.
Lemma aug_vand_ok : rok (calc_aug_vand o d X) (fun V => mspec N 1 V (fun i _ => v i)).
Proof.
  destruct (gr_pts _ _ HR) as [W1 W2 W3 W4 W5]. unfold calc_aug_vand. rewrite W3, Nat.eqb_refl. cbn [assert_]. rewrite bind_Ok.
  assert (HB : mspec (d_n_eval d) 1 (mconst (nr X) n_beta 1) (fun _ _ => 1)) by (rewrite W2; apply mconst_spec).
  destruct (o_use_grad o) eqn:U.
  - unfold calc_vand. cbn [fst snd].
    assert (HT : tspec (o_dim o) (d_n_eval d) 1 (tconst (o_dim o) (nr X) n_beta 0) (fun _ _ _ => 0)) by (rewrite W2; apply tconst_spec).
    eapply rok_bind with (P := fun T => tspec (o_dim o) (d_n_grad d) 1 T (fun _ _ _ => 0)).
    + destruct (d_bvec d) as [b|] eqn:Eb; cbn [rok].
      * eapply rok_mono; [apply (trows_ok _ _ _ _ _ b HT W4)|]. intros T HT'. rewrite W5. exact HT'.
      * rewrite W5. exact HT.
    + intros T (T1 & T2 & T3 & T4).
      eapply rok_mono; [apply (mvstack_ok (d_n_eval d) (d_n_grad d * o_dim o) 1 _ _ _ (fun _ _ => 0) HB)|].
      { split; [cbn [treshape2 nr]; rewrite T1, T2; lia|]. split; [exact T3|]. intros i j Hi Hj. cbn [treshape2 mat_at]. rewrite T2.
        apply T4; [|apply Nat.mod_upper_bound; lia|exact Hj].
        apply Nat.div_lt_upper_bound; lia. }
      intros V HV. eapply mspec_ext; [exact HV|]. intros i j Hi Hj. unfold basis. reflexivity.
  - cbn [calc_vand fst rok]. unfold cN. rewrite W5. cbn. rewrite Nat.add_0_r. eapply mspec_ext; [exact HB|]. intros i j Hi Hj. unfold basis. destruct (Nat.ltb_spec i (d_n_eval d)); [reflexivity|lia].
Qed.
Lemma data_ok : exists fv sf g sg, get_scl_eval_data d = Ok (fv, sf, g, sg) /\ make_data_vec fv g = ydata d /\ vlen (ydata d) = N /\ vlen fv = d_n_eval d.
Proof.
  destruct (rok_ex _ _ (get_scl_ok o d (gr_wf _ _ HR))) as ((((fv & sf) & g) & sg) & E & F1 & F2 & F3 & F4).
  exists fv, sf, g, sg. split; [exact E|]. assert (L1 : vlen fv = d_n_eval d) by apply F1.
  unfold ydata. rewrite E. split; [reflexivity|]. split; [|exact L1].
  unfold make_data_vec, cN. destruct (d_grad d) as [G0|] eqn:EG.
  - destruct F3 as (s' & -> & S1 & S2 & _). cbn [vcat vlen reshape_f]. congruence.
  - rewrite F3. rewrite L1. destruct (o_use_grad o) eqn:U; [destruct (wf_ug _ _ (gr_wf _ _ HR) U); congruence|].
    rewrite (wf_g0 _ _ (gr_wf _ _ HR) U). lia.
Qed.

Variables (A : mat) (K : nat -> nat -> R) (c : mat * bool).
Hypothesis HA : mspec N N A K.
Hypothesis HK : pdf N K.
Hypothesis HC : chol_of c A.
Notation w := (gw N v K).
Notation b := (gb N v y K).
Notation r := (gres v y b).
Notation s := (gs N v y K).
(** derivative of the coefficient for the derivative [D] of K *)
Definition gbD (D : nat -> nat -> R) : R :=
  rsum N (fun j => rsum N (fun l => w j / dotp N v w * D j l * (b * w l - ksol N K y l))).

Lemma ydata_spec : vspec N (ydata d) y.
Proof. destruct data_ok as (fv & sf & g & sg & _ & _ & E & _). split; [exact E|reflexivity]. Qed.

Lemma model_ok n Kg f : match Kg with Some T => tspec n N N T f | None => True end ->
  rok (calc_model_max_lkd o d c (ydata d) Kg) (fun m => let '(mval, mg, beta, bg) := m in
    vspec N mval (fun i => v i * b) /\ vspec 1 beta (fun _ => b) /\
    match Kg with
    | Some _ => exists M B, mg = Some M /\ bg = Some B /\ mspec N n M (fun i k => v i * gbD (f k)) /\ mspec 1 n B (fun _ k => gbD (f k))
    | None => mg = None /\ bg = None
    end).
Proof.
  intros HT. unfold calc_model_max_lkd.
  eapply rok_bind; [apply aug_vand_ok|]. intros V HV. cbv beta in HV.
  eapply rok_bind; [apply (csolve_mat N A K c HA HK HC 1 _ _ HV)|]. intros iV HiV. cbv beta in HiV.
  assert (Hw : mspec N 1 iV (fun i _ => w i)) by exact HiV. clear HiV.
  eapply rok_bind; [apply (mdot_ok 1 N 1 _ _ _ _ (mtrans_spec _ _ _ _ HV) Hw)|]. intros S (S1 & S2 & S3). cbv beta in S3.
  assert (P := gw_pos N v basis_nz K HK).
  assert (E0 : mat_at S 0 0 = dotp N v w) by (rewrite S3 by lia; reflexivity).
  assert (HB := mtrans_spec _ _ _ _ Hw).
  eapply rok_bind with (P := fun t1 => mspec 1 N t1 (fun _ j => w j / dotp N v w)).
  { unfold np_solve1. destruct HB as (B1 & B2 & B3). rewrite S1, S2, B1. cbn [Nat.eqb andb]. destruct (Req_EM_T (mat_at S 0 0) 0) as [C|_]; [exfalso; lra|].
    cbn [rok]. split; [reflexivity|]. split; [exact B2|]. intros i j Hi Hj. cbn [mat_at]. rewrite B3, E0 by lia. reflexivity. }
  intros t1 Ht1. cbv beta in Ht1.
  eapply rok_bind with (P := fun x => vspec 1 x (fun _ => b)).
  { eapply rok_mono; [apply (mdotv_ok _ _ _ _ _ _ Ht1 ydata_spec)|]. intros x Hx. eapply vspec_ext; [exact Hx|]. intros i Hi. cbv beta.
    unfold gb. rewrite (rsum_ext N _ (fun k => / dotp N v w * (w k * y k))) by (intros; unfold Rdiv; ring). rewrite rsum_scal. unfold dotp at 2. unfold Rdiv. ring. }
  intros beta Hb. cbv beta in Hb.
  eapply rok_bind with (P := fun x => vspec N x (fun i => v i * b)).
  { eapply rok_mono; [apply (mdotv_ok _ _ _ _ _ _ HV Hb)|]. intros x Hx. eapply vspec_ext; [exact Hx|]. intros i Hi. cbn [rsum]. ring. }
  intros mval Hm. cbv beta in Hm.
  destruct Kg as [T|]; [|cbn [rok]; auto].
  eapply rok_bind; [apply (csolve N A K c HA HK HC _ _ ydata_spec)|]. intros z Hz. cbv beta in Hz.
  eapply rok_bind; [apply (mdotv_ok _ _ _ _ _ _ Hw Hb)|]. intros u Hu. cbv beta in Hu.
  eapply rok_bind; [apply (vzip_ok Rminus _ _ _ _ _ Hu Hz)|]. intros t2 Ht2. cbv beta in Ht2.
  eapply rok_bind with (P := fun B => mspec 1 n B (fun _ k => gbD (f k))).
  { unfold einsum_ij_kjl_l. destruct Ht1 as (T1a & T1b & T1c), HT as (Ta & Tb & Tc & Td), Ht2 as (T2a & T2b). rewrite T1b, Tb, Tc, T2a, Nat.eqb_refl. cbn [andb rok].
    split; [exact T1a|]. split; [exact Ta|]. intros i k Hi Hk. cbn [mat_at]. unfold gbD. apply rsum_ext; intros j Hj. apply rsum_ext; intros l Hl.
    rewrite T1c, Td, T2b by assumption. cbn [rsum]. ring. }
  intros B HB'. cbv beta in HB'.
  eapply rok_bind with (P := fun M => mspec N n M (fun i k => v i * gbD (f k))).
  { eapply rok_mono; [apply (mdot_ok _ _ _ _ _ _ _ HV HB')|]. intros M HM. eapply mspec_ext; [exact HM|]. intros i j Hi Hj. cbn [rsum]. ring. }
  intros M HM. cbn [rok]. split; [exact Hm|]. split; [exact Hb|]. exists M, B. auto.
Qed.

Lemma vdot_q rv sv : vspec N rv r -> vspec N sv s -> rok (vdot rv sv) (fun q => q = gq N v y K).
Proof. intros H1 H2. eapply rok_mono; [apply (vdot_ok _ _ _ _ _ H1 H2)|]. intros q ->. reflexivity. Qed.

(** gradient slices *)
Definition gD (D : nat -> nat -> R) : R := 0.5 * (bform N D s s - trKD N K D).

Lemma lkd_noise_ok n Kg f adj : match Kg with Some T => tspec n N N T f | None => True end ->
  rok (calc_lkd_all_w_noise o d c Kg adj) (fun l =>
    l_ln l = Some (- (ln (det N K) + gq N v y K) / 2) /\ l_lndet l = Some (ln (det N K)) /\ l_varK l = None /\ l_varK_grad l = None /\
    (exists beta, l_beta l = Some beta /\ vspec 1 beta (fun _ => b)) /\
    match Kg with
    | None => l_ln_grad l = None
    | Some _ => (exists g, l_ln_grad l = Some g /\ vspec n g (fun k => gD (f k))) /\
        (exists B, l_beta_grad l = Some B /\ mspec 1 n B (fun _ k => gbD (f k))) /\
        (if adj then l_lndet_grad l = None else exists g, l_lndet_grad l = Some g /\ vspec n g (fun k => trKD N K (f k)))
    end).
Proof.
  intros HT. unfold calc_lkd_all_w_noise. destruct data_ok as (fv & sf & g & sg & -> & E1 & LN & LF). rewrite bind_Ok. rewrite E1.
  eapply rok_bind; [apply (model_ok n Kg f HT)|]. intros (((mval & mg) & beta) & bg) (Hm & Hb & Hg).
  eapply rok_bind with (P := fun x => vspec N x r).
  { eapply rok_mono; [apply (vzip_ok Rminus _ _ _ _ _ ydata_spec Hm)|]. intros x Hx. exact Hx. }
  intros rv Hr. cbv beta in Hr.
  eapply rok_bind with (P := fun x => vspec N x s).
  { eapply rok_mono; [apply (csolve N A K c HA HK HC _ _ Hr)|]. intros x Hx. exact Hx. }
  intros sv Hs. cbv beta in Hs. destruct adj.
  - eapply rok_bind; [apply (vdot_q _ _ Hr Hs)|]. intros q ->. cbv zeta. rewrite (lndet_ok N A K c HA HC).
    eapply rok_bind with (P := fun x => match Kg with None => x = None | Some _ => exists g, x = Some g /\ vspec n g (fun k => gD (f k)) end).
    { destruct Kg as [T|]; [|reflexivity]. rewrite LN.
      eapply rok_bind; [apply (einv_ok N A K c HA HK HC)|]. intros W HW. cbv beta in HW.
      eapply rok_bind; [apply (mzip_ok Rminus _ _ _ _ _ _ (vouter_ok N _ _ _ _ Hs Hs) HW)|]. intros B HB. cbv beta in HB.
      eapply rok_bind; [apply (einsum2_ok N n _ _ _ _ (mscal_spec _ _ _ _ 0.5 HB) HT)|]. intros gv Hgv. cbn [rok]. exists gv. split; [reflexivity|].
      eapply vspec_ext; [exact Hgv|]. intros k Hk. cbv beta. unfold gD, trKD, bform. rewrite <- rsum_minus, <- rsum_scal.
      apply rsum_ext; intros i Hi. rewrite <- rsum_minus, <- rsum_scal. apply rsum_ext; intros j Hj. lra. }
    intros go Hgo. cbn [rok l_ln l_lndet l_varK l_varK_grad l_beta l_ln_grad l_beta_grad l_lndet_grad].
    split; [reflexivity|]. split; [reflexivity|]. split; [reflexivity|]. split; [reflexivity|]. split; [eauto|].
    destruct Kg as [T|]; [|exact Hgo]. split; [exact Hgo|]. split; [|reflexivity]. destruct Hg as (M & B & _ & -> & _ & HB). eauto.
  - destruct Kg as [T|].
    + eapply rok_bind; [apply (detK_ok N A K c HA HK HC n T f HT)|]. intros (ld & dg) (D1 & dv & D2 & D3). cbn [fst snd] in D1, D2. subst ld dg.
      destruct Hg as (M & B & -> & -> & HM & HB).
      eapply rok_bind with (P := fun x => fst x = - (ln (det N K) + gq N v y K) / 2 /\ exists g, snd x = Some g /\ vspec n g (fun k => gD (f k))).
      { unfold calc_lkd_w_Kcov. eapply rok_bind; [apply (vdot_q _ _ Hr Hs)|]. intros q ->. cbv zeta.
        eapply rok_bind; [apply (einsum1_ok N n _ _ _ _ Hs HT)|]. intros e He. cbv beta in He.
        eapply rok_bind; [apply (vzip_ok Rplus _ _ _ _ _ (vmap_spec _ _ _ _ D3) (vmap_spec _ _ _ _ He))|]. intros a Ha. cbv beta in Ha.
        eapply rok_bind; [apply (vdotm_ok N n _ _ _ _ Hs HM)|]. intros b' Hb'. cbv beta in Hb'.
        eapply rok_bind; [apply (vzip_ok Rplus _ _ _ _ _ Ha Hb')|]. intros gv Hgv. cbn [rok fst snd]. split; [reflexivity|]. exists gv. split; [reflexivity|].
        eapply vspec_ext; [exact Hgv|]. intros k Hk. cbv beta. unfold gD.
        assert (O := gs_orth N v y basis_nz K HK).
        rewrite (rsum_ext N _ (fun i => gbD (f k) * (s i * v i))) by (intros; ring). rewrite rsum_scal. fold (dotp N s v). rewrite O. lra. }
      intros (l & go) (L1 & gv & L2 & L3). cbn [fst snd] in L1, L2. subst l go.
      cbn [rok l_ln l_lndet l_varK l_varK_grad l_beta l_ln_grad l_beta_grad l_lndet_grad].
      split; [reflexivity|]. split; [reflexivity|]. split; [reflexivity|]. split; [reflexivity|]. split; [eauto|]. split; [eauto|]. split; eauto.
    + cbn [calc_detKmat]. rewrite bind_Ok. unfold calc_lkd_w_Kcov. rewrite (lndet_ok N A K c HA HC).
      eapply rok_bind with (P := fun x => x = (- (ln (det N K) + gq N v y K) / 2, None)).
      { eapply rok_bind; [apply (vdot_q _ _ Hr Hs)|]. intros q ->. reflexivity. }
      intros x ->. cbn [rok l_ln l_lndet l_varK l_varK_grad l_beta l_ln_grad].
      split; [reflexivity|]. split; [reflexivity|]. split; [reflexivity|]. split; [reflexivity|]. split; [eauto|reflexivity].
Qed.

(** noise-free data *)
Definition nfval : vec := match get_scl_eval_data d with Ok (fv, _, _, _) => fv | Err _ => vconst 0 0 end.
Definition nvarK : R := Rmax varK_min (gq N v y K / INR N).
Definition nlkd (lo : lkopt) : R := - (INR N * ln nvarK + ln (det N K)) / 2 - fst (calc_lkd_varK_pnlt lo nvarK nfval).
Definition nvD (D : nat -> nat -> R) : R := - bform N D s s / INR N.
Definition nD (lo : lkopt) (D : nat -> nat -> R) : R :=
  - 0.5 * (INR N * (nvD D / nvarK) + trKD N K D) - snd (calc_lkd_varK_pnlt lo nvarK nfval) * nvD D.

Lemma INRN_pos : 0 < INR N.
Proof. apply lt_0_INR. assert (P := gr_n _ _ HR). unfold cN. lia. Qed.
Lemma nvarK_pos : 0 < nvarK.
Proof. unfold nvarK. eapply Rlt_le_trans; [|apply Rmax_l]. unfold varK_min. apply Rinv_0_lt_compat, pow_lt. lra. Qed.

Lemma lkd_wo_noise_ok n Kg f lo adj : match Kg with Some T => tspec n N N T f | None => True end ->
  rok (calc_lkd_all_wo_noise o d lo c Kg adj) (fun l =>
    l_ln l = Some (nlkd lo) /\ l_lndet l = Some (ln (det N K)) /\ l_varK l = Some nvarK /\
    (exists beta, l_beta l = Some beta /\ vspec 1 beta (fun _ => b)) /\
    match Kg with
    | None => l_ln_grad l = None
    | Some _ => (exists g, l_ln_grad l = Some g /\ vspec n g (fun k => nD lo (f k))) /\
        (if adj then l_beta_grad l = None /\ l_lndet_grad l = None /\ l_varK_grad l = None else (exists B, l_beta_grad l = Some B /\ mspec 1 n B (fun _ k => gbD (f k))) /\
           (exists g, l_lndet_grad l = Some g /\ vspec n g (fun k => trKD N K (f k))) /\
           (exists g, l_varK_grad l = Some g /\ vspec n g (fun k => nvD (f k))))
    end).
Proof.
  intros HT. unfold calc_lkd_all_wo_noise.
  destruct data_ok as (fv & sf & g & sg & E0 & E1 & LN & LF). assert (EF : nfval = fv) by (unfold nfval; rewrite E0; reflexivity).
  rewrite E0, bind_Ok, E1. assert (NP := INRN_pos). assert (VP := nvarK_pos). destruct adj.
  - eapply rok_bind; [apply (model_ok n None f I)|]. intros (((mval & mg) & beta) & bg) (Hm & Hb & -> & ->).
    unfold calc_lkd_w_Kern_mtd_adjoint.
    eapply rok_bind with (P := fun x => fst x = (nvarK, ln (det N K), nlkd lo) /\ match Kg with None => snd x = None | Some _ => exists g, snd x = Some g /\ vspec n g (fun k => nD lo (f k)) end).
    { eapply rok_bind with (P := fun x => vspec N x r).
      { eapply rok_mono; [apply (vzip_ok Rminus _ _ _ _ _ ydata_spec Hm)|]. intros x Hx. exact Hx. }
      intros rv Hr. cbv beta in Hr.
      eapply rok_bind with (P := fun x => vspec N x s).
      { eapply rok_mono; [apply (csolve N A K c HA HK HC _ _ Hr)|]. intros x Hx. exact Hx. }
      intros sv Hs. cbv beta in Hs. cbv zeta.
      eapply rok_bind; [apply (vdot_q _ _ Hr Hs)|]. intros q ->. rewrite LN. fold nvarK. rewrite <- EF.
      destruct (calc_lkd_varK_pnlt lo nvarK nfval) as (pv & pg) eqn:EP. rewrite (lndet_ok N A K c HA HC).
      assert (EL : - (INR N * ln nvarK + ln (det N K)) / 2 - pv = nlkd lo) by (unfold nlkd; rewrite EP; reflexivity).
      rewrite EL. destruct Kg as [T|]; [|cbn [rok fst snd]; auto].
      eapply rok_bind; [apply (einv_ok N A K c HA HK HC)|]. intros W HW. cbv beta in HW.
      assert (HO := vouter_ok N _ _ _ _ Hs (vmap_spec _ _ _ (fun x => - x / INR N) Hs)).
      assert (HO' : mspec N N (mmap Ropp (vouter sv (vmap (fun x => - x / INR N) sv))) (fun i j => - (s i * (- s j / INR N)))).
      { destruct HO as (O1 & O2 & O3). split; [exact O1|]. split; [exact O2|]. intros i j Hi Hj. cbn [mmap mat_at]. cbn [mat_at] in O3. rewrite O3 by assumption. reflexivity. }
      eapply rok_bind; [apply (mzip_ok Rminus _ _ _ _ _ _ (mscal_spec _ _ _ _ (pg + INR N / (2 * nvarK)) HO') (mscal_spec _ _ _ _ 0.5 HW))|]. intros B HB. cbv beta in HB.
      eapply rok_bind; [apply (einsum2_ok N n _ _ _ _ HB HT)|]. intros gv Hgv. cbn [rok fst snd]. split; [reflexivity|]. exists gv. split; [reflexivity|].
      eapply vspec_ext; [exact Hgv|]. intros k Hk. cbv beta. unfold nD, nvD. rewrite EP. cbn [snd].
      transitivity ((pg + INR N / (2 * nvarK)) * / INR N * bform N (f k) s s - 0.5 * trKD N K (f k)).
      - unfold trKD, bform. rewrite <- !rsum_scal, <- rsum_minus. apply rsum_ext; intros i Hi. rewrite <- !rsum_scal, <- rsum_minus. apply rsum_ext; intros j Hj.
        unfold Rdiv. ring.
      - set (q := bform N (f k) s s). set (t := trKD N K (f k)). assert (V0 : nvarK <> 0) by lra. assert (N0 : INR N <> 0) by lra. revert V0 N0. generalize nvarK, (INR N), q, t. clear. intros V n q t V0 N0. assert (H : (0.5 = / 2)%R) by lra. rewrite H. replace (-0.5) with (- / 2) by lra. field. split; assumption. }
    intros (((vk & ld) & l) & go) (L1 & L2). cbn [fst snd] in L1, L2. inversion L1; subst vk ld l.
    cbn [rok l_ln l_lndet l_varK l_beta l_ln_grad]. split; [reflexivity|]. split; [reflexivity|]. split; [reflexivity|]. split; [eauto|].
    destruct Kg as [T|]; [|exact L2]. split; [exact L2|auto].
  - eapply rok_bind; [apply (model_ok n Kg f HT)|]. intros (((mval & mg) & beta) & bg) (Hm & Hb & Hg).
    eapply rok_bind with (P := fun x => fst x = nvarK /\ match Kg with None => snd x = None | Some _ => exists g, snd x = Some g /\ vspec n g (fun k => nvD (f k)) end).
    { unfold calc_lkd_opt_varK. eapply rok_bind with (P := fun x => vspec N x r).
      { eapply rok_mono; [apply (vzip_ok Rminus _ _ _ _ _ ydata_spec Hm)|]. intros x Hx. exact Hx. }
      intros rv Hr. cbv beta in Hr.
      eapply rok_bind with (P := fun x => vspec N x s).
      { eapply rok_mono; [apply (csolve N A K c HA HK HC _ _ Hr)|]. intros x Hx. exact Hx. }
      intros sv Hs. cbv beta in Hs. cbv zeta.
      eapply rok_bind; [apply (vdot_q _ _ Hr Hs)|]. intros q ->. rewrite LN. fold nvarK.
      destruct Kg as [T|]; [|destruct Hg as (-> & _); cbn [rok fst snd]; auto].
      destruct Hg as (M & B & -> & -> & HM & HB).
      eapply rok_bind; [apply (vdotm_ok N n _ _ _ _ (vmap_spec _ _ _ (Rmult (-2)) Hs) HM)|]. intros a Ha. cbv beta in Ha.
      eapply rok_bind; [apply (einsum1_ok N n _ _ _ _ Hs HT)|]. intros e He. cbv beta in He.
      eapply rok_bind; [apply (vzip_ok Rminus _ _ _ _ _ Ha He)|]. intros gv Hgv. cbn [rok fst snd]. split; [reflexivity|]. eexists. split; [reflexivity|].
      eapply vspec_ext; [apply (vmap_spec _ _ _ _ Hgv)|]. intros k Hk. cbv beta. unfold nvD.
      assert (O := gs_orth N v y basis_nz K HK).
      rewrite (rsum_ext N _ (fun i => (-2 * gbD (f k)) * (s i * v i))) by (intros; ring). rewrite rsum_scal. fold (dotp N s v). rewrite O. f_equal. ring. }
    intros (vk & vg) (V1 & V2). cbn [fst snd] in V1, V2. subst vk. rewrite <- EF.
    destruct (calc_lkd_varK_pnlt lo nvarK nfval) as (pv & pg) eqn:EP.
    assert (EL : - (INR N * ln nvarK + ln (det N K)) / 2 - pv = nlkd lo) by (unfold nlkd; rewrite EP; reflexivity).
    destruct Kg as [T|].
    + eapply rok_bind; [apply (detK_ok N A K c HA HK HC n T f HT)|]. intros (ld & dg) (D1 & dv & D2 & D3). cbn [fst snd] in D1, D2. subst ld dg.
      destruct Hg as (M & B & -> & -> & HM & HB). destruct V2 as (gv & -> & Hgv). rewrite LN.
      eapply rok_bind with (P := fun x => fst x = nlkd lo /\ exists g, snd x = Some g /\ vspec n g (fun k => nD lo (f k))).
      { unfold calc_lkd_w_Kern_mtd_direct. rewrite EL.
        eapply rok_bind; [apply (vzip_ok Rplus _ _ _ _ _ (vmap_spec _ _ _ (fun x => INR N * (x / nvarK)) Hgv) D3)|]. intros a Ha. cbv beta in Ha.
        eapply rok_bind; [apply (vzip_ok Rminus _ _ _ _ _ (vmap_spec _ _ _ (Rmult (- 0.5)) Ha) (vmap_spec _ _ _ (Rmult pg) Hgv))|]. intros z Hz. cbn [rok fst snd]. split; [reflexivity|].
        exists z. split; [reflexivity|]. eapply vspec_ext; [exact Hz|]. intros k Hk. cbv beta. unfold nD. rewrite EP. cbn [snd]. reflexivity. }
      intros (l & go) (L1 & L2). cbn [fst snd] in L1, L2. subst l.
      cbn [rok l_ln l_lndet l_varK l_beta l_ln_grad l_beta_grad l_lndet_grad l_varK_grad].
      split; [reflexivity|]. split; [reflexivity|]. split; [reflexivity|]. split; [eauto|]. split; [exact L2|]. split; [eauto|]. split; eauto.
    + cbn [calc_detKmat]. rewrite bind_Ok. rewrite (lndet_ok N A K c HA HC). cbn [snd] in V2. subst vg. rewrite LN.
      unfold calc_lkd_w_Kern_mtd_direct. cbv zeta. rewrite bind_Ok. rewrite EL. cbn [rok l_ln l_lndet l_varK l_beta l_ln_grad].
      split; [reflexivity|]. split; [reflexivity|]. split; [reflexivity|]. split; [eauto|reflexivity].
Qed.
End G.
