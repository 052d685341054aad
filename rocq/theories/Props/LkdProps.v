(** * Properties C23, C24 and C25: the marginal log-likelihood, the closed-form hyperparameters and the
    gradient.  Vocabulary: [Spec/LkdSpec.v] (Gaussian log-likelihood of the observations around a constant
    mean), [Spec/DataSpec.v] (what each row of the data is), [Spec/HpSpec.v], [Spec/GpSpec.v]. *)
From Coq Require Import Reals List Arith Bool Lia Lra Psatz.
From Coquelicot Require Import Coquelicot.
From Verif.Base Require Import NpLite NpFacts Deriv.
From Verif.Spec Require Import KernelSpec LinAlgSpec GpSpec HpSpec DataSpec LkdSpec.
From Verif.Model Require Import KernelSqExp KernelMatern KernelRatQuad KernelDispatch CommonFun WellCond Rescaling GpState Chol Cov HpInfo HpGrad MeanFun Lkd.
From Verif.Proofs Require Import KernTac LinAlg CholCorrect Det CovStruct StateFacts NoiseFacts NuggetCond NuggetMain HpInfoFacts HpGradFacts HpGradMain HpGradFree
  LinDeriv LkdCore LkdFacts LkdMain.
From Verif.Props Require Import CondProps DataProps HpGradProps.
Import ListNotations.
Local Open Scope R_scope.

(** legitimate inputs of a likelihood evaluation *)
Definition lkd_input (o : gpopt) (d : gpdata) (hp : hpv) : Prop :=
  opts_ok o /\ data_set o d /\ (o_well o = Wprecon -> o_use_grad o = true) /\
  hyper_ok o hp /\ noise_cfg o d hp /\ noise_nn hp /\
  (d_noisy d = true -> exists vK, hp_varK hp = Some vK /\ 0 < vK).
(** the matrix the likelihood is that of: the covariance matrix, or without noise the regularised kernel
    matrix (then varK is a factor that has a closed form) *)
Definition lkd_matrix (o : gpopt) (d : gpdata) (condf : mat -> R) (cnd : bool) (hp : hpv) : res mat :=
  if d_noisy d then Kcov_of o d condf true cnd hp else Kern_of o d condf true cnd hp.
(** observed values (scaled) minus a constant *)
Definition gp_residual (o : gpopt) (d : gpdata) (b : R) : nat -> R :=
  residual (gp_labels o d) (scaled_value (out_shift d) (out_scale d) (in_scale d) (d_fval d) (d_grad d)) b.

Lemma labels_nth n dm g r l : nth_error (labels n dm g) r = Some l -> if (r <? n)%nat then l = LVal r else exists i q, l = LDer i q.
Proof.
  unfold labels. intros H. destruct (Nat.ltb_spec r n) as [C|C].
  - rewrite nth_error_app1 in H by (rewrite map_length, seq_length; exact C). rewrite nth_error_map in H.
    rewrite nth_error_nth' with (d := 0%nat) in H by (rewrite seq_length; exact C). rewrite seq_nth in H by exact C. injection H as <-. reflexivity.
  - rewrite nth_error_app2 in H by (rewrite map_length, seq_length; exact C). apply nth_error_In in H. apply in_flat_map in H. destruct H as (i & _ & Hi).
    apply in_map_iff in Hi. destruct Hi as (q & <- & _). eauto.
Qed.

Section L.
Variables (o : gpopt) (d : gpdata) (hp : hpv).
Hypothesis HI : lkd_input o d hp.
Notation N := (cN o d).
Lemma li_ready : gp_ready o d. Proof. destruct HI as (H1 & H2 & _). apply ready; assumption. Qed.
Lemma li_N : d_n_data d = N. Proof. apply (wf_n _ _ (gr_wf _ _ li_ready)). Qed.
Lemma li_noise : noise_arg_ok o d hp None. Proof. destruct HI as (_ & _ & _ & _ & H5 & H6 & _). split; assumption. Qed.
Lemma li_Rt : snd (get_scl_x_w_dist d) = d_Rt d.
Proof. destruct HI as (_ & (x & fv & sf & g & sg & b & _ & _ & _ & H) & _). eapply set_data_Rt; exact H. Qed.
Lemma li_res b r : (r < N)%nat -> gp_residual o d b r = gres (basis d) (vat (ydata d)) b r.
Proof.
  intros Hr. destruct HI as (H1 & H2 & H3 & H4 & H5 & _).
  destruct (C20_rows_are_the_same_observation o d hp H1 H2 H4 H5) as (LL & K & fv & sf & g & sg & nv & _ & Eg & _ & _ & _ & _ & HL).
  rewrite li_N in LL. unfold gp_residual, residual, gres, basis, ydata. rewrite Eg.
  destruct (nth_error (gp_labels o d) r) as [l|] eqn:El; [|apply nth_error_None in El; lia].
  destruct (HL r l El) as (_ & -> & _). unfold gp_labels in El. apply labels_nth in El. destruct (r <? d_n_eval d)%nat.
  - subst l. ring.
  - destruct El as (i & q & ->). ring.
Qed.
Lemma li_eta : exists e, d_etaK d = Some e /\ 0 < e. Proof. apply (etaK_pos o d li_ready). Qed.
End L.

Lemma ws_iff N A K r f q : mspec N N A K -> pdf N K -> (forall i, (i < N)%nat -> r i = f i) ->
  (weighted_square A r q <-> q = dotp N f (ksol N K f)).
Proof.
  intros HA HK E. destruct HA as (A1 & A2 & A3).
  assert (S : forall x, solves A x r <-> fsolves N K x f).
  { intros x. unfold solves, fsolves, mv. rewrite A1, A2. split; intros H i Hi; specialize (H i Hi); rewrite ?E in * by exact Hi; rewrite <- H; apply rsum_ext; intros j Hj; rewrite A3 by assumption; reflexivity. }
  unfold weighted_square. rewrite A1. split.
  - intros (x & Hx & ->). apply S in Hx. apply dotp_ext; [exact E|]. intros i Hi. apply (ksol_unique N K x f HK Hx i Hi).
  - intros ->. exists (ksol N K f). split; [apply S, ksol_ok, HK|]. symmetry. apply dotp_ext; [exact E|reflexivity].
Qed.
Lemma ll_iff N A K r f l : mspec N N A K -> pdf N K -> (forall i, (i < N)%nat -> r i = f i) ->
  (log_likelihood A r l <-> l = - (ln (det N K) + dotp N f (ksol N K f)) / 2).
Proof.
  intros HA HK E. unfold log_likelihood. assert (A1 : nr A = N) by apply HA. rewrite A1.
  assert (D : det N (mat_at A) = det N K) by (apply det_ext; intros; apply HA; assumption). rewrite D. split.
  - intros (q & Hq & ->). apply (ws_iff N A K r f q HA HK E) in Hq. rewrite Hq. reflexivity.
  - intros ->. eexists. split; [apply (ws_iff N A K r f _ HA HK E); reflexivity|reflexivity].
Qed.

(** what a successful evaluation returns, with the matrix [K] it is about *)
Lemma lkd_call la o d lo ht hk hv hf hg info hp cnd cg adj l :
  lkd_input o d hp -> set_hp_optz_info o d lo ht hk hv hf hg = Ok info ->
  (cg = true -> ht = true -> theta_grad_supported o d hp) -> (cg = true -> d_noisy d = false -> hv = false /\ hf = false /\ hg = false) ->
  calc_lkd_all la o d lo info hp cnd cg adj = Ok (l, true) ->
  exists A, lkd_matrix o d (la_cond la) cnd hp = Ok A /\ nr A = cN o d /\ mspec (cN o d) (cN o d) A (mat_at A) /\ pdf (cN o d) (mat_at A) /\
    exists T, if d_noisy d then noisy_post o d ht hk hv hf hg (mat_at A) cg adj T l else free_post o d lo ht hk hv hf hg (mat_at A) cg adj T l.
Proof.
  intros HI Hi HS HF H. assert (RD := li_ready o d hp HI). destruct (li_eta o d hp HI) as (e & He & _). assert (NA := li_noise o d hp HI).
  destruct HI as (H1 & H2 & H3 & H4 & H5 & H6 & H7). assert (HRt := li_Rt o d hp ltac:(unfold lkd_input; auto 8)).
  unfold lkd_matrix. destruct (d_noisy d) eqn:Hz.
  - destruct (H7 eq_refl) as (vK & Hv & Hp). assert (EV : eff_varK hp None false = Some vK) by (unfold eff_varK; rewrite Hv; reflexivity).
    destruct (rok_ex _ _ (kcov_any o d (la_cond la) cnd hp None vK RD H3 H4 NA EV Hp)) as (out & EO & LO).
    assert (LO' := LO). destruct LO' as (_ & N1 & N2 & PD & _). assert (KC : mspec (cN o d) (cN o d) (k_Kcov out) (mat_at (k_Kcov out))) by (split; [exact N1|split; [exact N2|reflexivity]]).
    destruct (noisy_lkd la o d lo ht hk hv hf hg info e RD HRt Hi He hp vK cnd cg out _ Hz H4 Hv HS EO LO KC) as (T & _ & Q). destruct (Q adj) as (Q1 & _).
    exists (k_Kcov out). split; [unfold Kcov_of; rewrite EO; reflexivity|]. split; [exact N1|]. split; [exact KC|]. split; [apply (pd_pdf _ _ _ KC PD)|]. exists T. apply Q1, H.
  - destruct (rok_ex _ _ (kcov_any o d (la_cond la) cnd hp (Some 1) 1 RD H3 H4 NA eq_refl Rlt_0_1)) as (out & EO & LO).
    assert (LO' := LO). destruct LO' as (_ & N1 & N2 & PD & _). assert (KC : mspec (cN o d) (cN o d) (k_Kcov out) (mat_at (k_Kcov out))) by (split; [exact N1|split; [exact N2|reflexivity]]).
    destruct (free_lkd la o d lo ht hk hv hf hg info e RD HRt Hi He hp cnd cg out _ Hz (fun c => HF c eq_refl) H4 HS EO LO KC) as (T & _ & Q). destruct (Q adj) as (Q1 & _).
    exists (k_Kcov out). split; [unfold Kern_of, calc_Kern_w_chofac; rewrite Hz; cbn [negb assert_]; rewrite bind_Ok, EO; reflexivity|]. split; [exact N1|]. split; [exact KC|]. split; [apply (pd_pdf _ _ _ KC PD)|]. exists T. apply Q1, H.
Qed.

(** ** C23.  The returned mean coefficient is the unique minimiser of the weighted sum of squares of the
    residuals. *)
Theorem C23_generalised_least_squares :
  forall (la : npla) (o : gpopt) (d : gpdata) (lo : lkopt) (ht hk hv hf hg : bool) (info : hpinfo) (hp : hpv) (cnd adj : bool) (l : lkdinfo),
  lkd_input o d hp -> set_hp_optz_info o d lo ht hk hv hf hg = Ok info ->
  calc_lkd_all la o d lo info hp cnd false adj = Ok (l, true) ->
  exists A beta, lkd_matrix o d (la_cond la) cnd hp = Ok A /\ l_beta l = Some beta /\ vlen beta = 1%nat /\
    (forall b, exists q, weighted_square A (gp_residual o d b) q) /\
    forall b q q0, weighted_square A (gp_residual o d b) q -> weighted_square A (gp_residual o d (vat beta 0)) q0 ->
      q0 <= q /\ (q = q0 -> b = vat beta 0%nat).
Proof.
  intros la o d lo ht hk hv hf hg info hp cnd adj l HI Hi H.
  destruct (lkd_call _ _ _ _ _ _ _ _ _ _ _ _ false _ _ HI Hi ltac:(discriminate) ltac:(discriminate) H) as (A & EA & NA & KC & HK & T & HP).
  assert (HB : exists beta, l_beta l = Some beta /\ vspec 1 beta (fun _ => gb (cN o d) (basis d) (vat (ydata d)) (mat_at A))).
  { destruct (d_noisy d); [destruct HP as (_ & _ & _ & _ & HB & _)|destruct HP as (_ & _ & _ & HB & _)]; exact HB. }
  destruct HB as (beta & EB & B1 & B2). exists A, beta. split; [exact EA|]. split; [exact EB|]. split; [exact B1|].
  assert (W := fun b q => ws_iff _ A _ (gp_residual o d b) _ q KC HK (fun i Hr => li_res o d hp HI b i Hr)).
  split; [intros b; eexists; apply W; reflexivity|].
  intros b q q0 Hq Hq0. apply W in Hq, Hq0. rewrite B2 in Hq0 by lia. fold (gs (cN o d) (basis d) (vat (ydata d)) (mat_at A)) in Hq0. fold (gq (cN o d) (basis d) (vat (ydata d)) (mat_at A)) in Hq0.
  rewrite (gls_min _ _ _ (basis_nz o d (li_ready o d hp HI)) _ b HK) in Hq. rewrite B2 by lia.
  assert (P := gw_pos _ _ (basis_nz o d (li_ready o d hp HI)) _ HK). set (z := gb (cN o d) (basis d) (vat (ydata d)) (mat_at A)) in *.
  set (p := dotp (cN o d) (basis d) (gw (cN o d) (basis d) (mat_at A))) in *. rewrite Hq, Hq0. assert (S := pow2_ge_0 (b - z)). assert (SP := Rmult_le_pos _ _ S (Rlt_le _ _ P)). split; [lra|].
  intros Z. assert (Z' : (b - z) ^ 2 * p = 0) by lra. apply Rmult_integral in Z'. destruct Z' as [Z'|Z']; [|lra]. simpl in Z'. rewrite Rmult_1_r in Z'. apply Rmult_integral in Z'. lra.
Qed.
Print Assumptions C23_generalised_least_squares.

(** without the condition number, an evaluation always succeeds *)
Theorem C23_evaluation_succeeds :
  forall (la : npla) (o : gpopt) (d : gpdata) (lo : lkopt) (ht hk hv hf hg : bool) (info : hpinfo) (hp : hpv) (adj : bool),
  lkd_input o d hp -> set_hp_optz_info o d lo ht hk hv hf hg = Ok info ->
  exists l, calc_lkd_all la o d lo info hp false false adj = Ok (l, true).
Proof.
  intros la o d lo ht hk hv hf hg info hp adj HI Hi. assert (RD := li_ready o d hp HI). destruct (li_eta o d hp HI) as (e & He & _). assert (NA := li_noise o d hp HI).
  assert (HRt := li_Rt o d hp HI). destruct HI as (H1 & H2 & H3 & H4 & H5 & H6 & H7).
  destruct (d_noisy d) eqn:Hz.
  - destruct (H7 eq_refl) as (vK & Hv & Hp). assert (EV : eff_varK hp None false = Some vK) by (unfold eff_varK; rewrite Hv; reflexivity).
    destruct (rok_ex _ _ (kcov_any o d (la_cond la) false hp None vK RD H3 H4 NA EV Hp)) as (out & EO & LO).
    assert (LO' := LO). destruct LO' as (_ & N1 & N2 & PD & _). assert (KC : mspec (cN o d) (cN o d) (k_Kcov out) (mat_at (k_Kcov out))) by (split; [exact N1|split; [exact N2|reflexivity]]).
    destruct (noisy_lkd la o d lo ht hk hv hf hg info e RD HRt Hi He hp vK false false out _ Hz H4 Hv ltac:(discriminate) EO LO KC) as (T & _ & Q). destruct (Q adj) as (_ & Q2). exact (Q2 eq_refl).
  - destruct (rok_ex _ _ (kcov_any o d (la_cond la) false hp (Some 1) 1 RD H3 H4 NA eq_refl Rlt_0_1)) as (out & EO & LO).
    assert (LO' := LO). destruct LO' as (_ & N1 & N2 & PD & _). assert (KC : mspec (cN o d) (cN o d) (k_Kcov out) (mat_at (k_Kcov out))) by (split; [exact N1|split; [exact N2|reflexivity]]).
    destruct (free_lkd la o d lo ht hk hv hf hg info e RD HRt Hi He hp false false out _ Hz ltac:(discriminate) H4 ltac:(discriminate) EO LO KC) as (T & _ & Q). destruct (Q adj) as (_ & Q2). exact (Q2 eq_refl).
Qed.
Print Assumptions C23_evaluation_succeeds.

(** ** C24.  Without noise: the returned varK maximises the likelihood over all varK >= 1e-32 (jointly with
    the mean), it is the unique maximiser over all varK > 0 when it is above that floor, and the returned
    likelihood value is the maximum (up to the constant N/2), when the penalty is off. *)
Lemma ln_bound u : 0 < u -> 1 - / u <= ln u /\ (u <> 1 -> 1 - / u < ln u).
Proof.
  intros Hu. assert (Hi := Rinv_0_lt_compat u Hu). assert (E : ln u = - ln (/ u)) by (rewrite ln_Rinv by exact Hu; ring).
  assert (G : ln (/ u) <> 0 -> 1 + ln (/ u) < / u) by (intros C; rewrite <- (exp_ln (/ u)) at 2 by exact Hi; apply exp_ineq1; exact C).
  assert (Z : ln (/ u) = 0 -> u = 1) by (intros C; rewrite <- ln_1 in C; apply ln_inv in C; [|exact Hi|lra]; rewrite <- (Rinv_involutive u) by lra; rewrite C; apply Rinv_1).
  destruct (Req_EM_T (ln (/ u)) 0) as [C|C].
  - rewrite E, C. assert (U := Z C). split; [rewrite U, Rinv_1; lra|congruence].
  - specialize (G C). split; intros; lra.
Qed.
Lemma varK_max (n : nat) (q m s : R) : (0 < n)%nat -> 0 <= q -> 0 < m -> 0 < s ->
  let V := Rmax m (q / INR n) in
  (m <= s \/ m < V -> INR n * ln V + q / V <= INR n * ln s + q / s) /\
  (m < V -> INR n * ln V + q / V = INR n * ln s + q / s -> s = V).
Proof.
  intros Hn Hq Hm Hs V. assert (NP := lt_0_INR n Hn). assert (VP : 0 < V) by (unfold V; eapply Rlt_le_trans; [exact Hm|apply Rmax_l]).
  assert (QV : q / V <= INR n).
  { apply Rmult_le_reg_r with (r := V); [exact VP|]. unfold Rdiv. rewrite Rmult_assoc, Rinv_l, Rmult_1_r by lra.
    assert (Z : q / INR n <= V) by apply Rmax_r. apply Rmult_le_compat_r with (r := INR n) in Z; [|lra]. unfold Rdiv in Z. rewrite Rmult_assoc, Rinv_l in Z by lra. lra. }
  assert (QE : m < V -> q / V = INR n).
  { intros C. assert (Z : V = q / INR n) by (unfold V in *; unfold Rmax in *; destruct (Rle_dec m (q / INR n)); lra).
    rewrite Z. rewrite Z in VP. assert (q <> 0) by (intros ->; unfold Rdiv in VP; lra). field. split; lra. }
  set (u := s / V). assert (Hu : 0 < u) by (apply Rdiv_lt_0_compat; assumption).
  destruct (ln_bound u Hu) as (B1 & B2). assert (LU : ln u = ln s - ln V) by (unfold u; apply ln_div; assumption).
  assert (IU : / u = V / s) by (unfold u; field; lra). assert (QS : q / s = q / V * / u) by (rewrite IU; field; lra).
  assert (IP := Rinv_0_lt_compat u Hu).
  rewrite QS. split.
  - intros C. assert (G : q / V * (1 - / u) <= INR n * (1 - / u)).
    { destruct C as [C|C].
      - destruct (Rle_dec V s) as [C'|C'].
        + assert (/ u <= 1). { rewrite IU. apply Rmult_le_reg_r with (r := s); [exact Hs|]. unfold Rdiv. rewrite Rmult_assoc, Rinv_l by lra. lra. }
          apply Rmult_le_compat_r; lra.
        + assert (m < V) by lra. rewrite (QE H). lra.
      - rewrite (QE C). lra. }
    assert (F : INR n * (1 - / u) <= INR n * ln u) by (apply Rmult_le_compat_l; lra). rewrite LU in F. lra.
  - intros C E. rewrite (QE C) in E. destruct (Req_EM_T u 1) as [U|U].
    + unfold u in U. apply Rmult_eq_compat_r with (r := V) in U. unfold Rdiv in U. rewrite Rmult_assoc, Rinv_l in U by lra. lra.
    + specialize (B2 U). assert (F : INR n * (1 - / u) < INR n * ln u) by (apply Rmult_lt_compat_l; lra). rewrite LU in F. lra.
Qed.
Lemma pdf_scal N K c : 0 < c -> pdf N K -> pdf N (fun i j => c * K i j).
Proof.
  intros Hc (S & P). split; [intros i j Hi Hj; rewrite (S i j Hi Hj); reflexivity|]. intros v Hv. assert (Z := P v Hv).
  replace (bform N (fun i j => c * K i j) v v) with (c * bform N K v v); [apply Rmult_lt_0_compat; assumption|].
  unfold bform. rewrite <- rsum_scal. apply rsum_ext; intros i Hi. rewrite <- rsum_scal. apply rsum_ext; intros j Hj. ring.
Qed.
Lemma quad_scal N K c f : 0 < c -> pdf N K -> dotp N f (ksol N (fun i j => c * K i j) f) = dotp N f (ksol N K f) / c.
Proof.
  intros Hc HK. assert (S : forall i, (i < N)%nat -> ksol N K f i / c = ksol N (fun i j => c * K i j) f i).
  { apply (ksol_unique N (fun i j => c * K i j) (fun i => ksol N K f i / c) f (pdf_scal N K c Hc HK)). intros i Hi. rewrite <- (ksol_ok N K f HK i Hi).
    apply rsum_ext; intros j Hj. field. lra. }
  unfold dotp. unfold Rdiv. rewrite Rmult_comm, <- rsum_scal. apply rsum_ext; intros i Hi. rewrite <- (S i Hi). field. lra.
Qed.
Lemma lndet_scal N K c : 0 < c -> pdf N K -> ln (det N (fun i j => c * K i j)) = INR N * ln c + ln (det N K).
Proof.
  intros Hc HK. rewrite det_scal. assert (D : 0 < det N K).
  { destruct (cho_factor_pd (mkmat N N K) true (pdf_pd N K HK)) as (c0 & E0 & _ & C0). destruct C0 as (C1 & C2 & C3). destruct (logdet_chol _ _ _ C3) as (P & _). exact P. }
  rewrite ln_mult by (auto; apply pow_lt; exact Hc). f_equal. rewrite <- Rpower_pow by exact Hc. unfold Rpower. apply ln_exp.
Qed.

Theorem C24_closed_form_variance :
  forall (la : npla) (o : gpopt) (d : gpdata) (lo : lkopt) (ht hk hv hf hg : bool) (info : hpinfo) (hp : hpv) (cnd adj : bool) (l : lkdinfo),
  lkd_input o d hp -> d_noisy d = false -> set_hp_optz_info o d lo ht hk hv hf hg = Ok info ->
  calc_lkd_all la o d lo info hp cnd false adj = Ok (l, true) ->
  exists A beta vK L0, lkd_matrix o d (la_cond la) cnd hp = Ok A /\ l_beta l = Some beta /\ l_varK l = Some vK /\ / 10 ^ 32 <= vK /\
    log_likelihood (times vK A) (gp_residual o d (vat beta 0)) L0 /\
    (forall s b, 0 < s -> exists L, log_likelihood (times s A) (gp_residual o d b) L) /\
    (forall s b L, / 10 ^ 32 <= s -> log_likelihood (times s A) (gp_residual o d b) L -> L <= L0) /\
    (/ 10 ^ 32 < vK -> forall s b L, 0 < s -> log_likelihood (times s A) (gp_residual o d b) L -> L <= L0 /\ (L = L0 -> s = vK /\ b = vat beta 0%nat)) /\
    (/ 10 ^ 32 < vK -> lk_pnlt lo = false -> l_ln l = Some (L0 + INR (d_n_data d) / 2)).
Proof.
  intros la o d lo ht hk hv hf hg info hp cnd adj l HI Hz Hi H.
  destruct (lkd_call _ _ _ _ _ _ _ _ _ _ _ _ false _ _ HI Hi ltac:(discriminate) ltac:(discriminate) H) as (A & EA & NA & KC & HK & T & HP).
  rewrite Hz in HP. destruct HP as (P1 & _ & P2 & (beta & EB & B1 & B2) & _). assert (RD := li_ready o d hp HI). assert (BN := basis_nz o d RD).
  set (N := cN o d) in *. set (K := mat_at A) in *. set (v := basis d) in *. set (y := vat (ydata d)) in *.
  assert (NP : (0 < N)%nat) by (assert (Q := gr_n _ _ RD); unfold N, cN; lia).
  assert (MP : 0 < / 10 ^ 32) by (apply Rinv_0_lt_compat, pow_lt; lra).
  set (vK := nvarK o d K) in *. assert (VP : 0 < vK) by apply (nvarK_pos o d).
  assert (VM : / 10 ^ 32 <= vK) by apply Rmax_l.
  set (Q := fun b => dotp N (gres v y b) (ksol N K (gres v y b))).
  assert (TS : forall s, mspec N N (times s A) (fun i j => s * K i j)).
  { intros s. destruct KC as (K1 & K2 & K3). split; [exact K1|]. split; [exact K2|]. intros i j Hi' Hj. reflexivity. }
  assert (LL : forall s b L, 0 < s -> (log_likelihood (times s A) (gp_residual o d b) L <-> L = - (ln (det N K) + (INR N * ln s + Q b / s)) / 2)).
  { intros s b L Hs. rewrite (ll_iff N (times s A) _ (gp_residual o d b) (gres v y b) L (TS s) (pdf_scal N K s Hs HK) (fun i Hr => li_res o d hp HI b i Hr)).
    rewrite (quad_scal N K s _ Hs HK), (lndet_scal N K s Hs HK). fold (Q b). split; intros ->; lra. }
  assert (QB : forall b, Q b = Q (vat beta 0%nat) + (b - vat beta 0%nat) ^ 2 * dotp N v (gw N v K)).
  { intros b. unfold Q. rewrite (gls_min N v y BN K b HK). rewrite (gls_min N v y BN K (vat beta 0%nat) HK). rewrite B2 by lia. ring. }
  assert (Q0 : Q (vat beta 0%nat) = gq N v y K) by (unfold Q; rewrite B2 by lia; reflexivity).
  assert (QN : 0 <= gq N v y K) by (apply (gq_nn N v y K HK)).
  assert (WP := gw_pos N v BN K HK).
  assert (QL : forall b, gq N v y K <= Q b).
  { intros b. rewrite QB, Q0. assert (S := pow2_ge_0 (b - vat beta 0%nat)). assert (SP := Rmult_le_pos _ _ S (Rlt_le _ _ WP)). lra. }
  exists A, beta, vK, (- (ln (det N K) + (INR N * ln vK + Q (vat beta 0%nat) / vK)) / 2).
  split; [exact EA|]. split; [exact EB|]. split; [exact P2|]. split; [exact VM|]. split; [apply LL; [exact VP|reflexivity]|].
  split; [intros s b Hs; eexists; apply LL; [exact Hs|reflexivity]|].
  assert (DIV : forall s b, 0 < s -> gq N v y K / s <= Q b / s) by (intros s b Hs; apply Rmult_le_compat_r; [left; apply Rinv_0_lt_compat; exact Hs|apply QL]).
  split.
  { intros s b L Hs HL. assert (Hs' : 0 < s) by lra. apply LL in HL; [|exact Hs']. rewrite HL, Q0.
    destruct (varK_max N (gq N v y K) (/ 10 ^ 32) s NP QN MP Hs') as (V1 & _). specialize (V1 (or_introl Hs)). change (Rmax (/ 10 ^ 32) (gq N v y K / INR N)) with vK in V1. specialize (DIV s b Hs'). lra. }
  split.
  { intros HV s b L Hs HL. apply LL in HL; [|exact Hs]. rewrite HL, Q0.
    destruct (varK_max N (gq N v y K) (/ 10 ^ 32) s NP QN MP Hs) as (V1 & V2). change (Rmax (/ 10 ^ 32) (gq N v y K / INR N)) with vK in V1, V2. specialize (V1 (or_intror HV)).
    assert (DD := DIV s b Hs). split; [lra|]. intros E. assert (E1 : gq N v y K / s = Q b / s) by lra. assert (E2 : s = vK) by (apply V2; [exact HV|lra]). split; [exact E2|].
    apply Rmult_eq_compat_r with (r := s) in E1. unfold Rdiv in E1. rewrite !Rmult_assoc, !Rinv_l, !Rmult_1_r in E1 by lra. rewrite QB, Q0 in E1.
    assert (Z : (b - vat beta 0%nat) ^ 2 * dotp N v (gw N v K) = 0) by lra. apply Rmult_integral in Z. destruct Z as [Z|Z]; [|lra]. simpl in Z. rewrite Rmult_1_r in Z. apply Rmult_integral in Z. lra. }
  intros HV Hp. rewrite P1. f_equal. unfold nlkd. unfold calc_lkd_varK_pnlt. rewrite Hp. cbn [fst]. fold N K vK. rewrite (li_N o d hp HI). fold N.
  assert (E : Q (vat beta 0%nat) / vK = INR N).
  { rewrite Q0. assert (NR := lt_0_INR N NP). assert (Z : vK = gq N v y K / INR N).
    { change vK with (Rmax (/ 10 ^ 32) (gq N v y K / INR N)) in HV |- *. unfold Rmax in *. destruct (Rle_dec (/ 10 ^ 32) (gq N v y K / INR N)); lra. }
    rewrite Z. rewrite Z in VP. assert (gq N v y K <> 0) by (intros E; rewrite E in VP; unfold Rdiv in VP; lra). field. split; lra. }
  rewrite E. lra.
Qed.
Print Assumptions C24_closed_form_variance.

(** ** C25.  The gradient of the likelihood *)
(** a scalar of the result of a successful evaluation; evaluations without the condition number and
    without gradients always succeed (C23_evaluation_succeeds) *)
Definition lkd_scalar (la : npla) (o : gpopt) (d : gpdata) (lo : lkopt) (info : hpinfo) (adj : bool) (f : lkdinfo -> option R) (hp : hpv) : option R :=
  match calc_lkd_all la o d lo info hp false false adj with Ok (l, true) => f l | _ => None end.
Definition first_beta (l : lkdinfo) : option R := match l_beta l with Some b => Some (vat b 0) | None => None end.

Lemma vec_eta (v : vec) : mkvec (vlen v) (vat v) = v. Proof. destruct v; reflexivity. Qed.
Lemma hp_put_get hp s v : hp_get hp s = Some v -> hp_put hp s v = hp.
Proof.
  destruct hp as [be th ke vk vf vg], s; cbn [hp_get hp_put hp_theta hp_kernel hp_varK hp_var_fval hp_var_fgrad hp_beta]; intros H; try (rewrite <- H; reflexivity).
  destruct (Nat.ltb_spec e (vlen th)); [|discriminate]. injection H as <-. f_equal. unfold vset. destruct th as [n f]. cbn [vlen vat] in *. f_equal.
  apply FunctionalExtensionality.functional_extensionality. intros i. unfold upd. destruct (Nat.eqb_spec i e); congruence.
Qed.
Lemma ball_pos (v : R) : 0 < v -> locally v (fun t => 0 < t /\ Rabs (t - v) < v).
Proof.
  intros Hv. exists (mkposreal v Hv). intros t Ht. unfold ball in Ht; cbn in Ht. unfold AbsRing_ball, abs, minus, plus, opp in Ht; cbn in Ht. split; [|exact Ht].
  apply (near_pos v); assumption.
Qed.

(** covariance as a function of one hyperparameter, and evaluations near the current value *)
Lemma near_call la o d lo ht hk hv hf hg info hp e vK s v :
  lkd_input o d hp -> o_eta_const o = true -> set_hp_optz_info o d lo ht hk hv hf hg = Ok info -> d_etaK d = Some e ->
  slot_ok o d s -> hp_get hp s = Some v -> 0 < v ->
  (if d_noisy d then hp_varK hp = Some vK else vK = 1 /\ s <> HVarK) ->
  let K := fun t => kcovE o d (hp_put hp s t) e (match s with HVarK => t | _ => vK end) in
  locally v (fun t => pdf (cN o d) (K t)) /\
  forall t adj, Rabs (t - v) < v ->
    exists T l, calc_lkd_all la o d lo info (hp_put hp s t) false false adj = Ok (l, true) /\
    if d_noisy d then noisy_post o d ht hk hv hf hg (K t) false adj T l else free_post o d lo ht hk hv hf hg (K t) false adj T l.
Proof.
  intros HI HE Hi He SO Hg Hv HvK K. assert (RD := li_ready o d hp HI). assert (NA := li_noise o d hp HI). assert (HRt := li_Rt o d hp HI).
  destruct HI as (H1 & H2 & H3 & H4 & H5 & H6 & H7).
  assert (VK : 0 < (match s with HVarK => v | _ => vK end)).
  { destruct (d_noisy d); [|destruct HvK as (-> & Q); destruct s; try lra; congruence].
    destruct (H7 eq_refl) as (vK' & E1 & E2). rewrite E1 in HvK. injection HvK as <-. destruct s; auto. }
  assert (VT : forall t, 0 < t -> 0 < (match s with HVarK => t | _ => vK end)) by (intros t Ht; destruct s; auto).
  set (va := if d_noisy d then None else Some 1).
  assert (EV : forall t, eff_varK (hp_put hp s t) va false = Some (match s with HVarK => t | _ => vK end)).
  { intros t. unfold eff_varK, va. destruct (d_noisy d).
    - destruct s; cbn [hp_put hp_varK]; rewrite ?HvK; reflexivity.
    - destruct HvK as (-> & Q). destruct s; try reflexivity. congruence. }
  assert (C : forall t, 0 < t -> exists out, calc_all_K_w_chofac o d (la_cond la) (d_Rt d) (hp_put hp s t) None true false va false = Ok out /\
     lkd_out_ok o d (hp_put hp s t) false (la_cond la) out /\ mspec (cN o d) (cN o d) (k_Kcov out) (K t) /\ pd (k_Kcov out)).
  { intros t Ht. destruct (rok_ex _ _ (kcov_call o d (la_cond la) true false RD HE H3 (hp_put hp s t) va false _ e (put_hyper o d hp s t H4 SO Ht) (put_noise o d hp s t NA SO Ht) (EV t) (VT t Ht) He)) as (out & EO & _ & KC & PD & _).
    exists out. split; [exact EO|].
    split; [|split; [exact KC|exact PD]].
    exact (rok_inv _ _ _ (kcov_any o d (la_cond la) false (hp_put hp s t) va _ RD H3 (put_hyper o d hp s t H4 SO Ht) (put_noise o d hp s t NA SO Ht) (EV t) (VT t Ht)) EO). }
  split.
  - generalize (ball_pos v Hv). apply filter_imp. intros t (Ht & _). destruct (C t Ht) as (out & _ & _ & KC & PD). apply (pd_pdf _ _ _ KC PD).
  - intros t adj Ht. assert (Pt := near_pos v t Hv Ht). destruct (C t Pt) as (out & EO & LO & KC & PD). unfold va in EO. destruct (d_noisy d) eqn:Hz.
    + destruct (noisy_lkd la o d lo ht hk hv hf hg info e RD HRt Hi He (hp_put hp s t) (match s with HVarK => t | _ => vK end) false false out _ Hz (put_hyper o d hp s t H4 SO Pt)
        ltac:(destruct s; cbn [hp_put hp_varK]; auto) ltac:(discriminate) EO LO KC) as (T & _ & Q). destruct (Q adj) as (Q1 & Q2). destruct (Q2 eq_refl) as (l & El). exists T, l. split; [exact El|]. apply Q1, El.
    + destruct (free_lkd la o d lo ht hk hv hf hg info e RD HRt Hi He (hp_put hp s t) false false out _ Hz ltac:(discriminate) (put_hyper o d hp s t H4 SO Pt)
        ltac:(discriminate) EO LO KC) as (T & _ & Q). destruct (Q adj) as (Q1 & Q2). destruct (Q2 eq_refl) as (l & El). exists T, l. split; [exact El|]. apply Q1, El.
Qed.

Lemma at_call la o d lo ht hk hv hf hg info hp e vK cnd cg :
  lkd_input o d hp -> o_eta_const o = true -> set_hp_optz_info o d lo ht hk hv hf hg = Ok info -> d_etaK d = Some e ->
  (cg = true -> ht = true -> theta_grad_supported o d hp) -> (cg = true -> d_noisy d = false -> hv = false /\ hf = false /\ hg = false) ->
  (if d_noisy d then hp_varK hp = Some vK else vK = 1) ->
  exists T, (cg = true -> slices_ok o d ht hk hv hf hg e hp vK T) /\
    forall adj, (forall l, calc_lkd_all la o d lo info hp cnd cg adj = Ok (l, true) ->
        if d_noisy d then noisy_post o d ht hk hv hf hg (kcovE o d hp e vK) cg adj T l else free_post o d lo ht hk hv hf hg (kcovE o d hp e vK) cg adj T l) /\
      (cnd = false -> exists l, calc_lkd_all la o d lo info hp cnd cg adj = Ok (l, true)).
Proof.
  intros HI HE Hi He HS HF HvK. assert (RD := li_ready o d hp HI). assert (NA := li_noise o d hp HI). assert (HRt := li_Rt o d hp HI).
  destruct HI as (H1 & H2 & H3 & H4 & H5 & H6 & H7). set (va := if d_noisy d then None else Some 1).
  assert (EV : eff_varK hp va false = Some vK) by (unfold eff_varK, va; destruct (d_noisy d); rewrite HvK; reflexivity).
  assert (VP : 0 < vK) by (destruct (d_noisy d); [destruct (H7 eq_refl) as (v' & E1 & E2); congruence|lra]).
  destruct (rok_ex _ _ (kcov_call o d (la_cond la) true cnd RD HE H3 hp va false vK e H4 NA EV VP He)) as (out & EO & _ & KC & _).
  assert (LO := rok_inv _ _ _ (kcov_any o d (la_cond la) cnd hp va vK RD H3 H4 NA EV VP) EO). unfold va in EO. destruct (d_noisy d) eqn:Hz.
  - destruct (noisy_lkd la o d lo ht hk hv hf hg info e RD HRt Hi He hp vK cnd cg out _ Hz H4 HvK HS EO LO KC) as (T & ST & Q). eauto.
  - subst vK. destruct (free_lkd la o d lo ht hk hv hf hg info e RD HRt Hi He hp cnd cg out _ Hz (fun c => HF c eq_refl) H4 HS EO LO KC) as (T & ST & Q). eauto.
Qed.

(** with any nugget the posterior facts hold for the matrix of the call *)
Lemma at_call_any la o d lo ht hk hv hf hg info hp cnd cg :
  lkd_input o d hp -> set_hp_optz_info o d lo ht hk hv hf hg = Ok info ->
  (cg = true -> ht = true -> theta_grad_supported o d hp) -> (cg = true -> d_noisy d = false -> hv = false /\ hf = false /\ hg = false) ->
  exists K T, forall adj, (forall l, calc_lkd_all la o d lo info hp cnd cg adj = Ok (l, true) ->
        if d_noisy d then noisy_post o d ht hk hv hf hg K cg adj T l else free_post o d lo ht hk hv hf hg K cg adj T l) /\
      (cnd = false -> exists l, calc_lkd_all la o d lo info hp cnd cg adj = Ok (l, true)).
Proof.
  intros HI Hi HS HF. destruct (li_eta o d hp HI) as (e & He & _). assert (RD := li_ready o d hp HI). assert (NA := li_noise o d hp HI). assert (HRt := li_Rt o d hp HI).
  assert (VK : exists vK, if d_noisy d then hp_varK hp = Some vK else vK = 1).
  { destruct HI as (_ & _ & _ & _ & _ & _ & H7). destruct (d_noisy d); [destruct (H7 eq_refl) as (v & E & _); eauto|eauto]. }
  destruct VK as (vK & HvK).
  destruct HI as (H1 & H2 & H3 & H4 & H5 & H6 & H7). set (va := if d_noisy d then None else Some 1).
  assert (EV : eff_varK hp va false = Some vK) by (unfold eff_varK, va; destruct (d_noisy d); rewrite HvK; reflexivity).
  assert (VP : 0 < vK) by (destruct (d_noisy d); [destruct (H7 eq_refl) as (v' & E1 & E2); congruence|lra]).
  destruct (rok_ex _ _ (kcov_any o d (la_cond la) cnd hp va vK RD H3 H4 NA EV VP)) as (out & EO & LO).
  assert (KC : mspec (cN o d) (cN o d) (k_Kcov out) (mat_at (k_Kcov out))) by (destruct LO as (_ & N1 & N2 & _); split; [exact N1|split; [exact N2|reflexivity]]).
  unfold va in EO. destruct (d_noisy d) eqn:Hz.
  - destruct (noisy_lkd la o d lo ht hk hv hf hg info e RD HRt Hi He hp vK cnd cg out _ Hz H4 HvK HS EO LO KC) as (T & ST & Q). eauto.
  - subst vK. destruct (free_lkd la o d lo ht hk hv hf hg info e RD HRt Hi He hp cnd cg out _ Hz (fun c => HF c eq_refl) H4 HS EO LO KC) as (T & ST & Q). eauto.
Qed.

Theorem C25_likelihood_gradient_partial :
  forall (la : npla) (o : gpopt) (d : gpdata) (lo : lkopt) (ht hk hv hf hg : bool) (info : hpinfo) (hp : hpv) (cnd adj adj' : bool) (l : lkdinfo),
  lkd_input o d hp -> o_eta_const o = true -> noise_pos hp ->
  (ht = true -> theta_grad_supported o d hp) -> (d_noisy d = false -> hv = false /\ hf = false /\ hg = false) ->
  set_hp_optz_info o d lo ht hk hv hf hg = Ok info ->
  calc_lkd_all la o d lo info hp cnd true adj = Ok (l, true) ->
  (d_noisy d = false -> exists vK, l_varK l = Some vK /\ / 10 ^ 32 < vK) ->
  (* the value returned together with the gradient *)
  l_ln l = lkd_scalar la o d lo info adj' l_ln hp /\ l_lndet l = lkd_scalar la o d lo info adj' l_lndet hp /\
  l_varK l = lkd_scalar la o d lo info adj' l_varK hp /\ first_beta l = lkd_scalar la o d lo info adj' first_beta hp /\
  (* and the gradient *)
  exists g, l_ln_grad l = Some g /\ vlen g = length (slots (o_dim o) ht hk hv hf hg) /\
    forall r s v, nth_error (slots (o_dim o) ht hk hv hf hg) r = Some s -> hp_get hp s = Some v ->
      is_derivative_of (fun t => lkd_scalar la o d lo info adj' l_ln (hp_put hp s t)) v (vat g r) /\
      (* the gradients of the intermediate quantities, where they are computed *)
      (forall B, l_beta_grad l = Some B -> is_derivative_of (fun t => lkd_scalar la o d lo info adj' first_beta (hp_put hp s t)) v (mat_at B 0 r)) /\
      (forall G, l_lndet_grad l = Some G -> is_derivative_of (fun t => lkd_scalar la o d lo info adj' l_lndet (hp_put hp s t)) v (vat G r)) /\
      (forall G, l_varK_grad l = Some G -> is_derivative_of (fun t => lkd_scalar la o d lo info adj' l_varK (hp_put hp s t)) v (vat G r)).
Proof.
  intros la o d lo ht hk hv hf hg info hp cnd adj adj' l HI HE Hnp HS HF Hi H Hfl.
  assert (RD := li_ready o d hp HI). destruct (li_eta o d hp HI) as (e & He & _).
  assert (VK : exists vK, if d_noisy d then hp_varK hp = Some vK else vK = 1).
  { destruct HI as (_ & _ & _ & _ & _ & _ & H7). destruct (d_noisy d); [destruct (H7 eq_refl) as (v & E & _); eauto|eauto]. }
  destruct VK as (vK & HvK).
  destruct (at_call la o d lo ht hk hv hf hg info hp e vK cnd true HI HE Hi He (fun _ => HS) (fun _ => HF) HvK) as (T & ST & Q). specialize (ST eq_refl). destruct (Q adj) as (Q1 & _). assert (P := Q1 l H). clear Q Q1.
  destruct (at_call la o d lo ht hk hv hf hg info hp e vK false false HI HE Hi He ltac:(discriminate) ltac:(discriminate) HvK) as (T' & _ & Q). destruct (Q adj') as (Q1 & Q2). destruct (Q2 eq_refl) as (l' & El'). assert (P' := Q1 l' El'). clear Q Q1 Q2.
  assert (VAL : forall f, lkd_scalar la o d lo info adj' f hp = f l') by (intros f; unfold lkd_scalar; rewrite El'; reflexivity).
  rewrite !VAL. clear VAL.
  assert (FB : forall m b, l_beta m = Some b -> vspec 1 b (fun _ => gb (cN o d) (basis d) (vat (ydata d)) (kcovE o d hp e vK)) -> first_beta m = Some (gb (cN o d) (basis d) (vat (ydata d)) (kcovE o d hp e vK))).
  { intros m b E (B1 & B2). unfold first_beta. rewrite E, B2 by lia. reflexivity. }
  assert (NEAR : forall r s v, nth_error (slots (o_dim o) ht hk hv hf hg) r = Some s -> hp_get hp s = Some v ->
    0 < v /\ kcovE o d (hp_put hp s v) e (match s with HVarK => v | _ => vK end) = kcovE o d hp e vK /\
    (forall i j, (i < cN o d)%nat -> (j < cN o d)%nat -> is_derive (fun t => kcovE o d (hp_put hp s t) e (match s with HVarK => t | _ => vK end) i j) v (tat T r i j)) /\
    locally v (fun t => pdf (cN o d) (kcovE o d (hp_put hp s t) e (match s with HVarK => t | _ => vK end))) /\
    forall t, Rabs (t - v) < v -> exists T l, calc_lkd_all la o d lo info (hp_put hp s t) false false adj' = Ok (l, true) /\
       let K := kcovE o d (hp_put hp s t) e (match s with HVarK => t | _ => vK end) in
       if d_noisy d then noisy_post o d ht hk hv hf hg K false adj' T l else free_post o d lo ht hk hv hf hg K false adj' T l).
  { intros r s v Hr Hg. destruct ST as (_ & ST). destruct (ST r s v Hr Hg) as (SO & DD).
    assert (NV : if d_noisy d then hp_varK hp = Some vK else vK = 1 /\ s <> HVarK).
    { destruct (d_noisy d); [exact HvK|]. split; [exact HvK|]. intros ->. apply slots_nth in Hr. destruct (HF eq_refl) as (-> & _). destruct Hr; discriminate. }
    assert (PV : 0 < v).
    { destruct (d_noisy d) eqn:Hz.
      - destruct HI as (_ & _ & _ & H4 & _ & _ & H7). destruct (H7 Hz) as (vK' & E1 & E2). apply (slot_pos o hp vK' s v H4 Hnp E1 E2 Hg). destruct s; try (left; discriminate). right; exact SO.
      - destruct HI as (_ & _ & _ & (L & P0 & K) & _). destruct s; cbn [hp_get] in Hg; cbn [slot_ok] in SO.
        + destruct (Nat.ltb_spec e0 (vlen (hp_theta hp))); [|discriminate]. injection Hg as <-. apply P0. congruence.
        + rewrite SO in K. destruct K as (a & E & A). congruence.
        + destruct NV as (_ & NV). congruence.
        + apply Hnp in Hg. exact Hg.
        + apply Hnp in Hg. exact Hg. }
    destruct (near_call la o d lo ht hk hv hf hg info hp e vK s v HI HE Hi He SO Hg PV NV) as (PD & C).
    split; [exact PV|]. split.
    { rewrite (hp_put_get hp s v Hg). f_equal. destruct s; try reflexivity. cbn [hp_get] in Hg. destruct (d_noisy d); [congruence|]. destruct NV as (_ & NV). congruence. }
    split; [exact DD|]. split; [exact PD|]. intros t Ht. apply C, Ht. }
  set (K0 := kcovE o d hp e vK) in *.
  destruct (d_noisy d) eqn:Hz.
  - destruct P as (P1 & P2 & P3 & P4 & (be & EB & HB) & (g & EG & G1 & G2) & (B & EBG & B1 & B2 & B3) & PL).
    destruct P' as (P1' & P2' & P3' & _ & (be' & EB' & HB') & _).
    split; [congruence|]. split; [congruence|]. split; [congruence|]. split; [rewrite (FB _ _ EB HB), (FB _ _ EB' HB'); reflexivity|].
    exists g. split; [exact EG|]. split; [exact G1|]. intros r s v Hr Hg. destruct (NEAR r s v Hr Hg) as (PV & EK & DD & PD & C).
    set (K := fun t => kcovE o d (hp_put hp s t) e (match s with HVarK => t | _ => vK end)) in *.
    assert (Lr : (r < length (slots (o_dim o) ht hk hv hf hg))%nat) by (apply nth_error_Some; congruence).
    split; [|split; [|split]].
    + exists v, (fun t => - (ln (det (cN o d) (K t)) + gq (cN o d) (basis d) (vat (ydata d)) (K t)) / 2). split; [exact PV|]. split.
      * intros t Ht. destruct (C t Ht) as (Tt & lt & Et & Pt & _). unfold lkd_scalar. rewrite Et. exact Pt.
      * rewrite G2 by exact Lr. rewrite <- EK. apply (noise_D o d RD v K (tat T r) PD DD).
    + intros B' EB2. assert (B' = B) by congruence. subst B'. exists v, (fun t => gb (cN o d) (basis d) (vat (ydata d)) (K t)). split; [exact PV|]. split.
      * intros t Ht. destruct (C t Ht) as (Tt & lt & Et & _ & _ & _ & _ & (bt & Ebt & Bt1 & Bt2) & _). unfold lkd_scalar, first_beta. rewrite Et, Ebt, Bt2 by lia. reflexivity.
      * rewrite B3 by (auto; lia). rewrite <- EK. apply (beta_D o d RD v K (tat T r) PD DD).
    + intros G' EG'. destruct adj; [congruence|]. destruct PL as (G'' & E'' & L1 & L2). assert (G'' = G') by congruence. subst G''.
      exists v, (fun t => ln (det (cN o d) (K t))). split; [exact PV|]. split.
      * intros t Ht. destruct (C t Ht) as (Tt & lt & Et & _ & Pt & _). unfold lkd_scalar. rewrite Et. exact Pt.
      * rewrite L2 by exact Lr. rewrite <- EK. apply (lndet_D o d v K (tat T r) PD DD).
    + intros G' EG'. congruence.
  - destruct P as (P1 & P2 & P3 & (be & EB & HB) & (g & EG & G1 & G2) & PL).
    destruct P' as (P1' & P2' & P3' & (be' & EB' & HB') & _).
    split; [congruence|]. split; [congruence|]. split; [congruence|]. split; [rewrite (FB _ _ EB HB), (FB _ _ EB' HB'); reflexivity|].
    assert (CL : varK_min < gq (cN o d) (basis d) (vat (ydata d)) K0 / INR (cN o d)).
    { destruct (Hfl eq_refl) as (vk & E1 & E2). rewrite P3 in E1. injection E1 as <-. unfold nvarK, varK_min, Rmax in *. destruct (Rle_dec _ _); lra. }
    exists g. split; [exact EG|]. split; [exact G1|]. intros r s v Hr Hg. destruct (NEAR r s v Hr Hg) as (PV & EK & DD & PD & C).
    set (K := fun t => kcovE o d (hp_put hp s t) e (match s with HVarK => t | _ => vK end)) in *.
    assert (Lr : (r < length (slots (o_dim o) ht hk hv hf hg))%nat) by (apply nth_error_Some; congruence).
    change (K v = K0) in EK.
    split; [|split; [|split]].
    + exists v, (fun t => nlkd o d (K t) lo). split; [exact PV|]. split.
      * intros t Ht. destruct (C t Ht) as (Tt & lt & Et & Pt & _). unfold lkd_scalar. rewrite Et. exact Pt.
      * rewrite G2 by exact Lr. rewrite <- EK. apply (nlkd_D o d RD v K (tat T r) PD DD lo). rewrite EK. exact CL.
    + intros B' EB2. destruct adj; [destruct PL; congruence|]. destruct PL as ((B & EBG & B1 & B2 & B3) & _). assert (B' = B) by congruence. subst B'.
      exists v, (fun t => gb (cN o d) (basis d) (vat (ydata d)) (K t)). split; [exact PV|]. split.
      * intros t Ht. destruct (C t Ht) as (Tt & lt & Et & _ & _ & _ & (bt & Ebt & Bt1 & Bt2) & _). unfold lkd_scalar, first_beta. rewrite Et, Ebt, Bt2 by lia. reflexivity.
      * rewrite B3 by (auto; lia). rewrite <- EK. apply (beta_D o d RD v K (tat T r) PD DD).
    + intros G' EG'. destruct adj; [destruct PL as (_ & ? & _); congruence|]. destruct PL as (_ & (G'' & E'' & L1 & L2) & _). assert (G'' = G') by congruence. subst G''.
      exists v, (fun t => ln (det (cN o d) (K t))). split; [exact PV|]. split.
      * intros t Ht. destruct (C t Ht) as (Tt & lt & Et & _ & Pt & _). unfold lkd_scalar. rewrite Et. exact Pt.
      * rewrite L2 by exact Lr. rewrite <- EK. apply (lndet_D o d v K (tat T r) PD DD).
    + intros G' EG'. destruct adj; [destruct PL as (_ & _ & ?); congruence|]. destruct PL as (_ & _ & (G'' & E'' & L1 & L2)). assert (G'' = G') by congruence. subst G''.
      exists v, (fun t => nvarK o d (K t)). split; [exact PV|]. split.
      * intros t Ht. destruct (C t Ht) as (Tt & lt & Et & _ & _ & Pt & _). unfold lkd_scalar. rewrite Et. exact Pt.
      * rewrite L2 by exact Lr. rewrite <- EK. apply (varK_D o d RD v K (tat T r) PD DD). rewrite EK. exact CL.
Qed.
Print Assumptions C25_likelihood_gradient_partial.

(** the adjoint and the direct method return the same gradient *)
Theorem C25_adjoint_equals_direct :
  forall (la : npla) (o : gpopt) (d : gpdata) (lo : lkopt) (ht hk hv hf hg : bool) (info : hpinfo) (hp : hpv) (cnd : bool) (l l' : lkdinfo),
  lkd_input o d hp ->
  (ht = true -> theta_grad_supported o d hp) -> (d_noisy d = false -> hv = false /\ hf = false /\ hg = false) ->
  set_hp_optz_info o d lo ht hk hv hf hg = Ok info ->
  calc_lkd_all la o d lo info hp cnd true true = Ok (l, true) -> calc_lkd_all la o d lo info hp cnd true false = Ok (l', true) ->
  l_ln l = l_ln l' /\
  exists g g', l_ln_grad l = Some g /\ l_ln_grad l' = Some g' /\ vlen g = vlen g' /\ vlen g = length (slots (o_dim o) ht hk hv hf hg) /\
    forall r, (r < vlen g)%nat -> vat g r = vat g' r.
Proof.
  intros la o d lo ht hk hv hf hg info hp cnd l l' HI HS HF Hi H H'.
  destruct (at_call_any la o d lo ht hk hv hf hg info hp cnd true HI Hi (fun _ => HS) (fun _ => HF)) as (K & T & Q).
  destruct (Q true) as (Q1 & _). destruct (Q false) as (Q2 & _). specialize (Q1 l H). specialize (Q2 l' H').
  destruct (d_noisy d).
  - destruct Q1 as (V & _ & _ & _ & _ & (g & E & G1 & G2) & _), Q2 as (V' & _ & _ & _ & _ & (g' & E' & G1' & G2') & _). split; [congruence|].
    exists g, g'. split; [exact E|]. split; [exact E'|]. split; [congruence|]. split; [exact G1|]. intros r Hr. rewrite G2, G2' by congruence. reflexivity.
  - destruct Q1 as (V & _ & _ & _ & (g & E & G1 & G2) & _), Q2 as (V' & _ & _ & _ & (g' & E' & G1' & G2') & _). split; [congruence|].
    exists g, g'. split; [exact E|]. split; [exact E'|]. split; [congruence|]. split; [exact G1|]. intros r Hr. rewrite G2, G2' by congruence. reflexivity.
Qed.
Print Assumptions C25_adjoint_equals_direct.

(** without the condition number, an evaluation with the gradient succeeds *)
Theorem C25_evaluation_with_gradient_succeeds :
  forall (la : npla) (o : gpopt) (d : gpdata) (lo : lkopt) (ht hk hv hf hg : bool) (info : hpinfo) (hp : hpv) (adj : bool),
  lkd_input o d hp ->
  (ht = true -> theta_grad_supported o d hp) -> (d_noisy d = false -> hv = false /\ hf = false /\ hg = false) ->
  set_hp_optz_info o d lo ht hk hv hf hg = Ok info ->
  exists l, calc_lkd_all la o d lo info hp false true adj = Ok (l, true).
Proof.
  intros la o d lo ht hk hv hf hg info hp adj HI HS HF Hi.
  destruct (at_call_any la o d lo ht hk hv hf hg info hp false true HI Hi (fun _ => HS) (fun _ => HF)) as (K & T & Q).
  destruct (Q adj) as (_ & Q2). exact (Q2 eq_refl).
Qed.
Print Assumptions C25_evaluation_with_gradient_succeeds.

(** ** Concrete cases meeting the hypotheses *)
(** noisy: every hyperparameter optimised, rational quadratic kernel, preconditioned, partial mask *)
Example C23_C25_hypotheses_met_noisy : exists d info, lkd_input hx_opt d hx_hp /\ d_noisy d = true /\ o_eta_const hx_opt = true /\ noise_pos hx_hp /\
  theta_grad_supported hx_opt d hx_hp /\ set_hp_optz_info hx_opt d lk_default true true true true true = Ok info /\
  forall la adj, exists l, calc_lkd_all la hx_opt d lk_default info hx_hp false true adj = Ok (l, true).
Proof.
  destruct hx_data as (d' & _ & _). destruct C21_C26_hypotheses_met as (d & info & H1 & H2 & H3 & H4 & H5 & H6 & H7 & H8 & H9 & H10 & H11 & _).
  exists d, info. assert (NZ : d_noisy d = true).
  { destruct (d_noisy d) eqn:Z; [reflexivity|]. unfold setup_hp_idx4optz in H10. rewrite Z in H10.
    destruct (info_inv _ _ _ _ _ _ _ _ _ H10) as (_ & _ & _ & E1). destruct (info_inv _ _ _ _ _ _ _ _ _ H11) as (_ & _ & _ & E2).
    assert (C : hi_varK info = None) by (rewrite E1; reflexivity). rewrite E2 in C. discriminate. }
  assert (LI : lkd_input hx_opt d hx_hp).
  { split; [exact H1|]. split; [exact H2|]. split; [exact H3|]. split; [exact H5|]. split; [exact H6|]. split.
    - destruct H7 as (A & B). split; intros v E; left; auto.
    - intros _. exists 2. split; [exact H8|lra]. }
  split; [exact LI|]. split; [exact NZ|]. split; [exact H4|]. split; [exact H7|]. split; [exact H9|]. split; [exact H11|].
  intros la adj. apply (C25_evaluation_with_gradient_succeeds la hx_opt d lk_default true true true true true info hx_hp adj LI (fun _ => H9)); [rewrite NZ; discriminate|exact H11].
Qed.

(** noise-free: one point with its gradient, squared exponential kernel, preconditioned; the closed-form
    varK is above its floor *)
Lemma gls_row_bound n K (s : nat -> R) r : pdf n K -> (r < n)%nat -> s r ^ 2 <= K r r * dotp n s (ksol n K s).
Proof.
  intros HK Hr. set (x := ksol n K s). set (u := fun i => if (i =? r)%nat then 1 else 0).
  assert (KP : 0 < K r r).
  { destruct HK as (_ & P). rewrite <- (bform_unit n K r r Hr Hr). apply P. exists r. split; [exact Hr|]. rewrite Nat.eqb_refl. lra. }
  assert (UX : bform n K u x = s r).
  { rewrite bform_dotp. rewrite (dotp_ext n u _ u s) by (auto; intros; apply (ksol_ok n K s HK); assumption). unfold dotp, u. rewrite (rsum_ext n _ (fun i => if (i =? r)%nat then s i else 0)).
    - rewrite rsum_delta by exact Hr. reflexivity.
    - intros i _. destruct (i =? r)%nat; ring. }
  assert (UU : bform n K u u = K r r) by (apply bform_unit; assumption).
  assert (Q : dotp n s x = bform n K x x) by (apply ksol_quad, HK). rewrite Q.
  set (t := - (s r / K r r)). set (z := fun i => x i + t * u i).
  assert (NN : 0 <= bform n K z z).
  { destruct (nonzero_dec n z) as [N|N]; [left; apply HK, N|]. right. symmetry. unfold bform. apply rsum_0. intros i Hi. rewrite rsum_0; [reflexivity|]. intros j Hj.
    rewrite (N i Hi). ring. }
  unfold z in NN. rewrite bform_plus_l, !bform_plus_r, !bform_scal_r, bform_scal_l, UX in NN. rewrite (bform_scal_l n K t u u), UU in NN.
  rewrite (bform_sym n K x u), UX in NN by apply HK.
  assert (E : t * K r r = - s r) by (unfold t; field; lra).
  assert (E2 : K r r * (t * (t * K r r)) = s r ^ 2) by (replace (K r r * (t * (t * K r r))) with ((t * K r r) * (t * K r r)) by ring; rewrite E; ring).
  apply (Rmult_le_compat_l (K r r)) in NN; [|lra].
  assert (NN2 : 0 <= K r r * bform n K x x + 2 * (t * K r r) * s r + K r r * (t * (t * K r r))) by (rewrite Rmult_0_r in NN; eapply Rle_trans; [exact NN|]; right; ring).
  rewrite E2, E in NN2. simpl in *. lra.
Qed.
Definition nf_opt : gpopt := gp_init 1 true SqExp Wprecon.
Definition nf_hp : hpv := mkhp None (mkvec 1 (fun _ => 1)) None None None None.
Lemma nf_data : exists d, data_set nf_opt d /\ d_known_fval d = true /\ d_known_fgrad d = true /\ d_noisy d = false /\ d_bvec d = None /\
  d_n_eval d = 1%nat /\ d_n_grad d = 1%nat /\ d_etaK d = Some (1 / (10 ^ 10 - 1)) /\ vat (ydata d) 1 = 1 /\ (forall hp r, (r < 2)%nat -> noise_fn d hp None r = 0).
Proof.
  assert (E : exists d, set_data nf_opt (mkmat 1 1 (fun _ _ => 0)) (mkvec 1 (fun _ => 3)) (SdOk (vconst 1 0)) (Some (mkmat 1 1 (fun _ _ => 1))) (SdOk (mconst 1 1 0)) None = Ok d /\
     d_known_fval d = true /\ d_known_fgrad d = true /\ d_noisy d = false /\ d_bvec d = None /\
     d_n_eval d = 1%nat /\ d_n_grad d = 1%nat /\ d_etaK d = Some (1 / (10 ^ 10 - 1)) /\ vat (ydata d) 1 = 1 /\ (forall hp r, (r < 2)%nat -> noise_fn d hp None r = 0)).
  { unfold set_data. cbv zeta. cbn. unfold vmax_lt, mmax_lt. cbn. destruct (Rlt_dec 0 (/ _)) as [L|L]; [|exfalso; apply L; apply Rinv_0_lt_compat; lra].
    cbn. eexists. split; [reflexivity|]. cbn [d_known_fval d_known_fgrad d_noisy d_bvec d_n_eval d_n_grad d_etaK].
    do 6 (split; [reflexivity|]). split; [reflexivity|]. split; [reflexivity|]. intros hp r Hr. destruct r as [|[|r]]; [| |lia]; cbn; ring. }
  destruct E as (d & E & R). exists d. split; [|exact R]. do 6 eexists. split; [|split; [|split; [|apply after_set; exact E]]]; simpl; try reflexivity; lia.
Qed.

Example C24_C25_hypotheses_met_noise_free : exists d info, lkd_input nf_opt d nf_hp /\ d_noisy d = false /\ o_eta_const nf_opt = true /\ noise_pos nf_hp /\
  theta_grad_supported nf_opt d nf_hp /\ set_hp_optz_info nf_opt d lk_default true false false false false = Ok info /\
  forall la adj, exists l vK, calc_lkd_all la nf_opt d lk_default info nf_hp false true adj = Ok (l, true) /\ l_varK l = Some vK /\ / 10 ^ 32 < vK.
Proof.
  destruct nf_data as (d & D & K1 & K2 & Z & B & N1 & N2 & ET & Y & NF). destruct (info_total nf_opt d lk_default true false false false false) as (info & EI); auto; try discriminate.
  exists d, info.
  assert (LI : lkd_input nf_opt d nf_hp).
  { split; [split; [simpl; lia|split; simpl; lra]|]. split; [exact D|]. split; [reflexivity|]. split; [split; [reflexivity|]; split; [intros; simpl; lra|exact I]|].
    split; [split; [rewrite K1; reflexivity|rewrite K2; reflexivity]|]. split; [split; discriminate|rewrite Z; discriminate]. }
  assert (TS : theta_grad_supported nf_opt d nf_hp) by (split; [left; exact B|discriminate]).
  split; [exact LI|]. split; [exact Z|]. split; [reflexivity|]. split; [split; discriminate|]. split; [exact TS|]. split; [exact EI|].
  intros la adj. assert (RD := li_ready _ _ _ LI).
  destruct (at_call la nf_opt d lk_default true false false false false info nf_hp (1 / (10 ^ 10 - 1)) 1 false true LI eq_refl EI ET (fun _ _ => TS) ltac:(auto) ltac:(rewrite Z; reflexivity)) as (T & _ & Q).
  destruct (Q adj) as (Q1 & Q2). destruct (Q2 eq_refl) as (l & El). exists l. assert (P := Q1 l El). rewrite Z in P. destruct P as (_ & _ & P & _).
  eexists. split; [exact El|]. split; [exact P|]. clear Q Q1 Q2 P El l T.
  assert (N : cN nf_opt d = 2%nat) by (unfold cN; rewrite N1, N2; reflexivity).
  set (K := kcovE nf_opt d nf_hp (1 / (10 ^ 10 - 1)) 1).
  assert (HK : pdf (cN nf_opt d) K).
  { destruct (rok_ex _ _ (kcov_call nf_opt d (la_cond la) true false RD eq_refl (fun _ => eq_refl) nf_hp (Some 1) false 1 _ ltac:(apply LI) (li_noise _ _ _ LI) eq_refl Rlt_0_1 ET)) as (out & _ & _ & KC & PD & _).
    apply (pd_pdf _ _ _ KC PD). }
  assert (BD := gls_row_bound _ K (gres (basis d) (vat (ydata d)) (gb (cN nf_opt d) (basis d) (vat (ydata d)) K)) 1 HK ltac:(rewrite N; lia)).
  fold (gs (cN nf_opt d) (basis d) (vat (ydata d)) K) in BD. fold (gq (cN nf_opt d) (basis d) (vat (ydata d)) K) in BD.
  unfold gres at 1 in BD. rewrite Y in BD. unfold basis at 1 in BD. rewrite N1 in BD. cbn [Nat.ltb Nat.leb] in BD.
  assert (EK : K 1%nat 1%nat = 2 + 2 / (10 ^ 10 - 1)).
  { unfold K, kcovE. cbn [o_well nf_opt gp_init set_wellcond_mtd o_use_grad]. rewrite (NF nf_hp 1%nat) by lia. unfold dl. cbn [Nat.eqb].
    rewrite (ckf_diag nf_opt d nf_hp (fst (get_scl_x_w_dist d))) by (rewrite ?N; try lia; try apply LI; try apply RD). rewrite N1, N2. cbn. lra. }
  rewrite EK in BD. unfold nvarK, varK_min. eapply Rlt_le_trans; [|apply Rmax_r]. set (q := gq _ _ _ K) in *. clearbody q. rewrite N. replace (INR 2) with 2 by (simpl; lra).
  assert (0 < / (10 ^ 10 - 1) < 1). { split; [apply Rinv_0_lt_compat; lra|]. rewrite <- Rinv_1 at 2. apply Rinv_lt_contravar; lra. }
  assert (1 / 4 < q). { assert (2 / (10 ^ 10 - 1) < 2) by lra. destruct (Rlt_dec (1/4) q) as [|C]; [assumption|]. exfalso.
    assert ((2 + 2 / (10 ^ 10 - 1)) * q <= (2 + 2 / (10 ^ 10 - 1)) * (1/4)) by (apply Rmult_le_compat_l; lra). lra. }
  assert (/ 10 ^ 32 < / 10). { apply Rinv_lt_contravar; lra. }
  lra.
Qed.

(** With a partial mask and the squared exponential or Matern kernel there is no gradient: the evaluation
    with gradient raises for every hyperparameter value (noisy data). *)
Theorem C25_partial_mask_raises_refuted :
  forall (la : npla) (o : gpopt) (d : gpdata) (lo : lkopt) (hk hv hf hg : bool) (info : hpinfo) (hp : hpv) (m : list bool) (cnd adj : bool),
  lkd_input o d hp -> d_noisy d = true -> o_use_grad o = true -> o_kernel o <> RatQu -> (2 <= d_n_eval d)%nat -> hp_kernel hp = None ->
  d_bvec d = Some m -> m <> repeat true (d_n_eval d) ->
  set_hp_optz_info o d lo true hk hv hf hg = Ok info ->
  calc_lkd_all la o d lo info hp cnd true adj = Err EShape.
Proof.
  intros la o d lo hk hv hf hg info hp m cnd adj HI Hz Hu Hk Hn Hkn Hb Hm Hi. assert (RD := li_ready o d hp HI). assert (NA := li_noise o d hp HI). assert (HRt := li_Rt o d hp HI).
  destruct HI as (H1 & H2 & H3 & H4 & H5 & H6 & H7). destruct (H7 Hz) as (vK & Hv & Hp).
  assert (EV : eff_varK hp None false = Some vK) by (unfold eff_varK; rewrite Hv; reflexivity).
  destruct (rok_ex _ _ (kcov_any o d (la_cond la) cnd hp None vK RD H3 H4 NA EV Hp)) as (out & EO & _).
  unfold calc_lkd_all. rewrite HRt, Hz, EO, bind_Ok.
  rewrite (C26_partial_mask_raises_refuted o d lo hk hv hf hg info hp vK m (k_Kern out) H1 H2 Hu Hk Hn H4 Hkn Hv Hb Hm Hi). reflexivity.
Qed.
Print Assumptions C25_partial_mask_raises_refuted.
Definition pm_opt : gpopt := gp_init 2 true SqExp Wprecon.
Definition pm_hp : hpv := mkhp None (mkvec 2 (fun i => 1 / 2 + INR i)) None (Some 2) (Some 1) (Some (1 / 4)).
Example C25_partial_mask_hypotheses_met : exists d info m, lkd_input pm_opt d pm_hp /\ d_noisy d = true /\ o_use_grad pm_opt = true /\ o_kernel pm_opt <> RatQu /\
  (2 <= d_n_eval d)%nat /\ hp_kernel pm_hp = None /\ d_bvec d = Some m /\ m <> repeat true (d_n_eval d) /\ set_hp_optz_info pm_opt d lk_default true false true true true = Ok info.
Proof.
  assert (E : exists d, set_data pm_opt ex_x ex_f SdNone (Some ex_g) SdNone (Some [true; false; true]) = Ok d /\ d_known_fval d = false /\ d_known_fgrad d = false /\ d_noisy d = true /\ d_n_eval d = 3%nat /\ d_bvec d = Some [true; false; true]).
  { eexists. split; [reflexivity|]. repeat split. }
  destruct E as (d & E & K1 & K2 & K3 & K4 & K5).
  destruct (info_total pm_opt d lk_default true false true true true) as (info & EI); auto; try discriminate.
  exists d, info, [true; false; true]. split; [|rewrite K4; repeat split; auto; try discriminate].
  split; [split; [simpl; lia|split; simpl; lra]|]. split; [exists ex_x, ex_f, SdNone, (Some ex_g), SdNone, (Some [true; false; true]); split; [simpl; lia|]; split; [reflexivity|]; split; [reflexivity|]; apply after_set; exact E|].
  split; [reflexivity|]. split; [split; [reflexivity|]; split; [|exact I]; intros i _; simpl; assert (0 <= INR i) by apply pos_INR; lra|].
  split; [split; [rewrite K1; split; [reflexivity|eexists; reflexivity]|]; intros _; rewrite K2; eexists; reflexivity|].
  split; [split; intros v Ev; injection Ev as <-; lra|]. intros _. exists 2. split; [reflexivity|lra].
Qed.
