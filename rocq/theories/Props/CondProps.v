(** * Properties C10-C14: the nugget, the condition number and the Cholesky factorisation.
    Vocabulary: [Spec/LinAlgSpec.v] ([cond2], [cond2_le], [pd], [is_chol], [solves], [det]) and
    [Spec/GpSpec.v] (legitimate options, data, hyperparameters and noise). *)
From Coq Require Import Reals List Arith Bool Lia Lra.
From Verif.Base Require Import NpLite NpFacts.
From Verif.Spec Require Import KernelSpec LinAlgSpec GpSpec.
From Verif.Model Require Import KernelSqExp KernelMatern KernelRatQuad KernelDispatch CommonFun WellCond Rescaling GpState Chol Cov.
From Verif.Proofs Require Import CovStruct StateFacts NoiseFacts CholCorrect Det NuggetCond NuggetMain CondMain.
Import ListNotations.
Local Open Scope R_scope.

Lemma ready o d : opts_ok o -> data_set o d -> gp_ready o d.
Proof. intros (A & B & C) (x & fv & sf & g & sg & b & H1 & H2 & H3 & H4). exact (set_data_ready o x fv sf g sg b d H1 A B C H3 H2 H4). Qed.

(** ** C10.  'precon' with the default (constant, computed) nugget: the reported condition number - that
    of the regularised preconditioned matrix - is at most the target, for any data (coincident points
    too), hyperparameters, mask, noise, varK; and so is that of Kcor + eta I. *)
Theorem C10_precon_condition_number :
  forall (o : gpopt) (d : gpdata) (hp : hpv) (noise : option vec) (varK : option R) (bn : bool) (vK : R) (calc_chofac : bool),
  o_well o = Wprecon -> o_use_grad o = true -> o_eta_const o = true -> o_eta_mtd o <> Edflt ->
  opts_ok o -> data_set o d -> hyper_ok o hp -> noise_arg_ok o d hp noise -> eff_varK hp varK bn = Some vK -> 0 < vK ->
  exists out Kcor c,
    calc_all_K_w_chofac o d cond2 (d_Rt d) hp noise calc_chofac true varK bn = Ok out /\
    k_Kcor out = Some Kcor /\ k_cond out = Some c /\ 1 <= c <= o_target o /\
    forall M, madd Kcor (mscal (k_eta out) (meye (nr Kcor))) = Ok M -> cond2_le M (o_target o).
Proof.
  intros o d hp noise varK bn vK cc H1 H2 H3 H4 H5 H6 H7 H8 H9 H10.
  destruct (rok_ex _ _ (precon_const_cond o d hp noise cc varK bn vK (ready o d H5 H6) H7 H8 H9 H10 H1 H2 H3 H4)) as (out & E & Kc & c & Q).
  exists out, Kc, c. tauto.
Qed.
Print Assumptions C10_precon_condition_number.

(** ** C11.  The nugget computed from the largest absolute row sum ([cond_eta_is_const] False). *)
Theorem C11_row_sum_nugget_precon :
  forall (o : gpopt) (d : gpdata) (hp : hpv) (noise : option vec) (varK : option R) (bn : bool) (vK : R) (calc_chofac : bool),
  o_well o = Wprecon -> o_use_grad o = true -> o_eta_const o = false ->
  opts_ok o -> data_set o d -> hyper_ok o hp -> noise_arg_ok o d hp noise -> eff_varK hp varK bn = Some vK -> 0 < vK ->
  exists out Kcor c,
    calc_all_K_w_chofac o d cond2 (d_Rt d) hp noise calc_chofac true varK bn = Ok out /\
    k_Kcor out = Some Kcor /\ k_cond out = Some c /\ 1 <= c <= o_target o /\
    forall M, madd Kcor (mscal (k_eta out) (meye (nr Kcor))) = Ok M -> cond2_le M (o_target o).
Proof.
  intros o d hp noise varK bn vK cc H1 H2 H3 H5 H6 H7 H8 H9 H10.
  destruct (rok_ex _ _ (precon_vary_cond o d hp noise cc varK bn vK (ready o d H5 H6) H7 H8 H9 H10 H1 H2 H3)) as (out & E & Kc & c & Q).
  exists out, Kc, c. tauto.
Qed.
Print Assumptions C11_row_sum_nugget_precon.
(** without preconditioning, for noise-free data (all noise variances 0) *)
Theorem C11_row_sum_nugget_plain :
  forall (o : gpopt) (d : gpdata) (hp : hpv) (nv : vec) (varK : option R) (bn : bool) (vK : R) (calc_chofac : bool),
  o_well o <> Wprecon -> o_eta_const o = false ->
  opts_ok o -> data_set o d -> hyper_ok o hp -> eff_varK hp varK bn = Some vK -> 0 < vK ->
  vlen nv = d_n_data d -> (forall r, (r < vlen nv)%nat -> vat nv r = 0) ->
  exists out c, calc_all_K_w_chofac o d cond2 (d_Rt d) hp (Some nv) calc_chofac true varK bn = Ok out /\
    k_cond out = Some c /\ 1 <= c <= o_target o /\ cond2_le (k_Kcov out) (o_target o).
Proof.
  intros o d hp nv varK bn vK cc H1 H3 H5 H6 H7 H9 H10 L Z. assert (RD := ready o d H5 H6).
  assert (NA : noise_arg_ok o d hp (Some nv)) by (split; [exact L | intros r Hr; rewrite Z by exact Hr; lra]).
  assert (ZN : forall r, (r < cN o d)%nat -> noise_fn d hp (Some nv) r = 0).
  { intros r Hr. apply Z. rewrite L, (wf_n _ _ (gr_wf _ _ RD)). exact Hr. }
  destruct (rok_ex _ _ (plain_vary_cond o d hp (Some nv) cc varK bn vK RD H7 NA H9 H10 H1 H3 ZN)) as (out & E & c & Q).
  exists out, c. tauto.
Qed.
Print Assumptions C11_row_sum_nugget_plain.

(** ** C12.  Gradient-free GP, nugget n/(target-1), noise-free data. *)
Theorem C12_gradient_free_nugget :
  forall (o : gpopt) (d : gpdata) (hp : hpv) (nv : vec) (varK : option R) (bn : bool) (vK : R) (calc_chofac : bool),
  o_use_grad o = false -> o_well o <> Wprecon -> o_eta_const o = true -> o_eta_mtd o <> Edflt ->
  opts_ok o -> data_set o d -> hyper_ok o hp -> eff_varK hp varK bn = Some vK -> 0 < vK ->
  vlen nv = d_n_data d -> (forall r, (r < vlen nv)%nat -> vat nv r = 0) ->
  exists out c, calc_all_K_w_chofac o d cond2 (d_Rt d) hp (Some nv) calc_chofac true varK bn = Ok out /\
    k_eta out = INR (d_n_eval d) / (o_target o - 1) /\
    k_cond out = Some c /\ 1 <= c <= o_target o /\ cond2_le (k_Kcov out) (o_target o).
Proof.
  intros o d hp nv varK bn vK cc H2 H1 H3 H4 H5 H6 H7 H9 H10 L Z. assert (RD := ready o d H5 H6).
  assert (NA : noise_arg_ok o d hp (Some nv)) by (split; [exact L | intros r Hr; rewrite Z by exact Hr; lra]).
  assert (ZN : forall r, (r < cN o d)%nat -> noise_fn d hp (Some nv) r = 0).
  { intros r Hr. apply Z. rewrite L, (wf_n _ _ (gr_wf _ _ RD)). exact Hr. }
  destruct (rok_ex _ _ (base_const_cond o d hp (Some nv) cc varK bn vK RD H7 NA H9 H10 H1 H2 H3 H4 ZN)) as (out & E & c & Q).
  exists out, c. split; [exact E|]. split; [|tauto].
  destruct (rok_ex _ _ (call_plain o d cond2 hp (Some nv) cc true varK bn vK RD H7 NA H9 H10 H1)) as (out' & E' & e & I1 & _ & I2 & _).
  rewrite E in E'. injection E' as <-. rewrite I2. unfold eta_is in I1. rewrite H3 in I1.
  destruct (gr_eta _ _ RD) as (ek & eg & N1 & N2). rewrite H2, I1 in N2. injection N2 as ->.
  unfold calc_nugget in N1. cbn [o_ncfg nc_eta_mtd nc_use_grad nc_target] in N1. cbv zeta in N1. rewrite H2 in N1.
  destruct (o_eta_mtd o); try contradiction; injection N1 as <- _; reflexivity.
Qed.
Print Assumptions C12_gradient_free_nugget.

(** ** C13.  The nugget rule: total for the documented settings, positive, and decreasing in the target. *)
(** cond_eta_set_mtd is one of the documented values, or a method that does not read it is in use *)
Definition documented (c : ncfg) : Prop :=
  nc_eta_mtd c = Eother -> nc_use_grad c = false \/ nc_well c = Wprecon \/ is_rescale (nc_well c) = true.
Theorem C13_nugget_total_positive_decreasing : forall (c : ncfg) (n : nat),
  (0 < n)%nat -> (0 < nc_dim c)%nat -> 1 < nc_target c -> 0 < nc_eta_dflt c -> documented c ->
  exists eb eg, calc_nugget c n = Ok (eb, eg) /\ 0 < eb /\
    (if nc_use_grad c then exists e, eg = Some e /\ 0 < e else nc_eta_mtd c = Edflt \/ eg = None) /\
    forall t, nc_target c < t -> exists eb' eg', calc_nugget (with_target c t) n = Ok (eb', eg') /\
      (nc_eta_mtd c = Edflt -> eb' = eb /\ eg' = eg) /\
      (nc_eta_mtd c <> Edflt -> eb' < eb /\ forall e, eg = Some e -> exists e', eg' = Some e' /\ e' < e).
Proof.
  intros c n Hn Hd Ht He Hs.
  assert (P1 : 1 <= INR n) by (replace 1 with (INR 1) by reflexivity; apply le_INR; lia).
  assert (DV : forall u t, 0 < u -> nc_target c < t -> u / (t - 1) < u / (nc_target c - 1)).
  { intros u t Hu Hlt. apply Rmult_lt_compat_l; [exact Hu|]. apply Rinv_lt_contravar; [apply Rmult_lt_0_compat; lra | lra]. }
  destruct (nc_eta_mtd c) eqn:Em.
  3:{ assert (Z : forall t, calc_nugget (with_target c t) n = Ok (nc_eta_dflt c, Some (nc_eta_dflt c))) by (intros t; unfold calc_nugget, with_target; simpl; rewrite Em; reflexivity).
      exists (nc_eta_dflt c), (Some (nc_eta_dflt c)). split; [rewrite <- (with_target_id c) at 1; apply Z|]. split; [exact He|].
      split; [destruct (nc_use_grad c); [eauto|auto]|]. intros t Hlt. exists (nc_eta_dflt c), (Some (nc_eta_dflt c)). split; [apply Z|]. split; [auto|congruence]. }
  all: assert (Hm : nc_eta_mtd c <> Edflt) by congruence;
    assert (Hs' : supported c) by (unfold supported; rewrite Em; first [exact I | apply Hs, Em]);
    destruct (nugget_shape c n Hn Hd Ht Hm Hs') as (ug & U1 & U2 & U3);
    exists (INR n / (nc_target c - 1)), (option_map (fun u => u / (nc_target c - 1)) ug);
    (split; [rewrite <- (with_target_id c) at 1; apply U3; exact Ht|]);
    (split; [apply Rdiv_lt_0_compat; lra|]);
    (split; [destruct (nc_use_grad c); [destruct (U1 eq_refl) as (u & -> & Pu); simpl; eexists; split; [reflexivity|apply Rdiv_lt_0_compat; lra] | right; rewrite (U2 eq_refl); reflexivity]|]);
    intros t Hlt; exists (INR n / (t - 1)), (option_map (fun u => u / (t - 1)) ug);
    (split; [apply U3; lra|]); (split; [congruence|]); intros _; (split; [apply DV; lra|]);
    intros e E; destruct ug as [u|]; simpl in E |- *; [|discriminate]; injection E as <-;
    eexists; (split; [reflexivity|]); apply DV; [|exact Hlt];
    destruct (nc_use_grad c); [destruct (U1 eq_refl) as (u' & Eu & Pu); injection Eu as ->; lra | discriminate (U2 eq_refl)].
Qed.
Print Assumptions C13_nugget_total_positive_decreasing.
(** an undocumented value of cond_eta_set_mtd does raise *)
Theorem C13_undocumented_setting_raises : forall (c : ncfg) (n : nat),
  nc_eta_mtd c = Eother -> nc_use_grad c = true -> nc_well c = Wbase -> n <> 1%nat -> calc_nugget c n = Err EExc.
Proof.
  intros c n H1 H2 H3 H4. unfold calc_nugget. rewrite H1, H2, H3. destruct (Nat.eqb_spec n 1); [contradiction|reflexivity].
Qed.

(** ** C14.  The factorisation succeeds, factors Kcov, solves with it and gives the log determinant. *)
(** a factor (c, lower) of A: the triangle selected by [lower] holds a Cholesky factor *)
Definition factor_of (c : mat * bool) (A : mat) : Prop :=
  is_chol (nr A) (fun i j => if snd c then mat_at (fst c) i j else mat_at (fst c) j i) A.
Theorem C14_cholesky_of_the_covariance :
  forall (o : gpopt) (d : gpdata) (condf : mat -> R) (hp : hpv) (noise : option vec) (calc_cond : bool) (varK : option R) (bn : bool) (vK : R),
  (o_well o = Wprecon -> o_use_grad o = true) ->
  opts_ok o -> data_set o d -> hyper_ok o hp -> noise_arg_ok o d hp noise -> eff_varK hp varK bn = Some vK -> 0 < vK ->
  exists out, calc_all_K_w_chofac o d condf (d_Rt d) hp noise true calc_cond varK bn = Ok out /\
    pd (k_Kcov out) /\ nr (k_Kcov out) = d_n_data d /\
    (* None only when the condition number was computed and is above cond_max_abs, never with 'precon' *)
    ((o_well o = Wprecon \/ calc_cond = false \/ condf (k_Kcov out) <= o_cond_max_abs o) -> exists c, k_chofac out = Some c) /\
    forall c, k_chofac out = Some c ->
      factor_of c (k_Kcov out) /\
      (forall b, vlen b = d_n_data d -> exists x, cho_solve c b = Ok x /\ vlen x = vlen b /\ solves (k_Kcov out) (vat x) (vat b)) /\
      0 < det (d_n_data d) (mat_at (k_Kcov out)) /\
      ln (det (d_n_data d) (mat_at (k_Kcov out))) = 2 * rsum (d_n_data d) (fun i => ln (mat_at (fst c) i i)).
Proof.
  intros o d condf hp noise cnd varK bn vK Hw H5 H6 H7 H8 H9 H10. assert (RD := ready o d H5 H6).
  assert (EN : d_n_data d = cN o d) by apply (wf_n _ _ (gr_wf _ _ RD)).
  assert (FIN : forall out f, mspec (cN o d) (cN o d) (k_Kcov out) f -> (forall c, k_chofac out = Some c -> chol_of c (k_Kcov out)) ->
    forall c, k_chofac out = Some c ->
      factor_of c (k_Kcov out) /\
      (forall b, vlen b = d_n_data d -> exists x, cho_solve c b = Ok x /\ vlen x = vlen b /\ solves (k_Kcov out) (vat x) (vat b)) /\
      0 < det (d_n_data d) (mat_at (k_Kcov out)) /\
      ln (det (d_n_data d) (mat_at (k_Kcov out))) = 2 * rsum (d_n_data d) (fun i => ln (mat_at (fst c) i i))).
  { intros out f (E1 & _) Hc c Ec. assert (C := Hc c Ec). assert (C' := C). destruct C as (_ & _ & C).
    split; [exact C|]. split.
    - intros b Hb. destruct (rok_ex _ _ (cho_solve_ok c (k_Kcov out) b C' ltac:(congruence))) as (x & Ex & Lx & Sx). exists x. repeat split; auto; congruence.
    - rewrite EN, <- E1. destruct (logdet_chol _ _ _ C) as (D1 & D2). split; [exact D1|]. rewrite D2. f_equal. apply rsum_ext; intros i _.
      unfold chol_read. destruct (snd c); reflexivity. }
  assert (DW : o_well o = Wprecon \/ o_well o <> Wprecon) by (destruct (o_well o); auto; right; discriminate). destruct DW as [W|W].
  - destruct (rok_ex _ _ (call_precon o d condf hp noise true cnd varK bn vK RD H7 H8 H9 H10 W (Hw W))) as (out & E & e & Kc & Kp & Q).
    destruct Q as (_ & _ & _ & _ & _ & _ & _ & _ & Q1 & _ & _ & Q2 & Q3 & Q4).
    exists out. split; [exact E|]. split; [exact Q2|]. split; [rewrite EN; apply Q1|]. split; [intros _; destruct (Q3 eq_refl) as (c & Ec & _); eauto|].
    exact (FIN out _ Q1 Q4).
  - destruct (rok_ex _ _ (call_plain o d condf hp noise true cnd varK bn vK RD H7 H8 H9 H10 W)) as (out & E & e & Q).
    destruct Q as (_ & _ & _ & _ & _ & _ & Q1 & _ & Q2 & Q3 & Q4).
    exists out. split; [exact E|]. split; [exact Q2|]. split; [rewrite EN; apply Q1|]. split; [|exact (FIN out _ Q1 Q4)].
    intros [C|[C|C]]; [contradiction| |]; destruct (Q3 eq_refl) as (c & Ec & _); eauto. intros; congruence.
Qed.
Print Assumptions C14_cholesky_of_the_covariance.

(** ** Concrete cases meeting the hypotheses *)
Definition ex_opt : gpopt := gp_init 2 true Ma5f2 Wprecon.
Definition ex_x : mat := mkmat 3 2 (fun i j => INR i + INR j * INR (i * i)).
Definition ex_f : vec := mkvec 3 (fun i => INR (i * i)).
Definition ex_g : mat := mkmat 2 2 (fun i j => INR i - INR j).
Definition ex_hp : hpv := mkhp None (mkvec 2 (fun i => 1 / 2 + INR i)) None (Some 2) (Some 1) (Some (1 / 4)).
Lemma ex_data : exists d, data_set ex_opt d /\ d_known_fval d = false /\ d_known_fgrad d = false /\ d_n_eval d = 3%nat /\ d_n_grad d = 2%nat.
Proof.
  assert (E : exists d, set_data ex_opt ex_x ex_f SdNone (Some ex_g) SdNone (Some [true; false; true]) = Ok d /\ d_known_fval d = false /\ d_known_fgrad d = false /\ d_n_eval d = 3%nat /\ d_n_grad d = 2%nat).
  { eexists. split; [reflexivity|]. repeat split. }
  destruct E as (d & E & R). exists d. split; [|exact R].
  exists ex_x, ex_f, SdNone, (Some ex_g), SdNone, (Some [true; false; true]). split; [simpl; lia|]. split; [reflexivity|]. split; [reflexivity|]. apply after_set; exact E.
Qed.
Example C10_C14_hypotheses_met : exists d, o_well ex_opt = Wprecon /\ o_use_grad ex_opt = true /\ o_eta_const ex_opt = true /\ o_eta_mtd ex_opt <> Edflt /\
  opts_ok ex_opt /\ data_set ex_opt d /\ hyper_ok ex_opt ex_hp /\ noise_arg_ok ex_opt d ex_hp None /\ eff_varK ex_hp None false = Some 2.
Proof.
  destruct ex_data as (d & D & K1 & K2 & _). exists d. repeat (split; [first [reflexivity | discriminate | exact D]|]).
  split; [split; [simpl; lia|split; simpl; lra]|]. split; [exact D|]. split.
  - split; [reflexivity|]. split; [|exact I]. intros i _. simpl. assert (0 <= INR i) by apply pos_INR. lra.
  - split; [|reflexivity]. split.
    + split; [rewrite K1; split; [reflexivity|eexists; reflexivity]|]. intros _. rewrite K2. eexists; reflexivity.
    + split; intros v E; injection E as <-; lra.
Qed.
