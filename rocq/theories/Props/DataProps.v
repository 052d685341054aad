(** * Properties C20 and C36: layout of the data and noise vectors; validation done by set_data.
    Vocabulary: [Spec/DataSpec.v] (labels, scaled values, noise variances, shapes) and
    [Spec/KernelSpec.v] ([observations], [is_cov_matrix]). *)
From Coq Require Import Reals List Arith Bool Lia Lra.
From Verif.Base Require Import NpLite NpFacts.
From Verif.Spec Require Import KernelSpec LinAlgSpec GpSpec DataSpec.
From Verif.Model Require Import KernelSqExp KernelMatern KernelRatQuad KernelDispatch CommonFun WellCond Rescaling GpState Chol Cov.
From Verif.Proofs Require Import KernTac KernGradBlocks RadialCalculus KernelExact StateFacts NoiseFacts NuggetCond NuggetMain DataFacts.
From Verif.Props Require Import CondProps.
Import ListNotations.
Local Open Scope R_scope.

(** the observations of an object, in the order of the rows of its kernel matrix: there are no
    derivative observations without gradients *)
Definition gp_dim (o : gpopt) : nat := if o_use_grad o then o_dim o else 0%nat.
Definition gp_observations (o : gpopt) (d : gpdata) : list obs :=
  observations (d_n_eval d) (gp_dim o) (rows_of (fst (get_scl_x_w_dist d))) (d_bvec d).
Definition gp_labels (o : gpopt) (d : gpdata) : list label := labels (d_n_eval d) (gp_dim o) (n_used (d_n_eval d) (d_bvec d)).

Lemma gp_mask o d : data_set o d -> mask_ok (d_n_eval d) (d_bvec d) /\
  (d_n_eval d + d_n_grad d * o_dim o = d_n_eval d + opt_count (d_n_eval d) (d_bvec d) * gp_dim o)%nat /\
  (o_use_grad o = true -> d_n_grad d = opt_count (d_n_eval d) (d_bvec d)) /\ (o_use_grad o = false -> d_bvec d = None).
Proof.
  intros (x & fv & sf & g & sg & b & H1 & H2 & H3 & H4). assert (I := data_after_inv _ _ _ _ _ _ _ _ H4).
  destruct I as (I1 & I2 & I3 & I4 & I5 & _ & I6 & I7 & I8 & _). rewrite I1, I3, I6. unfold gp_dim. destruct (o_use_grad o).
  - repeat split; auto. discriminate.
  - rewrite I8. repeat split; auto; try discriminate; simpl; lia.
Qed.

(** ** C20.  Row r of the kernel matrix, of the data vector and of the noise vector are the same
    observation: [nth_error (gp_labels o d) r = Some l] says which one. *)
Theorem C20_rows_are_the_same_observation :
  forall (o : gpopt) (d : gpdata) (hp : hpv),
  opts_ok o -> data_set o d -> hyper_ok o hp -> noise_cfg o d hp ->
  length (gp_labels o d) = d_n_data d /\
  exists K fv sf g sg nv,
    calc_Kern (o_use_grad o) (o_kernel o) (d_Rt d) (hp_theta hp) (hp_kernel hp) (d_bvec d) (d_bvec d) = Ok K /\
    get_scl_eval_data d = Ok (fv, sf, g, sg) /\ calc_noise_vec o d hp = Ok nv /\
    is_cov_matrix (kfun (o_kernel o) (o_dim o) (vat (hp_theta hp)) (hp_val (hp_kernel hp))) (gp_observations o d) (gp_observations o d) K /\
    vlen (make_data_vec fv g) = d_n_data d /\ vlen nv = d_n_data d /\
    forall r l, nth_error (gp_labels o d) r = Some l ->
      nth_error (gp_observations o d) r = Some (label_obs (d_n_eval d) (rows_of (fst (get_scl_x_w_dist d))) (d_bvec d) l) /\
      vat (make_data_vec fv g) r = scaled_value (out_shift d) (out_scale d) (in_scale d) (d_fval d) (d_grad d) l /\
      vat nv r = if d_noisy d then noise_variance (out_scale d) (in_scale d) (d_std_fval d) (d_std_grad d) (hp_var_fval hp) (hp_var_fgrad hp) l else 0.
Proof.
  intros o d hp Ho Hd Hh Hc. destruct (gp_mask o d Hd) as (M & EN & EG & EB). assert (RD := ready o d Ho Hd).
  assert (W := gr_wf _ _ RD). assert (ND := wf_n _ _ W).
  assert (LL : length (gp_labels o d) = d_n_data d).
  { unfold gp_labels. rewrite labels_length, n_used_count by exact M. rewrite ND, EN. reflexivity. }
  split; [exact LL|].
  destruct (rok_ex _ _ (noise_vec_ok o d hp W Hc)) as (nv & Env & Lnv & Hnv).
  destruct (rok_ex _ _ (get_scl_ok o d W)) as ((((fv & sf) & g) & sg) & Egs & (Lfv & Hfv) & _ & Hg & _).
  (* the kernel matrix *)
  assert (KK : exists K, calc_Kern (o_use_grad o) (o_kernel o) (d_Rt d) (hp_theta hp) (hp_kernel hp) (d_bvec d) (d_bvec d) = Ok K /\
    is_cov_matrix (kfun (o_kernel o) (o_dim o) (vat (hp_theta hp)) (hp_val (hp_kernel hp))) (gp_observations o d) (gp_observations o d) K).
  { destruct Hd as (x & f0 & s0 & g0 & sg0 & b0 & A1 & A2 & A3 & A4). assert (I := data_after_inv _ _ _ _ _ _ _ _ A4).
    destruct I as (I1 & I2 & I3 & _ & _ & _ & _ & _ & _ & (Xs & X1 & X2 & X3 & X4 & _) & _).
    unfold gp_observations, gp_dim. rewrite <- X4. destruct Hh as (L & P & HP).
    assert (Nn : forall i, (i < nc Xs)%nat -> 0 <= vat (hp_theta hp) i) by (intros i Hi; left; apply P; rewrite <- A3, <- X3; exact Hi).
    assert (E1 : nr Xs = d_n_eval d) by (rewrite I1, <- A2; exact X2). assert (E2 : nc Xs = o_dim o) by (rewrite <- A3; exact X3).
    unfold calc_Kern. destruct (o_use_grad o).
    - destruct (KernGrad_exact (o_kernel o) Xs Xs (hp_theta hp) (hp_kernel hp) (d_bvec d) (d_bvec d) eq_refl ltac:(congruence) (th_ok_nn _ _ _ Nn) HP
        ltac:(rewrite E1; exact M) ltac:(rewrite E1; exact M) (masks_ok_same _ _)) as (Rt & K & R1 & R2 & R3).
      rewrite X1 in R1. injection R1 as <-. exists K. rewrite E1, E2 in R3. auto.
    - rewrite (EB eq_refl) in *.
      destruct (KernBase_exact (o_kernel o) Xs Xs (hp_theta hp) (hp_kernel hp) eq_refl ltac:(congruence) HP) as (Rt & K & R1 & R2 & R3 & R4 & R5).
      rewrite X1 in R1. injection R1 as <-. exists K. split; [exact R2|]. unfold observations. simpl. rewrite app_nil_r.
      split; [rewrite map_length, seq_length; congruence|]. split; [rewrite map_length, seq_length; congruence|].
      intros r c a b Ha Hb. rewrite nth_error_map in Ha, Hb.
      destruct (nth_error (seq 0 (d_n_eval d)) r) as [p|] eqn:Ep; [|discriminate]. destruct (nth_error (seq 0 (d_n_eval d)) c) as [q|] eqn:Eq; [|discriminate].
      injection Ha as <-. injection Hb as <-.
      assert (p = r /\ (r < d_n_eval d)%nat) as (-> & Hr).
      { assert (r < d_n_eval d)%nat by (rewrite <- (seq_length (d_n_eval d) 0); apply nth_error_Some; congruence).
        rewrite nth_error_seq in Ep by assumption. injection Ep as <-. auto. }
      assert (q = c /\ (c < d_n_eval d)%nat) as (-> & Hcc).
      { assert (c < d_n_eval d)%nat by (rewrite <- (seq_length (d_n_eval d) 0); apply nth_error_Some; congruence).
        rewrite nth_error_seq in Eq by assumption. injection Eq as <-. auto. }
      simpl. rewrite <- E2. apply R5; congruence. }
  destruct KK as (K & EK & CK).
  exists K, fv, sf, g, sg, nv. split; [exact EK|]. split; [exact Egs|]. split; [exact Env|]. split; [exact CK|].
  assert (LY : vlen (make_data_vec fv g) = d_n_data d).
  { destruct (o_use_grad o) eqn:Hu.
    - destruct (wf_ug _ _ W Hu) as (G0 & EG0). rewrite EG0 in Hg. destruct Hg as (g' & -> & G1 & G2 & _). simpl. rewrite Lfv, G1, G2, ND. reflexivity.
    - assert (Gn : d_grad d = None).
      { destruct Hd as (x & f0 & s0 & g0 & sg0 & b0 & A1 & A2 & A3 & A4). assert (I := data_after_inv _ _ _ _ _ _ _ _ A4).
        destruct I as (_ & _ & _ & _ & I5 & _ & _ & _ & _ & _ & _ & _ & I10 & _). rewrite Hu in I10. congruence. }
      rewrite Gn in Hg. rewrite Hg. simpl. rewrite Lfv, ND, (wf_g0 _ _ W Hu). lia. }
  split; [exact LY|]. split; [rewrite Lnv, ND; reflexivity|].
  intros r l Hl. assert (Hl' := Hl). unfold gp_labels in Hl. rewrite n_used_count in Hl by exact M.
  split; [apply label_obs_ok; [exact M|exact Hl]|].
  destruct (labels_inv _ _ _ _ _ Hl) as (V & Er).
  assert (Hr : (r < d_n_eval d + d_n_grad d * o_dim o)%nat).
  { rewrite <- ND, <- LL. apply nth_error_Some. congruence. }
  assert (SG : forall i, stdg_scale d i = out_scale d / in_scale d i).
  { intros i. unfold stdg_scale, out_scale, in_scale. destruct (d_scl d); [unfold Rdiv; ring|field]. }
  split.
  - destruct l as [p|i q]; simpl in V, Er.
    + rewrite Er. simpl. assert (Z : vat (make_data_vec fv g) p = vat fv p).
      { destruct g; [|reflexivity]. simpl. destruct (Nat.ltb_spec p (vlen fv)); [reflexivity|]. rewrite Lfv in *. lia. }
      rewrite Z, Hfv by exact V. reflexivity.
    + destruct V as (V1 & V2). destruct (o_use_grad o) eqn:Hu; [|unfold gp_dim in V1; rewrite Hu in V1; lia].
      destruct (wf_ug _ _ W Hu) as (G0 & EG0). rewrite EG0 in Hg. destruct Hg as (g' & -> & G1 & G2 & G3).
      simpl. rewrite EG0, <- (EG eq_refl) in *. subst r. simpl. rewrite Lfv. destruct (Nat.ltb_spec (d_n_eval d + i * d_n_grad d + q) (d_n_eval d)); [lia|].
      replace (d_n_eval d + i * d_n_grad d + q - d_n_eval d)%nat with (i * d_n_grad d + q)%nat by lia.
      change (vat (reshape_f g') (i * d_n_grad d + q) = mat_at G0 q i * (out_scale d / in_scale d i)).
      unfold gp_dim in V1. rewrite Hu in V1. rewrite (reshape_entry (d_n_grad d)) by auto. rewrite G3 by auto. rewrite SG. reflexivity.
  - rewrite Hnv by exact Hr. unfold noise_row.
    assert (EZ : d_noisy d = negb (d_fval_zero d && d_fgrad_zero d)).
    { destruct Hd as (x & f0 & s0 & g0 & sg0 & b0 & A1 & A2 & A3 & A4). assert (I := data_after_inv _ _ _ _ _ _ _ _ A4). tauto. }
    rewrite EZ. destruct (d_fval_zero d && d_fgrad_zero d) eqn:Z; simpl; [reflexivity|].
    assert (U : unradr (d_n_eval d) (d_n_grad d) r = lab_rix l).
    { rewrite Er. destruct l as [p|i q]; simpl in V |- *.
      - unfold unradr. destruct (Nat.ltb_spec p (d_n_eval d)); [reflexivity|lia].
      - destruct (o_use_grad o) eqn:Hu; [|unfold gp_dim in V; rewrite Hu in V; lia].
        rewrite <- (EG eq_refl) in *. apply (unradr_radr _ _ (gp_dim o) (G i q)). exact V. }
    rewrite U. destruct l as [p|i q]; simpl.
    + unfold noise_fval. destruct (d_std_fval d); [unfold std_scale, out_scale; reflexivity|reflexivity].
    + unfold noise_fgrad. destruct (d_std_grad d); [rewrite SG; reflexivity|reflexivity].
Qed.
Print Assumptions C20_rows_are_the_same_observation.

(** the noise configuration is also necessary ... *)
Theorem C20_noise_vector_needs_matching_hyperparameters : forall (o : gpopt) (d : gpdata) (hp : hpv) (nv : vec),
  opts_ok o -> data_set o d -> calc_noise_vec o d hp = Ok nv -> noise_cfg o d hp.
Proof. intros o d hp nv Ho Hd. apply noise_cfg_needed, (gr_wf _ _ (ready o d Ho Hd)). Qed.
Print Assumptions C20_noise_vector_needs_matching_hyperparameters.
(** ... so a gradient-free object whose function noise is unknown has no noise vector, whatever the
    hyperparameters: the property fails for such data. *)
Theorem C20_gradient_free_unknown_noise_refuted : forall (o : gpopt) (d : gpdata) (hp : hpv),
  opts_ok o -> data_set o d -> o_use_grad o = false -> d_known_fval d = false ->
  forall nv, calc_noise_vec o d hp <> Ok nv.
Proof.
  intros o d hp Ho Hd Hu Hk nv E. destruct (C20_noise_vector_needs_matching_hyperparameters o d hp nv Ho Hd E) as (C & _).
  rewrite Hk in C. destruct C. congruence.
Qed.
Print Assumptions C20_gradient_free_unknown_noise_refuted.
(** a concrete case of the hypotheses: ex_opt with the data of CondProps (mask true,false,true) *)
Example C20_hypotheses_met : exists d, opts_ok ex_opt /\ data_set ex_opt d /\ hyper_ok ex_opt ex_hp /\ noise_cfg ex_opt d ex_hp /\ d_n_eval d = 3%nat /\ d_n_grad d = 2%nat.
Proof.
  destruct ex_data as (d & D & K1 & K2 & N1 & N2). exists d.
  split; [split; [simpl; lia|split; simpl; lra]|]. split; [exact D|]. split.
  { split; [reflexivity|]. split; [|exact I]. intros i _. simpl. assert (0 <= INR i) by apply pos_INR. lra. }
  split; [|auto]. split; [rewrite K1; split; [reflexivity|eexists; reflexivity]|]. intros _. rewrite K2. eexists; reflexivity.
Qed.
Definition ex_opt0 : gpopt := gp_init 1 false SqExp Wbase.
Example C20_refutation_hypotheses_met : exists d, opts_ok ex_opt0 /\ data_set ex_opt0 d /\ o_use_grad ex_opt0 = false /\ d_known_fval d = false.
Proof.
  assert (E : exists d, set_data ex_opt0 (mkmat 2 1 (fun i _ => INR i)) (vconst 2 0) SdNone None SdNone None = Ok d /\ d_known_fval d = false) by (eexists; split; reflexivity).
  destruct E as (d & E & K). exists d. split; [split; [simpl; lia|split; simpl; lra]|]. split; [|auto].
  exists (mkmat 2 1 (fun i _ => INR i)), (vconst 2 0), SdNone, None, SdNone, None. split; [simpl; lia|]. split; [reflexivity|]. split; [reflexivity|apply after_set; exact E].
Qed.

(** ** C36.  What set_data accepts, and the flags it derives. *)
(** consistent data are accepted (x_eval as documented; a std_grad array, with or without NaN, has the
    columns of the gradient; known std_grad needs at least one used gradient, see below) *)
Theorem C36_accepts_consistent_data :
  forall (o : gpopt) (x : mat) (fval : vec) (sf : stdarg vec) (G : option mat) (sg : stdarg mat) (b : option (list bool)),
  opts_ok o -> documented (o_ncfg o) ->
  (0 < vlen fval)%nat -> x_ok o x fval -> shapes_ok o fval sf G sg b ->
  (forall s, given sg = Some s -> nc s = o_dim o) ->
  (o_use_grad o = true -> known sg <> None -> (0 < n_used (vlen fval) b)%nat) ->
  exists d, set_data o x fval sf G sg b = Ok d.
Proof.
  intros o x fval sf Gr sg b (O1 & O2 & O3) Hdoc Hn Hx Hs Hg Hu.
  destruct (C13_nugget_total_positive_decreasing (o_ncfg o) (vlen fval) Hn O1 O2 O3 Hdoc) as (eb & eg & E & _).
  exact (set_data_total o x fval sf Gr sg b (eb, eg) Hn O1 Hx Hs Hg Hu E).
Qed.
Print Assumptions C36_accepts_consistent_data.

(** inconsistent shapes of fval, std_fval, grad, std_grad, bvec_use_grad are rejected, and the object
    stores what was passed (std arrays only when known) *)
Theorem C36_rejects_inconsistent_data :
  forall (o : gpopt) (x : mat) (fval : vec) (sf : stdarg vec) (G : option mat) (sg : stdarg mat) (b : option (list bool)) (d : gpdata),
  set_data o x fval sf G sg b = Ok d ->
  shapes_ok o fval sf G sg b /\
  d_x d = x /\ d_fval d = fval /\ d_grad d = G /\ d_bvec d = b /\ d_std_fval d = known sf /\
  d_std_grad d = (if o_use_grad o then known sg else None) /\
  d_n_eval d = vlen fval /\ d_n_grad d = (if o_use_grad o then n_used (vlen fval) b else 0%nat) /\
  d_n_data d = (d_n_eval d + d_n_grad d * o_dim o)%nat.
Proof.
  intros o x fval sf Gr sg b d H. assert (I := set_data_inv _ _ _ _ _ _ _ _ H).
  destruct I as (I1 & I2 & I3 & I4 & I5 & _ & I6 & I7 & I8 & _ & _ & _ & I10 & I11 & I12 & _).
  assert (SS : d_std_fval d = known sf /\ d_std_grad d = (if o_use_grad o then known sg else None)).
  { unfold set_data in H. cbv zeta in H. binv H ng Eng. binv H stf Estf. binv H stg Estg. binv H fz Efz. binv H gz Egz. binv H eta Eeta. binv H dm Edm.
    binv H scl Escl. binv H Rt ERt. injection H as <-. cbn [d_std_fval d_std_grad]. split.
    - destruct sf; [injection Estf as <-; reflexivity|injection Estf as <-; reflexivity|]. binv_assert Estf. injection Estf as <-. reflexivity.
    - destruct Gr as [g|].
      + binv_assert Estg. rewrite HA. binv_assert Estg. destruct sg; [injection Estg as <-; reflexivity|injection Estg as <-; reflexivity|]. binv_assert Estg. injection Estg as <-. reflexivity.
      + binv_assert Estg. injection Estg as <-. destruct (o_use_grad o); [discriminate|reflexivity]. }
  destruct SS as (S1 & S2).
  assert (NG : d_n_grad d = (if o_use_grad o then n_used (vlen fval) b else 0%nat)).
  { rewrite I6. destruct (o_use_grad o); [|reflexivity]. symmetry. apply n_used_count. exact I8. }
  split; [|repeat split; auto; rewrite I1; exact I7].
  split.
  - intros s Hs. apply I11. congruence.
  - destruct (o_use_grad o).
    + split; [exact I8|]. destruct I10 as (g & -> & G1 & G2). exists g. split; [reflexivity|]. split; [congruence|]. split; [exact G2|].
      intros s Hs. destruct (I12 s) as (A & B); [congruence|]. split; congruence.
    + auto.
Qed.
Print Assumptions C36_rejects_inconsistent_data.

(** the noise flags: a noise variance becomes a hyperparameter exactly when the noise is unknown, and
    the data are treated as noise-free (closed-form varK) exactly when every standard deviation is known
    and below 1e-10 *)
Theorem C36_noise_flags :
  forall (o : gpopt) (x : mat) (fval : vec) (sf : stdarg vec) (G : option mat) (sg : stdarg mat) (b : option (list bool)) (d : gpdata),
  set_data o x fval sf G sg b = Ok d ->
  (d_known_fval d = true <-> known sf <> None) /\
  (o_use_grad o = true -> (d_known_fgrad d = true <-> known sg <> None)) /\
  d_opt_fval d = negb (d_known_fval d) /\
  d_opt_fgrad d = (o_use_grad o && negb (d_known_fgrad d)) /\
  (d_noisy d = false <->
     (exists s, known sf = Some s /\ vtiny s) /\ (o_use_grad o = true -> exists s, known sg = Some s /\ mtiny s)).
Proof.
  intros o x fval sf Gr sg b d H.
  destruct (C36_rejects_inconsistent_data _ _ _ _ _ _ _ _ H) as (_ & _ & _ & _ & _ & E1 & E2 & _).
  unfold set_data in H. cbv zeta in H. binv H ng Eng. binv H stf Estf. binv H stg Estg. binv H fz Efz. binv H gz Egz. binv H eta Eeta. binv H dm Edm.
  binv H scl Escl. binv H Rt ERt. injection H as <-. cbn [d_std_fval d_std_grad] in E1, E2. cbn [d_known_fval d_known_fgrad d_opt_fval d_opt_fgrad d_noisy]. subst stf stg.
  split; [destruct (known sf); split; congruence|].
  split; [intros ->; destruct (known sg); split; congruence|].
  split; [reflexivity|]. split; [destruct (o_use_grad o); reflexivity|].
  rewrite negb_false_iff, andb_true_iff.
  assert (A : fz = true <-> exists s, known sf = Some s /\ vtiny s).
  { destruct (known sf) as [s|]; [|injection Efz as <-; split; [discriminate|intros (s & E & _); discriminate]].
    rewrite (vmax_lt_inv _ _ _ Efz). unfold vtiny. split; [eauto|]. intros (s' & E & K). injection E as <-. exact K. }
  assert (B : gz = true <-> (o_use_grad o = true -> exists s, known sg = Some s /\ mtiny s)).
  { destruct (o_use_grad o); [|injection Egz as <-; split; [discriminate|reflexivity]].
    destruct (known sg) as [s|]; [|injection Egz as <-; split; [discriminate|intros K; destruct (K eq_refl) as (s & E & _); discriminate]].
    rewrite (mmax_lt_inv _ _ _ Egz). unfold mtiny. split; [eauto|]. intros K. destruct (K eq_refl) as (s' & E & K'). injection E as <-. exact K'. }
  rewrite A, B. reflexivity.
Qed.
Print Assumptions C36_noise_flags.

(** x_eval is not validated: without rescaling, points that do not match fval (five points for two
    values) are accepted *)
Theorem C36_unchecked_points_refuted : exists (o : gpopt) (x : mat) (fval : vec) (d : gpdata),
  opts_ok o /\ documented (o_ncfg o) /\ ~ x_ok o x fval /\ set_data o x fval (SdOk (vconst 2 0)) None SdNone None = Ok d.
Proof.
  exists ex_opt0, (mkmat 5 3 (fun i j => INR i + INR j)), (vconst 2 0).
  assert (E : exists d, set_data ex_opt0 (mkmat 5 3 (fun i j => INR i + INR j)) (vconst 2 0) (SdOk (vconst 2 0)) None SdNone None = Ok d) by (eexists; reflexivity).
  destruct E as (d & E). exists d. split; [split; [simpl; lia|split; simpl; lra]|]. split; [discriminate|]. split; [|exact E].
  intros (A & _). simpl in A. lia.
Qed.
Print Assumptions C36_unchecked_points_refuted.
(** and consistent data are rejected when the mask selects no point but std_grad is given: np.max of an
    empty array raises *)
Theorem C36_empty_mask_with_known_noise_refuted :
  forall (o : gpopt) (x : mat) (fval : vec) (sf : stdarg vec) (G : mat) (sg : mat) (b : option (list bool)),
  o_use_grad o = true -> shapes_ok o fval sf (Some G) (SdOk sg) b -> n_used (vlen fval) b = 0%nat ->
  forall d, set_data o x fval sf (Some G) (SdOk sg) b <> Ok d.
Proof.
  intros o x fval sf Gr sg b Hu Hs Hz d H. destruct Hs as (_ & S). rewrite Hu in S. destruct S as (_ & g & E & G1 & G2 & G3). injection E as ->.
  destruct (G3 sg eq_refl) as (A & _).
  unfold set_data in H. cbv zeta in H. binv H ng Eng. binv H stf Estf. binv H stg Estg. binv H fz Efz. binv H gz Egz.
  binv_assert Estg. binv_assert Estg. binv_assert Estg. injection Estg as <-. rewrite Hu, mmax_lt_empty in Egz by congruence. discriminate.
Qed.
Print Assumptions C36_empty_mask_with_known_noise_refuted.
Example C36_hypotheses_met : opts_ok ex_opt /\ documented (o_ncfg ex_opt) /\ (0 < vlen ex_f)%nat /\ x_ok ex_opt ex_x ex_f /\
  shapes_ok ex_opt ex_f (SdOk (vconst 3 (1/10))) (Some ex_g) (SdOk (mconst 2 2 (/ 10 ^ 12))) (Some [true; false; true]) /\
  n_used 3 (Some [true; false; true]) = 2%nat.
Proof.
  split; [split; [simpl; lia|split; simpl; lra]|]. split; [discriminate|]. split; [simpl; lia|]. split; [split; reflexivity|].
  split; [|reflexivity]. split; [intros s E; injection E as <-; reflexivity|]. simpl. split; [reflexivity|]. exists ex_g. repeat split; auto.
  - intros; simpl in *. injection H as <-. reflexivity.
  - intros; simpl in *. injection H as <-. reflexivity.
Qed.
