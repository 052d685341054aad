(** * C33, continued: what the check of eval_model does not notice (programs), and concrete cases *)
From Coq Require Import Reals List Arith Bool String Lia Lra.
From Coquelicot Require Import Coquelicot.
From Verif.Base Require Import NpLite NpFacts.
From Verif.Spec Require Import KernelSpec LinAlgSpec GpSpec HpSpec DataSpec LkdSpec RescaleSpec EvalSpec HistSpec ObjSpec.
From Verif.Model Require Import KernelSqExp KernelMatern KernelRatQuad KernelDispatch CommonFun WellCond Rescaling GpState Chol Cov HpInfo MeanFun EvalModel History Object.
From Verif.Proofs Require Import KernTac StateFacts HistFacts ObjFacts.
From Verif.Props Require Import CondProps DataProps LkdProps EvalProps ObjProps.
Import ListNotations.
Local Open Scope R_scope.

(** one observation in one dimension, no gradients *)
Definition o1 : gpopt := gp_init 1 false SqExp Wbase.
Definition x1 : mat := mconst 1 1 0.
Definition hp1 (b : R) : hpv := mkhp (Some (mkvec 1 (fun i => nth i [b] 0))) (mkvec 1 (fun i => nth i [1] 0)) None (Some 1) None None.
Lemma data1 (f sd : R) : 0 <= sd -> exists d, set_data o1 x1 (vconst 1 f) (SdOk (vconst 1 sd)) None SdNone None = Ok d /\
  d_n_eval d = 1%nat /\ d_x d = x1 /\ d_fval d = vconst 1 f /\ d_bvec d = None /\ d_scl d = None /\ d_known_fval d = true /\ d_std_fval d = Some (vconst 1 sd) /\
  (1 <= sd -> d_noisy d = true) /\
  forall b, eval_input o1 d (hp1 b) 1 b.
Proof.
  intros Hsd. assert (E : exists d, set_data o1 x1 (vconst 1 f) (SdOk (vconst 1 sd)) None SdNone None = Ok d) by (eexists; reflexivity).
  destruct E as (d & E). exists d. split; [exact E|].
  destruct (C36_rejects_inconsistent_data _ _ _ _ _ _ _ _ E) as (_ & Ex & Ef & _ & Eb & Es & _ & En & _).
  destruct (C36_noise_flags _ _ _ _ _ _ _ _ E) as (F1 & _ & _ & _ & F5).
  assert (K1 : d_known_fval d = true) by (apply F1; discriminate).
  assert (NS : d_scl d = None). { apply set_data_inv in E. destruct E as (_ & _ & _ & _ & _ & _ & _ & _ & _ & (Xs & _ & _ & _ & _ & H) & _). apply H. reflexivity. }
  split; [exact En|]. split; [exact Ex|]. split; [exact Ef|]. split; [exact Eb|]. split; [exact NS|]. split; [exact K1|]. split; [exact Es|]. split.
  { intros H1. destruct (d_noisy d) eqn:EN; [reflexivity|]. exfalso. destruct (proj1 F5 eq_refl) as ((s & Hs & Ht) & _). injection Hs as <-.
    assert (X := Ht 0%nat ltac:(simpl; lia)). simpl in X. assert (/ 10 ^ 10 < 1) by (apply Rmult_lt_reg_r with (10 ^ 10); [apply pow_lt; lra|]; rewrite Rinv_l by (apply pow_nonzero; lra); simpl; lra). lra. }
  intros b.
  split; [split; [simpl; lia|split; simpl; lra]|]. split; [do 6 eexists; split; [|split; [|split; [|apply after_set; exact E]]]; simpl; try lia; reflexivity|].
  split; [discriminate|]. split; [split; [reflexivity|split; [|exact I]]|].
  { intros i Hi. simpl in Hi. replace i with 0%nat by lia. simpl. lra. }
  split; [split; [rewrite K1; reflexivity|discriminate]|]. split; [split; intros v Ev; discriminate|]. split; [reflexivity|]. split; [lra|].
  split; [eexists; split; [reflexivity|]; repeat split|]. intros i _. unfold in_scale. rewrite NS. lra.
Qed.
(** the mean of the surrogate of one observation, at that observation *)
Lemma mean1 (f sd b : R) d condf su : set_data o1 x1 (vconst 1 f) (SdOk (vconst 1 sd)) None SdNone None = Ok d -> 0 <= sd ->
  setup_eval_model o1 d condf (hp1 b) false = Ok su ->
  exists D e, 0 < D /\ has (k_chofac (su_K su)) = true /\ eval_model o1 d (hp1 b) su x1 false false = Ok e /\ vlen (e_mu e) = 1%nat /\
    vat (e_mu e) 0 = b + (f - b) / (1 + D).
Proof.
  intros E Hsd Es. destruct (data1 f sd Hsd) as (d' & E' & Hn & Hx & Hf & Hb & Hs & Hk & Hst & _ & HI). assert (d' = d) by congruence. subst d'. clear E'.
  specialize (HI b). destruct (C30_setup_succeeds o1 d condf (hp1 b) 1 b false HI) as (su' & Es' & HS). assert (su' = su) by congruence. subst su'.
  assert (SU : set_up o1 d condf (hp1 b) false su) by (apply HS; right; left; reflexivity). clear HS Es'.
  assert (MS : mask_supported o1 d) by (intros C; discriminate).
  destruct (C34_posterior_of_the_used_observations_partial o1 d condf (hp1 b) 1 b false su HI MS SU) as (NC & He & _ & _).
  destruct (C29_mean_interpolates_up_to_noise_and_nugget o1 d condf (hp1 b) 1 b false su HI MS SU) as (w & Hw & HE).
  destruct (C31_mean_gradient_and_hessian_partial o1 d condf (hp1 b) 1 b false su HI MS SU) as (M & HM').
  destruct (HM' x1 false false eq_refl ltac:(simpl; lia) ltac:(discriminate)) as (ev0 & Ev0 & L0 & _). clear HM'.
  destruct (HE x1 false false eq_refl ltac:(simpl; lia) ltac:(discriminate)) as (ev & Eev & HM). clear HE.
  assert (GL : gp_labels o1 d = [LVal 0]) by (unfold gp_labels; rewrite Hb, Hn; reflexivity).
  specialize (HM 0%nat 0%nat (LVal 0) ltac:(simpl; lia) ltac:(rewrite GL; reflexivity) ltac:(intros i Hi; rewrite Hx; reflexivity)). simpl in HM.
  set (D := added_var o1 d (hp1 b) (k_eta (su_K su)) (LVal 0)) in *.
  assert (DP : 0 < D).
  { unfold D, added_var. change (o_well o1) with Wbase. unfold obs_noise. destruct (d_noisy d); [|lra]. rewrite Hst. unfold noise_variance.
    match goal with |- 0 < ?t + _ => assert (0 <= t) by (apply pow2_ge_0) end. lra. }
  assert (OS : out_scale d = 1) by (unfold out_scale; rewrite Hs; reflexivity).
  assert (OH : out_shift d = 0) by (unfold out_shift; rewrite Hs; reflexivity).
  destruct NC as (N1 & N2 & N3). assert (LO : List.length (gp_observations o1 d) = 1%nat) by (unfold gp_observations; rewrite Hb, Hn; reflexivity).
  destruct (N3 0%nat 0%nat (Val (rows_of (fst (get_scl_x_w_dist d)) 0)) (Val (rows_of (fst (get_scl_x_w_dist d)) 0))) as (v & Hv & Ev);
    [unfold gp_observations; rewrite Hb, Hn; reflexivity|unfold gp_observations; rewrite Hb, Hn; reflexivity|].
  assert (V1 : v = 1).
  { unfold is_cov in Hv. rewrite Hv. unfold gp_kernel. change (o_kernel o1) with SqExp. change (o_dim o1) with 1%nat. unfold kfun, k_sqexp, sqd. cbn. rewrite <- exp_0. f_equal. ring. } 
  assert (R0 : row_added o1 d (hp1 b) (k_eta (su_K su)) 0 = D) by (unfold row_added; rewrite GL; reflexivity).
  rewrite V1, R0 in Ev. simpl in Ev.
  assert (W := Hw 0%nat ltac:(rewrite N1, LO; lia)). unfold mv in W. rewrite N2, LO in W. cbn in W. rewrite Ev in W.
  assert (RS : gp_residual o1 d b 0 = f - b).
  { unfold gp_residual, residual. rewrite GL. cbn [nth_error]. unfold scaled_value. rewrite OS, OH, Hf. simpl. ring. }
  rewrite RS in W.
  exists D, ev. split; [exact DP|]. split. { destruct SU as (_ & C). destruct (k_chofac (su_K su)); [reflexivity|contradiction]. }
  split; [exact Eev|]. split. { assert (ev0 = ev) by congruence. subst ev0. exact L0. } rewrite HM, OS, Hf. simpl.
  assert (w 0%nat = (f - b) / (1 + D)) by (rewrite <- W; field; lra). rewrite H. field. lra.
Qed.

(** evaluation with another constant mean and the factorisation of the first: the mean is shifted, nothing else *)
Lemma eval_other_beta o d hp su x2 e beta beta' b b' : d_scl d = None ->
  hp_beta hp = Some beta -> vlen beta = 1%nat -> vat beta 0 = b -> vlen beta' = 1%nat -> vat beta' 0 = b' ->
  eval_model o d hp su x2 false false = Ok e ->
  forall vf vg, exists e', eval_model o d (mkhp (Some beta') (hp_theta hp) (hp_kernel hp) (hp_varK hp) vf vg) su x2 false false = Ok e' /\
    vlen (e_mu e') = vlen (e_mu e) /\ forall p, (p < vlen (e_mu e))%nat -> vat (e_mu e') p = vat (e_mu e) p + (b' - b).
Proof.
  intros NS HB L1 V1 L2 V2 H vf vg. unfold eval_model in *. rewrite NS in *. cbn [hp_varK hp_theta hp_kernel hp_beta] in *.
  binv H cf Ecf. binv H inv Ei. binv H vK Ev. rewrite Ecf, Ei, Ev. cbn [bind] in *.
  change (eval_blocks o d (mkhp (Some beta') (hp_theta hp) (hp_kernel hp) (hp_varK hp) vf vg) x2 false) with (eval_blocks o d hp x2 false).
  binv H KK EK. rewrite EK. cbn [bind]. destruct KK as (Kyx, dKo). cbn [bind] in *.
  binv H S ES. rewrite ES. cbn [bind]. rewrite HB in H. cbn [need_beta bind] in *.
  unfold eval_mean_fun in *. rewrite L1 in H. rewrite L2. cbn [Nat.eqb n_beta assert_ bind calc_vand] in *.
  binv H m Em. binv Em mv0 Emv. injection Em as <-. unfold mdotv in *. cbn [nc mconst] in *. rewrite L1 in Emv. rewrite L2. cbn [n_beta Nat.eqb bind] in *.
  injection Emv as <-. binv H s2 Es2. rewrite Es2. cbn [bind]. binv H ok Eok. rewrite Eok. cbn [bind]. binv_assert H. rewrite HA. cbn [assert_ bind].
  binv H t Et. rewrite Et. cbn [bind]. unfold vzip in *. cbn [vlen] in *. 
  binv H mu Emu. destruct (bdim (nr x2) (vlen t)) as [n|] eqn:En; cbn [bind] in *; [|discriminate].
  injection Emu as <-. unfold data_scl_2_init in *. rewrite NS in *. injection H as <-. change (nr (mconst (nr x2) n_beta 1)) with (nr x2). rewrite En. cbn [bind]. eexists. split; [reflexivity|].
  cbn [e_mu vlen vat]. split; [reflexivity|]. intros p Hp. cbn. rewrite V1, V2. ring.
Qed.

(** programs: two arrays (beta and theta), data, a set-up, then what goes unnoticed *)
Definition fv1 (x : R) : fvec := mkfv 1 (fun _ => Some x).
Definition arg1 (vf : option fl) : hparg := mkarg (Some 0%nat) (Some 1%nat) None (Some (Some 1)) vf None.
Definition data_op (f sd : R) : op := SetData x1 (vconst 1 f) (SdOk (vconst 1 sd)) None SdNone None.
Definition prog1 (f sd b : R) : list op := [NewArray (fv1 b); NewArray (fv1 1); data_op f sd; SetHparaSet (arg1 None) false].

Definition hpo1 (n : nat) (vf : option fl) : hpo := mkhpo (AUser 0) (AUser 1) SNone (SVal (n + 1) (Some 1)) (arg_sc (n + 2) vf) SNone.
Definition arr1 (b : R) : nat -> fvec := fun a => if (a =? 1)%nat then fv1 1 else if (a =? 0)%nat then fv1 b else mkfv 0 (fun _ => None).
Lemma setup_at condf cc s d q hp su : p_data s = Some d -> p_hp s = Some q -> hpv_of (o_kernel (p_opt s)) (rd_hp s q) = Ok (Some hp) ->
  setup_eval_model (p_opt s) d condf hp cc = Ok su -> do_setup condf cc s = (upd_surr (upd_setup s (Some q)) (SuOk su), Ok tt).
Proof.
  intros H1 H2 H3 H4. unfold do_setup. cbn [upd_setup p_data p_hp p_opt]. rewrite H1, H2.
  change (rd_hp (upd_setup s (Some q)) q) with (rd_hp s q). rewrite H3, H4. reflexivity.
Qed.
Lemma eval_at s d q q0 hp su x2 cg ch e : p_data s = Some d -> p_hp s = Some q -> p_setup s = Some q0 -> p_surr s = SuOk su -> has (k_chofac (su_K su)) = true ->
  hpo_eq s q q0 = Ok true -> hpv_of (o_kernel (p_opt s)) (rd_hp s q) = Ok (Some hp) -> eval_model (p_opt s) d hp su x2 cg ch = Ok e ->
  do_eval s x2 cg ch = Ok (Some e).
Proof. intros H1 H2 H3 H4 H5 H6 H7 H8. unfold do_eval. rewrite H1, H2, H3, H4, H5, H6, H7. cbn [assert_ bind]. rewrite H8. reflexivity. Qed.
(** after the set-up *)
Lemma run1 condf f sd b : 0 <= sd -> exists d su, set_data o1 x1 (vconst 1 f) (SdOk (vconst 1 sd)) None SdNone None = Ok d /\
  setup_eval_model o1 d condf (hp1 b) false = Ok su /\
  run condf (prog1 f sd b) (gp_new o1) =
    mkgp o1 (Some d) (Some (hpo1 2 None)) (Some (hpo1 2 None)) (SuOk su) (arr1 b) (fun _ => init_optz_surr 0 0 0) None 6.
Proof.
  intros Hsd. destruct (data1 f sd Hsd) as (d & E & _ & _ & _ & _ & _ & _ & _ & _ & HI).
  destruct (C30_setup_succeeds o1 d condf (hp1 b) 1 b false (HI b)) as (su & Es & _). exists d, su. split; [exact E|]. split; [exact Es|].
  unfold prog1, data_op, run. cbn [fold_left]. cbn [step fst gp_new bump upd_arr p_opt p_new]. rewrite E. cbn [fst upd_data step].
  match goal with |- context [arg_ok ?s ?g] => replace (arg_ok s g) with true by reflexivity end. cbv iota. cbn [mk_hp fst snd].
  erewrite (setup_at condf false _ d _ (hp1 b) su); [|reflexivity|reflexivity|reflexivity|exact Es]. reflexivity.
Qed.

Lemma run_app condf xs ys s : run condf (xs ++ ys) s = run condf ys (run condf xs s).
Proof. apply fold_left_app. Qed.
Definition mu0 (e : evo) : R := vat (e_mu e) 0.
(** set_data after the set-up is not noticed: the evaluation returns the mean of the old data, whatever the new
    data; a new set-up changes the answer. *)
Theorem C33_new_data_refuted : forall (condf : mat -> R) (f f' b : R), (f - b) * (f' - b) < 0 ->
  exists e e', let s := run condf (prog1 f 0 b ++ [data_op f' 0]) (gp_new o1) in
  do_eval s x1 false false = Ok (Some e) /\
  snd (do_setup condf false s) = Ok tt /\ do_eval (fst (do_setup condf false s)) x1 false false = Ok (Some e') /\ 
  mu0 e <> mu0 e' /\
  (* the mean at the observation is between the prior mean b and the observed value: the old one, the new one *)
  exists D D', 0 < D /\ 0 < D' /\ mu0 e = b + (f - b) / (1 + D) /\ mu0 e' = b + (f' - b) / (1 + D').
Proof.
  intros condf f f' b Hf. destruct (run1 condf f 0 b ltac:(lra)) as (d & su & Ed & Es & ER).
  destruct (data1 f' 0 ltac:(lra)) as (d' & Ed' & Dn & Dx & Df & Db & Ds & _ & _ & _ & HI). destruct (data1 f 0 ltac:(lra)) as (d0 & Ed0 & Cn & Cx & Cf & Cb & Cs & _ & _ & _ & _).
  assert (d0 = d) by congruence. subst d0.
  destruct (C30_setup_succeeds o1 d' condf (hp1 b) 1 b false (HI b)) as (su' & Es' & _).
  destruct (mean1 f 0 b d condf su Ed ltac:(lra) Es) as (D & e & DP & Hc & Ee & L & M).
  destruct (mean1 f' 0 b d' condf su' Ed' ltac:(lra) Es') as (D' & e' & DP' & Hc' & Ee' & L' & M').
  assert (EQ : eval_model o1 d' (hp1 b) su x1 false false = eval_model o1 d (hp1 b) su x1 false false).
  { unfold eval_model, data_scl_2_init, eval_blocks, get_scl_x_w_dist. rewrite Ds, Cs, Dx, Cx, Db, Cb. reflexivity. }
  exists e, e'. rewrite run_app, ER. cbv zeta. unfold run at 1. unfold run. cbn [fold_left]. unfold data_op. cbn [step p_opt]. rewrite Ed'. cbn [fst].
  split. { eapply (eval_at _ d' (hpo1 2 None) (hpo1 2 None) (hp1 b) su); try reflexivity; [exact Hc|apply hpo_eq_refl|rewrite <- Ee; exact EQ]. }
  erewrite (setup_at condf false _ d' (hpo1 2 None) (hp1 b) su'); [|reflexivity|reflexivity|reflexivity|exact Es'].
  split; [reflexivity|]. cbn [fst]. split. { eapply (eval_at _ d' (hpo1 2 None) (hpo1 2 None) (hp1 b) su'); try reflexivity; [exact Hc'|apply hpo_eq_refl|exact Ee']. }
  split; [|exists D, D'; auto]. unfold mu0. rewrite M, M'. intros C. assert (X : (f - b) / (1 + D) = (f' - b) / (1 + D')) by lra.
  assert (Y : (f - b) = (f' - b) * ((1 + D) / (1 + D'))). { apply (Rmult_eq_compat_r (1 + D)) in X. unfold Rdiv in X at 1. rewrite Rmult_assoc, Rinv_l, Rmult_1_r in X by lra. rewrite X. field. lra. }
  assert (Z : 0 < (1 + D) / (1 + D')) by (apply Rdiv_lt_0_compat; lra). rewrite Y in Hf.
  assert (0 <= (f' - b) * ((1 + D) / (1 + D')) * (f' - b)). { replace ((f' - b) * ((1 + D) / (1 + D')) * (f' - b)) with (((1 + D) / (1 + D')) * (f' - b) ^ 2) by ring. apply Rmult_le_pos; [lra|apply pow2_ge_0]. } lra.
Qed.
Print Assumptions C33_new_data_refuted.

Lemma shifted f sd b b' d condf su vf : set_data o1 x1 (vconst 1 f) (SdOk (vconst 1 sd)) None SdNone None = Ok d -> 0 <= sd ->
  setup_eval_model o1 d condf (hp1 b) false = Ok su ->
  exists D e, 0 < D /\ has (k_chofac (su_K su)) = true /\
    eval_model o1 d (mkhp (Some (mkvec 1 (fun i => nth i [b'] 0))) (mkvec 1 (fun i => nth i [1] 0)) None (Some 1) vf None) su x1 false false = Ok e /\
    mu0 e = b' + (f - b) / (1 + D).
Proof.
  intros Ed Hsd Es. destruct (mean1 f sd b d condf su Ed Hsd Es) as (D & e & DP & Hc & Ee & L & M).
  destruct (data1 f sd Hsd) as (d0 & Ed0 & _ & _ & _ & _ & NS & _). assert (d0 = d) by congruence. subst d0.
  destruct (eval_other_beta o1 d (hp1 b) su x1 e _ (mkvec 1 (fun i => nth i [b'] 0)) b b' NS eq_refl eq_refl eq_refl eq_refl eq_refl Ee vf None) as (e' & Ee' & L' & M').
  exists D, e'. split; [exact DP|]. split; [exact Hc|]. split; [exact Ee'|]. unfold mu0. rewrite M', M by lia. ring.
Qed.
(** Writing into the array that was given as beta: the evaluation mixes the new mean coefficient with the
    factorisation and residuals of the old one. *)
Theorem C33_array_written_in_place_refuted : forall (condf : mat -> R) (f b b' : R), b <> b' ->
  exists e e', let s := run condf (prog1 f 0 b ++ [WriteArray 0 (fv1 b')]) (gp_new o1) in
  do_eval s x1 false false = Ok (Some e) /\
  snd (do_setup condf false s) = Ok tt /\ do_eval (fst (do_setup condf false s)) x1 false false = Ok (Some e') /\
  ((f - b) * (f - b') < 0 -> mu0 e <> mu0 e') /\
  exists D D', 0 < D /\ 0 < D' /\ mu0 e = b' + (f - b) / (1 + D) /\ mu0 e' = b' + (f - b') / (1 + D').
Proof.
  intros condf f b b' Hb. destruct (run1 condf f 0 b ltac:(lra)) as (d & su & Ed & Es & ER).
  destruct (data1 f 0 ltac:(lra)) as (d0 & Ed0 & _ & _ & _ & _ & _ & _ & _ & _ & HI). assert (d0 = d) by congruence. subst d0.
  destruct (C30_setup_succeeds o1 d condf (hp1 b') 1 b' false (HI b')) as (su' & Es' & _).
  destruct (shifted f 0 b b' d condf su None Ed ltac:(lra) Es) as (D & e & DP & Hc & Ee & M).
  destruct (mean1 f 0 b' d condf su' Ed ltac:(lra) Es') as (D' & e' & DP' & Hc' & Ee' & L' & M').
  exists e, e'. rewrite run_app, ER. cbv zeta. unfold run at 1. unfold run. cbn [fold_left]. 
  match goal with |- context [step condf (WriteArray 0 (fv1 b')) ?g] => replace (fst (step condf (WriteArray 0 (fv1 b')) g)) with (upd_arr g 0 (fv1 b')) by reflexivity end.
  split. { eapply (eval_at _ d (hpo1 2 None) (hpo1 2 None) (hp1 b') su); try reflexivity; [exact Hc|apply hpo_eq_refl|exact Ee]. }
  erewrite (setup_at condf false _ d (hpo1 2 None) (hp1 b') su'); [|reflexivity|reflexivity|reflexivity|exact Es'].
  split; [reflexivity|]. cbn [fst]. split. { eapply (eval_at _ d (hpo1 2 None) (hpo1 2 None) (hp1 b') su'); try reflexivity; [exact Hc'|apply hpo_eq_refl|exact Ee']. }
  split; [|exists D, D'; auto]. intros Hlt C. unfold mu0 in *. rewrite M, M' in C.
  assert (X : (f - b) / (1 + D) = (f - b') / (1 + D')) by lra.
  assert (Y : (f - b) = (f - b') * ((1 + D) / (1 + D'))). { apply (Rmult_eq_compat_r (1 + D)) in X. unfold Rdiv in X at 1. rewrite Rmult_assoc, Rinv_l, Rmult_1_r in X by lra. rewrite X. field. lra. }
  assert (Z : 0 < (1 + D) / (1 + D')) by (apply Rdiv_lt_0_compat; lra). rewrite Y in Hlt.
  assert (0 <= (f - b') * ((1 + D) / (1 + D')) * (f - b')). { replace ((f - b') * ((1 + D) / (1 + D')) * (f - b')) with (((1 + D) / (1 + D')) * (f - b') ^ 2) by ring. apply Rmult_le_pos; [lra|apply pow2_ge_0]. } lra.
Qed.
Print Assumptions C33_array_written_in_place_refuted.

(** A set-up that raises is not noticed by a later evaluation: the new hyperparameters (here with a noise variance
    although the noise is given with the data, so that no set-up accepts them) are evaluated with the old factorisation. *)
Theorem C33_failed_setup_refuted : forall (condf : mat -> R) (f b b' : R),
  exists e, let s0 := run condf (prog1 f 1 b ++ [NewArray (fv1 b')]) (gp_new o1) in
  let g := mkarg (Some 6%nat) (Some 1%nat) None (Some (Some 1)) (Some (Some 2)) None in
  let r := step condf (SetHparaSet g false) s0 in
  snd r = Err EAssert /\ snd (do_setup condf false (fst r)) = Err EAssert /\
  do_eval (fst r) x1 false false = Ok (Some e) /\ exists D, 0 < D /\ mu0 e = b' + (f - b) / (1 + D).
Proof.
  intros condf f b b'. destruct (run1 condf f 1 b ltac:(lra)) as (d & su & Ed & Es & ER).
  destruct (data1 f 1 ltac:(lra)) as (d0 & Ed0 & Dn & Dx & Df & Db & Ds & Dk & Dst & Dno & HI). assert (d0 = d) by congruence. subst d0. 
  destruct (shifted f 1 b b' d condf su (Some 2) Ed ltac:(lra) Es) as (D & e & DP & Hc & Ee & M).
  set (hpn := mkhp (Some (mkvec 1 (fun i => nth i [b'] 0))) (mkvec 1 (fun i => nth i [1] 0)) None (Some 1) (Some 2) None) in *.
  assert (EF : setup_eval_model o1 d condf hpn false = Err EAssert).
  { unfold setup_eval_model in *. destruct (get_scl_x_w_dist d) as (X, Rt) eqn:EX. binv Es e0 Ee0. rewrite Ee0. destruct e0 as (((fv, sf), gr), sg).
    cbn [bind] in *. cbn [hp1 hpn hp_beta need_beta bind] in *.
    assert (EM : forall v w, vlen v = vlen w -> forall m, eval_mean_fun o1 X v (d_bvec d) None (o_use_grad o1) false = Ok m ->
       exists m', eval_mean_fun o1 X w (d_bvec d) None (o_use_grad o1) false = Ok m').
    { intros v w L m H. unfold eval_mean_fun in *. rewrite <- L. cbn [o1 gp_init o_use_grad] in *. binv_assert H. rewrite HA. cbn [assert_ bind] in *. destruct (calc_vand (o_dim o1) X) as (vb, vg). unfold mdotv in *.
      rewrite <- L. destruct (nc vb =? vlen v)%nat; [|discriminate]. eexists. reflexivity. }
    binv Es m Em. destruct (EM (mkvec 1 (fun i => nth i [b] 0)) (mkvec 1 (fun i => nth i [b'] 0)) eq_refl _ Em) as (((m1, m2), m3) & ->). destruct m as ((m4, m5), m6). cbn [bind] in *.
    binv Es k Ek. unfold calc_all_K_w_chofac in *. binv_assert Ek. rewrite HA. cbn [assert_ bind] in *. cbn [hp1 hpn hp_varK bind] in *. binv Ek nv Env.
    unfold calc_noise_vec in *. binv Env ss Ess. rewrite Ess. cbn [bind]. destruct ss as (s1, s2). cbn [o1 gp_init o_use_grad negb]. rewrite Dk. reflexivity. }
  exists e. rewrite run_app, ER. cbv zeta. unfold run. cbn [fold_left]. 
  match goal with |- context [step condf (NewArray (fv1 b')) ?g] => set (s0 := fst (step condf (NewArray (fv1 b')) g)) end.
  assert (A1 : arg_ok s0 (mkarg (Some 6%nat) (Some 1%nat) None (Some (Some 1)) (Some (Some 2)) None) = true) by reflexivity.
  set (q := mkhpo (AUser 6) (AUser 1) SNone (SVal 8 (Some 1)) (SVal 9 (Some 2)) SNone).
  set (s1 := upd_hp (bump s0 4) (Some q)).
  assert (HV : hpv_of SqExp (rd_hp s1 q) = Ok (Some hpn)) by reflexivity.
  assert (E1 : do_setup condf false s1 = (upd_setup s1 (Some q), Err EAssert)).
  { unfold do_setup. replace (p_data (upd_setup s1 (p_hp s1))) with (Some d) by reflexivity. replace (p_hp (upd_setup s1 (p_hp s1))) with (Some q) by reflexivity.
    cbv iota beta zeta. replace (hpv_of (o_kernel (p_opt (upd_setup s1 (p_hp s1)))) (rd_hp (upd_setup s1 (p_hp s1)) q)) with (Ok (Some hpn)) by (symmetry; exact HV).
    replace (p_opt (upd_setup s1 (p_hp s1))) with o1 by reflexivity. rewrite EF. reflexivity. }
  assert (E0 : step condf (SetHparaSet (mkarg (Some 6%nat) (Some 1%nat) None (Some (Some 1)) (Some (Some 2)) None) false) s0 = (upd_setup s1 (Some q), Err EAssert)).
  { cbn [step]. rewrite A1. rewrite <- E1. reflexivity. }
  rewrite E0. cbn [fst snd]. split; [reflexivity|]. split.
  { replace (do_setup condf false (upd_setup s1 (Some q))) with (do_setup condf false s1) by reflexivity. rewrite E1. reflexivity. }
  split; [|exists D; auto].
  eapply (eval_at _ d q q hpn su); [reflexivity|reflexivity|reflexivity|reflexivity|exact Hc|apply hpo_eq_refl|exact HV|exact Ee].
Qed.
Print Assumptions C33_failed_setup_refuted.

(** The hypotheses of C33_no_stale_result_partial and C33_other_hyperparameters_are_rejected are met: equal hyperparameters
    given again after a set-up are accepted and evaluated, another theta is rejected. *)
Definition prog0 (f b : R) : list op := [NewArray (fv1 b); NewArray (fv1 1); data_op f 0; AssignHp (arg1 None)].
Lemma run0 condf f b : exists d su, set_data o1 x1 (vconst 1 f) (SdOk (vconst 1 0)) None SdNone None = Ok d /\
  setup_eval_model o1 d condf (hp1 b) false = Ok su /\
  let s := run condf (prog0 f b) (gp_new o1) in
  s = mkgp o1 (Some d) (Some (hpo1 2 None)) None SuNone (arr1 b) (fun _ => init_optz_surr 0 0 0) None 6 /\
  do_setup condf false s = (mkgp o1 (Some d) (Some (hpo1 2 None)) (Some (hpo1 2 None)) (SuOk su) (arr1 b) (fun _ => init_optz_surr 0 0 0) None 6, Ok tt).
Proof.
  destruct (data1 f 0 ltac:(lra)) as (d & E & _ & _ & _ & _ & _ & _ & _ & _ & HI).
  destruct (C30_setup_succeeds o1 d condf (hp1 b) 1 b false (HI b)) as (su & Es & _). exists d, su. split; [exact E|]. split; [exact Es|]. cbv zeta.
  assert (X : run condf (prog0 f b) (gp_new o1) = mkgp o1 (Some d) (Some (hpo1 2 None)) None SuNone (arr1 b) (fun _ => init_optz_surr 0 0 0) None 6).
  { unfold prog0, data_op, run. cbn [fold_left]. cbn [step fst gp_new bump upd_arr p_opt p_new]. rewrite E. cbn [fst upd_data step].
    match goal with |- context [arg_ok ?s ?g] => replace (arg_ok s g) with true by reflexivity end. reflexivity. }
  split; [exact X|]. rewrite X. erewrite (setup_at condf false _ d _ (hp1 b) su); [|reflexivity|reflexivity|reflexivity|exact Es]. reflexivity.
Qed.
Example no_stale_result_is_met : forall (condf : mat -> R) (f b : R), exists s0 s1 e, reachable condf s0 /\ do_setup condf false s0 = (s1, Ok tt) /\
  List.Forall replaces_hp_only [AssignHp (arg1 None)] /\ do_eval (run condf [AssignHp (arg1 None)] s1) x1 false false = Ok (Some e).
Proof.
  intros condf f b. destruct (run0 condf f b) as (d & su & Ed & Es & R1 & R2). destruct (mean1 f 0 b d condf su Ed ltac:(lra) Es) as (D & e & _ & Hc & Ee & _).
  do 3 eexists. split; [exists o1, (prog0 f b); reflexivity|]. split; [exact R2|]. split; [repeat constructor|].
  unfold run. cbn [fold_left step]. match goal with |- context [arg_ok ?s ?g] => replace (arg_ok s g) with true by reflexivity end. cbv iota. cbn [mk_hp fst].
  eapply (eval_at _ d (hpo1 6 None) (hpo1 2 None) (hp1 b) su); try reflexivity; [exact Hc| |exact Ee].
  unfold hpo_eq, hpo1. cbn. destruct (Req_EM_T 1 1) as [_|N]; [reflexivity|lra].
Qed.
Example other_hyperparameters_is_met : forall (condf : mat -> R) (f b : R), exists s0 s1, reachable condf s0 /\ do_setup condf false s0 = (s1, Ok tt) /\
  let xs := [NewArray (fv1 2); AssignHp (mkarg (Some 0%nat) (Some 6%nat) None (Some (Some 1)) None None)] in
  List.Forall replaces_hp_only xs /\ ~ same_ohp (hp_now (run condf xs s1)) (hp_now s0).
Proof.
  intros condf f b. destruct (run0 condf f b) as (d & su & Ed & Es & R1 & R2).
  do 2 eexists. split; [exists o1, (prog0 f b); reflexivity|]. split; [exact R2|]. cbv zeta. split; [repeat constructor|].
  rewrite R1. unfold hp_now, run. cbn. intros (_ & (_ & H) & _). specialize (H 0%nat ltac:(simpl; lia)). simpl in H. injection H as H. lra.
Qed.
