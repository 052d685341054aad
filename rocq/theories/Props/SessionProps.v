(** * Property C47: a session.  set_data, then set_hpara('optz'), then eval_model: the predictions are those of the
    Gaussian process conditioned on the data handed over, with the hyperparameters found.
    Vocabulary: [Spec/SessionSpec.v], [Spec/GpSpec.v] (data_after), [Spec/EvalSpec.v] (posterior). *)
From Coq Require Import Reals List Arith Bool Lia Lra.
From Coquelicot Require Import Coquelicot.
From Verif.Base Require Import NpLite NpFacts.
From Verif.Spec Require Import KernelSpec LinAlgSpec GpSpec HpSpec DataSpec LkdSpec OptzSpec ThetaSpec RescaleSpec EvalSpec CondSpec StartSpec HistSpec ObjSpec SessionSpec.
From Verif.Model Require Import KernelSqExp KernelMatern KernelRatQuad KernelDispatch CommonFun WellCond Rescaling GpState Chol Cov HpInfo HpGrad MeanFun Lkd OptzLkd RescaleLoop EvalModel History StartPts OptzHp Object Session.
From Verif.Proofs Require Import KernTac LinAlg CovStruct StateFacts RescaleFacts NoiseFacts HpInfoFacts LkdCore LkdFacts LkdMain EvalMain OptzHpFacts HistFacts ObjFacts SessionFacts.
From Verif.Props Require Import CondProps DataProps HpGradProps LkdProps EvalProps EvalProps2 OptzProps ThetaProps StartProps OptzHpProps OptzTotal OptzTotal2 ObjProps2 ObjProps3 HistProps.
Import ListNotations.
Local Open Scope R_scope.

(** what the numerical part reads of the hyperparameters found *)
Definition canon (v : vec) : vec := mkvec (vlen v) (fun i => nth i (map fl_val (fv_list (float_array v))) 0).
Lemma canon_at v i : (i < vlen v)%nat -> vat (canon v) i = vat v i.
Proof. intros Hi. unfold canon, fv_list. cbn [vat float_array fv_len fv_at]. rewrite map_map. cbn [fl_val]. rewrite (nth_indep _ 0 (vat v 0)) by (rewrite map_length, seq_length; exact Hi). rewrite (map_nth (fun j => vat v j)). rewrite seq_nth by exact Hi. reflexivity. Qed.
Lemma real_canon v : fv_real (float_array v) = Some (canon v).
Proof.
  unfold fv_real. replace (forallb fl_some (fv_list (float_array v))) with true; [reflexivity|]. symmetry. apply forallb_forall. intros y Hy. unfold fv_list in Hy. apply in_map_iff in Hy. destruct Hy as (j & <- & _). reflexivity.
Qed.
Definition read_hp (k : kernel) (hp : hpv) : hpv :=
  mkhp (option_map canon (hp_beta hp)) (canon (hp_theta hp)) (if kernel_has_hp k then hp_kernel hp else None) (hp_varK hp) (hp_var_fval hp) (hp_var_fgrad hp).
Lemma seen_read k hp : hpv_of k (seen_hp hp) = Ok (Some (read_hp k hp)).
Proof.
  assert (S : forall x, sc_real (float_or_none x) = Some x) by (intros [x|]; reflexivity).
  unfold hpv_of, seen_hp. cbn [x_theta x_beta x_kernel x_varK x_var_fval x_var_fgrad]. rewrite real_canon, !S. unfold read_hp.
  destruct (hp_beta hp) as [b|]; cbn [option_map]; rewrite ?real_canon; cbn [option_map]; destruct (kernel_has_hp k); reflexivity.
Qed.
Lemma read_input o d hp vK b0 : eval_input o d hp vK b0 -> eval_input o d (read_hp (o_kernel o) hp) vK b0 /\ same_numbers o hp (read_hp (o_kernel o) hp).
Proof.
  intros (H1 & H2 & H3 & (L & P & K) & (N1 & N2) & H6 & H7 & H8 & (beta & B1 & B2 & B3) & H9). unfold read_hp. split.
  - split; [exact H1|]. split; [exact H2|]. split; [exact H3|]. split.
    { split; [exact L|]. split; [intros i Hi; cbn [hp_theta]; rewrite canon_at by lia; apply P, Hi|]. cbn [hp_kernel]. destruct (o_kernel o); try exact K; exact I. }
    split; [split; assumption|]. split; [exact H6|]. split; [exact H7|]. split; [exact H8|]. split; [|exact H9].
    exists (canon beta). cbn [hp_beta]. rewrite B1. split; [reflexivity|]. split; [exact B2|]. rewrite canon_at by lia. exact B3.
  - unfold same_numbers. cbn [hp_theta hp_beta hp_kernel hp_varK hp_var_fval hp_var_fgrad]. split; [reflexivity|]. split; [intros i Hi; rewrite canon_at by lia; reflexivity|].
    split; [exists beta, (canon beta); rewrite B1; repeat split; auto; rewrite canon_at by lia; reflexivity|]. split; [intros ->; reflexivity|]. auto.
Qed.

(** storing what was found *)
Lemma found_hp_now i hp rep cond t1 t2 t3 s : hp_now (fst (do_found i hp rep cond t1 t2 t3 s)) = Some (seen_hp hp).
Proof.
  unfold do_found. set (s1 := upd_arr _ _ _). destruct (mk_hp s1 _) as (s2, q) eqn:E.
  assert (RQ := f_equal (fun p => rd_hp (fst p) (snd p)) E). cbn [fst snd] in RQ. rewrite rd_mk in RQ.
  rewrite (store_hp_now _ _ _ _ _ _ _ _ (seen_hp hp)); [reflexivity| | |].
  - injection E as <- <-. unfold hpo_in, arr_in. destruct (hp_beta hp); cbn; lia.
  - injection E as <- <-. destruct (hp_beta hp); exact I.
  - rewrite <- RQ. unfold given_hp, seen_hp, s1. cbn. assert (X : (p_new s =? p_new s + 1)%nat = false) by (apply Nat.eqb_neq; lia). rewrite Nat.eqb_refl.
    destruct (hp_beta hp) as [b|]; cbn; rewrite ?X, ?Nat.eqb_refl; destruct (hp_kernel hp), (hp_varK hp), (hp_var_fval hp), (hp_var_fgrad hp); reflexivity.
Qed.
Lemma np_var_pop v : np_var v = pop_var v.
Proof.
  assert (X : forall n a g, fold_right Rplus 0 (map g (seq a n)) = rsum n (fun k => g (a + k)%nat)).
  { induction n as [|n IH]; intros a g; [reflexivity|]. rewrite seq_S, map_app, fold_right_app. cbn [rsum map fold_right].
    assert (Y : forall l z, fold_right Rplus z l = fold_right Rplus 0 l + z) by (induction l as [|q l IHl]; intros z; cbn [fold_right]; [ring|rewrite (IHl z); ring]).
    rewrite Y, IH. ring. }
  unfold np_var, pop_var, pop_mean. cbv zeta. rewrite !X. reflexivity.
Qed.
Lemma found_recorded i hp rep cond t1 t2 t3 s s' : do_found i hp rep cond t1 t2 t3 s = (s', Ok tt) -> widths (vlen (hp_theta hp)) s -> 
  (forall d r, p_data s = Some d -> d_scl d = Some r -> vlen (r_scale r) = vlen (hp_theta hp)) -> (exists b, hp_beta hp = Some b /\ vlen b = 1%nat) ->
  forall h, current_history s' = Some h -> holds_hp h i hp /\ h_col h Qcond i = cond /\ holds_report h i rep /\ holds_times h i t1 t2 t3 /\
    (forall d, p_data s = Some d -> vlen (hp_theta hp) = o_dim (p_opt s) -> holds_state h i (p_opt s) d hp cond).
Proof.
  intros H W HX (b & Eb & Lb) h Hh. unfold do_found in H. set (s1 := upd_arr _ _ _) in H. destruct (mk_hp s1 _) as (s2, q) eqn:E.
  assert (RQ := f_equal (fun p => rd_hp (fst p) (snd p)) E). cbn [fst snd] in RQ. rewrite rd_mk in RQ.
  assert (RF : rd_hp s2 q = seen_hp hp).
  { rewrite <- RQ. unfold given_hp, seen_hp, s1. cbn. assert (X : (p_new s =? p_new s + 1)%nat = false) by (apply Nat.eqb_neq; lia). rewrite Nat.eqb_refl, Eb. cbn. rewrite X, Nat.eqb_refl.
    destruct (hp_kernel hp), (hp_varK hp), (hp_var_fval hp), (hp_var_fgrad hp); reflexivity. }
  assert (FC : p_cur s2 = p_cur s /\ p_data s2 = p_data s /\ p_hist s2 = p_hist s /\ p_opt s2 = p_opt s) by (injection E as <- _; repeat split). destruct FC as (C1 & C2 & C3 & C4).
  unfold do_store in H. cbn [upd_hp p_cur p_data p_opt p_hist] in H. rewrite C1, C2, C3, C4 in H. unfold current_history in Hh.
  destruct (p_cur s) as [g|] eqn:Eg.
  2:{ injection H as <-. cbn in Hh. rewrite C1 in Hh. discriminate. }
  destruct (p_data s) as [d|] eqn:ED; [|discriminate]. change (rd_hp (upd_hp s2 (Some q)) q) with (rd_hp s2 q) in H. rewrite RF in H.
  assert (WH : h_w (p_hist s g) Tbeta = 1%nat /\ h_w (p_hist s g) Ttheta = vlen (hp_theta hp) /\ h_w (p_hist s g) Txscl = vlen (hp_theta hp)) by (apply W; unfold current_history; rewrite Eg; reflexivity).
  destruct WH as (W1 & W2 & W3).
  destruct (store_row _ i (seen_hp hp) _ _ _ _ _ _) as (h', [[]|e]) eqn:ES; cbn [fst snd] in H; [|discriminate]. injection H as <-. cbn in Hh. rewrite C1 in Hh. cbn in Hh. rewrite Nat.eqb_refl in Hh. injection Hh as <-.
  assert (ND : cond <> None).
  { intros EN. rewrite EN in ES. clear -ES. unfold store_row in ES. cbn [pyf_of] in ES.
    assert (X : forall m k g, (forall g', exists e, snd (k g') = Err e) -> exists e, snd (hseq m k g) = Err e).
    { intros m k g0 Hk. unfold hseq. destruct (m g0) as [g1 [t|e]]; [apply Hk|exists e; reflexivity]. }
    match type of ES with ?m _ = _ => assert (Y : exists e, snd (m (p_hist s g)) = Err e) end.
    { do 11 (apply X; intro). exists EType. reflexivity. }
    rewrite ES in Y. destruct Y as (e & Y). discriminate. }
  assert (Hi : (i < h_n (p_hist s g))%nat).
  { destruct (Nat.lt_ge_cases i (h_n (p_hist s g))) as [L|L]; [exact L|]. exfalso. unfold store_row, hseq at 1, wr_col at 1 in ES. apply Nat.ltb_ge in L. rewrite L in ES. discriminate. }
  destruct (store_spec (hattr_of (p_opt s) d) i (seen_hp hp) (option_map hinfo_of rep) (pyf_of cond) t1 t2 t3 (p_hist s g) (float_array b) (float_array (hp_theta hp)) Hi) as (h0 & E0 & N0 & W0 & Sb & St & Sk & Sv & Sf & Sg & Sc).
  { unfold seen_hp. cbn. rewrite Eb. reflexivity. } { cbn. congruence. } { reflexivity. } { cbn. congruence. }
  { intros sx. unfold hattr_of. cbn. destruct (d_scl d) as [r|] eqn:Er; [|discriminate]. intros [= <-]. cbn. rewrite W3. apply (HX d r eq_refl Er). }
  { destruct cond; [discriminate|congruence]. }
  assert (h0 = h') by congruence. subst h0.
  assert (SL : forall x : option R, slot (float_or_none x) = x) by (intros [x|]; reflexivity).
  split; [|split; [rewrite Sc; destruct cond; reflexivity|]].
  2:{ destruct (C35_every_quantity_in_its_own_place (p_hist s g) i (seen_hp hp) (hattr_of (p_opt s) d) (option_map hinfo_of rep) (pyf_of cond) t1 t2 t3 (float_array b) (float_array (hp_theta hp)) Hi) as (h1 & E1 & _ & _ & _ & _ & _ & _ & T1 & T2 & T3 & R1 & R2 & R3 & _ & R5 & R6 & _ & R8 & _ & RP & _ & R9 & R10 & _).
      { unfold seen_hp. cbn. rewrite Eb. reflexivity. } { cbn. congruence. } { reflexivity. } { cbn. congruence. }
      { intros sx. unfold hattr_of. cbn. destruct (d_scl d) as [r|] eqn:Er; [|discriminate]. intros [= <-]. cbn. rewrite W3. apply (HX d r eq_refl Er). }
      { destruct cond; [discriminate|congruence]. }
      assert (h1 = h') by congruence. subst h1. split; [|split; [repeat split; assumption|]]. { intros r Er. rewrite Er in RP. exact (RP _ eq_refl). }
      intros d' [= <-] LD. unfold hattr_of in *. cbn [ha_use_grad ha_eta_b ha_eta_g ha_vmin ha_vreq ha_xscl ha_cond_max ha_fval] in *. rewrite <- np_var_spec in *. rewrite np_var_pop in *. unfold holds_state.
      assert (SE : slot (match d_eta_Kgrad d with Some x => PNum x | None => PNone end) = d_eta_Kgrad d) by (destruct (d_eta_Kgrad d); reflexivity). rewrite SE in *.
      split; [exact R2|]. split; [exact R3|]. split; [exact R1|]. split.
      { rewrite R5. split; intros (c & A & B); exists c; (split; [|exact B]); destruct cond; cbn in *; congruence. }
      split; [intros m Em; rewrite R6, Em; reflexivity|]. split.
      { intros r k Er Hk. rewrite Er in R8. rewrite (R8 _ k eq_refl) by (rewrite W3; lia). reflexivity. }
      split; [exact R9|]. intros HP. rewrite (R10 HP). cbn. destruct (hp_varK hp); reflexivity. }
  split; [lia|]. rewrite W0. split; [intros k Hk; rewrite St; cbn [float_array fv_len fv_at]; rewrite bix_lt by congruence; reflexivity|].
  split; [intros k Hk; exists b; split; [exact Eb|]; rewrite Sb; cbn [float_array fv_len fv_at]; rewrite bix_lt by congruence; reflexivity|].
  rewrite Sk, Sv, Sf, Sg. cbn [seen_hp x_kernel x_varK x_var_fval x_var_fgrad]. rewrite !SL. auto.
Qed.

(** what an optimisation on an object with data ends with *)
Lemma outcome la lhs mini c h i s s' hp cond rep : clean s -> optz_ready s -> scale_defined (g_opt s) (g_data s) -> init_ok (c_init c) -> (0 < c_const_n c)%nat ->
  optz_hp la lhs mini c h i s = (s', Ok (hp, cond, rep)) ->
  (exists vK b0, eval_input (g_opt s) (g_data s') hp vK b0) /\ ((c_const_n c < d_n_eval (g_data s))%nat -> best_mean_and_variance (g_opt s) (g_data s') (la_cond la) hp).
Proof.
  intros C HR SD IO CN H. assert (F := optz_hp_fresh la lhs mini c h i s C). rewrite H in F. destruct (optz_hp la lhs mini c h i (fresh s)) as [s0 r0] eqn:E0. destruct F as (F1 & F2 & F3 & F4). cbn [fst snd] in *. subst r0.
  assert (HR0 : optz_ready (fresh s)) by exact HR. assert (ED : g_data s0 = g_data s') by apply F4. rewrite <- ED.
  destruct (Nat.le_gt_cases (d_n_eval (g_data s)) (c_const_n c)) as [NF|NF].
  { split; [|lia]. destruct HR0 as (H1 & H2 & H3 & H4 & H5 & H6 & HI). destruct (C41_few_points la lhs mini c h i (fresh s) H1 H2 H3 H6 IO NF) as (A & hp' & beta & cond' & E & _ & _ & _ & _ & _ & _ & _ & _ & _ & _ & EV & _).
    rewrite E0 in *. cbn [fst snd] in *. subst s0. injection E as <- _ _. cbn [fresh new_obj g_data g_opt] in *. eauto. }
  destruct (is_rescale (o_well (g_opt s))) eqn:W; [destruct (Nat.lt_ge_cases 1 (c_max_iter c)) as [MI|MI]|].
  - destruct (C41_rescaled la lhs mini c h i (g_opt s) (g_lk s) (g_data s) (g_info s) [] HR0 NF ltac:(cbn; lia) W MI s0 hp cond rep E0) as (starts & bnd & x0s & best0 & cond0 & inf & r & best' & r' & _ & _ & _ & _ & D1 & _ & O1 & _ & _ & D2 & _ & _ & BM & EV & _).
    rewrite O1 in *. cbn [do_events fold_left new_obj g_opt] in *. split; [|auto]. apply EV.
    destruct (optz_hp_keeps la lhs mini c h i (fresh s) I) as (_ & _ & _ & _ & K). rewrite E0 in K. cbn [fst fresh new_obj g_data g_opt] in K. destruct K as [->|(_ & scale & K)]; [exact SD|].
    destruct HR as (H1 & H2 & _). eapply rescale_positive; eassumption.
  - assert (S0 : snd (optz_hp la lhs mini c h i (fresh s)) = Ok (hp, cond, rep)) by (rewrite E0; reflexivity).
    destruct (C41_stored_hyperparameters la lhs mini c h i (g_opt s) (g_lk s) (g_data s) (g_info s) [] HR0 NF (or_intror MI) hp cond rep S0) as (st & bnd & x0s & best & inf & _ & _ & _ & _ & _ & BM & EV & _ & SM).
    cbn [do_events fold_left] in SM. change (new_obj (g_opt s) (g_lk s) (g_data s) (g_info s)) with (fresh s) in SM. rewrite E0 in SM. cbn [fst] in SM. destruct SM as (_ & _ & S3 & _). rewrite <- S3. split; [apply EV, SD|auto].
  - assert (S0 : snd (optz_hp la lhs mini c h i (fresh s)) = Ok (hp, cond, rep)) by (rewrite E0; reflexivity).
    destruct (C41_stored_hyperparameters la lhs mini c h i (g_opt s) (g_lk s) (g_data s) (g_info s) [] HR0 NF (or_introl W) hp cond rep S0) as (st & bnd & x0s & best & inf & _ & _ & _ & _ & _ & BM & EV & _ & SM).
    cbn [do_events fold_left] in SM. change (new_obj (g_opt s) (g_lk s) (g_data s) (g_info s)) with (fresh s) in SM. rewrite E0 in SM. cbn [fst] in SM. destruct SM as (_ & _ & S3 & _). rewrite <- S3. split; [apply EV, SD|auto].
Qed.

(** the options of a session this is about: the defaults, but for the kernel, the dimension and the method against
    ill-conditioning *)
Definition session_options (o : gpopt) (lo : lkopt) (c : optzcfg) : Prop :=
  opts_ok o /\ (o_well o = Wprecon -> o_use_grad o = true) /\ log_scale lo /\ alpha_decided o lo /\ init_ok (c_init c) /\ (0 < c_const_n c)%nat.

(** ** C47.  Any past, then set_data, then anything but new data and 'stored' hyperparameters (further optimisations
    included), then set_hpara('optz'), successfully. *)
Theorem C47_optimised_model :
  forall (la : npla) (lhs : sampler) (mini : minimiser) (o : gpopt) (lo : lkopt) (c : optzcfg) (past : list zop)
    (x : mat) (fval : vec) (sf : stdarg vec) (gr : option mat) (sg : stdarg mat) (b : option (list bool)) (z1 : sess) (d1 : gpdata) (xs : list zop)
    (i : nat) (cc : bool) (t1 t2 t3 : fl) (z3 : sess),
  session_options o lo c ->
  (0 < vlen fval)%nat -> nr x = vlen fval -> nc x = o_dim o ->
  zstep la lhs mini (ZOp (SetData x fval sf gr sg b)) (zrun la lhs mini past (z_new o lo c)) = (z1, Ok tt) -> p_data (z_gp z1) = Some d1 ->
  noise_optimisable o d1 -> scale_defined o d1 ->
  List.Forall leaves_data xs ->
  let z2 := zrun la lhs mini xs z1 in
  zstep la lhs mini (ZFit i cc t1 t2 t3) z2 = (z3, Ok tt) ->
  exists (d2 d3 : gpdata) (info : hpinfo) (h : hist) (s' : gpobj) (hp : hpv) (cond : option R) (rep : option optzinfo),
    (* what is found is what an object that has done nothing else finds from these data (C28, C41) *)
    p_data (z_gp z2) = Some d2 /\ data_after o x fval sf gr sg b d2 /\ setup_hp_idx4optz o d2 lo = Ok info /\
    (current_history (z_gp z2) = Some h \/ (d_n_eval d2 <= c_const_n c)%nat) /\
    optz_hp la lhs mini c h i (new_obj o lo d2 info) = (s', Ok (hp, cond, rep)) /\
    (* the object then has the data handed over, with the scaling the optimisation ended with *)
    p_data (z_gp z3) = Some d3 /\ d3 = g_data s' /\ data_after o x fval sf gr sg b d3 /\
    (* the hyperparameters found are the current ones and the recorded ones *)
    hp_now (z_gp z3) = Some (seen_hp hp) /\ p_setup (z_gp z3) = p_hp (z_gp z3) /\
    (forall h3, current_history (z_gp z3) = Some h3 -> holds_hp h3 i hp /\ h_col h3 Qcond i = cond /\
       (* with the report of the optimisation (C38) and the clock *)
       holds_report h3 i rep /\ (if (d_n_eval d2 <=? c_const_n c)%nat then holds_times h3 i (Some 0) (Some 0) (Some 0) else holds_times h3 i t1 t2 t3) /\
       (* and the state it was made in *)
       holds_state h3 i o d3 hp cond) /\
    ((c_const_n c < d_n_eval d2)%nat -> best_mean_and_variance o d3 (la_cond la) hp) /\
    (* the surrogate is set up with them, and evaluations use it (C29 to C32, C34, C37) *)
    exists (hp' : hpv) (vK b0 : R) (su : surr),
      same_numbers o hp hp' /\ eval_input o d3 hp' vK b0 /\
      setup_eval_model o d3 (la_cond la) hp' cc = Ok su /\ (o_well o = Wprecon \/ cc = false \/ la_cond la (k_Kcov (su_K su)) <= o_cond_max_abs o -> set_up o d3 (la_cond la) hp' cc su) /\
      forall (x2 : mat) (cg ch : bool) (ev : evo), set_up o d3 (la_cond la) hp' cc su -> eval_model o d3 hp' su x2 cg ch = Ok ev -> do_eval (z_gp z3) x2 cg ch = Ok (Some ev).
Proof.
  intros la lhs mini o lo c past x fval sf gr sg b z1 d1 xs i cc t1 t2 t3 z3 (O1 & O2 & O3 & O4 & O5 & O6) N1 N2 N3 H1 ED1 NO SD HF z2 H3.
  assert (Z0 := zinv_run la lhs mini o lo c past _ (zinv_new o lo c)). set (z0 := zrun la lhs mini past (z_new o lo c)) in *.
  assert (Z1 : zinv o lo c z1). { destruct (zstep_frame la lhs mini o lo c (ZOp (SetData x fval sf gr sg b)) z0 Z0) as (A & _). rewrite H1 in A. exact A. }
  assert (D1 : dinv o lo x fval sf gr sg b d1 z1).
  { destruct (zset_ok _ _ _ _ _ _ _ _ _ _ _ H1) as (d & info & E & EI & ->). rewrite (zi_opt _ _ _ _ Z0) in E, EI. rewrite (zi_lk _ _ _ _ Z0) in EI.
    cbn in ED1. injection ED1 as ->. exists d1, info. cbn. repeat split; auto. apply after_set, E. }
  assert (Z2 : zinv o lo c z2) by (apply zinv_run, Z1). assert (D2 := dinv_run la lhs mini o lo c x fval sf gr sg b d1 xs O1 N1 N2 N3 HF z1 Z1 D1). fold z2 in D2.
  destruct D2 as (d2 & info & E1 & E2 & E3 & E4 & E5 & E6 & E7 & E8 & E9 & E10). destruct Z2 as [Y1 Y2 Y3 Y4 Y5].
  cbn [zstep] in H3. unfold zthen in H3. destruct (z_optz la lhs mini i t1 t2 t3 z2) as [za [[]|e]] eqn:EO; [|discriminate]. unfold z_optz in EO. rewrite E1, E2 in EO. cbv zeta in EO.
  match type of EO with match ?x with Some _ => _ | None => _ end = _ => destruct x as [h|] eqn:EH end; [|discriminate].
  set (s := mkobj (p_opt (z_gp z2)) (z_lk z2) d2 info (z_last z2) (z_store z2)) in *. assert (FS : fresh s = new_obj o lo d2 info) by (unfold fresh, s; cbn; rewrite Y1, Y2; reflexivity).
  assert (HD : data_set o d2) by (exists x, fval, sf, gr, sg, b; auto).
  assert (HR : optz_ready s).
  { unfold optz_ready, s. cbn [g_opt g_data g_lk g_info]. rewrite Y1, Y2. split; [exact O1|]. split; [exact HD|]. split; [exact O2|]. split; [exact O3|]. split; [exact O4|]. split; [|exact E5]. unfold noise_optimisable in *. rewrite E6. exact NO. }
  destruct (optz_hp la lhs mini (z_cfg z2) h i s) as [s1 r] eqn:EP. rewrite Y3 in *. destruct r as [[[hp cond] rep]|e]; [|discriminate].
  assert (F := optz_hp_fresh la lhs mini c h i s Y4). rewrite EP in F. rewrite FS in F. destruct (optz_hp la lhs mini c h i (new_obj o lo d2 info)) as [s' r'] eqn:EQ. destruct F as (F1 & F2 & F3 & F4). cbn [fst snd] in *. subst r'.
  assert (GD : g_data s' = g_data s1) by apply F4.
  destruct (outcome la lhs mini c h i s s1 hp cond rep Y4 HR) as ((vK & b0 & EV) & BM); auto; [unfold s; cbn; rewrite Y1; exact E4|]. cbn [s g_opt g_data] in EV, BM. rewrite Y1 in EV, BM.
  assert (K := optz_hp_keeps la lhs mini c h i s Y4). rewrite EP in K. cbn [fst] in K. destruct K as (_ & _ & _ & _ & K). cbn [s g_data] in K.
  assert (DA : data_after o x fval sf gr sg b (g_data s1)). { destruct K as [->|(_ & scale & K)]; [exact E3|]. eapply after_rescale; eassumption. }
  set (t := fun y : fl => if (d_n_eval d2 <=? c_const_n c)%nat then Some 0 else y).
  cbn [z_gp] in EO. do 3 match type of EO with context [if ?b then Some 0 else ?y] => change (if b then Some 0 else y) with (t y) in EO end. destruct (do_found i hp rep cond (t t1) (t t2) (t t3) (upd_data (z_gp z2) (g_data s1))) as [sf' u] eqn:EF. injection EO as <- EU; subst u. unfold zlift in H3. cbn [with_gp z_gp] in H3.
  destruct (found_frame i hp rep cond (t t1) (t t2) (t t3) (upd_data (z_gp z2) (g_data s1)) (o_dim o)) as (G1 & G2 & G3). rewrite EF in G1, G2, G3. cbn [fst upd_data p_opt p_data] in G1, G2, G3.
  assert (HN := found_hp_now i hp rep cond (t t1) (t t2) (t t3) (upd_data (z_gp z2) (g_data s1))). rewrite EF in HN. cbn [fst] in HN.
  assert (LT : vlen (hp_theta hp) = o_dim o) by apply EV.
  assert (REC : forall hh, current_history sf' = Some hh -> holds_hp hh i hp /\ h_col hh Qcond i = cond /\ holds_report hh i rep /\ (if (d_n_eval d2 <=? c_const_n c)%nat then holds_times hh i (Some 0) (Some 0) (Some 0) else holds_times hh i t1 t2 t3) /\ holds_state hh i o (g_data s1) hp cond).
  { assert (X : forall hh, (holds_hp hh i hp /\ h_col hh Qcond i = cond /\ holds_report hh i rep /\ holds_times hh i (t t1) (t t2) (t t3) /\ (forall d, Some (g_data s1) = Some d -> vlen (hp_theta hp) = o_dim (p_opt (z_gp z2)) -> holds_state hh i (p_opt (z_gp z2)) d hp cond)) -> holds_hp hh i hp /\ h_col hh Qcond i = cond /\ holds_report hh i rep /\ (if (d_n_eval d2 <=? c_const_n c)%nat then holds_times hh i (Some 0) (Some 0) (Some 0) else holds_times hh i t1 t2 t3) /\ holds_state hh i o (g_data s1) hp cond).
    { unfold t. intros hh (Q1 & Q2 & Q3 & Q4 & Q5). rewrite Y1 in Q5. specialize (Q5 _ eq_refl LT). destruct (d_n_eval d2 <=? c_const_n c)%nat; auto. }
    intros hh Hh. apply X. revert hh Hh. apply (found_recorded i hp rep cond (t t1) (t t2) (t t3) (upd_data (z_gp z2) (g_data s1)) sf' EF).
    - rewrite LT. exact Y5.
    - cbn. intros d r [= <-] Er. rewrite LT. destruct EV as (_ & HD3 & _). destruct (data_set_scl _ _ r HD3 Er) as (_ & L & _). exact L.
    - destruct EV as (_ & _ & _ & _ & _ & _ & _ & _ & (beta & B1 & B2 & _) & _). eauto. }
  destruct (read_input o (g_data s1) hp vK b0 EV) as (EV' & SN).
  destruct (C30_setup_succeeds o (g_data s1) (la_cond la) (read_hp (o_kernel o) hp) vK b0 cc EV') as (su & ES & EC).
  unfold hp_now in HN. destruct (p_hp sf') as [q|] eqn:EQ'; [|discriminate]. change (Some (rd_hp sf' q) = Some (seen_hp hp)) in HN. assert (HN2 : rd_hp sf' q = seen_hp hp) by congruence. clear HN. rename HN2 into HN.
  assert (OP : p_opt sf' = o) by congruence.
  assert (SA := setup_at (la_cond la) cc sf' (g_data s1) q (read_hp (o_kernel o) hp) su G2 EQ'). rewrite HN, OP in SA. specialize (SA (seen_read (o_kernel o) hp) ES).
  rewrite SA in H3. cbn [fst snd] in H3. injection H3 as <-.
  exists d2, (g_data s1), info, h, s', hp, cond, rep. split; [exact E1|]. split; [exact E3|]. split; [exact E5|].
  split. { destruct (Nat.leb_spec (d_n_eval d2) (c_const_n c)); [right; assumption|left; exact EH]. }
  split; [exact EQ|]. split; [exact G2|]. split; [symmetry; exact GD|]. split; [exact DA|].
  split. { unfold hp_now. cbn. rewrite EQ'. cbn. f_equal. exact HN. }
  split; [symmetry; exact EQ'|]. split; [exact REC|]. split; [exact BM|].
  exists (read_hp (o_kernel o) hp), vK, b0, su. split; [exact SN|]. split; [exact EV'|]. split; [exact ES|]. split; [exact EC|].
  intros x2 cg ch ev (_ & SU) EE. apply (eval_at _ (g_data s1) q q (read_hp (o_kernel o) hp) su); try reflexivity; [exact G2|exact EQ'| |apply hpo_eq_refl| |].
  - destruct (k_chofac (su_K su)); [reflexivity|congruence].
  - change (hpv_of (o_kernel (p_opt sf')) (rd_hp sf' q) = Ok (Some (read_hp (o_kernel o) hp))). rewrite HN, OP. apply seen_read.
  - change (eval_model (p_opt sf') (g_data s1) (read_hp (o_kernel o) hp) su x2 cg ch = Ok ev). rewrite OP. exact EE.
Qed.
Print Assumptions C47_optimised_model.

(** ** Fit, then predict: the posterior mean and variance of the Gaussian process with the hyperparameters found *)
Theorem C47_fit_then_predict :
  forall (la : npla) (lhs : sampler) (mini : minimiser) (o : gpopt) (lo : lkopt) (c : optzcfg) (past : list zop)
    (x : mat) (fval : vec) (sf : stdarg vec) (gr : option mat) (sg : stdarg mat) (b : option (list bool)) (z1 : sess) (d1 : gpdata) (xs : list zop)
    (i : nat) (cc : bool) (t1 t2 t3 : fl) (z3 : sess),
  session_options o lo c ->
  (0 < vlen fval)%nat -> nr x = vlen fval -> nc x = o_dim o ->
  zstep la lhs mini (ZOp (SetData x fval sf gr sg b)) (zrun la lhs mini past (z_new o lo c)) = (z1, Ok tt) -> p_data (z_gp z1) = Some d1 ->
  noise_optimisable o d1 -> scale_defined o d1 ->
  List.Forall leaves_data xs ->
  zstep la lhs mini (ZFit i cc t1 t2 t3) (zrun la lhs mini xs z1) = (z3, Ok tt) ->
  o_well o = Wprecon \/ cc = false -> (o_use_grad o = true -> o_kernel o = RatQu -> b = None) ->
  exists (d3 : gpdata) (hp hp' : hpv) (vK b0 : R) (S : mat) (eta : R),
    p_data (z_gp z3) = Some d3 /\ data_after o x fval sf gr sg b d3 /\
    hp_now (z_gp z3) = Some (seen_hp hp) /\ ((c_const_n c < vlen fval)%nat -> best_mean_and_variance o d3 (la_cond la) hp) /\
    same_numbers o hp hp' /\ hp_varK hp = Some vK /\ (exists beta, hp_beta hp = Some beta /\ vat beta 0 = b0) /\
    let k := gp_kernel o hp' in let ob := gp_observations o d3 in
    noisy_cov k ob S (row_added o d3 hp' eta) /\ 0 < eta /\ pd S /\
    forall (x2 : mat) (cg ch : bool), nc x2 = o_dim o -> (0 < nr x2)%nat -> (ch = true -> cg = true /\ hess_supported o d3 hp' x2) ->
    exists ev, do_eval (z_gp z3) x2 cg ch = Ok (Some ev) /\ vlen (e_mu ev) = nr x2 /\ vlen (e_sig ev) = nr x2 /\
      forall p, (p < nr x2)%nat -> exists m v,
        (forall m', posterior_mean k ob S (gp_residual o d3 b0) b0 (model_point d3 (rows_of x2 p)) m' <-> m' = m) /\
        (forall v', posterior_var k ob S (model_point d3 (rows_of x2 p)) v' <-> v' = v) /\
        vat (e_mu ev) p = m / out_scale d3 + out_shift d3 /\ vat (e_sig ev) p = sqrt v * sqrt vK / out_scale d3.
Proof.
  intros la lhs mini o lo c past x fval sf gr sg b z1 d1 xs i cc t1 t2 t3 z3 SO N1 N2 N3 H1 ED1 NO SD HF H3 HC HM.
  destruct (C47_optimised_model la lhs mini o lo c past x fval sf gr sg b z1 d1 xs i cc t1 t2 t3 z3 SO N1 N2 N3 H1 ED1 NO SD HF H3)
    as (d2 & d3 & info & h & s' & hp & cond & rep & P1 & P2 & P3 & P4 & P5 & P6 & P7 & P8 & P9 & P10 & P11 & P12 & hp' & vK & b0 & su & Q1 & Q2 & Q3 & Q4 & Q5).
  assert (SU : set_up o d3 (la_cond la) hp' cc su) by (apply Q4; destruct HC; auto).
  assert (II := data_after_inv _ _ _ _ _ _ _ _ P8). destruct II as (I1 & _ & I3 & _). assert (II := data_after_inv _ _ _ _ _ _ _ _ P2). destruct II as (I1' & _).
  assert (MS : mask_supported o d3) by (intros U K; rewrite I3; auto).
  destruct (C34_posterior_of_the_used_observations_partial o d3 (la_cond la) hp' vK b0 cc su Q2 MS SU) as (A1 & A2 & A3 & A4).
  exists d3, hp, hp', vK, b0, (k_Kcov (su_K su)), (k_eta (su_K su)). split; [exact P6|]. split; [exact P8|]. split; [exact P9|]. split; [rewrite I1' in P12; exact P12|]. split; [exact Q1|].
  destruct Q1 as (_ & _ & (u & v & B1 & B2 & _ & _ & B3) & _ & B4 & _). destruct Q2 as (_ & _ & _ & _ & _ & _ & V1 & _ & (beta & B5 & _ & B6) & _).
  split; [rewrite B4; exact V1|]. split; [exists u; split; [exact B1|]; assert (v = beta) by congruence; subst v; congruence|].
  cbv zeta. split; [exact A1|]. split; [exact A2|]. split; [exact A3|]. intros x2 cg ch X1 X2 X3. destruct (A4 x2 cg ch X1 X2 X3) as (ev & E & R). exists ev. split; [|exact R]. apply Q5; assumption.
Qed.
Print Assumptions C47_fit_then_predict.

(** ** Success *)
Lemma K_cond o d condf Rt hp nz cf vK bn k : calc_all_K_w_chofac o d condf Rt hp nz cf true vK bn = Ok k -> k_cond k <> None.
Proof.
  unfold calc_all_K_w_chofac. cbv zeta. intros H. binv_assert H. binv H v1 E1. binv H v2 E2. binv H nv E3. binv H Kern E4. binv H Kwn E5.
  destruct (o_well o);
    first [binv_assert H; binv H T E8; binv H Kc E9; binv H ei E6; destruct ei as (e & ix); binv H Sm E7; binv H T2 E10; binv H Kcov E11; binv H cho E12; injection H as <-; cbn; discriminate
          |binv H ei E6; destruct ei as (e & ix); binv H Sm E7; injection H as <-; cbn; discriminate].
Qed.
Lemma max_lkd_cond la m s x0s best cond inf s' : optz_hp_max_lkd la m s x0s = (s', Ok (best, cond, inf)) -> cond <> None.
Proof.
  unfold optz_hp_max_lkd. destruct (optz_all _ _ _ _ _) as (s1, r1). intros H. injection H as _ H. binv H p E1. destruct p as (l & st). binv H cd E2. binv H hp E3. binv H k E4. injection H as _ <- _.
  destruct (d_noisy (g_data s)); [eapply K_cond; exact E4|]. unfold calc_Kern_w_chofac in E4. binv_assert E4. eapply K_cond; exact E4.
Qed.
Lemma resc_cond la m k : forall cnt tol xs sc s th best cond s' l b c, cond <> None -> resc_obj la m k cnt tol xs sc s th best cond = (s', Ok (l, b, c)) -> c <> None.
Proof.
  induction k as [|k IH]; intros cnt tol xs sc s th best cond s' l b c N H; [discriminate|]. cbn [resc_obj] in H.
  destruct (rescaling_data_w_theta_sol _ _ _ _ _ _) as [t|e]; [|discriminate]. destruct (_ || _); [injection H as _ _ _ <-; exact N|].
  destruct (optz_hp_max_lkd la (m cnt) s _) as (s1, [((b1, c1), i1)|e]) eqn:E; [|discriminate]. apply max_lkd_cond in E.
  destruct (resc_obj la m k (S cnt) tol xs sc s1 (tr_theta t) b1 c1) as (s2, r2) eqn:E2. destruct r2 as [((l', b'), c')|e]; [|discriminate]. injection H as _ _ _ <-. eapply IH; [exact E|exact E2].
Qed.
Lemma optz_hp_cond la lhs mini c h i s s' hp cond rep : optz_hp la lhs mini c h i s = (s', Ok (hp, cond, rep)) -> cond <> None.
Proof.
  unfold optz_hp. destruct (_ <=? _)%nat.
  { intros H. injection H as _ H. binv H hp0 E1. binv H k E2. injection H as _ <- _. eapply K_cond; exact E2. }
  match goal with |- context [match ?x with Ok _ => _ | Err _ => _ end] => destruct x as [(x0s, bnd)|e] end; [|discriminate]. cbv zeta.
  assert (A : forall (s1 : gpobj) (r1 : res (vec * option R * optzinfo)) (s' : gpobj) (hp : hpv) (cond : option R) (rep : option optzinfo), (s1, bind r1 (fun r => let '(best, cond, inf) := r in hp <- hp_vec2dataclass (g_data s1) (g_info s1) best ;; hp' <- optz_closed_form_hp la (g_opt s1) (g_data s1) (g_lk s1) (g_info s1) hp ;; Ok (hp', cond, Some inf)))
     = (s', Ok (hp, cond, rep)) -> exists b (i : optzinfo), r1 = Ok (b, cond, i)).
  { clear. intros s1 r1 s' hp cond rep H. injection H as _ H. binv H q E. destruct q as ((b1, c1), i1). binv H h1 E1. binv H h2 E2. injection H as _ <- _. eauto. }
  destruct (_ && _).
  - destruct (optz_hp_max_lkd_mtd_rescale _ _ _ _ _ _) as (s1, r1) eqn:E. intros H. apply A in H. destruct H as (b & inf & ->). unfold optz_hp_max_lkd_mtd_rescale in E. destruct (is_rescale _); [|discriminate].
    destruct (optz_hp_max_lkd la _ s x0s) as (s2, [((b1, c1), i1)|e]) eqn:E2; [|discriminate]. apply max_lkd_cond in E2. destruct (1 <? _)%nat; [|injection E as _ _ <- _; exact E2].
    destruct (d_scl _); [|discriminate]. cbv zeta in E. destruct (resc_obj _ _ _ _ _ _ _ _ _ _) as (s3, r3) eqn:E3.
    destruct r3 as [((l3, b3), c3)|e]; [|discriminate]. cbn [bind] in E. apply resc_cond in E3; [|exact E2].
    destruct (pick_min l3) as [t|]; [|discriminate]. cbn [bind] in E. destruct (rescale_data _ _); [|discriminate]. cbn [bind] in E. injection E as _ _ <- _. exact E3.
  - destruct (optz_hp_max_lkd _ _ s x0s) as (s1, r1) eqn:E. intros H. apply A in H. destruct H as (b & inf & ->). eapply max_lkd_cond; exact E.
Qed.
Lemma found_ok i hp rep cond t1 t2 t3 s : widths (vlen (hp_theta hp)) s -> p_data s <> None -> cond <> None ->
  (forall d r, p_data s = Some d -> d_scl d = Some r -> vlen (r_scale r) = vlen (hp_theta hp)) -> (exists b, hp_beta hp = Some b /\ vlen b = 1%nat) ->
  (forall h, current_history s = Some h -> (i < h_n h)%nat) -> exists s', do_found i hp rep cond t1 t2 t3 s = (s', Ok tt).
Proof.
  intros W ND NC HX (b & Eb & Lb) Hi. unfold do_found. set (s1 := upd_arr _ _ _). destruct (mk_hp s1 _) as (s2, q) eqn:E.
  assert (RQ := f_equal (fun p => rd_hp (fst p) (snd p)) E). cbn [fst snd] in RQ. rewrite rd_mk in RQ.
  assert (RF : rd_hp s2 q = seen_hp hp).
  { rewrite <- RQ. unfold given_hp, seen_hp, s1. cbn. assert (X : (p_new s =? p_new s + 1)%nat = false) by (apply Nat.eqb_neq; lia). rewrite Nat.eqb_refl, Eb. cbn. rewrite X, Nat.eqb_refl.
    destruct (hp_kernel hp), (hp_varK hp), (hp_var_fval hp), (hp_var_fgrad hp); reflexivity. }
  assert (FC : p_cur s2 = p_cur s /\ p_data s2 = p_data s /\ p_hist s2 = p_hist s /\ p_opt s2 = p_opt s) by (injection E as <- _; repeat split). destruct FC as (C1 & C2 & C3 & C4).
  unfold do_store. cbn [upd_hp p_cur p_data p_opt p_hist]. rewrite C1, C2, C3, C4. unfold current_history in Hi.
  destruct (p_cur s) as [g|] eqn:Eg; [|eauto]. destruct (p_data s) as [d|] eqn:ED; [|congruence]. change (rd_hp (upd_hp s2 (Some q)) q) with (rd_hp s2 q). rewrite RF. cbv zeta.
  assert (WH : h_w (p_hist s g) Tbeta = 1%nat /\ h_w (p_hist s g) Ttheta = vlen (hp_theta hp) /\ h_w (p_hist s g) Txscl = vlen (hp_theta hp)) by (apply W; unfold current_history; rewrite Eg; reflexivity).
  destruct WH as (W1 & W2 & W3).
  destruct (store_spec (hattr_of (p_opt s) d) i (seen_hp hp) (option_map hinfo_of rep) (pyf_of cond) t1 t2 t3 (p_hist s g) (float_array b) (float_array (hp_theta hp)) (Hi _ eq_refl)) as (h0 & E0 & _).
  { unfold seen_hp. cbn. rewrite Eb. reflexivity. } { cbn. congruence. } { reflexivity. } { cbn. congruence. }
  { intros sx. unfold hattr_of. cbn. destruct (d_scl d) as [r|] eqn:Er; [|discriminate]. intros [= <-]. cbn. rewrite W3. apply (HX d r eq_refl Er). }
  { destruct cond; [discriminate|congruence]. }
  rewrite E0. cbn [fst snd]. eauto.
Qed.

(** what the external programs and the history have to provide for the optimisation to run through (C42) *)
Definition optimisable (la : npla) (lhs : sampler) (mini : minimiser) (o : gpopt) (lo : lkopt) (c : optzcfg) (d : gpdata) (info : hpinfo) (h : hist) (i : nat) : Prop :=
  let s := new_obj o lo d info in
  (* few points: the initial values, nothing is optimised *)
  (d_n_eval d <= c_const_n c)%nat \/
  (* otherwise start points and an optimiser that asks only where the code can answer *)
  (numpy_total la o d /\ start_ready lhs (c_x0 c) o info h i /\ starts_available la lhs s (c_x0 c) h i /\
   ((is_rescale (o_well o) = false \/ (c_max_iter c <= 1)%nat) /\
    (forall bnd v, box_point (hi_n info) bnd v -> askable s v /\ ends_in (askable s) (mini 0%nat bnd v))
    \/
    is_rescale (o_well o) = true /\ (1 < c_max_iter c)%nat /\ d_scl d <> None /\ smooth_kernel o d /\
    (forall n bnd v, vlen v = hi_n info -> ends_in (fun w => vlen w = hi_n info) (mini n bnd v)))).

Theorem C47_fit_never_raises :
  forall (la : npla) (lhs : sampler) (mini : minimiser) (o : gpopt) (lo : lkopt) (c : optzcfg) (past : list zop)
    (x : mat) (fval : vec) (sf : stdarg vec) (gr : option mat) (sg : stdarg mat) (b : option (list bool)) (z1 : sess) (d1 : gpdata) (xs : list zop)
    (i : nat) (cc : bool) (t1 t2 t3 : fl) (d2 : gpdata) (info : hpinfo) (h : hist),
  session_options o lo c ->
  (0 < vlen fval)%nat -> nr x = vlen fval -> nc x = o_dim o ->
  zstep la lhs mini (ZOp (SetData x fval sf gr sg b)) (zrun la lhs mini past (z_new o lo c)) = (z1, Ok tt) -> p_data (z_gp z1) = Some d1 ->
  noise_optimisable o d1 -> scale_defined o d1 ->
  List.Forall leaves_data xs ->
  let z2 := zrun la lhs mini xs z1 in
  p_data (z_gp z2) = Some d2 -> setup_hp_idx4optz o d2 lo = Ok info ->
  current_history (z_gp z2) = Some h -> (i < h_n h)%nat -> optimisable la lhs mini o lo c d2 info h i ->
  exists z3, zstep la lhs mini (ZFit i cc t1 t2 t3) z2 = (z3, Ok tt).
Proof.
  intros la lhs mini o lo c past x fval sf gr sg b z1 d1 xs i cc t1 t2 t3 d2' info' h0 (O1 & O2 & O3 & O4 & O5 & O6) N1 N2 N3 H1 ED1 NO SD HF z2 ED2 EI2 EH Hi OPT.
  assert (Z0 := zinv_run la lhs mini o lo c past _ (zinv_new o lo c)). set (z0 := zrun la lhs mini past (z_new o lo c)) in *.
  assert (Z1 : zinv o lo c z1). { destruct (zstep_frame la lhs mini o lo c (ZOp (SetData x fval sf gr sg b)) z0 Z0) as (A & _). rewrite H1 in A. exact A. }
  assert (D1 : dinv o lo x fval sf gr sg b d1 z1).
  { destruct (zset_ok _ _ _ _ _ _ _ _ _ _ _ H1) as (d & info & E & EI & ->). rewrite (zi_opt _ _ _ _ Z0) in E, EI. rewrite (zi_lk _ _ _ _ Z0) in EI.
    cbn in ED1. injection ED1 as ->. exists d1, info. cbn. repeat split; auto. apply after_set, E. }
  assert (Z2 : zinv o lo c z2) by (apply zinv_run, Z1). assert (D2 := dinv_run la lhs mini o lo c x fval sf gr sg b d1 xs O1 N1 N2 N3 HF z1 Z1 D1). fold z2 in D2.
  destruct D2 as (d2 & info & E1 & E2 & E3 & E4 & E5 & E6 & E7 & E8 & E9 & E10). destruct Z2 as [Y1 Y2 Y3 Y4 Y5].
  assert (d2' = d2) by congruence. subst d2'. assert (info' = info) by congruence. subst info'.
  assert (HD : data_set o d2) by (exists x, fval, sf, gr, sg, b; auto).
  set (hh := if (d_n_eval d2 <=? c_const_n c)%nat then init_optz_surr 0 0 0 else h0).
  set (s := mkobj (p_opt (z_gp z2)) (z_lk z2) d2 info (z_last z2) (z_store z2)). assert (FS : fresh s = new_obj o lo d2 info) by (unfold fresh, s; cbn; rewrite Y1, Y2; reflexivity).
  assert (HR : optz_ready s).
  { unfold optz_ready, s. cbn [g_opt g_data g_lk g_info]. rewrite Y1, Y2. split; [exact O1|]. split; [exact HD|]. split; [exact O2|]. split; [exact O3|]. split; [exact O4|]. split; [|exact E5]. unfold noise_optimisable in *. rewrite E6. exact NO. }
  assert (RN : optz_ready (new_obj o lo d2 info)) by (rewrite <- FS; exact HR).
  assert (RUN : exists hp cond rep, snd (optz_hp la lhs mini c hh i (new_obj o lo d2 info)) = Ok (hp, cond, rep)).
  { destruct (Nat.leb_spec (d_n_eval d2) (c_const_n c)) as [NF|NF].
    - assert (HR' := RN). destruct HR' as (R1 & R2 & R3 & R4 & R5 & R6 & RI). destruct (C41_few_points la lhs mini c hh i (new_obj o lo d2 info) R1 R2 R3 R6 O5 NF) as (_ & hp & beta & cond & E & _). eauto.
    - destruct OPT as [OPT|(T1 & T3 & TS & [(T4 & T6)|(T4 & T5 & T6 & T7 & T10)])]; [lia| |].
      + apply (C42_set_hpara_never_raises la lhs mini c hh i o lo d2 info []); auto.
      + apply (C42_set_hpara_with_rescaling_never_raises la lhs mini c hh i o lo d2 info []); auto. }
  destruct RUN as (hp & cond & rep & RUN).
  assert (F := optz_hp_fresh la lhs mini c hh i s Y4). rewrite FS in F. destruct (optz_hp la lhs mini c hh i (new_obj o lo d2 info)) as [s' r'] eqn:EQ. cbn [snd] in RUN. subst r'.
  destruct (optz_hp la lhs mini c hh i s) as [s1 r] eqn:EP. destruct F as (F1 & F2 & F3 & F4). cbn [fst snd] in *. assert (r = Ok (hp, cond, rep)) by congruence. subst r.
  assert (CN := optz_hp_cond _ _ _ _ _ _ _ _ _ _ _ EP).
  destruct (outcome la lhs mini c hh i s s1 hp cond rep Y4 HR) as ((vK & b0 & EV) & _); auto; [unfold s; cbn; rewrite Y1; exact E4|]. cbn [s g_opt g_data] in EV. rewrite Y1 in EV.
  cbn [zstep]. unfold z_optz. rewrite E1, E2. cbv zeta. unfold current_history in EH. rewrite Y3.
  replace (if (d_n_eval d2 <=? c_const_n c)%nat then Some (init_optz_surr 0 0 0) else option_map (p_hist (z_gp z2)) (p_cur (z_gp z2))) with (Some hh)
    by (unfold hh; destruct (_ <=? _)%nat; [reflexivity|symmetry; exact EH]).
  fold s. rewrite EP. cbn [z_gp].
  assert (LT : vlen (hp_theta hp) = o_dim o) by apply EV.
  set (t := fun y : fl => if (d_n_eval d2 <=? c_const_n c)%nat then Some 0 else y). do 3 match goal with |- context [if ?b then Some 0 else ?y] => change (if b then Some 0 else y) with (t y) end.
  destruct (found_ok i hp rep cond (t t1) (t t2) (t t3) (upd_data (z_gp z2) (g_data s1))) as (sf' & EF).
  { rewrite LT. exact Y5. } { discriminate. } { exact CN. }
  { cbn. intros d r [= <-] Er. rewrite LT. destruct EV as (_ & HD3 & _). destruct (data_set_scl _ _ r HD3 Er) as (_ & L & _). exact L. }
  { destruct EV as (_ & _ & _ & _ & _ & _ & _ & _ & (beta & B1 & B2 & _) & _). eauto. }
  { intros h Hh. assert (h = h0) by (unfold current_history in Hh; cbn in Hh; congruence). subst h. exact Hi. }
  rewrite EF. unfold zthen, zlift. cbn [with_gp z_gp].
  destruct (found_frame i hp rep cond (t t1) (t t2) (t t3) (upd_data (z_gp z2) (g_data s1)) (o_dim o)) as (G1 & G2 & G3). rewrite EF in G1, G2, G3. cbn [fst upd_data p_opt p_data] in G1, G2, G3.
  assert (HN := found_hp_now i hp rep cond (t t1) (t t2) (t t3) (upd_data (z_gp z2) (g_data s1))). rewrite EF in HN. cbn [fst] in HN.
  destruct (read_input o (g_data s1) hp vK b0 EV) as (EV' & SN). destruct (C30_setup_succeeds o (g_data s1) (la_cond la) (read_hp (o_kernel o) hp) vK b0 cc EV') as (su & ES & _).
  unfold hp_now in HN. destruct (p_hp sf') as [q|] eqn:EQ'; [|discriminate]. change (Some (rd_hp sf' q) = Some (seen_hp hp)) in HN. assert (HN2 : rd_hp sf' q = seen_hp hp) by congruence.
  assert (OP : p_opt sf' = o) by congruence.
  assert (SA := setup_at (la_cond la) cc sf' (g_data s1) q (read_hp (o_kernel o) hp) su G2 EQ'). rewrite HN2, OP in SA. specialize (SA (seen_read (o_kernel o) hp) ES).
  rewrite SA. cbn [fst snd]. eauto.
Qed.
Print Assumptions C47_fit_never_raises.
