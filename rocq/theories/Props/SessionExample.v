(** * C47: a session that meets the hypotheses.  A history is begun, one point is given and 'optimised' (initial
    values), then three points are given and the hyperparameters are optimised from the recorded ones. *)
From Coq Require Import Reals List Arith Bool Lia Lra.
From Coquelicot Require Import Coquelicot.
From Verif.Base Require Import NpLite NpFacts.
From Verif.Spec Require Import KernelSpec LinAlgSpec GpSpec HpSpec DataSpec LkdSpec OptzSpec ThetaSpec RescaleSpec EvalSpec CondSpec StartSpec HistSpec ObjSpec SessionSpec.
From Verif.Model Require Import KernelSqExp KernelMatern KernelRatQuad KernelDispatch CommonFun WellCond Rescaling GpState Chol Cov HpInfo HpGrad MeanFun Lkd OptzLkd RescaleLoop EvalModel History StartPts OptzHp Object Session.
From Verif.Proofs Require Import KernTac LinAlg CovStruct StateFacts RescaleFacts NoiseFacts HpInfoFacts LkdCore LkdFacts LkdMain EvalMain OptzHpFacts HistFacts ObjFacts SessionFacts.
From Verif.Props Require Import CondProps DataProps HpGradProps LkdProps EvalProps EvalProps2 OptzProps ThetaProps StartProps OptzHpProps OptzTotal OptzTotal2 ObjProps2 ObjProps3 SessionProps.
Import ListNotations.
Local Open Scope R_scope.

Lemma set_ok la lhs mini o lo c z x fv sf g sg b d info : zinv o lo c z -> set_data o x fv sf g sg b = Ok d -> setup_hp_idx4optz o d lo = Ok info ->
  zstep la lhs mini (ZOp (SetData x fv sf g sg b)) z = (mksess (upd_data (z_gp z) d) (z_lk z) (z_cfg z) (Some info) (z_last z) (z_store z), Ok tt).
Proof. intros Z E1 E2. cbn [zstep]. rewrite (zi_opt _ _ _ _ Z), (zi_lk _ _ _ _ Z), E1, E2. reflexivity. Qed.
(** an optimisation does not replace the history *)
Lemma fit_hist la lhs mini i cc t1 t2 t3 z h : current_history (z_gp z) = Some h ->
  exists h', current_history (z_gp (fst (zstep la lhs mini (ZFit i cc t1 t2 t3) z))) = Some h' /\ h_n h' = h_n h.
Proof.
  intros H. cbn [zstep]. assert (A : exists h', current_history (z_gp (fst (z_optz la lhs mini i t1 t2 t3 z))) = Some h' /\ h_n h' = h_n h).
  { unfold z_optz. destruct (p_data (z_gp z)) as [d|]; [|eauto]. destruct (z_info z); [|eauto]. cbv zeta. match goal with |- context [match ?y with Some _ => _ | None => (z, Err EAttr) end] => destruct y as [hy|] end; [|eauto].
    destruct (optz_hp _ _ _ _ _ _ _) as (s', [((hp, cond), rep)|e]); [|exists h; split; [exact H|reflexivity]]. cbn [z_gp]. set (s := upd_data (z_gp z) (g_data s')).
    assert (HS : current_history s = Some h) by exact H. generalize dependent s. intros s HS.
    match goal with |- context [do_found i hp rep cond ?a ?b ?e s] => generalize a b e; intros u1 u2 u3 end.
    assert (K : exists h', current_history (fst (do_found i hp rep cond u1 u2 u3 s)) = Some h' /\ h_n h' = h_n h).
    { unfold do_found. set (s1 := upd_arr _ _ _). destruct (mk_hp s1 _) as (s2, q) eqn:E. assert (H2 : current_history s2 = Some h) by (injection E as <- _; exact HS). clear E. unfold do_store. cbn [upd_hp p_cur p_data p_opt p_hist].
      unfold current_history in H2. destruct (p_cur s2) as [g|] eqn:Eg; [|discriminate]. cbn in H2. injection H2 as H2.
      destruct (p_data s2); [|exists h; split; [unfold current_history; cbn; rewrite Eg; cbn; congruence|reflexivity]]. cbn [fst].
      match goal with |- context [store_row ?a i ?x ?info ?cond u1 u2 u3 ?hh] => destruct (store_only a i x info cond u1 u2 u3 hh) as (B & _); exists (fst (store_row a i x info cond u1 u2 u3 hh)) end.
      split; [unfold current_history; cbn; rewrite Eg; cbn; rewrite Nat.eqb_refl; reflexivity|congruence]. }
    destruct (do_found i hp rep cond u1 u2 u3 s) as (s3, u). exact K. }
  destruct (z_optz la lhs mini i t1 t2 t3 z) as (z', [u|e]); [|exact A]. cbn [zthen]. unfold zlift. cbn [fst with_gp z_gp]. rewrite setup_cur. exact A.
Qed.

Definition px : mat := mkmat 1 2 (fun _ j => INR j).
Definition pf : vec := mkvec 1 (fun _ => 3).
Definition pg : mat := mkmat 1 2 (fun _ j => 1 + INR j).
Definition eg3 : mat := mkmat 3 2 (fun i j => INR i - INR j).
Definition first_data : zop := ZOp (SetData px pf SdNone (Some pg) SdNone None).
Definition more_data : zop := ZOp (SetData ex_x ex_f SdNone (Some eg3) SdNone None).
Definition no_time : fl := Some 0.
Definition before : list zop := [ZOp (InitOptz 4); first_data; ZFit 0 false no_time no_time no_time].

Definition unknown_noise (d : gpdata) (n : nat) : Prop :=
  d_known_fval d = false /\ d_known_fgrad d = false /\ d_noisy d = true /\ d_opt_fval d = true /\ d_opt_fgrad d = true /\ d_n_eval d = n /\ d_scl d = None.
Lemma first_ok : exists d, set_data hx_opt px pf SdNone (Some pg) SdNone None = Ok d /\ unknown_noise d 1.
Proof. eexists. split; [reflexivity|]. repeat split. Qed.
Lemma more_ok : exists d, set_data hx_opt ex_x ex_f SdNone (Some eg3) SdNone None = Ok d /\ unknown_noise d 3.
Proof. eexists. split; [reflexivity|]. repeat split. Qed.
Lemma unknown_info d n : unknown_noise d n -> noise_optimisable hx_opt d /\ scale_defined hx_opt d /\
  exists info, setup_hp_idx4optz hx_opt d lk_default = Ok info /\ set_hp_optz_info hx_opt d lk_default true true true true true = Ok info.
Proof.
  intros (K1 & K2 & K3 & K4 & K5 & K6 & K7). split; [left; reflexivity|]. split.
  { intros j Hj. unfold in_scale. rewrite K7. lra. }
  destruct (info_total hx_opt d lk_default true true true true true) as (info & EI); auto. exists info. split; [|exact EI]. unfold setup_hp_idx4optz. rewrite K3, K4, K5. exact EI.
Qed.
Lemma options_ok : session_options hx_opt lk_default (cfg_default RatQu).
Proof. split; [split; [simpl; lia|split; simpl; lra]|]. split; [reflexivity|]. split; [exact log_default|]. split; [intros _; reflexivity|]. split; [unfold init_ok; cbn; repeat split; lra|cbn; lia]. Qed.
Lemma slot_in dim e : In (HTheta e) (slots dim true true true true true) -> (e < dim)%nat.
Proof. intros H. unfold slots in H. repeat (apply in_app_or in H; destruct H as [H|H]). all: try (cbn in H; intuition discriminate). apply in_map_iff in H. destruct H as (j & E & Hj). injection E as ->. apply in_seq in Hj. lia. Qed.
Example C47_hypotheses_met : exists (z1 : sess) (d1 : gpdata) (info : hpinfo) (h : hist) (z3 : sess),
  let o := hx_opt in let c := cfg_default RatQu in
  session_options o lk_default c /\
  zstep la_dummy mid_sampler mini_ex more_data (zrun la_dummy mid_sampler mini_ex before (z_new o lk_default c)) = (z1, Ok tt) /\ p_data (z_gp z1) = Some d1 /\
  noise_optimisable o d1 /\ scale_defined o d1 /\ setup_hp_idx4optz o d1 lk_default = Ok info /\
  current_history (z_gp z1) = Some h /\ (1 < h_n h)%nat /\ optimisable la_dummy mid_sampler mini_ex o lk_default c d1 info h 1 /\ (c_const_n c < d_n_eval d1)%nat /\
  zstep la_dummy mid_sampler mini_ex (ZFit 1 false no_time no_time no_time) z1 = (z3, Ok tt).
Proof.
  set (c := cfg_default RatQu). destruct first_ok as (da & Ea & Ua). destruct more_ok as (db & Eb & Ub). destruct (unknown_info _ _ Ua) as (NOa & SDa & ia & EIa & _). destruct (unknown_info _ _ Ub) as (NOb & SDb & ib & EIb & EIb').
  set (p0 := [ZOp (InitOptz 4)]). set (z0 := zrun la_dummy mid_sampler mini_ex p0 (z_new hx_opt lk_default c)).
  assert (Z0 : zinv hx_opt lk_default c z0) by apply zinv_run, zinv_new.
  assert (Sa := set_ok la_dummy mid_sampler mini_ex _ _ _ _ _ _ _ _ _ _ _ _ Z0 Ea EIa). set (za := mksess _ _ _ _ _ _) in Sa.
  assert (Ha : exists h, current_history (z_gp za) = Some h /\ h_n h = 4%nat) by (eexists; split; reflexivity). destruct Ha as (ha & Ha & Hna).
  destruct (C47_fit_never_raises la_dummy mid_sampler mini_ex hx_opt lk_default c p0 px pf SdNone (Some pg) SdNone None za da [] 0 false no_time no_time no_time da ia ha) as (zf & Ef); auto.
  all: try match goal with |- session_options _ _ _ => exact options_ok | |- lt _ _ => cbn; lia | |- List.Forall _ _ => apply List.Forall_nil end. { left. destruct Ua as (_ & _ & _ & _ & _ & -> & _). cbn; lia. }
  destruct (C47_optimised_model la_dummy mid_sampler mini_ex hx_opt lk_default c p0 px pf SdNone (Some pg) SdNone None za da [] 0 false no_time no_time no_time zf) as
    (d2 & d3 & info & h & s' & hp & cond & rep & P1 & P2 & P3 & P4 & P5 & P6 & P7 & P8 & P9 & P10 & P11 & _); auto; try match goal with |- session_options _ _ _ => exact options_ok | |- lt _ _ => cbn; lia | |- List.Forall _ _ => apply List.Forall_nil end.
  cbn [zrun fold_left] in P1, Ef. change (p_data (z_gp za)) with (Some da) in P1. injection P1 as <-.
  destruct (fit_hist la_dummy mid_sampler mini_ex 0 false no_time no_time no_time za ha Ha) as (hf & Hf & Hnf). rewrite Ef in Hf. cbn [fst] in Hf. rewrite Hna in Hnf.
  destruct (P11 hf Hf) as (HH & _).
  assert (EB : zrun la_dummy mid_sampler mini_ex before (z_new hx_opt lk_default c) = zf).
  { change (fst (zstep la_dummy mid_sampler mini_ex (ZFit 0 false no_time no_time no_time) (fst (zstep la_dummy mid_sampler mini_ex first_data z0))) = zf). unfold first_data. rewrite Sa. cbn [fst]. rewrite Ef. reflexivity. }
  assert (ZF : zinv hx_opt lk_default c zf) by (rewrite <- EB; apply zinv_run, zinv_new).
  assert (Sb := set_ok la_dummy mid_sampler mini_ex _ _ _ _ _ _ _ _ _ _ _ _ ZF Eb EIb). set (zb := mksess _ _ _ _ _ _) in Sb.
  assert (Hb : current_history (z_gp zb) = Some hf) by exact Hf.
  assert (NB : d_n_eval db = 3%nat) by apply Ub.
  (* what is recorded *)
  assert (RA : optz_ready (new_obj hx_opt lk_default da info)).
  { destruct options_ok as (O1 & O2 & O3 & O4 & _). split; [exact O1|]. split; [exists px, pf, SdNone, (Some pg), SdNone, None; split; [cbn; lia|]; split; [reflexivity|]; split; [reflexivity|]; apply after_set, Ea|]. split; [exact O2|]. split; [exact O3|]. split; [exact O4|]. split; [exact NOa|exact P3]. }
  assert (HR := RA). destruct HR as (R1 & R2 & R3 & R4 & R5 & R6 & RI).
  destruct (C41_few_points la_dummy mid_sampler mini_ex c h 0 (new_obj hx_opt lk_default da info) R1 R2 R3 R6) as (_ & hp0 & beta & cond0 & E0 & T0 & T1 & V1 & K1 & F1 & G1 & _); [apply options_ok|cbn [new_obj g_data]; destruct Ua as (_ & _ & _ & _ & _ & -> & _); cbn; lia|].
  rewrite P5 in E0. cbn [snd] in E0. injection E0 as -> _ _. cbn [new_obj g_opt g_data] in *. destruct Ua as (U1 & U2 & _). rewrite U1 in F1. specialize (G1 eq_refl). rewrite U2 in G1.
  assert (WF := zi_widths _ _ _ _ ZF). destruct (WF hf Hf) as (W1 & W2 & _).
  destruct HH as (_ & HT & _ & HK & HV & HVF & HVG).
  assert (SR : start_ready mid_sampler (c_x0 c) hx_opt ib hf 1).
  { split; [exact mid_sampler_ok|]. split; [cbn; lra|]. split; [exact W2|]. split; [exists 0%nat; unfold recent; rewrite Hnf; cbn; lia|]. split.
    - intros sl r HP (_ & Hr & _). assert (r = 0%nat) by lia. subst r. destruct (position ib sl) as [k|] eqn:EP; [|congruence]. apply (position_slots _ _ _ _ _ _ _ _ _ _ _ EIb') in EP. apply nth_error_In in EP.
      destruct sl; unfold past; [apply slot_in in EP; rewrite HT by (rewrite W2; exact EP); eauto|rewrite HK, K1; cbn; eauto|rewrite HV, V1; eauto|rewrite HVF, F1; eauto|rewrite HVG, G1; eauto].
    - destruct (start_ready_ex hx_opt ib eq_refl (fun _ _ => I)) as (_ & _ & _ & _ & _ & A6). exact A6. }
  assert (AA : all_askable (new_obj hx_opt lk_default db ib)) by (apply smooth_askable; left; reflexivity).
  assert (OP : optimisable la_dummy mid_sampler mini_ex hx_opt lk_default c db ib hf 1).
  { right. split; [apply la_dummy_ok|]. split; [exact SR|]. split; [right; split; [reflexivity|]; split; [cbn; lia|]; left; reflexivity|]. left. split; [left; reflexivity|].
    intros bnd v (L & _). split; [apply AA, L|]. unfold mini_ex. constructor; [apply AA, L|]. intros y. constructor; [apply AA, L|]. intros g. constructor; [apply AA, L|]. intros _. constructor. apply AA. exact L. }
  destruct (C47_fit_never_raises la_dummy mid_sampler mini_ex hx_opt lk_default c before ex_x ex_f SdNone (Some eg3) SdNone None zb db [] 1 false no_time no_time no_time db ib hf) as (z3 & E3); auto.
  all: try match goal with |- session_options _ _ _ => exact options_ok | |- lt _ _ => cbn; lia | |- List.Forall _ _ => apply List.Forall_nil end. { rewrite EB. exact Sb. }
  exists zb, db, ib, hf, z3. cbv zeta. split; [exact options_ok|]. rewrite EB. split; [exact Sb|]. split; [reflexivity|]. split; [exact NOb|]. split; [exact SDb|]. split; [exact EIb|]. split; [exact Hb|]. split; [lia|]. split; [exact OP|]. split; [rewrite NB; cbn; lia|exact E3].
Qed.
