(** * C59: calls that raise, and what they leave behind *)
From Coq Require Import Reals List Arith Bool Lia Lra.
From Verif.Base Require Import NpLite NpFacts.
From Verif.Spec Require Import KernelSpec LinAlgSpec GpSpec HpSpec DataSpec EvalSpec HistSpec ObjSpec RejectSpec.
From Verif.Model Require Import KernelSqExp KernelMatern KernelRatQuad KernelDispatch CommonFun WellCond Rescaling GpState Chol Cov HpInfo MeanFun EvalModel History SetDataState Object.
From Verif.Proofs Require Import StateFacts DataFacts SetDataFacts HistFacts ObjFacts SessionFacts.
From Verif.Props Require Import CondProps DataProps ObjProps ObjProps2.
Import ListNotations.
Local Open Scope R_scope.

(** A request about hyperparameters that is refused leaves the object exactly as it was. *)
Theorem C59_refused_requests : forall (condf : mat -> R) (s s' : gp) (x : op) (e : err),
  refused_request s x -> step condf x s = (s', Err e) -> s' = s.
Proof.
  intros condf s s' x e HR H. destruct x; cbn [refused_request] in HR; try contradiction; cbn [step] in H.
  - destruct (_ && _)%bool; injection H as <-; [discriminate|reflexivity].
  - destruct (arg_ok s g); [|injection H as <-; reflexivity]. destruct (varK_pos _); [discriminate|injection H as <-; reflexivity].
  - destruct (arg_ok s g); [discriminate|injection H as <-; reflexivity].
  - unfold do_from_idx in H. destruct (p_cur s); [|injection H as <-; reflexivity]. destruct (set_hp_from_idx _ _) as [[[kf kg] q]|e']; [discriminate|injection H as <-; reflexivity].
  - unfold andthen, do_from_idx in H. unfold current_history in HR. destruct (p_cur s) as [g|]; [|injection H as <-; reflexivity]. specialize (HR _ eq_refl).
    unfold set_hp_from_idx in H. destruct (Nat.ltb_spec i (h_n (p_hist s g))); [lia|]. injection H as <-; reflexivity.
  - destruct HR as [->|HR]; cbn in H; [injection H as <-; reflexivity|]. rewrite HR in H. rewrite andb_false_r in H. injection H as <-; reflexivity.
  - destruct (p_cur s); [discriminate|injection H as <-; reflexivity].
Qed.
Print Assumptions C59_refused_requests.

Lemma upd_odata_self s : upd_odata s (p_data s) = s.
Proof. destruct s; reflexivity. Qed.
Lemma count_filter m : count_true m = length (filter (fun t : bool => t) m).
Proof. induction m as [|[] m IH]; cbn; auto. Qed.
Lemma count_bad o f g b : bad_mask o f g b -> exists e, count_grads o f g b = Err e.
Proof.
  intros (m & -> & H). unfold count_grads. destruct (o_use_grad o); [|eexists; reflexivity]. specialize (H eq_refl).
  destruct (Nat.eqb_spec (length m) (vlen f)); [|eexists; reflexivity]. cbn [assert_ bind]. destruct H as [H|H]; [contradiction|].
  destruct g as [G|]; [|eexists; reflexivity]. rewrite count_filter. destruct (Nat.eqb_spec (nr G) (length (filter (fun t => t) m))); [contradiction|eexists; reflexivity].
Qed.
(** set_data with a mask that does not fit: the object is exactly as it was. *)
Theorem C59_bad_mask : forall (condf : mat -> R) (s : gp) (x : mat) (f : vec) (sf : stdarg vec) (g : option mat) (sg : stdarg mat) (b : option (list bool)),
  bad_mask (p_opt s) f g b -> exists e, step condf (SetData x f sf g sg b) s = (s, Err e).
Proof.
  intros condf s x f sf g sg b H. destruct (count_bad _ _ _ _ H) as (e & E). cbn [step].
  assert (Q := set_data_run_eq (p_opt s) x f sf g sg b). assert (N : set_data (p_opt s) x f sf g sg b = Err e).
  { unfold set_data. cbv zeta. match goal with |- bind ?a _ = _ => change a with (count_grads (p_opt s) f g b) end. rewrite E. reflexivity. }
  exists e. rewrite N. cbn [step]. f_equal. replace (fst (set_data_on (p_opt s) (p_data s) x f sf g sg b)) with (p_data s); [apply upd_odata_self|].
  unfold set_data_on. destruct (p_data s) as [d|]; [|rewrite N; reflexivity]. unfold set_data_run, set_data_head, dlet, dseq. rewrite E. reflexivity.
Qed.
Print Assumptions C59_bad_mask.

Lemma sbs_refl d : same_but_sizes d d. Proof. repeat split. Qed.
(** Partial: set_data with shapes that do not fit raises and leaves everything as it was but the sizes and the two noise
    flags of the data.  Missing: these, see the refutations below. *)
Theorem C59_inconsistent_data_partial :
  forall (condf : mat -> R) (s : gp) (x : mat) (f : vec) (sf : stdarg vec) (g : option mat) (sg : stdarg mat) (b : option (list bool)),
  ~ shapes_ok (p_opt s) f sf g sg b ->
  exists s' e, step condf (SetData x f sf g sg b) s = (s', Err e) /\ same_outside_data s s' /\
    match p_data s, p_data s' with Some d, Some d' => same_but_sizes d d' | None, None => True | _, _ => False end.
Proof.
  intros condf s x f sf g sg b NS. cbn [step]. destruct (set_data (p_opt s) x f sf g sg b) as [d0|e] eqn:E.
  { exfalso. apply NS. apply (C36_rejects_inconsistent_data _ _ _ _ _ _ _ _ E). }
  eexists _, e. split; [reflexivity|]. split; [repeat split|]. cbn [upd_odata p_data]. destruct (p_data s) as [d|] eqn:ED; cbn [set_data_on]; [|rewrite E; exact I].
  clear ED. unfold set_data_run, set_data_head, dseq at 1, dlet at 1. destruct (count_grads (p_opt s) f g b) as [ng|e1] eqn:EC; [|cbn [fst]; apply sbs_refl].
  assert (K : forall d, match set_data_checks (p_opt s) f sf g sg ng d with (Some d', Err _) => same_but_sizes d d' | (Some _, Ok _) => shapes_ok (p_opt s) f sf g sg b | (None, _) => False end).
  { clear d E e. intros d.
    assert (M : if o_use_grad (p_opt s) then mask_ok (vlen f) b /\ n_used (vlen f) b = ng else b = None /\ ng = 0%nat).
    { unfold count_grads in EC. destruct (o_use_grad (p_opt s)).
      - destruct b as [m|]; [|injection EC as <-; split; [exact I|unfold n_used, grad_points; apply seq_length]]. binv_assert EC. apply Nat.eqb_eq in HA. destruct g as [G|]; [|discriminate]. binv_assert EC. injection EC as <-.
        assert (mask_ok (vlen f) (Some m)) by exact HA. split; [assumption|]. apply n_used_count. assumption.
      - destruct b; [discriminate|]. injection EC as <-. auto. }
    unfold set_data_checks, dseq, dput, dassert, assert_, shapes_ok.
    destruct (match sf with SdOk sa => vlen f =? vlen sa | _ => true end) eqn:E1.
    2: { destruct sf as [|sa|sa]; try discriminate. rewrite E1. repeat split. }
    assert (S1 : forall sa, known sf = Some sa -> vlen sa = vlen f).
    { intros sa Hs. destruct sf; try discriminate. injection Hs as ->. apply Nat.eqb_eq in E1. congruence. }
    destruct (o_use_grad (p_opt s)) eqn:EU.
    - destruct g as [G|]; [|destruct sf as [|sa|sa]; cbn; rewrite ?E1; cbn; repeat split].
      destruct ((nr G =? ng) && (nc G =? o_dim (p_opt s)))%bool eqn:E2; [|destruct sf as [|sa|sa]; cbn; rewrite ?E1; cbn; repeat split].
      destruct (match sg with SdOk ga => (nr G =? nr ga) && (nc G =? nc ga) | _ => true end) eqn:E3.
      2: { destruct sg as [|ga|ga]; try discriminate. rewrite E3. destruct sf as [|sa|sa]; cbn; rewrite ?E1; cbn; repeat split. }
      assert (S2 : (forall sa, known sf = Some sa -> vlen sa = vlen f) /\ mask_ok (vlen f) b /\ exists g, Some G = Some g /\ nr g = n_used (vlen f) b /\ nc g = o_dim (p_opt s) /\ forall t, known sg = Some t -> nr t = nr g /\ nc t = nc g).
      { apply andb_prop in E2. destruct E2 as (A & B). apply Nat.eqb_eq in A, B. destruct M as (M1 & M2). split; [exact S1|]. split; [exact M1|]. exists G. split; [reflexivity|]. split; [congruence|]. split; [exact B|].
        intros t Ht. destruct sg; try discriminate. injection Ht as ->. apply andb_prop in E3. destruct E3 as (C & D). apply Nat.eqb_eq in C, D. auto. }
      destruct sf as [|sa|sa], sg as [|ga|ga]; cbn; rewrite ?E1; cbn; rewrite ?E3; exact S2.
    - destruct M as (M1 & M2). destruct g as [G|]; [destruct sf as [|sa|sa]; cbn; rewrite ?E1; cbn; repeat split|].
      destruct sf as [|sa|sa]; cbn; rewrite ?E1; cbn; auto. }
  specialize (K d). unfold dseq. destruct (set_data_checks (p_opt s) f sf g sg ng d) as ([d1|], [[]|e1]); try contradiction. cbn [fst]. exact K.
Qed.
Print Assumptions C59_inconsistent_data_partial.

Lemma run_opt_keep condf past : forall s, p_opt (run condf past s) = p_opt s.
Proof.
  induction past as [|x past IH]; intros s; [reflexivity|]. change (run condf (x :: past) s) with (run condf past (fst (step condf x s))). rewrite IH.
  exact (proj1 (step_frame condf x s _ eq_refl)).
Qed.
Lemma rd_sc_arg ob v : rd_sc (arg_sc ob v) = py_of v.
Proof. destruct v as [[v|]|]; reflexivity. Qed.
(** the state after set_hpara('set') when new data have just been accepted, as far as an evaluation can see *)
Definition seen_state (condf : mat -> R) (o : gpopt) (d : gpdata) (h : hpx) (cc : bool) : res surrst :=
  match hpv_of (o_kernel o) h with
  | Err e => Err e
  | Ok None => Ok SuNan
  | Ok (Some hp) => match setup_eval_model o d condf hp cc with Ok su => Ok (SuOk su) | Err e => Err e end
  end.
Lemma setup_seen condf cc s o d q h : p_opt s = o -> p_data s = Some d -> p_hp s = Some q -> rd_hp s q = h ->
  snd (do_setup condf cc s) = match seen_state condf o d h cc with Ok _ => Ok tt | Err e => Err e end /\
  forall u, seen_state condf o d h cc = Ok u -> forall x2 cg ch, do_eval (fst (do_setup condf cc s)) x2 cg ch =
    match u with
    | SuNone => Err EAttr
    | SuNan => Ok None
    | SuOk su => _ <- assert_ (has (k_chofac (su_K su))) ;; r <- hpv_of (o_kernel o) h ;;
                 match r with Some hp => e <- eval_model o d hp su x2 cg ch ;; Ok (Some e) | None => Ok None end
    end.
Proof.
  intros H1 H2 H3 H4. unfold do_setup, seen_state. cbn [upd_setup p_data p_hp p_opt]. rewrite H1, H2, H3.
  change (rd_hp (upd_setup s (Some q)) q) with (rd_hp s q). rewrite H4.
  destruct (hpv_of (o_kernel o) h) as [[hp|]|e] eqn:EH.
  - destruct (setup_eval_model o d condf hp cc) as [su|e] eqn:ES; (split; [reflexivity|]); [|discriminate].
    intros u Hu x2 cg ch. injection Hu as <-. unfold do_eval. cbn [fst upd_surr upd_setup p_surr p_data p_hp p_setup p_opt]. rewrite H2, H3, H1.
    destruct (has (k_chofac (su_K su))); cbn [assert_ bind]; [|reflexivity]. rewrite hpo_eq_refl. cbn [bind].
    change (rd_hp (upd_surr (upd_setup s (Some q)) (SuOk su)) q) with (rd_hp s q). rewrite H4, EH. reflexivity.
  - split; [reflexivity|]. intros u Hu x2 cg ch. injection Hu as <-. unfold do_eval. cbn [fst upd_surr upd_setup p_surr p_data p_hp p_setup p_opt bind]. rewrite H2, H3.
    rewrite hpo_eq_refl. reflexivity.
  - split; [reflexivity|]. discriminate.
Qed.
(** Data that are accepted put everything right: whatever happened to the object before, rejected calls included, after
    set_data has returned and hyperparameters have been given, the set-up ends as on a new object and the evaluation
    returns what it returns on a new object. *)
Theorem C59_accepted_data_restore :
  forall (condf : mat -> R) (o : gpopt) (past : list op) (x : mat) (f : vec) (sf : stdarg vec) (g : option mat) (sg : stdarg mat) (b : option (list bool)) (d : gpdata)
    (vb vt : fvec) (k vk vf vg : option fl) (cc : bool),
  set_data o x f sf g sg b = Ok d ->
  let prepare := [NewArray vb; NewArray vt; SetData x f sf g sg b] in
  let give (n : nat) := SetHparaSet (mkarg (Some n) (Some (n + 1)%nat) k vk vf vg) cc in
  let s := run condf past (gp_new o) in
  let new := step condf (give 0%nat) (run condf prepare (gp_new o)) in
  let used := step condf (give (p_new s)) (run condf prepare s) in
  snd used = snd new /\
  (snd new = Ok tt -> forall (x2 : mat) (cg ch : bool), do_eval (fst used) x2 cg ch = do_eval (fst new) x2 cg ch).
Proof.
  intros condf o past x f sf g sg b d vb vt k vk vf vg cc E prepare give s new used.
  assert (A : forall s0, p_opt s0 = o -> exists u, step condf (give (p_new s0)) (run condf prepare s0) = do_setup condf cc u /\ p_opt u = o /\ p_data u = Some d /\
     exists q, p_hp u = Some q /\ rd_hp u q = mkhpx (Some vb) (Some vt) (py_of k) (py_of vk) (py_of vf) (py_of vg)).
  { intros s0 H0. unfold prepare, run, give. cbn [fold_left]. cbn [step fst bump upd_arr p_opt p_new]. rewrite H0, E. cbn [fst upd_data step].
    match goal with |- context [arg_ok ?t ?a] => replace (arg_ok t a) with true end.
    2: { symmetry. unfold arg_ok. cbn. apply andb_true_intro. split; apply Nat.ltb_lt; lia. }
    cbn [mk_hp fst snd]. eexists. split; [reflexivity|]. cbn [upd_hp bump p_opt p_data p_hp]. split; [exact H0|]. split; [reflexivity|]. eexists. split; [reflexivity|].
    unfold rd_hp. cbn [q_beta q_theta q_kernel q_varK q_vf q_vg g_beta g_theta g_kernel g_varK g_vf g_vg arg_arr rd_arr p_arr upd_hp bump]. rewrite !rd_sc_arg.
    cbn [upd_data upd_arr bump p_arr p_new]. rewrite !Nat.eqb_refl. replace (p_new s0 =? p_new s0 + 1)%nat with false by (symmetry; apply Nat.eqb_neq; lia). reflexivity. }
  destruct (A (gp_new o) eq_refl) as (u1 & E1 & O1 & D1 & q1 & Q1 & R1). destruct (A s (run_opt_keep condf past (gp_new o))) as (u2 & E2 & O2 & D2 & q2 & Q2 & R2).
  unfold new, used. rewrite E2. change (p_new (gp_new o)) with 0%nat in E1. rewrite E1.
  destruct (setup_seen condf cc u1 o d q1 _ O1 D1 Q1 R1) as (S1 & V1). destruct (setup_seen condf cc u2 o d q2 _ O2 D2 Q2 R2) as (S2 & V2).
  rewrite S1, S2. split; [reflexivity|]. destruct (seen_state _ _ _ _ _) as [u|e]; [|discriminate]. intros _ x2 cg ch. rewrite (V1 u eq_refl), (V2 u eq_refl). reflexivity.
Qed.
Print Assumptions C59_accepted_data_restore.

Lemma seq_early o f sf g sg b x d d1 : (exists ng, count_grads o f g b = Ok ng /\ exists e, set_data_checks o f sf g sg ng d = (Some d1, Err e)) ->
  exists e, set_data_run o x f sf g sg b d = (Some d1, Err e).
Proof. intros (ng & E & e & K). exists e. unfold set_data_run, set_data_head, dseq at 1, dlet at 1. rewrite E. unfold dseq at 1. rewrite K. reflexivity. Qed.
Lemma reject_step condf s d x f sf g sg b d1 e : p_data s = Some d -> set_data_run (p_opt s) x f sf g sg b d = (Some d1, Err e) ->
  step condf (SetData x f sf g sg b) s = (upd_data s d1, Err e).
Proof.
  intros H R. cbn [step]. assert (Q := set_data_run_eq (p_opt s) x f sf g sg b d). destruct (set_data (p_opt s) x f sf g sg b) as [d0|e0].
  - rewrite R in Q. discriminate.
  - rewrite H. cbn [set_data_on]. rewrite R in Q |- *. cbn [fst snd] in *. injection Q as ->. reflexivity.
Qed.

(** Refuted: the sizes and the noise flags are not restored.  A working object (one observation with a known standard
    deviation, the set-up succeeds) after a call of set_data that is rejected because gradients are passed to an object
    made without them: the set-up raises. *)
Theorem C59_rejected_gradients_refuted : forall (condf : mat -> R) (f f' b : R) (G : mat),
  let s := run condf (prog1 f 1 b) (gp_new o1) in
  let rejected := SetData x1 (vconst 1 f') SdNone (Some G) SdNone None in
  snd (do_setup condf false s) = Ok tt /\
  (exists e, snd (step condf rejected s) = Err e) /\
  (exists e, snd (do_setup condf false (fst (step condf rejected s))) = Err e).
Proof.
  intros condf f f' b G s rejected. destruct (run1 condf f 1 b ltac:(lra)) as (d & su & Ed & Es & ER).
  destruct (data1 f 1 ltac:(lra)) as (d0 & Ed0 & Dn & Dx & Df & Db & Ds & Dk & Dst & Dno & _). assert (d0 = d) by congruence. subst d0.
  specialize (Dno ltac:(lra)).
  unfold s. rewrite ER. clear s. set (s := mkgp _ _ _ _ _ _ _ _ _).
  split. { erewrite (setup_at condf false s d _ (hp1 b) su); [reflexivity|reflexivity|reflexivity|reflexivity|exact Es]. }
  destruct (seq_early o1 (vconst 1 f') SdNone (Some G) SdNone None x1 d (w_known_f false (w_sizes 1 0 1 d))) as (e & R).
  { exists 0%nat. split; [reflexivity|]. eexists. reflexivity. }
  unfold rejected. rewrite (reject_step condf s d _ _ _ _ _ _ _ e eq_refl R). split; [eexists; reflexivity|].
  unfold do_setup. cbn [fst upd_data upd_setup p_data p_hp p_opt s].
  match goal with |- context [hpv_of ?k ?h] => change (hpv_of k h) with (Ok (Some (hp1 b)) : res (option hpv)) end.
  set (d1 := w_known_f false _).
  assert (E : exists e, setup_eval_model o1 d1 condf (hp1 b) false = Err e).
  { unfold setup_eval_model. unfold get_scl_x_w_dist, get_scl_eval_data. change (d_scl d1) with (d_scl d). rewrite Ds.
    cbn [bind]. change (d_bvec d1) with (d_bvec d). rewrite Db. change (d_x d1) with (d_x d). rewrite Dx.
    match goal with |- context [bind (need_beta ?a) _] => change (need_beta a) with (Ok (mkvec 1 (fun i => nth i [b] 0)) : res vec) end. cbn [bind].
    match goal with |- context [bind (eval_mean_fun ?a ?b ?c ?d ?e ?f ?g) _] => destruct (eval_mean_fun a b c d e f g) as [((mv, mg), mh)|]; [|eexists; reflexivity] end. cbn [bind].
    assert (K : exists e, calc_all_K_w_chofac o1 d1 condf (d_Rt d1) (hp1 b) None true false None true = Err e).
    { unfold calc_all_K_w_chofac. destruct (assert_ _); cbn [bind]; [|eexists; reflexivity]. cbn [hp1 hp_varK hp_theta hp_kernel bind].
      assert (N : exists e, calc_noise_vec o1 d1 (hp1 b) = Err e).
      { unfold calc_noise_vec, get_scl_eval_data. change (d_scl d1) with (d_scl d). change (d_known_fval d1) with false. change (d_std_fval d1) with (d_std_fval d). rewrite Ds, Dst.
        change (o_use_grad o1) with false. destruct (d_fval_zero d1 && d_fgrad_zero d1)%bool; cbn; eexists; reflexivity. }
      destruct N as (e1 & ->). eexists; reflexivity. }
    destruct K as (e1 & ->). eexists; reflexivity. }
  destruct E as (e1 & ->). eexists; reflexivity.
Qed.
Print Assumptions C59_rejected_gradients_refuted.

(** Refuted: consistent data that are rejected late (a mask that selects no point, with the standard deviations of the
    gradients given, is accepted by the checks but not by np.max) leave the new points and values beside the distances
    and the scaling of the old. *)
Theorem C59_late_rejection_refuted :
  forall (condf : mat -> R) (s : gp) (d : gpdata) (x : mat) (f : vec) (sf : stdarg vec) (G sg : mat) (b : option (list bool)),
  p_data s = Some d -> o_use_grad (p_opt s) = true -> shapes_ok (p_opt s) f sf (Some G) (SdOk sg) b -> n_used (vlen f) b = 0%nat ->
  exists s' d' e, step condf (SetData x f sf (Some G) (SdOk sg) b) s = (s', Err e) /\ p_data s' = Some d' /\
    d_x d' = x /\ d_fval d' = f /\ d_Rt d' = d_Rt d /\ d_scl d' = d_scl d.
Proof.
  intros condf s d x f sf G sg b HD Hu HS HZ.
  assert (N : exists e, set_data (p_opt s) x f sf (Some G) (SdOk sg) b = Err e).
  { destruct (set_data (p_opt s) x f sf (Some G) (SdOk sg) b) as [d0|e] eqn:E; [|eexists; reflexivity].
    exfalso. exact (C36_empty_mask_with_known_noise_refuted _ x _ _ _ _ _ Hu HS HZ _ E). }
  destruct N as (e & N). assert (Q := set_data_run_eq (p_opt s) x f sf (Some G) (SdOk sg) b d). rewrite N in Q.
  enough (K : exists d', fst (set_data_run (p_opt s) x f sf (Some G) (SdOk sg) b d) = Some d' /\ d_x d' = x /\ d_fval d' = f /\ d_Rt d' = d_Rt d /\ d_scl d' = d_scl d).
  { destruct K as (d' & K & Kr). exists (upd_data s d'), d', e. split; [|split; [reflexivity|exact Kr]].
    apply (reject_step condf s d); [exact HD|]. destruct (set_data_run _ _ _ _ _ _ _ _). cbn [fst snd] in *. congruence. }
  destruct HS as (S1 & S2). rewrite Hu in S2. destruct S2 as (Hm & g & Eg & G1 & G2 & G3). injection Eg as <-. destruct (G3 sg eq_refl) as (A & B).
  unfold set_data_run, set_data_head, dseq at 1, dlet at 1.
  assert (C : count_grads (p_opt s) f (Some G) b = Ok 0%nat).
  { unfold count_grads. rewrite Hu. destruct b as [m|].
    - cbn in Hm. rewrite Hm, Nat.eqb_refl. cbn [assert_ bind]. assert (CT : count_true m = 0%nat) by (rewrite (n_used_count (vlen f) (Some m) Hm) in HZ; exact HZ). rewrite G1, HZ, CT. reflexivity.
    - unfold n_used, grad_points in HZ. rewrite seq_length in HZ. rewrite HZ. reflexivity. }
  rewrite C. unfold dseq at 1.
  assert (K1 : exists d1, set_data_checks (p_opt s) f sf (Some G) (SdOk sg) 0 d = (Some d1, Ok tt) /\ d_Rt d1 = d_Rt d /\ d_scl d1 = d_scl d).
  { unfold set_data_checks, dseq, dput, dassert. rewrite Hu, A, B, G1, HZ, G2. rewrite !Nat.eqb_refl. cbn [Nat.eqb andb assert_].
    destruct sf as [|sa|sa]; cbn [assert_]; try (eexists; split; [reflexivity|split; reflexivity]).
    rewrite (S1 sa eq_refl), Nat.eqb_refl. cbn [assert_]. eexists; split; [reflexivity|split; reflexivity]. }
  destruct K1 as (d1 & K1 & R1 & R2). rewrite K1. unfold set_data_store, dseq, dput. rewrite Hu. cbn [sd_val].
  destruct sf as [|sa|sa]; cbn [sd_val]; unfold dlet;
    [| |destruct (vmax_lt sa (/ 10 ^ 10)) as [fz|ez]; [|eexists; split; [reflexivity|]; cbn; repeat split; assumption]];
    rewrite mmax_lt_empty by congruence; (eexists; split; [reflexivity|]; cbn; repeat split; assumption).
Qed.
Print Assumptions C59_late_rejection_refuted.

(** Refuted, and nothing raises: two noise-free observations, then a rejected call (one value, two standard deviations).
    The covariance matrix can still be computed, but the nugget is now added to every entry, not to the diagonal only. *)
Definition x2p : mat := mkmat 2 1 (fun i _ => INR i).
Theorem C59_silent_covariance_refuted : forall (condf : mat -> R) (s : gp) (f : vec) (v b : R), vlen f = 2%nat -> p_opt s = o1 ->
  exists d d' k k' e eta,
    set_data o1 x2p f (SdOk (vconst 2 0)) None SdNone None = Ok d /\ 0 < eta /\
    step condf (SetData x2p (vconst 1 v) (SdOk (vconst 2 0)) None SdNone None) (upd_data s d) = (upd_data s d', Err e) /\
    calc_all_K_w_chofac o1 d condf (d_Rt d) (hp1 b) None false false None true = Ok k /\
    calc_all_K_w_chofac o1 d' condf (d_Rt d') (hp1 b) None false false None true = Ok k' /\
    mat_at (k_Kcov k') 0 1 = mat_at (k_Kcov k) 0 1 + eta /\ mat_at (k_Kcov k') 1 0 = mat_at (k_Kcov k) 1 0 + eta /\
    mat_at (k_Kcov k') 0 0 = mat_at (k_Kcov k) 0 0 /\ mat_at (k_Kcov k') 1 1 = mat_at (k_Kcov k) 1 1.
Proof.
  intros condf s f v b Lf Ho. destruct f as [n fa]. cbn in Lf. subst n.
  assert (ZM : Rmax 0 0 < / 10 ^ 10) by (rewrite Rmax_left by lra; apply Rinv_0_lt_compat; apply pow_lt; lra).
  set (d := mkdata 2 0 2 x2p (mkvec 2 fa) (Some (vconst 2 0)) None None None true false false false true true false (calc_nugget_Kbase 2 (10 ^ 10)) None (Some (calc_nugget_Kbase 2 (10 ^ 10))) None
     (mkten 1 2 2 (fun d i j => mat_at x2p i d - mat_at x2p j d))).
  assert (E : set_data o1 x2p (mkvec 2 fa) (SdOk (vconst 2 0)) None SdNone None = Ok d).
  { unfold set_data. cbn. lazymatch goal with |- context [Rlt_dec (Rmax 0 0) ?t] => change t with (/ 10 ^ 10); destruct (Rlt_dec (Rmax 0 0) (/ 10 ^ 10)); [reflexivity|contradiction] end. }
  set (d' := w_known_f true (w_sizes 1 0 1 d)).
  destruct (seq_early o1 (vconst 1 v) (SdOk (vconst 2 0)) None SdNone None x2p d d') as (e & R). { exists 0%nat. split; [reflexivity|]. eexists. reflexivity. }
  eexists d, d', _, _, e, (calc_nugget_Kbase 2 (10 ^ 10)). split; [exact E|]. split.
  { unfold calc_nugget_Kbase. cbn. apply Rdiv_lt_0_compat; lra. }
  split. { rewrite (reject_step condf (upd_data s d) d _ _ _ _ _ _ d' e); [reflexivity|reflexivity|cbn [upd_data p_opt]; rewrite Ho; exact R]. }
  split; [reflexivity|]. split; [reflexivity|]. cbn [k_Kcov]. cbn -[calc_nugget_Kbase pow]. repeat split; field.
Qed.
Print Assumptions C59_silent_covariance_refuted.

Example C59_refused_request_met : forall condf f b, let s := run condf (prog1 f 1 b) (gp_new o1) in
  refused_request s (SetCustomHp (mkarg (Some 0%nat) (Some 1%nat) None (Some (Some 0)) None None)) /\
  exists e, snd (step condf (SetCustomHp (mkarg (Some 0%nat) (Some 1%nat) None (Some (Some 0)) None None)) s) = Err e.
Proof.
  intros condf f b s. split; [exact I|]. unfold s. destruct (run1 condf f 1 b ltac:(lra)) as (d & su & _ & _ & ->). cbn.
  destruct (Rlt_dec 0 0); [lra|]. eexists; reflexivity.
Qed.
Example C59_bad_mask_met : bad_mask ex_opt ex_f (Some ex_g) (Some [true; true; true]) /\ bad_mask o1 (vconst 1 0) None (Some [true]).
Proof. split; (eexists; split; [reflexivity|]); [intros _; right; cbn; lia|discriminate]. Qed.
Example C59_inconsistent_data_met : forall G, ~ shapes_ok o1 (vconst 1 0) SdNone (Some G) SdNone None.
Proof. intros G (_ & H). cbn in H. destruct H. discriminate. Qed.
Example C59_accepted_data_met : forall f, 
  let past := prog1 f 1 0 ++ [SetData x1 (vconst 1 0) SdNone (Some x1) SdNone None; SetupEval false] in
  exists d, set_data o1 x1 (vconst 1 f) (SdOk (vconst 1 1)) None SdNone None = Ok d /\
  (forall condf, exists e, snd (step condf (SetupEval false) (run condf (removelast past) (gp_new o1))) = Err e).
Proof.
  intros f past. destruct (data1 f 1 ltac:(lra)) as (d & Ed & _). exists d. split; [exact Ed|]. intros condf.
  destruct (C59_rejected_gradients_refuted condf f 0 0 x1) as (_ & _ & e & H). exists e. unfold past. rewrite removelast_app by discriminate. exact H.
Qed.
Example C59_late_rejection_met : forall s d, p_opt s = ex_opt -> p_data s = Some d ->
  o_use_grad (p_opt s) = true /\ shapes_ok (p_opt s) ex_f SdNone (Some (mkmat 0 2 (fun _ _ => 0))) (SdOk (mkmat 0 2 (fun _ _ => 0))) (Some [false; false; false]) /\
  n_used (vlen ex_f) (Some [false; false; false]) = 0%nat.
Proof.
  intros s d Ho _. rewrite Ho. split; [reflexivity|]. split; [|reflexivity]. split; [discriminate|]. cbn. split; [reflexivity|]. eexists. split; [reflexivity|]. repeat split.
  - injection H as <-. reflexivity.
  - injection H as <-. reflexivity.
Qed.
