(** * Facts about a session: an optimisation depends on options, data and history only, and changes at most the scaling *)
From Coq Require Import Reals List Arith Bool Lia Lra.
From Coquelicot Require Import Coquelicot.
From Verif.Base Require Import NpLite NpFacts.
From Verif.Spec Require Import KernelSpec LinAlgSpec GpSpec HpSpec DataSpec LkdSpec OptzSpec ThetaSpec RescaleSpec EvalSpec CondSpec StartSpec.
From Verif.Model Require Import KernelSqExp KernelMatern KernelRatQuad KernelDispatch CommonFun WellCond Rescaling GpState Chol Cov HpInfo HpGrad MeanFun Lkd OptzLkd RescaleLoop History StartPts OptzHp.
From Verif.Proofs Require Import KernTac LinAlg CovStruct StateFacts RescaleFacts NoiseFacts HpInfoFacts HpGradFacts LkdCore LkdFacts LkdMain EvalMain OptzHpFacts ThetaRescale.
From Verif.Props Require Import CondProps DataProps HpGradProps LkdProps EvalProps EvalProps2 OptzProps ThetaProps StartProps OptzHpProps OptzTotal OptzTotal2.
Import ListNotations.
Local Open Scope R_scope.

Definition agree2 {A} (p p' : gpobj * res A) : Prop := snd p = snd p' /\ clean (fst p) /\ clean (fst p') /\ same_data (fst p) (fst p').
Lemma same_sym s s' : same_data s s' -> same_data s' s.
Proof. intros (A & B & C & D). repeat split; congruence. Qed.
Lemma agree_agree2 {A} s s' (p p' : gpobj * res A) : same_data s s' -> agree s s' p p' -> agree2 p p'.
Proof. intros E (A1 & A2 & A3 & A4 & A5). split; [exact A1|]. split; [exact A2|]. split; [exact A3|]. eapply same_trans; [apply same_sym; exact A4|]. eapply same_trans; [exact E|exact A5]. Qed.
Lemma agree2_ret {A} s s' (r : res A) : clean s -> clean s' -> same_data s s' -> agree2 (s, r) (s', r).
Proof. intros C C' E. split; [reflexivity|]. split; [exact C|]. split; [exact C'|exact E]. Qed.
Lemma resc_agree la mini tol xs sc : forall k cnt s s' th best cond, clean s -> clean s' -> same_data s s' ->
  agree2 (resc_obj la mini k cnt tol xs sc s th best cond) (resc_obj la mini k cnt tol xs sc s' th best cond).
Proof.
  induction k as [|k IH]; intros cnt s s' th best cond C C' E; cbn [resc_obj]; [apply agree2_ret; assumption|]. destruct (E) as (E1 & E2 & _). rewrite <- E1, <- E2.
  destruct (rescaling_data_w_theta_sol _ _ _ _ _ _) as [t|e]; [|apply agree2_ret; assumption].
  destruct (_ || _); [apply agree2_ret; assumption|].
  match goal with |- context [optz_hp_max_lkd la _ s ?l] => assert (A := agree_agree2 _ _ _ _ E (optz_agree la (mini cnt) l s s' C C' E));
    destruct (optz_hp_max_lkd la (mini cnt) s l) as [s1 r1], (optz_hp_max_lkd la (mini cnt) s' l) as [s1' r1'] end.
  destruct A as (A1 & A2 & A3 & A4). cbn [fst snd] in *. subst r1'. destruct r1 as [[[b c] inf]|e]; [|apply agree2_ret; assumption].
  assert (B := IH (S cnt) s1 s1' (tr_theta t) b c A2 A3 A4).
  destruct (resc_obj la mini k (S cnt) tol xs sc s1 _ b c) as [s2 r2], (resc_obj la mini k (S cnt) tol xs sc s1' _ b c) as [s2' r2'].
  destruct B as (B1 & B2 & B3 & B4). cbn [fst snd] in *. subst r2'. apply agree2_ret; assumption.
Qed.
Lemma with_data_same s s' d : same_data s s' -> same_data (with_data s d) (with_data s' d).
Proof. intros (A & B & C & D). unfold same_data, with_data. cbn. auto. Qed.
Lemma mtd_agree la mini n tol s s' x0s : clean s -> clean s' -> same_data s s' ->
  agree2 (optz_hp_max_lkd_mtd_rescale la mini n tol s x0s) (optz_hp_max_lkd_mtd_rescale la mini n tol s' x0s).
Proof.
  intros C C' E. unfold optz_hp_max_lkd_mtd_rescale. rewrite <- (proj1 E). destruct (is_rescale (o_well (g_opt s))); [|apply agree2_ret; assumption].
  assert (A := agree_agree2 _ _ _ _ E (optz_agree la (mini 0%nat) x0s s s' C C' E)).
  destruct (optz_hp_max_lkd la (mini 0%nat) s x0s) as [s1 r1], (optz_hp_max_lkd la (mini 0%nat) s' x0s) as [s1' r1'].
  destruct A as (A1 & A2 & A3 & A4). cbn [fst snd] in *. subst r1'. destruct r1 as [[[b c] inf]|e]; [|apply agree2_ret; assumption].
  destruct (A4) as (E1 & E2 & E3 & E4). rewrite <- E3. destruct (1 <? d_n_eval (g_data s1))%nat; [|apply agree2_ret; assumption].
  destruct (d_scl (g_data s1)) as [r|]; [|apply agree2_ret; assumption]. cbv zeta. rewrite <- E1.
  match goal with |- context [resc_obj la mini n 1 tol ?xs ?sc s1 ?th b c] => assert (B := resc_agree la mini tol xs sc n 1%nat s1 s1' th b c A2 A3 A4);
    destruct (resc_obj la mini n 1 tol xs sc s1 th b c) as [s2 r2], (resc_obj la mini n 1 tol xs sc s1' th b c) as [s2' r2'] end.
  destruct B as (B1 & B2 & B3 & B4). cbn [fst snd] in *. subst r2'. rewrite <- (proj1 (proj2 (proj2 B4))).
  match goal with |- context [match ?x with Ok _ => _ | Err _ => _ end] => destruct x as [[[[t d'] b'] c']|e] end; [|apply agree2_ret; assumption].
  apply agree2_ret; [exact B2|exact B3|apply with_data_same, B4].
Qed.
(** the outcome of an optimisation depends on the options, the data, the positions of the hyperparameters and the history only *)
Lemma optz_hp_agree la lhs mini c h i s s' : clean s -> clean s' -> same_data s s' -> agree2 (optz_hp la lhs mini c h i s) (optz_hp la lhs mini c h i s').
Proof.
  intros C C' E. unfold optz_hp. destruct (E) as (E1 & E2 & E3 & E4). rewrite <- E1, <- E2, <- E3, <- E4.
  destruct (d_n_eval (g_data s) <=? c_const_n c)%nat; [apply agree2_ret; assumption|].
  match goal with |- context [match ?x with Ok _ => _ | Err _ => _ end] => destruct x as [(x0s, bnd)|e] end; [|apply agree2_ret; assumption]. cbv zeta.
  match goal with |- agree2 (let (_, _) := ?p in _) (let (_, _) := ?p' in _) => assert (A : agree2 p p') end.
  { destruct (_ && _); [apply mtd_agree; assumption|apply (agree_agree2 s s' _ _ E), optz_agree; assumption]. }
  match goal with |- agree2 (let (_, _) := ?p in _) (let (_, _) := ?p' in _) => destruct p as [s1 r1], p' as [s1' r1'] end.
  destruct A as (A1 & A2 & A3 & A4). cbn [fst snd] in *. subst r1'. destruct (A4) as (F1 & F2 & F3 & F4). rewrite <- F1, <- F2, <- F3, <- F4. apply agree2_ret; assumption.
Qed.
Definition fresh (s : gpobj) : gpobj := new_obj (g_opt s) (g_lk s) (g_data s) (g_info s).
Lemma fresh_same_data s : same_data (fresh s) s. Proof. repeat split. Qed.
Lemma optz_hp_fresh la lhs mini c h i s : clean s -> agree2 (optz_hp la lhs mini c h i (fresh s)) (optz_hp la lhs mini c h i s).
Proof. intros C. apply optz_hp_agree; [exact I|exact C|apply fresh_same_data]. Qed.

(** a new scaling with positive factors *)
Lemma xscale_cases X best us dist sci sh sc : calc_x_shift_n_scale X best us Xvmin dist None sci = Ok (sh, sc) ->
  exists s2 m, (forall j, (j < nc X)%nat -> 0 < vat s2 j) /\ (0 < m) /\ 
    sc = vmap (fun s => s * (if (nr X =? 1)%nat then 1 else (match dist with Some v => v | None => vmin_dflt end) / m)) s2.
Proof.
  intros H. unfold calc_x_shift_n_scale in H. cbv zeta in H. binv H s1 E1. binv H s2 E2. binv H X1 E3. binv H cf E4. injection H as _ <-. exists s2.
  assert (P : forall j, (j < nc X)%nat -> 0 < vat s2 j).
  { destruct sci as [v|]; [|injection E2 as <-; intros; cbn; lra]. binv_assert E2. apply Nat.eqb_eq in HA. binv_assert E2. injection E2 as <-. intros j Hj.
    unfold vpositive in HA0. rewrite forallb_forall in HA0. specialize (HA0 j ltac:(apply in_seq; lia)). destruct (Rlt_dec 0 (vat v j)); [assumption|discriminate]. }
  destruct (nr X =? 1)%nat; [exists 1; injection E4 as <-; split; [exact P|]; split; [lra|reflexivity]|].
  unfold isoscaling in E4. binv E4 m Em. destruct m as [m|]; [|discriminate]. injection E4 as <-. exists (Rmax tol_min_dist_x m). split; [exact P|]. split; [|reflexivity].
  apply Rlt_le_trans with tol_min_dist_x; [|apply Rmax_l]. unfold tol_min_dist_x. apply Rinv_0_lt_compat, pow_lt. lra.
Qed.
Definition set_dist (r : resc) : R := match r_dist r with Some v => v | None => vmin_dflt end.
Definition vm_scl (r : resc) : Prop := r_mtd r = Xvmin /\ ((0 < nc (r_x r))%nat -> 0 < vat (r_scale r) 0 -> nr (r_x r) = 1%nat \/ 0 < set_dist r).
Lemma vm_step r sci r' : r_mtd r = Xvmin -> set_xscale_data r None sci = Ok r' -> vm_scl r' /\ 
  (nr (r_x r) = 1%nat \/ 0 < set_dist r -> forall j, (j < nc (r_x r))%nat -> 0 < vat (r_scale r') j) /\ r_x r' = r_x r /\ set_dist r' = set_dist r.
Proof.
  intros M H. destruct (set_xscale_inv _ _ _ _ H) as (_ & X1 & X2 & X3 & _). assert (H' := H). apply set_xscale_data_inv in H'. destruct H' as (_ & C & _). rewrite M in C.
  destruct (xscale_cases _ _ _ _ _ _ _ C) as (s2 & m & P & Pm & E). fold (set_dist r) in E. assert (SD : set_dist r' = set_dist r) by (unfold set_dist; rewrite X3; reflexivity). split; [|split; [|split; [exact X1|exact SD]]].
  - split; [congruence|]. rewrite X1, SD, E. cbn [vmap vat]. intros D Q. destruct (Nat.eqb_spec (nr (r_x r)) 1) as [N|N]; [left; exact N|right]. specialize (P 0%nat D).
    destruct (Rlt_dec 0 (set_dist r)) as [L|L]; [exact L|]. exfalso. assert (set_dist r / m <= 0).
    { unfold Rdiv. apply Rmult_le_reg_r with m; [exact Pm|]. rewrite Rmult_assoc, Rinv_l by lra. lra. }
    assert (vat s2 0%nat * (set_dist r / m) <= 0) by (apply Ropp_le_cancel; rewrite Ropp_0, Ropp_mult_distr_r; apply Rmult_le_pos; lra). lra.
  - intros D j Hj. rewrite E. cbn [vmap vat]. apply Rmult_lt_0_compat; [apply P, Hj|]. destruct (Nat.eqb_spec (nr (r_x r)) 1) as [N|N]; [lra|]. apply Rdiv_lt_0_compat; [destruct D; [contradiction|assumption]|exact Pm].
Qed.
Lemma data_vm o d r : data_set o d -> is_rescale (o_well o) = true -> d_scl d = Some r -> vm_scl r.
Proof.
  intros (x & fv & sf & g & sg & b & _ & _ & _ & H) W. revert r. induction H as [d H|d scale d' _ IH H]; intros r E.
  - unfold set_data in H. cbv zeta in H. binv H ng Eng. binv H stf Estf. binv H stg Estg. binv H fz Efz. binv H gz Egz. binv H eta Eeta. binv H dm Edm.
    binv H scl Escl. binv H Rt ERt. injection H as <-. cbn [d_scl] in E. subst scl. destruct (o_use_scl o); [|discriminate]. binv Escl md Emd. binv Escl r1 Er1. binv Escl r2 Er2. injection Escl as ->.
    assert (M : fst md = Xvmin) by (destruct (o_well o); try discriminate; injection Emd as <-; reflexivity).
    unfold rescaling_init in Er1. apply vm_step in Er1; [|exact M]. destruct Er1 as (V & _).
    destruct (set_obj_data_inv _ _ _ _ _ Er2) as (Q1 & _ & Q3 & _). unfold set_obj_data in Er2. binv_assert Er2. binv Er2 ss E1. destruct ss as (sh, sc). binv Er2 os E2. injection Er2 as <-.
    unfold vm_scl, set_dist in *. cbn [r_mtd r_dist r_x r_scale] in *. exact V.
  - apply rescale_data_inv in H. destruct H as (r1 & r2 & E1 & H & ->). cbn in E. injection E as ->. destruct (IH r1 E1) as (M & _). apply (vm_step r1 (Some scale) r M H).
Qed.
Lemma rescale_positive o d scale d' : opts_ok o -> data_set o d -> is_rescale (o_well o) = true -> scale_defined o d -> rescale_data d scale = Ok d' -> scale_defined o d'.
Proof.
  intros (D & _) HD W SD H j Hj. apply rescale_data_inv in H. destruct H as (r & r' & E & H & ->). destruct (data_vm o d r HD W E) as (M & V).
  destruct (vm_step r _ r' M H) as (_ & P & _). unfold in_scale. cbn [d_scl with_scl].
  assert (X : nc (r_x r) = o_dim o). { destruct HD as (x & fv & sf & g & sg & bb & Q1 & Q2 & Q3 & HA). assert (II := data_after_inv _ _ _ _ _ _ _ _ HA). destruct II as (_ & _ & _ & _ & _ & _ & _ & _ & _ & _ & I11 & _). rewrite (proj1 (I11 r E)). exact Q3. }
  apply P; [|lia]. apply V; [lia|]. specialize (SD 0%nat D). unfold in_scale in SD. rewrite E in SD. exact SD.
Qed.

(** what an optimisation does to the object: options and positions stay, the data is as before but for the scaling,
    which stays defined *)
Lemma resc_obj_keeps la mini tol xs sc : forall k cnt s th best cond, clean s ->
  let p := resc_obj la mini k cnt tol xs sc s th best cond in clean (fst p) /\ same_data s (fst p).
Proof.
  induction k as [|k IH]; intros cnt s th best cond C; cbn [resc_obj]; [split; [exact C|apply same_refl]|].
  destruct (rescaling_data_w_theta_sol _ _ _ _ _ _) as [t|e]; [|split; [exact C|apply same_refl]]. destruct (_ || _); [split; [exact C|apply same_refl]|].
  match goal with |- context [optz_hp_max_lkd la _ s ?l] => destruct (optz_same la (mini cnt) s l C) as (S1 & C1); destruct (optz_hp_max_lkd la (mini cnt) s l) as [s1 r1] end. cbn [fst snd] in *.
  destruct r1 as [[[b c] inf]|e]; [|split; assumption]. specialize (IH (S cnt) s1 (tr_theta t) b c C1).
  destruct (resc_obj la mini k (S cnt) tol xs sc s1 (tr_theta t) b c) as [s2 r2]. cbn [fst snd] in *. destruct IH as (I1 & I2). split; [exact I1|]. eapply same_trans; eassumption.
Qed.
Lemma optz_hp_keeps la lhs mini c h i s : clean s -> let s' := fst (optz_hp la lhs mini c h i s) in
  clean s' /\ g_opt s' = g_opt s /\ g_lk s' = g_lk s /\ g_info s' = g_info s /\
  (g_data s' = g_data s \/ is_rescale (o_well (g_opt s)) = true /\ exists scale, rescale_data (g_data s) scale = Ok (g_data s')).
Proof.
  intros C. assert (SM : forall s1, clean s1 -> same_data s s1 -> clean s1 /\ g_opt s1 = g_opt s /\ g_lk s1 = g_lk s /\ g_info s1 = g_info s /\ (g_data s1 = g_data s \/ is_rescale (o_well (g_opt s)) = true /\ exists scale, rescale_data (g_data s) scale = Ok (g_data s1))).
  { intros s1 C1 (A1 & A2 & A3 & A4). split; [exact C1|]. repeat split; auto. }
  unfold optz_hp. destruct (d_n_eval (g_data s) <=? c_const_n c)%nat; [apply SM; [exact C|apply same_refl]|].
  match goal with |- context [match ?x with Ok _ => _ | Err _ => _ end] => destruct x as [(x0s, bnd)|e] end; [|apply SM; [exact C|apply same_refl]]. cbv zeta.
  destruct (is_rescale (o_well (g_opt s)) && (1 <? c_max_iter c)%nat) eqn:B.
  2:{ destruct (optz_same la (mini 0%nat bnd) s x0s C) as (S1 & C1). destruct (optz_hp_max_lkd la (mini 0%nat bnd) s x0s) as [s1 r1]. cbn [fst snd] in *. apply SM; assumption. }
  apply andb_true_iff in B. destruct B as (B & _). unfold optz_hp_max_lkd_mtd_rescale. rewrite B. rewrite B in SM.
  destruct (optz_same la (mini 0%nat bnd) s x0s C) as (S1 & C1). destruct (optz_hp_max_lkd la (mini 0%nat bnd) s x0s) as [s1 r1]. cbn [fst snd] in *. destruct r1 as [[[b co] inf]|e]; [|cbn [fst]; apply SM; assumption].
  destruct (1 <? d_n_eval (g_data s1))%nat; [|cbn [fst]; apply SM; assumption]. destruct (d_scl (g_data s1)) as [r|]; [|cbn [fst]; apply SM; assumption]. cbv zeta.
  match goal with |- context [resc_obj la ?m ?n 1 ?tol ?xs ?sc s1 ?th b co] => destruct (resc_obj_keeps la m tol xs sc n 1%nat s1 th b co C1) as (C2 & S2); destruct (resc_obj la m n 1 tol xs sc s1 th b co) as [s2 r2] end. cbn [fst snd] in *.
  assert (S3 := same_trans _ _ _ S1 S2).
  match goal with |- context [match ?x with Ok _ => _ | Err _ => _ end] => destruct x as [[[[t d'] b'] c']|e] eqn:ED end; [|cbn [fst]; apply SM; assumption]. cbn [fst].
  binv ED y Ey. destruct y as ((l, b1), c1). binv ED t1 Et. binv ED d1 Ed. injection ED as <- -> _ _.
  destruct (S3) as (T1 & T2 & T3 & T4). split; [exact C2|]. cbn [with_data g_opt g_lk g_info g_data]. repeat split; auto. right. split; [reflexivity|]. rewrite T3. eauto.
Qed.

(** ** invariants of a session *)
From Verif.Spec Require Import HistSpec ObjSpec SessionSpec.
From Verif.Model Require Import EvalModel SetDataState Object Session.
From Verif.Proofs Require Import HistFacts ObjFacts.
From Verif.Props Require Import ObjProps3.
Definition widths (dim : nat) (s : gp) : Prop := forall h, current_history s = Some h -> h_w h Tbeta = 1%nat /\ h_w h Ttheta = dim /\ h_w h Txscl = dim.
Lemma widths_hist dim s s' h h' : widths dim s -> current_history s = Some h -> current_history s' = Some h' -> h_w h' = h_w h -> widths dim s'.
Proof. intros W E E' Q x Ex. assert (x = h') by congruence. subst x. rewrite Q. apply W, E. Qed.
Lemma widths_cur dim s s' : current_history s' = current_history s -> widths dim s -> widths dim s'.
Proof. intros E W h Hh. apply W. congruence. Qed.
Lemma store_frame i q info cond t1 t2 t3 s dim : let s' := fst (do_store i q info cond t1 t2 t3 s) in
  p_opt s' = p_opt s /\ p_data s' = p_data s /\ (widths dim s -> widths dim s').
Proof.
  unfold do_store. cbn [upd_hp p_cur p_data]. destruct (p_cur s) as [g|] eqn:Eg, (p_data s) as [d|] eqn:Ed; cbn [fst upd_hist upd_hp p_opt p_data]; (split; [reflexivity|]); (split; [congruence|]);
    intros W; try (apply (widths_cur _ s); [|exact W]; unfold current_history; cbn; rewrite ?Eg; reflexivity).
  match goal with |- context [store_row ?a i ?x info cond t1 t2 t3 ?h] => destruct (store_only a i x info cond t1 t2 t3 h) as (_ & B & _);
    eapply (widths_hist _ s _ h); [exact W|unfold current_history; rewrite Eg; reflexivity|unfold current_history; cbn; rewrite Eg; cbn; rewrite Nat.eqb_refl; reflexivity|exact B] end.
Qed.
Lemma setup_frame condf cc s dim : let s' := fst (do_setup condf cc s) in p_opt s' = p_opt s /\ p_data s' = p_data s /\ (widths dim s -> widths dim s').
Proof. cbv zeta. destruct (setup_keeps condf cc s) as (_ & _ & _ & _ & _ & A & B). split; [exact B|]. split; [exact A|]. apply widths_cur, setup_cur. Qed.
Definition data_kept (x : op) : Prop := match x with SetData _ _ _ _ _ _ | SetHpFromIdx _ | SetHparaStored _ _ => False | _ => True end.
Lemma from_idx_frame i s dim : let s' := fst (do_from_idx i s) in p_opt s' = p_opt s /\ (widths dim s -> widths dim s').
Proof.
  unfold do_from_idx. destruct (p_cur s) as [g|] eqn:Eg; [|split; auto]. destruct (set_hp_from_idx (p_hist s g) i) as [[[kf kg] y]|]; [|split; auto].
  cbn [upd_hp bump p_data]. destruct (p_data s); (split; [reflexivity|]); apply widths_cur; unfold current_history; cbn; rewrite Eg; reflexivity.
Qed.
Lemma step_frame condf x s dim : dim = o_dim (p_opt s) -> let s' := fst (step condf x s) in p_opt s' = p_opt s /\ (data_kept x -> p_data s' = p_data s) /\ (widths dim s -> widths dim s').
Proof.
  intros HD. assert (R : forall s', p_opt s' = p_opt s -> p_data s' = p_data s -> current_history s' = current_history s -> p_opt s' = p_opt s /\ (data_kept x -> p_data s' = p_data s) /\ (widths dim s -> widths dim s')).
  { intros s' A B C. split; [exact A|]. split; [intros _; exact B|apply widths_cur, C]. }
  assert (K : forall s1 s', p_opt s1 = p_opt s -> p_data s1 = p_data s -> current_history s1 = current_history s -> (p_opt s' = p_opt s1 /\ p_data s' = p_data s1 /\ (widths dim s1 -> widths dim s')) ->
    p_opt s' = p_opt s /\ (data_kept x -> p_data s' = p_data s) /\ (widths dim s -> widths dim s')).
  { intros s1 s' A B C (D & F & G). split; [congruence|]. split; [intros _; congruence|]. intros W. apply G. apply (widths_cur dim s); assumption. }
  destruct x; cbn [step data_kept] in *; try (apply R; reflexivity).
  - destruct (_ && _); apply R; reflexivity.
  - destruct (set_data _ _ _ _ _ _ _); (split; [reflexivity|split; [intros []|apply widths_cur; reflexivity]]).
  - destruct (arg_ok s g); [|apply R; reflexivity]. destruct (varK_pos _); apply R; reflexivity.
  - destruct (arg_ok s g); apply R; reflexivity.
  - destruct (from_idx_frame i s dim) as (A & B). split; [exact A|]. split; [intros []|exact B].
  - apply (K s); auto. apply setup_frame.
  - destruct (from_idx_frame i s dim) as (A & B). unfold andthen. destruct (do_from_idx i s) as (s1, [[]|e]); cbn [fst] in *; [|split; [exact A|split; [intros []|exact B]]].
    destruct (setup_frame condf calc_cond s1 dim) as (F & _ & G). split; [congruence|]. split; [intros []|]. intros W. apply G, B, W.
  - unfold andthen. assert (Z : let s' := fst (do_optz i out s) in p_opt s' = p_opt s /\ p_data s' = p_data s /\ (widths dim s -> widths dim s')).
    { unfold do_optz. destruct out as [u|e]; [|auto]. set (s1 := upd_arr _ _ _). destruct (mk_hp s1 _) as (s2, q) eqn:E. destruct (store_frame i q (u_info u) (u_cond u) (u_t1 u) (u_t2 u) (u_t3 u) s2 dim) as (A & B & C).
      injection E as <- _. split; [exact A|]. split; [exact B|]. intros W. apply C. exact W. }
    destruct (do_optz i out s) as (s1, [[]|e]); cbn [fst] in *; destruct Z as (A & B & C); [|split; [exact A|split; [intros _; exact B|exact C]]].
    destruct (setup_frame condf calc_cond s1 dim) as (F & G & H). split; [congruence|]. split; [intros _; congruence|]. intros W. apply H, C, W.
  - destruct (_ && _); [apply (K s); auto; apply setup_frame|apply R; reflexivity].
  - destruct (arg_ok s g); [|apply R; reflexivity]. destruct (mk_hp s g) as (s1, q) eqn:E. apply (K (upd_hp s1 (Some q))); try (injection E as <- _; reflexivity). apply setup_frame.
  - destruct (arg_ok s g); [|apply R; reflexivity]. destruct (mk_hp s g) as (s1, q) eqn:E. apply (K s1); try (injection E as <- _; reflexivity). apply store_frame.
  - split; [reflexivity|]. split; [reflexivity|]. intros _ h Hh. unfold current_history in Hh. cbn in Hh. rewrite Nat.eqb_refl in Hh. injection Hh as <-. cbn. auto.
  - destruct (p_cur s) as [g|] eqn:Eg; [|apply R; reflexivity]. split; [reflexivity|]. split; [reflexivity|]. intros W. eapply (widths_hist _ s _ (p_hist s g)); [exact W|unfold current_history; rewrite Eg; reflexivity|unfold current_history; cbn; rewrite Eg; cbn; rewrite Nat.eqb_refl; reflexivity|reflexivity].
  - destruct (p_cur s) as [g|] eqn:Eg; [|apply R; reflexivity]. split; [reflexivity|]. split; [reflexivity|]. intros W.
    eapply (widths_hist _ s _ (p_hist s g)); [exact W|unfold current_history; rewrite Eg; reflexivity|unfold current_history; cbn; rewrite Eg; cbn; rewrite Nat.eqb_refl; reflexivity|].
    destruct data as [e|]; [apply (load_only name e (p_hist s g))|reflexivity].
Qed.
Lemma found_frame i hp rep cond t1 t2 t3 s dim : let s' := fst (do_found i hp rep cond t1 t2 t3 s) in p_opt s' = p_opt s /\ p_data s' = p_data s /\ (widths dim s -> widths dim s').
Proof.
  unfold do_found. set (s1 := upd_arr _ _ _). destruct (mk_hp s1 _) as (s2, q) eqn:E. destruct (store_frame i q (option_map hinfo_of rep) (pyf_of cond) t1 t2 t3 s2 dim) as (A & B & C).
  injection E as <- _. split; [exact A|]. split; [exact B|]. intros W. apply C. exact W.
Qed.
(** the object the optimisation works on *)
Definition z_obj (z : sess) (d : gpdata) (info : hpinfo) : gpobj := mkobj (p_opt (z_gp z)) (z_lk z) d info (z_last z) (z_store z).
Definition zclean (z : sess) : Prop := match z_last z with L1 _ => False | _ => True end.
Record zinv (o : gpopt) (lo : lkopt) (c : optzcfg) (z : sess) : Prop := mkzinv {
  zi_opt : p_opt (z_gp z) = o; zi_lk : z_lk z = lo; zi_cfg : z_cfg z = c; zi_clean : zclean z; zi_widths : widths (o_dim o) (z_gp z) }.
Definition data_rel (o : gpopt) (a b : option gpdata) : Prop :=
  b = a \/ exists d d' scale, a = Some d /\ b = Some d' /\ is_rescale (o_well o) = true /\ rescale_data d scale = Ok d'.
Lemma z_optz_frame la lhs mini o lo c i t1 t2 t3 z : zinv o lo c z -> let z' := fst (z_optz la lhs mini i t1 t2 t3 z) in
  zinv o lo c z' /\ z_info z' = z_info z /\ data_rel o (p_data (z_gp z)) (p_data (z_gp z')).
Proof.
  intros Z. assert (Z' := Z). destruct Z' as [Z1 Z2 Z3 Z4 Z5]. unfold z_optz. destruct (p_data (z_gp z)) as [d|] eqn:Ed; [|cbn [fst]; rewrite Ed; split; [exact Z|split; [reflexivity|left; reflexivity]]].
  destruct (z_info z) as [info|] eqn:Ei; [|cbn [fst]; rewrite Ed, Ei; split; [exact Z|split; [reflexivity|left; reflexivity]]]. cbv zeta.
  set (oh := if (d_n_eval d <=? c_const_n (z_cfg z))%nat then _ else _). destruct oh as [h|]; [|cbn [fst]; rewrite Ed, Ei; split; [exact Z|split; [reflexivity|left; reflexivity]]].
  fold (z_obj z d info). destruct (optz_hp_keeps la lhs mini (z_cfg z) h i (z_obj z d info) Z4) as (K1 & K2 & K3 & K4 & K5).
  destruct (optz_hp la lhs mini (z_cfg z) h i (z_obj z d info)) as [s' r]. cbn [fst] in *.
  assert (D : data_rel o (Some d) (Some (g_data s'))).
  { destruct K5 as [->|(W & scale & K5)]; [left; reflexivity|]. right. exists d, (g_data s'), scale. cbn [z_obj g_opt] in W. rewrite Z1 in W. auto. }
  assert (ZI : zinv o lo c (mksess (upd_data (z_gp z) (g_data s')) (z_lk z) (z_cfg z) (Some info) (g_last s') (g_store s'))) by (constructor; [exact Z1|exact Z2|exact Z3|exact K1|exact Z5]).
  destruct r as [[[hp cond] rep]|e]; [|cbn [fst z_gp upd_data p_data z_info]; split; [exact ZI|split; [reflexivity|exact D]]].
  match goal with |- context [do_found i hp rep cond ?a ?b ?e ?s] => destruct (found_frame i hp rep cond a b e s (o_dim o)) as (A & B & C); destruct (do_found i hp rep cond a b e s) as [s1 u] end.
  cbn [fst z_gp with_gp z_info] in *. split; [|split; [reflexivity|rewrite B; exact D]]. constructor; cbn [z_gp with_gp z_lk z_cfg z_last]; [rewrite A; exact Z1|exact Z2|exact Z3|exact K1|apply C; exact Z5].
Qed.
Lemma zstep_frame la lhs mini o lo c x z : zinv o lo c z -> let z' := fst (zstep la lhs mini x z) in
  zinv o lo c z' /\ (leaves_data x -> z_info z' = z_info z /\ data_rel o (p_data (z_gp z)) (p_data (z_gp z'))).
Proof.
  intros Z. assert (Z' := Z). destruct Z' as [Z1 Z2 Z3 Z4 Z5].
  assert (G : forall y, y = y -> zinv o lo c (fst (zlift z (step (la_cond la) y (z_gp z)))) /\ (data_kept y -> z_info (fst (zlift z (step (la_cond la) y (z_gp z)))) = z_info z /\ data_rel o (p_data (z_gp z)) (p_data (z_gp (fst (zlift z (step (la_cond la) y (z_gp z)))))))).
  { intros y _. destruct (step_frame (la_cond la) y (z_gp z) (o_dim o)) as (A & B & C); [rewrite Z1; reflexivity|]. unfold zlift. cbn [fst with_gp z_gp z_info].
    split; [constructor; cbn [with_gp z_gp z_lk z_cfg z_last]; [congruence|exact Z2|exact Z3|exact Z4|apply C, Z5]|]. intros Hy. split; [reflexivity|]. left. apply B, Hy. }
  destruct x as [y|i cc t1 t2 t3].
  - destruct y; try (exact (G _ eq_refl)); cbn [zstep leaves_data].
    + cbv zeta. destruct (set_data _ _ _ _ _ _ _) as [d|e].
      * destruct (setup_hp_idx4optz _ _ _) as [info|e]; cbn [fst]; (split; [constructor; assumption|intros []]).
      * destruct (set_data_head_on _ _ _ _ _ _ _ _) as ([dh|] & [[]|e1]); try destruct (setup_hp_idx4optz _ _ _) as [info|e2]; cbn [fst]; (split; [constructor; assumption|intros []]).
    + cbn [fst]. split; [exact Z|]. intros _. split; [reflexivity|left; reflexivity].
  - cbn [zstep leaves_data]. destruct (z_optz_frame la lhs mini o lo c i t1 t2 t3 z Z) as (A & B & C). unfold zthen. destruct (z_optz la lhs mini i t1 t2 t3 z) as [z1 [[]|e]]; cbn [fst] in *; [|auto].
    destruct A as [A1 A2 A3 A4 A5]. destruct (setup_frame (la_cond la) cc (z_gp z1) (o_dim o)) as (F1 & F2 & F3). unfold zlift. cbn [fst with_gp z_gp z_info].
    split; [constructor; cbn [with_gp z_gp z_lk z_cfg z_last]; [congruence|exact A2|exact A3|exact A4|apply F3, A5]|]. intros _. split; [exact B|]. rewrite F2. exact C.
Qed.
Lemma zset_ok la lhs mini x fv sf gr sg b z z1 : zstep la lhs mini (ZOp (SetData x fv sf gr sg b)) z = (z1, Ok tt) ->
  exists d info, set_data (p_opt (z_gp z)) x fv sf gr sg b = Ok d /\ setup_hp_idx4optz (p_opt (z_gp z)) d (z_lk z) = Ok info /\
  z1 = mksess (upd_data (z_gp z) d) (z_lk z) (z_cfg z) (Some info) (z_last z) (z_store z).
Proof.
  cbn [zstep]. cbv zeta. destruct (set_data _ _ _ _ _ _ _) as [d|e].
  - destruct (setup_hp_idx4optz _ d _) as [info|e] eqn:E; [|discriminate]. intros H. injection H as <-. exists d, info. auto.
  - destruct (set_data_head_on _ _ _ _ _ _ _ _) as ([dh|] & [[]|e1]); try destruct (setup_hp_idx4optz _ _ _); discriminate.
Qed.
Lemma zinv_new o lo c : zinv o lo c (z_new o lo c).
Proof. constructor; try reflexivity; try exact I. intros h H. discriminate. Qed.
Lemma zinv_run la lhs mini o lo c xs : forall z, zinv o lo c z -> zinv o lo c (zrun la lhs mini xs z).
Proof. induction xs as [|x xs IH]; intros z Z; [exact Z|]. apply (IH (fst (zstep la lhs mini x z))). apply zstep_frame, Z. Qed.

(** the data a session works with between two calls of set_data *)
Definition dinv (o : gpopt) (lo : lkopt) x fv sf gr sg b (d1 : gpdata) (z : sess) : Prop := exists d info, p_data (z_gp z) = Some d /\ z_info z = Some info /\
  data_after o x fv sf gr sg b d /\ scale_defined o d /\ setup_hp_idx4optz o d lo = Ok info /\
  d_known_fval d = d_known_fval d1 /\ d_known_fgrad d = d_known_fgrad d1 /\ d_bvec d = d_bvec d1 /\ d_noisy d = d_noisy d1 /\ d_n_eval d = d_n_eval d1.
Lemma dinv_step o lo x fv sf gr sg b d1 z z' : opts_ok o -> (0 < vlen fv)%nat -> nr x = vlen fv -> nc x = o_dim o -> dinv o lo x fv sf gr sg b d1 z ->
  z_info z' = z_info z -> data_rel o (p_data (z_gp z)) (p_data (z_gp z')) -> dinv o lo x fv sf gr sg b d1 z'.
Proof.
  intros HO N1 N2 N3 (d & info & D1 & D2 & D3 & D4 & D5 & D6 & D7 & D8 & D9 & D10) I [E|(a & d' & scale & E1 & E2 & W & R)]; [exists d, info; rewrite E, I; auto 12|].
  assert (a = d) by congruence. subst a. exists d', info. rewrite E2, I. split; [reflexivity|]. split; [exact D2|]. split; [eapply after_rescale; eassumption|].
  split. { eapply rescale_positive; [exact HO| |exact W|exact D4|exact R]. exists x, fv, sf, gr, sg, b. auto. }
  assert (R' := R). apply rescale_data_inv in R'. destruct R' as (r & r' & _ & _ & ->). auto 10.
Qed.
Lemma dinv_run la lhs mini o lo c x fv sf gr sg b d1 xs : opts_ok o -> (0 < vlen fv)%nat -> nr x = vlen fv -> nc x = o_dim o -> List.Forall leaves_data xs -> forall z, zinv o lo c z -> dinv o lo x fv sf gr sg b d1 z ->
  dinv o lo x fv sf gr sg b d1 (zrun la lhs mini xs z).
Proof.
  intros HO N1 N2 N3 HF. induction HF as [|y xs Hy HF IH]; intros z Z D; [exact D|]. destruct (zstep_frame la lhs mini o lo c y z Z) as (A & B). destruct (B Hy) as (B1 & B2).
  apply (IH (fst (zstep la lhs mini y z)) A). eapply dinv_step; eassumption.
Qed.
