(** * C43: set_hpara makes the hyperparameters that were asked for the current ones, and those of an iteration can
    be had back later *)
From Coq Require Import Reals List Arith Bool String Lia Lra.
From Verif.Base Require Import NpLite NpFacts.
From Verif.Model Require Import KernelDispatch WellCond Rescaling GpState Chol Cov MeanFun EvalModel HpInfo History Object.
From Verif.Spec Require Import KernelSpec LinAlgSpec DataSpec RescaleSpec EvalSpec HistSpec ObjSpec.
From Verif.Proofs Require Import HistFacts ObjFacts.
From Verif.Props Require Import EvalProps ObjProps2.
Import ListNotations.
Local Open Scope nat_scope.

Lemma rd_arg_sc n x : rd_sc (arg_sc n x) = py_of x.
Proof. destruct x as [[v|]|]; reflexivity. Qed.
Lemma rd_arg_arr s x : rd_arr s (arg_arr x) = option_map (p_arr s) x.
Proof. destruct x; reflexivity. Qed.
Lemma rd_view_sc n x : rd_sc (view_sc n x) = x.
Proof. destruct x; reflexivity. Qed.
Lemma rd_mk s g : rd_hp (fst (mk_hp s g)) (snd (mk_hp s g)) = given_hp s g.
Proof. unfold rd_hp, given_hp, mk_hp. cbn [fst snd q_beta q_theta q_kernel q_varK q_vf q_vg]. rewrite !rd_arg_sc, !rd_arg_arr. reflexivity. Qed.
Lemma rd_upd_hp s o q : rd_hp (upd_hp s o) q = rd_hp s q. Proof. reflexivity. Qed.

(** a set-up leaves the hyperparameters, the data and the memory alone, and is a set-up with these hyperparameters *)
Lemma setup_keeps condf cc s : let r := do_setup condf cc s in
  p_hp (fst r) = p_hp s /\ p_setup (fst r) = p_hp s /\ p_arr (fst r) = p_arr s /\ p_hist (fst r) = p_hist s /\ p_cur (fst r) = p_cur s /\
  p_data (fst r) = p_data s /\ p_opt (fst r) = p_opt s.
Proof.
  cbv zeta. unfold do_setup. cbn [upd_setup p_data p_hp p_opt].
  destruct (p_data s) as [d|] eqn:ED, (p_hp s) as [q|] eqn:EQ; cbn [fst upd_setup p_data p_hp p_opt p_setup p_arr p_hist p_cur]; auto 10.
  match goal with |- context [hpv_of ?a ?b] => destruct (hpv_of a b) as [[hp|]|e] end;
    cbn [fst upd_setup upd_surr p_data p_hp p_opt p_setup p_arr p_hist p_cur]; auto 10.
  destruct (setup_eval_model (p_opt s) d condf hp cc); cbn [fst upd_setup upd_surr p_data p_hp p_opt p_setup p_arr p_hist p_cur]; auto 10.
Qed.
Lemma setup_hp_now condf cc s : hp_now (fst (do_setup condf cc s)) = hp_now s.
Proof.
  destruct (setup_keeps condf cc s) as (H1 & _ & H3 & H4 & _). unfold hp_now. rewrite H1. destruct (p_hp s) as [q|]; [|reflexivity]. cbn.
  f_equal. unfold rd_hp, rd_arr. rewrite H3, H4. reflexivity.
Qed.
Lemma setup_cur condf cc s : current_history (fst (do_setup condf cc s)) = current_history s.
Proof. destruct (setup_keeps condf cc s) as (_ & _ & _ & H4 & H5 & _). unfold current_history. rewrite H4, H5. reflexivity. Qed.

Lemma from_idx_spec i s s1 : do_from_idx i s = (s1, Ok tt) -> exists h x, current_history s = Some h /\ current_history s1 = Some h /\
  hp_now s1 = Some x /\ recorded_hp h i x /\ p_arr s1 = p_arr s /\ p_opt s1 = p_opt s /\
  forall d, p_data s = Some d -> p_data s1 = Some (set_known d (is_nan (h_col h Qvar_fval i)) (is_nan (h_col h Qvar_fgrad i))).
Proof.
  unfold do_from_idx. destruct (p_cur s) as [g|] eqn:Eg; [|discriminate]. unfold set_hp_from_idx.
  destruct (Nat.ltb_spec i (h_n (p_hist s g))) as [Hi|]; [|discriminate]. intros H. injection H as <-.
  exists (p_hist s g). match goal with |- context [upd_hp _ (Some ?q)] => exists (rd_hp s q) end.
  assert (G1 : current_history s = Some (p_hist s g)) by (unfold current_history; rewrite Eg; reflexivity).
  split; [exact G1|]. cbn [upd_hp bump p_data]. destruct (p_data s) as [d|] eqn:ED.
  - split; [unfold current_history; cbn; rewrite Eg; reflexivity|]. split; [reflexivity|]. split; [|split; [reflexivity|]; split; [reflexivity|]].
    + unfold recorded_hp, rd_hp. cbn [q_beta q_theta q_kernel q_varK q_vf q_vg x_beta x_theta x_kernel x_varK x_var_fval x_var_fgrad].
      rewrite !rd_view_sc. split; [exact Hi|]. split; [cbn; split; [reflexivity|auto]|]. split; [cbn; split; [reflexivity|auto]|]. repeat split.
    + intros d' [= <-]. reflexivity.
  - split; [unfold current_history; cbn; rewrite Eg; reflexivity|]. split; [reflexivity|]. split; [|split; [reflexivity|]; split; [reflexivity|]].
    + unfold recorded_hp, rd_hp. cbn [q_beta q_theta q_kernel q_varK q_vf q_vg x_beta x_theta x_kernel x_varK x_var_fval x_var_fgrad].
      rewrite !rd_view_sc. split; [exact Hi|]. split; [cbn; split; [reflexivity|auto]|]. split; [cbn; split; [reflexivity|auto]|]. repeat split.
    + intros d' [=].
Qed.

(** ** what the current hyperparameters are after a successful call *)
(** 'set': those that were given (and they are the ones the surrogate was set up with) *)
Theorem C43_set : forall (condf : mat -> R) (s s' : gp) (g : hparg) (cc : bool),
  step condf (SetHparaSet g cc) s = (s', Ok tt) -> hp_now s' = Some (given_hp s g) /\ p_setup s' = p_hp s'.
Proof.
  intros condf s s' g cc. cbn [step]. destruct (arg_ok s g); [|discriminate]. destruct (mk_hp s g) as (s1, q) eqn:E. intros H.
  destruct (setup_keeps condf cc (upd_hp s1 (Some q))) as (K1 & K2 & _). assert (N := setup_hp_now condf cc (upd_hp s1 (Some q))).
  rewrite H in *. cbn [fst] in *. split; [rewrite N|rewrite K1, K2; reflexivity]. unfold hp_now. cbn. f_equal.
  assert (R := rd_mk s g). rewrite E in R. exact R.
Qed.
Print Assumptions C43_set.
(** set_custom_hp: those that were given; a variance that is not positive (NaN included) is refused and nothing changes *)
Theorem C43_custom : forall (condf : mat -> R) (s : gp) (g : hparg), arg_ok s g = true ->
  match g_varK g with
  | Some (Some v) => (0 < v)%R
  | Some None => False
  | None => True
  end ->
  exists s', step condf (SetCustomHp g) s = (s', Ok tt) /\ hp_now s' = Some (given_hp s g) /\ p_data s' = p_data s /\ p_surr s' = p_surr s.
Proof.
  intros condf s g HA HV. cbn [step]. rewrite HA. assert (VP : varK_pos (g_varK g) = true).
  { unfold varK_pos. destruct (g_varK g) as [[v|]|]; [|destruct HV|reflexivity]. destruct (Rlt_dec 0 v); [reflexivity|contradiction]. }
  rewrite VP. destruct (mk_hp s g) as (s1, q) eqn:E. eexists. split; [reflexivity|]. assert (R := rd_mk s g). rewrite E in R.
  split; [unfold hp_now; cbn; f_equal; exact R|]. injection E as <- _. split; reflexivity.
Qed.
Print Assumptions C43_custom.
Theorem C43_custom_refused : forall (condf : mat -> R) (s : gp) (g : hparg), arg_ok s g = true ->
  match g_varK g with Some (Some v) => (v <= 0)%R | Some None => True | None => False end ->
  step condf (SetCustomHp g) s = (s, Err EAssert).
Proof.
  intros condf s g HA HV. cbn [step]. rewrite HA. unfold varK_pos. destruct (g_varK g) as [[v|]|]; [|reflexivity|destruct HV].
  destruct (Rlt_dec 0 v); [lra|reflexivity].
Qed.
Print Assumptions C43_custom_refused.
(** 'stored': those the current history holds about iteration i; the noise of the data counts as unknown exactly if
    a variance was recorded *)
Theorem C43_stored : forall (condf : mat -> R) (s s' : gp) (i : nat) (cc : bool),
  step condf (SetHparaStored i cc) s = (s', Ok tt) ->
  exists h x, current_history s = Some h /\ hp_now s' = Some x /\ recorded_hp h i x /\ p_setup s' = p_hp s' /\
    forall d', p_data s' = Some d' -> (d_known_fval d' = true <-> x_var_fval x = PNone) /\ (d_known_fgrad d' = true <-> x_var_fgrad x = PNone).
Proof.
  intros condf s s' i cc. cbn [step]. unfold andthen. destruct (do_from_idx i s) as (s1, [[]|e]) eqn:E; [|discriminate].
  destruct (from_idx_spec i s s1 E) as (h & x & H1 & H2 & H3 & H4 & _ & _ & HD). intros H.
  destruct (setup_keeps condf cc s1) as (K1 & K2 & _ & _ & _ & K6 & _). assert (N := setup_hp_now condf cc s1). rewrite H in *. cbn [fst] in *.
  exists h, x. split; [exact H1|]. split; [rewrite N; exact H3|]. split; [exact H4|]. split; [rewrite K1, K2; reflexivity|].
  intros d' Ed'. rewrite K6 in Ed'. destruct (p_data s) as [d|] eqn:ED.
  - specialize (HD d eq_refl). rewrite HD in Ed'. injection Ed' as <-. destruct H4 as (_ & _ & _ & _ & _ & F & G). rewrite F, G. cbn.
    destruct (h_col h Qvar_fval i), (h_col h Qvar_fgrad i); cbn; repeat split; congruence.
  - exfalso. unfold do_from_idx in E. destruct (p_cur s); [|discriminate]. destruct (set_hp_from_idx _ i) as [[[kf kg] y]|]; [|discriminate].
    cbn [upd_hp bump p_data] in E. rewrite ED in E. injection E as <-. cbn in Ed'. congruence.
Qed.
Print Assumptions C43_stored.
(** 'current': the ones the object has, unchanged *)
Theorem C43_current : forall (condf : mat -> R) (s s' : gp) (i : nat) (cc : bool),
  step condf (SetHparaCurrent i cc) s = (s', Ok tt) -> 0 < i /\ hp_now s' = hp_now s /\ hp_now s <> None /\ p_setup s' = p_hp s'.
Proof.
  intros condf s s' i cc. cbn [step]. destruct (Nat.ltb_spec 0 i); [|discriminate]. destruct (p_hp s) as [q|] eqn:Eq; [|discriminate]. cbn. intros H0.
  destruct (setup_keeps condf cc s) as (K1 & K2 & _). assert (N := setup_hp_now condf cc s). rewrite H0 in *. cbn [fst] in *.
  split; [assumption|]. split; [exact N|]. split; [unfold hp_now; rewrite Eq; discriminate|]. rewrite K1, K2. reflexivity.
Qed.
Print Assumptions C43_current.

Lemma store_hp_now i q info cond t1 t2 t3 s x : hpo_in s (Some q) -> (match q_beta q, q_theta q with AView _ _ _ _, _ | _, AView _ _ _ _ => False | _, _ => True end) ->
  rd_hp s q = x -> hp_now (fst (do_store i q info cond t1 t2 t3 s)) = Some x.
Proof.
  intros HI HV <-. unfold do_store. cbn [upd_hp p_cur p_data]. destruct (p_cur s) as [g|], (p_data s) as [d|]; cbn; unfold hp_now; cbn; try reflexivity.
  f_equal. unfold rd_hp, rd_arr. cbn. destruct (q_beta q), (q_theta q); try contradiction; reflexivity.
Qed.
Lemma optz_hp_now i u s : hp_now (fst (do_optz i (Ok u) s)) = Some (found_hp u).
Proof.
  unfold do_optz. set (s1 := upd_arr _ _ _). destruct (mk_hp s1 _) as (s2, q) eqn:E.
  assert (R := rd_mk s1 (mkarg (Some (p_new s)) (Some (p_new s + 1)%nat) (u_kernel u) (u_varK u) (u_vf u) (u_vg u))). rewrite E in R. cbn [fst snd] in R.
  apply store_hp_now.
  - injection E as <- <-. unfold hpo_in, arr_in. cbn. lia.
  - injection E as <- <-. cbn. exact I.
  - rewrite R. unfold given_hp, found_hp. cbn. rewrite Nat.eqb_refl. assert (X : (p_new s =? p_new s + 1) = false) by (apply Nat.eqb_neq; lia). rewrite X, Nat.eqb_refl. reflexivity.
Qed.
(** 'optz': the result of the optimisation, even when recording it raises *)
Theorem C43_optimised : forall (condf : mat -> R) (s : gp) (i : nat) (u : optout) (cc : bool),
  let r := step condf (SetHparaOptz i (Ok u) cc) s in
  hp_now (fst r) = Some (found_hp u) /\ (snd r = Ok tt -> p_setup (fst r) = p_hp (fst r)).
Proof.
  intros condf s i u cc. cbv zeta. cbn [step]. unfold andthen. assert (N := optz_hp_now i u s).
  destruct (do_optz i (Ok u) s) as (s1, [[]|e]) eqn:E; cbn [fst snd] in *; [|split; [exact N|discriminate]].
  rewrite setup_hp_now. split; [exact N|]. intros _. destruct (setup_keeps condf cc s1) as (K1 & K2 & _). rewrite K1, K2. reflexivity.
Qed.
Print Assumptions C43_optimised.

(** ** the history of an object: what an iteration recorded can be had back *)
Lemma hist_of_cur s : current_history s = match p_cur s with Some g => Some (p_hist s g) | None => None end.
Proof. unfold current_history. destruct (p_cur s); reflexivity. Qed.
Definition keeps_it (i : nat) (h : hist) (o : option hist) : Prop := exists h', o = Some h' /\ i < h_n h' /\ h_w h' = h_w h /\ same_iteration h h' i.
Lemma keeps_refl i h : i < h_n h -> keeps_it i h (Some h).
Proof. intros. exists h. repeat split; auto. Qed.
Lemma keeps_trans i h h' o : keeps_it i h (Some h') -> keeps_it i h' o -> keeps_it i h o.
Proof.
  intros (a & [= <-] & A1 & A2 & A3) (b & -> & B1 & B2 & B3). exists b. split; [reflexivity|]. split; [exact B1|]. split; [congruence|].
  eapply same_iteration_trans; [|exact A3|exact B3]. congruence.
Qed.
Lemma store_keeps i j q info cond t1 t2 t3 s h : j <> i -> current_history s = Some h -> i < h_n h ->
  keeps_it i h (current_history (fst (do_store j q info cond t1 t2 t3 s))).
Proof.
  intros Hj Hh Hi. unfold do_store. cbn [upd_hp p_cur p_data]. unfold current_history in Hh. destruct (p_cur s) as [g|] eqn:Eg; [|discriminate]. cbn in Hh. injection Hh as <-.
  destruct (p_data s) as [d|]; [|apply keeps_refl in Hi; unfold current_history; cbn; rewrite Eg; exact Hi].
  unfold current_history. cbn. rewrite Eg. cbn. rewrite Nat.eqb_refl.
  match goal with |- keeps_it _ _ (Some (fst (store_row ?a j ?hp info cond t1 t2 t3 _))) =>
    destruct (hop_keeps (p_hist s g) (OpStore a j hp info cond t1 t2 t3) i Hi Hj) as (A & B & C) end.
  eexists. split; [reflexivity|]. auto.
Qed.
Lemma step_keeps condf x s h i : spares_iteration i x -> wf s -> current_history s = Some h -> i < h_n h -> keeps_it i h (current_history (fst (step condf x s))).
Proof.
  intros Hx W Hh Hi. assert (R : keeps_it i h (current_history s)) by (rewrite Hh; apply keeps_refl; exact Hi).
  assert (NC : forall g, p_cur s = Some g -> g < p_new s) by (exact (wf_cur s W)).
  assert (FI : forall j, keeps_it i h (current_history (fst (do_from_idx j s)))).
  { intros j. unfold do_from_idx. destruct (p_cur s) as [g|] eqn:Eg; [|exact R]. destruct (set_hp_from_idx (p_hist s g) j) as [[[kf kg] y]|]; [|exact R].
    unfold current_history in *. cbn [upd_hp bump p_data]. destruct (p_data s); cbn; rewrite ?Eg in *; exact R. }
  destruct x; cbn [step spares_iteration] in *; try exact R.
  - destruct (_ && _); exact R.
  - destruct (set_data _ _ _ _ _ _ _); exact R.
  - destruct (arg_ok s g); [|exact R]. destruct (varK_pos _); exact R.
  - destruct (arg_ok s g); exact R.
  - apply FI.
  - rewrite setup_cur. exact R.
  - unfold andthen. specialize (FI i0). destruct (do_from_idx i0 s) as (s1, [[]|e]); [rewrite setup_cur|]; exact FI.
  - unfold andthen. assert (K : keeps_it i h (current_history (fst (do_optz i0 out s)))).
    { unfold do_optz. destruct out as [u|e]; [|exact R]. set (s1 := upd_arr _ _ _). destruct (mk_hp s1 _) as (s2, q) eqn:E. apply store_keeps; [exact Hx| |exact Hi].
      injection E as <- _. exact Hh. }
    destruct (do_optz i0 out s) as (s1, [[]|e]); [rewrite setup_cur|]; exact K.
  - destruct (_ && _); [rewrite setup_cur|]; exact R.
  - destruct (arg_ok s g); [|exact R]. destruct (mk_hp s g) as (s1, q) eqn:E. rewrite setup_cur. injection E as <- _. exact R.
  - destruct (arg_ok s g); [|exact R]. destruct (mk_hp s g) as (s1, q) eqn:E. apply store_keeps; [exact Hx| |exact Hi]. injection E as <- _. exact Hh.
  - destruct Hx.
  - unfold current_history in *. destruct (p_cur s) as [g|] eqn:Eg; [|discriminate]. cbn in *. injection Hh as <-. rewrite Eg. cbn. rewrite Nat.eqb_refl.
    destruct (hop_keeps (p_hist s g) (OpFinish n) i Hi Hx) as (A & B & C). eexists. split; [reflexivity|]. auto.
  - unfold current_history in *. destruct (p_cur s) as [g|] eqn:Eg; [|discriminate]. cbn in *. injection Hh as <-. rewrite Eg. cbn. rewrite Nat.eqb_refl.
    destruct (hop_keeps (p_hist s g) (OpLoad name data) i Hi) as (A & B & C); [destruct data; exact Hx|]. eexists. split; [reflexivity|]. auto.
Qed.
Lemma run_keeps condf xs : forall s h i, Forall (spares_iteration i) xs -> wf s -> current_history s = Some h -> i < h_n h -> keeps_it i h (current_history (run condf xs s)).
Proof.
  induction xs as [|x xs IH]; intros s h i HF W Hh Hi; [cbn; rewrite Hh; apply keeps_refl; exact Hi|].
  inversion HF as [|? ? Hx Hr]; subst. assert (K := step_keeps condf x s h i Hx W Hh Hi). destruct K as (h1 & E1 & A & B & C).
  unfold run in *. cbn [fold_left]. apply keeps_trans with h1; [exists h1; auto|]. apply (IH (fst (step condf x s)) h1 i Hr); [apply wf_step; exact W|exact E1|exact A].
Qed.

(** Hyperparameters found at iteration i of the current history, then any operations that do not concern that
    iteration (further optimisations, other data, changed arrays, evaluations...), then 'stored' for i: if these two
    calls succeed, the current hyperparameters are again those that were found (an absent hyperparameter of the
    kernel comes back as NaN; such kernels do not read it). *)
Theorem C43_found_hyperparameters_come_back :
  forall (condf : mat -> R) (s s1 s3 : gp) (i : nat) (u : optout) (cc cc' : bool) (xs : list op) (h : hist),
  reachable condf s -> current_history s = Some h ->
  complete_found (h_w h Tbeta) (h_w h Ttheta) u ->
  (forall d r, p_data s = Some d -> d_scl d = Some r -> vlen (r_scale r) = h_w h Txscl) ->
  step condf (SetHparaOptz i (Ok u) cc) s = (s1, Ok tt) ->
  Forall (spares_iteration i) xs ->
  let s2 := run condf xs s1 in
  step condf (SetHparaStored i cc') s2 = (s3, Ok tt) ->
  exists x, hp_now s3 = Some x /\ same_oarr (Some (u_beta u)) (x_beta x) /\ same_oarr (Some (u_theta u)) (x_theta x) /\
    x_varK x = py_of (u_varK u) /\ x_var_fval x = py_of (u_vf u) /\ x_var_fgrad x = py_of (u_vg u) /\
    x_kernel x = match u_kernel u with Some (Some v) => PNum v | _ => PNan end.
Proof.
  intros condf s s1 s3 i u cc cc' xs h HR Hh HC HX H1 HF s2 H3. assert (W := wf_reachable condf s HR).
  assert (W1 : wf s1) by (assert (X := wf_step condf (SetHparaOptz i (Ok u) cc) s W); rewrite H1 in X; exact X).
  destruct (C43_stored condf s2 s3 i cc' H3) as (h2 & x & E2 & Ex & RX & _).
  (* what the store did *)
  cbn [step] in H1. unfold andthen in H1. destruct (do_optz i (Ok u) s) as (sa, [[]|e]) eqn:EO; [|discriminate].
  assert (CU := setup_cur condf cc sa). rewrite H1 in CU. cbn [fst] in CU.
  assert (N := optz_hp_now i u s). rewrite EO in N. cbn [fst] in N.
  unfold do_optz in EO. set (sb := upd_arr _ _ _) in EO. destruct (mk_hp sb _) as (sc, q) eqn:E. 
  assert (RQ := rd_mk sb (mkarg (Some (p_new s)) (Some (p_new s + 1)%nat) (u_kernel u) (u_varK u) (u_vf u) (u_vg u))). rewrite E in RQ. cbn [fst snd] in RQ.
  assert (RF : rd_hp sc q = found_hp u).
  { rewrite RQ. unfold given_hp, found_hp, sb. cbn. rewrite Nat.eqb_refl. assert (X : (p_new s =? p_new s + 1) = false) by (apply Nat.eqb_neq; lia). rewrite X, Nat.eqb_refl. reflexivity. }
  assert (FC : p_cur sc = p_cur s /\ p_data sc = p_data s /\ p_hist sc = p_hist s /\ p_opt sc = p_opt s) by (injection E as <- _; repeat split). destruct FC as (C1 & C2 & C3 & C4).
  unfold do_store in EO. cbn [upd_hp p_cur p_data p_opt p_hist] in EO. rewrite C1, C2, C3, C4 in EO. unfold current_history in Hh. destruct (p_cur s) as [g|] eqn:Eg; [|discriminate]. cbn in Hh. injection Hh as <-.
  destruct (p_data s) as [d|] eqn:ED; [|discriminate]. rewrite rd_upd_hp, RF in EO.
  destruct (store_row _ i (found_hp u) _ _ _ _ _ _) as (h', [[]|e]) eqn:ES; cbn [fst snd] in EO; [|discriminate]. injection EO as <-.
  assert (CH : current_history s1 = Some h') by (rewrite CU; unfold current_history; cbn; rewrite C1; cbn; rewrite Nat.eqb_refl; reflexivity).
  assert (ND : u_cond u <> PNone).
  { intros EN. rewrite EN in ES. clear -ES. unfold store_row in ES.
    assert (X : forall m k g, (forall g', exists e, snd (k g') = Err e) -> exists e, snd (hseq m k g) = Err e).
    { intros m k g0 Hk. unfold hseq. destruct (m g0) as [g1 [t|e]]; [apply Hk|exists e; reflexivity]. }
    match type of ES with ?m _ = _ => assert (Y : exists e, snd (m (p_hist s g)) = Err e) end.
    { do 11 (apply X; intro). exists EType. reflexivity. }
    rewrite ES in Y. destruct Y as (e & Y). discriminate. }
  assert (Hi : i < h_n (p_hist s g)).
  { destruct (Nat.lt_ge_cases i (h_n (p_hist s g))) as [L|L]; [exact L|]. exfalso. unfold store_row, hseq at 1, wr_col at 1 in ES.
    apply Nat.ltb_ge in L. rewrite L in ES. discriminate. }
  destruct HC as (Lb & Lt & Hk & (vx & Ev) & Hf & Hg).
  destruct (store_spec (hattr_of (p_opt s) d) i (found_hp u) (u_info u) (u_cond u) (u_t1 u) (u_t2 u) (u_t3 u) (p_hist s g) (u_beta u) (u_theta u) Hi eq_refl Lb eq_refl Lt) as (h0 & E0 & N0 & W0 & Sb & St & Sk & Sv & Sf & Sg & _).
  { intros sx. unfold hattr_of. cbn. destruct (d_scl d) as [r|] eqn:Er; [|discriminate]. intros [= <-]. cbn. apply (HX d r eq_refl Er). }
  { exact ND. }
  assert (h0 = h') by congruence. subst h0.
  destruct (run_keeps condf xs s1 h' i HF W1 CH ltac:(lia)) as (h3 & E3 & A3 & B3 & S1 & S2 & _). fold s2 in E3. assert (h3 = h2) by congruence. subst h3.
  destruct RX as (_ & R1 & R2 & R3 & R4 & R5 & R6). exists x. split; [exact Ex|]. rewrite R3, R4, R5, R6, <- !S2, Sk, Sv, Sf, Sg.
  unfold same_oarr, same_arr in *. destruct (x_beta x) as [xb|]; [|contradiction]. destruct (x_theta x) as [xt|]; [|contradiction]. cbn in R1, R2. destruct R1 as (R1a & R1b), R2 as (R2a & R2b).
  split. { split; [congruence|]. intros k Hk'. rewrite R1b by congruence. rewrite <- S1 by congruence. rewrite Sb, bix_lt by exact Hk'. reflexivity. }
  split. { split; [congruence|]. intros k Hk'. rewrite R2b by congruence. rewrite <- S1 by congruence. rewrite St, bix_lt by exact Hk'. reflexivity. }
  cbn [found_hp x_kernel x_varK x_var_fval x_var_fgrad]. rewrite Ev. split; [reflexivity|].
  split; [destruct Hf as [->|(z & ->)]; reflexivity|]. split; [destruct Hg as [->|(z & ->)]; reflexivity|].
  destruct (u_kernel u) as [[v|]|]; reflexivity.
Qed.
Print Assumptions C43_found_hyperparameters_come_back.

(** ** concrete cases: a program that optimises, optimises again at another iteration, and goes back *)
Definition u_ex (b : R) : optout := mkout (fv1 b) (fv1 1) None (Some (Some 1%R)) None None None (PNum 3) (Some 1%R) None None.
Definition sh0 (f : R) (d : gpdata) : gp :=
  mkgp o1 (Some d) None None SuNone (fun _ => mkfv 0 (fun _ => None)) (fun b => if b =? 0 then init_optz_surr 1 1 3 else init_optz_surr 0 0 0) (Some 0) 1.
Lemma optz_ok condf f d b s g h i : 
  set_data o1 x1 (vconst 1 f) (SdOk (vconst 1 0)) None SdNone None = Ok d ->
  p_opt s = o1 -> p_data s = Some d -> p_cur s = Some g -> p_hist s g = h -> i < h_n h -> h_w h Tbeta = 1 -> h_w h Ttheta = 1 ->
  exists s', step condf (SetHparaOptz i (Ok (u_ex b)) false) s = (s', Ok tt) /\ p_opt s' = o1 /\ p_data s' = Some d /\ p_cur s' = Some g /\
    h_n (p_hist s' g) = h_n h /\ h_w (p_hist s' g) = h_w h.
Proof.
  intros E Ho Ed Eg Eh Hi W1 W2. destruct (data1 f 0 ltac:(lra)) as (d0 & Ed0 & _ & _ & _ & _ & Ds & _ & _ & _ & HI). assert (d0 = d) by congruence. subst d0.
  destruct (C30_setup_succeeds o1 d condf (hp1 b) 1 b false (HI b)) as (su & Es & _).
  cbn [step]. unfold andthen, do_optz. set (s1 := upd_arr _ _ _). destruct (mk_hp s1 _) as (s2, q) eqn:E2.
  assert (F : p_opt s2 = o1 /\ p_data s2 = Some d /\ p_cur s2 = Some g /\ p_hist s2 = p_hist s) by (injection E2 as <- _; cbn; rewrite Ho, Ed, Eg; repeat split).
  destruct F as (F1 & F2 & F3 & F4).
  assert (RQ : rd_hp s2 q = found_hp (u_ex b)).
  { assert (RQ := rd_mk s1 (mkarg (Some (p_new s)) (Some (p_new s + 1)) (u_kernel (u_ex b)) (u_varK (u_ex b)) (u_vf (u_ex b)) (u_vg (u_ex b)))). 
    rewrite E2 in RQ. cbn [fst snd] in RQ. rewrite RQ. unfold given_hp, found_hp, s1. cbn. rewrite Nat.eqb_refl.
    assert (X : (p_new s =? p_new s + 1) = false) by (apply Nat.eqb_neq; lia). rewrite X, Nat.eqb_refl. reflexivity. }
  unfold do_store. cbn [upd_hp p_cur p_data p_opt p_hist]. rewrite F1, F2, F3, F4, Eh, rd_upd_hp, RQ.
  destruct (store_spec (hattr_of o1 d) i (found_hp (u_ex b)) (u_info (u_ex b)) (u_cond (u_ex b)) (u_t1 (u_ex b)) (u_t2 (u_ex b)) (u_t3 (u_ex b)) h _ _ Hi eq_refl
    ltac:(rewrite W1; reflexivity) eq_refl ltac:(rewrite W2; reflexivity)) as (h0 & E0 & N0 & W0 & _).
  { intros r. unfold hattr_of. cbn. rewrite Ds. discriminate. } { discriminate. }
  rewrite E0. cbn [fst snd]. eexists. split.
  { erewrite (setup_at condf false _ d q (hp1 b) su); [reflexivity|exact F2|reflexivity| |].
    - cbn [upd_hp upd_hist p_opt]. rewrite F1.
      assert (RD : rd_hp (upd_hist (upd_hp s2 (Some q)) g h0) q = found_hp (u_ex b)).
      { rewrite <- RQ. injection E2 as _ <-. reflexivity. }
      rewrite RD. reflexivity.
    - cbn [upd_hp upd_hist p_opt]. rewrite F1. exact Es. }
  cbn. rewrite F1, F2, F3, Nat.eqb_refl. rewrite N0, W0. repeat split.
Qed.
Lemma setup_set_known d kg condf hp cc : d_known_fval d = true -> setup_eval_model o1 (set_known d true kg) condf hp cc = setup_eval_model o1 d condf hp cc.
Proof.
  intros K. unfold setup_eval_model. change (get_scl_x_w_dist (set_known d true kg)) with (get_scl_x_w_dist d). destruct (get_scl_x_w_dist d) as (X, Rt).
  assert (EG : exists r, forall dd, dd = d \/ dd = set_known d true kg -> get_scl_eval_data dd = bind r (fun s => Ok (ob_val s, ob_std s, ob_grad s, if d_known_fgrad dd then ob_stdg s else None))).
  { unfold get_scl_eval_data. eexists. intros dd [->| ->].
    - rewrite K. reflexivity.
    - reflexivity. }
  destruct EG as (r & EG). assert (EN : calc_noise_vec o1 (set_known d true kg) hp = calc_noise_vec o1 d hp).
  { unfold calc_noise_vec. rewrite !EG by auto. cbn [o1 gp_init o_use_grad negb]. cbn [set_known d_fval_zero d_fgrad_zero d_n_eval d_n_grad d_known_fval]. rewrite K.
    destruct (d_fval_zero d && d_fgrad_zero d); [reflexivity|]. destruct r; reflexivity. }
  rewrite !EG by auto. destruct r as [sc|]; [|reflexivity]. cbn [bind]. 
  assert (EK : calc_all_K_w_chofac o1 (set_known d true kg) condf Rt hp None true cc None true = calc_all_K_w_chofac o1 d condf Rt hp None true cc None true).
  { unfold calc_all_K_w_chofac. rewrite EN. reflexivity. }
  rewrite EK. reflexivity.
Qed.
Lemma start_state condf f d : set_data o1 x1 (vconst 1 f) (SdOk (vconst 1 0)) None SdNone None = Ok d -> exists s, reachable condf s /\
  s = mkgp o1 (Some d) None None SuNone (fun _ => mkfv 0 (fun _ => None)) (fun b => if b =? 0 then init_optz_surr 1 1 3 else init_optz_surr 0 0 0) (Some 0) 1.
Proof.
  intros E. exists (run condf [data_op f 0; InitOptz 3] (gp_new o1)). split; [exists o1, [data_op f 0; InitOptz 3]; reflexivity|].
  unfold run, data_op. cbn [fold_left step gp_new p_opt]. rewrite E. reflexivity.
Qed.
Lemma first_store f d b (s sa : gp) : set_data o1 x1 (vconst 1 f) (SdOk (vconst 1 0)) None SdNone None = Ok d -> d_scl d = None ->
  s = mkgp o1 (Some d) None None SuNone (fun _ => mkfv 0 (fun _ => None)) (fun b => if b =? 0 then init_optz_surr 1 1 3 else init_optz_surr 0 0 0) (Some 0) 1 ->
  do_optz 0 (Ok (u_ex b)) s = (sa, Ok tt) ->
  h_tab (p_hist sa 0) Tbeta 0 0 = Some b /\ h_tab (p_hist sa 0) Ttheta 0 0 = Some 1%R /\ h_col (p_hist sa 0) QvarK 0 = Some 1%R /\
       h_col (p_hist sa 0) Qvar_fval 0 = None /\ h_col (p_hist sa 0) Qvar_fgrad 0 = None.
Proof.
  intros E Ds ES EO. rewrite ES in EO. unfold do_optz in EO. cbn [mk_hp] in EO. unfold do_store in EO. cbn [upd_hp upd_arr bump p_cur p_data p_hist p_opt p_new p_arr] in EO.
  match type of EO with context [store_row ?a ?i ?hp ?inf ?c ?t1 ?t2 ?t3 ?h0] =>
        destruct (store_spec a i hp inf c t1 t2 t3 h0 (fv1 b) (fv1 1)) as (h' & E' & _ & _ & Sb & St & _ & Sv & Sf & Sg & _);
        [cbn; lia|reflexivity|reflexivity|reflexivity|reflexivity|intros sx; unfold hattr_of; cbn; rewrite Ds; discriminate|discriminate|] end.
  rewrite E' in EO. cbn [fst snd] in EO. injection EO as <-. cbn. rewrite Sb, St, Sv, Sf, Sg. repeat split.
Qed.
Example C43_case : forall (condf : mat -> R) (f b b' : R), exists s s1 s3 h,
  reachable condf s /\ current_history s = Some h /\ complete_found (h_w h Tbeta) (h_w h Ttheta) (u_ex b) /\
  (forall d r, p_data s = Some d -> d_scl d = Some r -> vlen (r_scale r) = h_w h Txscl) /\
  step condf (SetHparaOptz 0 (Ok (u_ex b)) false) s = (s1, Ok tt) /\
  Forall (spares_iteration 0) [SetHparaOptz 1 (Ok (u_ex b')) false] /\
  step condf (SetHparaStored 0 false) (run condf [SetHparaOptz 1 (Ok (u_ex b')) false] s1) = (s3, Ok tt).
Proof.
  intros condf f b b'. destruct (data1 f 0 ltac:(lra)) as (d & E & _ & _ & _ & _ & Ds & Dk & _ & _ & HI).
  destruct (start_state condf f d E) as (s & HR & ES).
  assert (CP : forall v, complete_found 1 1 (u_ex v)) by (intros; unfold complete_found, num_or_absent, is_num; cbn; repeat split; eauto).
  assert (CH : current_history s = Some (init_optz_surr 1 1 3)) by (rewrite ES; reflexivity).
  assert (W := wf_reachable condf s HR).
  destruct (optz_ok condf f d b s 0 (init_optz_surr 1 1 3) 0 E) as (s1 & H1 & O1 & D1 & C1 & N1 & W1); try (rewrite ES; reflexivity); [cbn; lia|reflexivity|reflexivity|].
  destruct (optz_ok condf f d b' s1 0 (p_hist s1 0) 1 E O1 D1 C1 eq_refl) as (s2 & H2 & O2 & D2 & C2 & N2 & W2); [rewrite N1; cbn; lia|rewrite W1; reflexivity|rewrite W1; reflexivity|].
  assert (Wf1 : wf s1) by (assert (X := wf_step condf (SetHparaOptz 0 (Ok (u_ex b)) false) s W); rewrite H1 in X; exact X).
  (* the recorded values *)
  assert (R0 : exists sa, do_from_idx 0 s2 = (sa, Ok tt) /\ p_data sa = Some (set_known d true true) /\ p_opt sa = o1 /\ exists q, p_hp sa = Some q /\ hpv_of SqExp (rd_hp sa q) = Ok (Some (hp1 b))).
  { assert (SF : Forall (spares_iteration 0) [SetHparaOptz 1 (Ok (u_ex b')) false]) by (repeat constructor; cbn; lia).
    assert (CH1 : current_history s1 = Some (p_hist s1 0)) by (unfold current_history; rewrite C1; reflexivity).
    destruct (run_keeps condf [SetHparaOptz 1 (Ok (u_ex b')) false] s1 (p_hist s1 0) 0 SF Wf1 CH1 ltac:(rewrite N1; cbn; lia)) as (h2 & E2 & A2 & B2 & S1 & S2 & _).
    unfold run in E2. cbn [fold_left] in E2. rewrite H2 in E2. cbn [fst] in E2. unfold current_history in E2. rewrite C2 in E2. cbn in E2. injection E2 as <-.
    (* what the first store wrote *)
    assert (ST : h_tab (p_hist s1 0) Tbeta 0 0 = Some b /\ h_tab (p_hist s1 0) Ttheta 0 0 = Some 1%R /\ h_col (p_hist s1 0) QvarK 0 = Some 1%R /\
       h_col (p_hist s1 0) Qvar_fval 0 = None /\ h_col (p_hist s1 0) Qvar_fgrad 0 = None).
    { cbn [step] in H1. unfold andthen in H1. destruct (do_optz 0 (Ok (u_ex b)) s) as (sa, [[]|e]) eqn:EO; [|discriminate].
      destruct (setup_keeps condf false sa) as (_ & _ & _ & K4 & _). rewrite H1 in K4. cbn [fst] in K4. rewrite K4. clear H1.
      apply (first_store f d b s sa E Ds ES EO). }
    destruct ST as (T1 & T2 & T3 & T4 & T5).
    unfold do_from_idx. rewrite C2. unfold set_hp_from_idx. apply Nat.ltb_lt in A2 as A2'. rewrite A2'. rewrite <- !S2, T3, T4, T5. cbn [upd_hp bump p_data]. rewrite D2.
    eexists. split; [reflexivity|]. split; [reflexivity|]. split; [exact O2|]. eexists. split; [reflexivity|].
    unfold rd_hp, rd_arr, row_of. cbn [q_beta q_theta q_kernel q_varK q_vf q_vg upd_data upd_hp bump p_hist]. rewrite !rd_view_sc. cbn [x_varK x_var_fval x_var_fgrad num_or_nan num_or_none].
    unfold hpv_of. cbn [x_theta x_beta x_kernel x_varK x_var_fval x_var_fgrad kernel_has_hp]. unfold fv_real, fv_list. cbn [fv_len fv_at]. rewrite B2, W1. cbn [init_optz_surr h_w seq map].
    rewrite <- !S1 by (rewrite W1; cbn; lia). rewrite T1, T2. reflexivity. }
  destruct R0 as (sa & F1 & F2 & F3 & q & F4 & F5).
  destruct (C30_setup_succeeds o1 d condf (hp1 b) 1 b false (HI b)) as (su & Es & _).
  exists s, s1. eexists. exists (init_optz_surr 1 1 3). split; [exact HR|]. split; [exact CH|]. split; [apply CP|].
  split. { rewrite ES. cbn. intros d0 r [= <-]. rewrite Ds. discriminate. }
  split; [exact H1|]. split; [repeat constructor; cbn; lia|]. unfold run. cbn [fold_left]. rewrite H2. cbn [fst].
  cbn [step]. unfold andthen. rewrite F1. erewrite (setup_at condf false sa _ q (hp1 b) su); [reflexivity|exact F2|exact F4|rewrite F3; exact F5|].
  rewrite F3, setup_set_known by exact Dk. exact Es.
Qed.
