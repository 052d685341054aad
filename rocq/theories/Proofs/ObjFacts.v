(** * Facts about the object *)
From Coq Require Import Reals List Arith Bool String Lia.
From Verif.Base Require Import NpLite NpFacts.
From Verif.Model Require Import KernelDispatch GpState Cov EvalModel HpInfo History Object.
From Verif.Spec Require Import KernelSpec HistSpec ObjSpec.
From Verif.Proofs Require Import HistFacts.
Import ListNotations.
Local Open Scope nat_scope.

(** ** equality of hyperparameters *)
Definition same_fv (a b : option fvec) : Prop :=
  match a, b with Some u, Some v => fv_len u = fv_len v /\ fv_list u = fv_list v | None, None => True | _, _ => False end.
Lemma same_fv_refl a : same_fv a a. Proof. destruct a; cbn; auto. Qed.
Definition same_hx (p q : hpx) : Prop := same_fv (x_beta p) (x_beta q) /\ same_fv (x_theta p) (x_theta q) /\ x_kernel p = x_kernel q /\
  x_varK p = x_varK q /\ x_var_fval p = x_var_fval q /\ x_var_fgrad p = x_var_fgrad q.
Lemma same_fv_arr a b : same_fv a b <-> same_oarr a b.
Proof.
  destruct a as [u|], b as [v|]; cbn; try tauto. unfold same_arr, fv_list. split; intros [L H]; (split; [exact L|]).
  - intros k Hk. rewrite L in H.
    assert (E : nth k (seq 0 (fv_len v)) 0 = k) by (rewrite seq_nth; lia). 
    assert (A : nth k (map (fv_at u) (seq 0 (fv_len v))) (fv_at u 0) = nth k (map (fv_at v) (seq 0 (fv_len v))) (fv_at v 0)).
    { rewrite H. apply nth_indep. rewrite map_length, seq_length. lia. }
    rewrite !map_nth, E in A. exact A.
  - rewrite <- L. apply map_ext_in. intros k Hk. apply in_seq in Hk. apply H. lia.
Qed.
Lemma same_hx_hp p q : same_hx p q <-> same_hp p q.
Proof. unfold same_hx, same_hp. rewrite !same_fv_arr. reflexivity. Qed.
Lemma fv_real_same u v : fv_len u = fv_len v -> fv_list u = fv_list v -> fv_real u = fv_real v.
Proof. intros L H. unfold fv_real. rewrite L, H. reflexivity. Qed.
Lemma hpv_same k p q : same_hx p q -> hpv_of k p = hpv_of k q.
Proof.
  intros (B & T & E1 & E2 & E3 & E4). unfold hpv_of. rewrite E1, E2, E3, E4.
  destruct (x_theta p) as [t|], (x_theta q) as [t'|]; cbn in T; try tauto. destruct T as [T1 T2]. rewrite (fv_real_same t t' T1 T2).
  destruct (x_beta p) as [b|], (x_beta q) as [b'|]; cbn in B; try tauto. destruct B as [B1 B2]. rewrite (fv_real_same b b' B1 B2). reflexivity.
Qed.
Lemma fl_eqb_eq a b : fl_eqb a b = true -> a = b.
Proof. destruct a, b; cbn; try discriminate. destruct (Req_EM_T r r0); congruence. Qed.
Lemma arrf_eq_true s a b : arrf_eq s a b = Ok true -> same_fv (rd_arr s a) (rd_arr s b).
Proof.
  unfold arrf_eq. destruct (same_obj a b) eqn:E.
  - intros _. destruct a, b; cbn in E; try discriminate; [exact Logic.I| |].
    + apply Nat.eqb_eq in E. subst. apply same_fv_refl.
    + destruct (tab_eq_dec t t0); [|rewrite andb_false_r in E; discriminate]. rewrite !andb_true_iff, !Nat.eqb_eq in E.
      destruct E as [[[-> ->] _] ->]. subst. apply same_fv_refl.
  - destruct (rd_arr s a) as [u|], (rd_arr s b) as [v|]; cbn; auto; unfold none_truth, arr_truth; intro H;
      repeat match type of H with context [if ?c then _ else _] => destruct c eqn:?; try discriminate end.
    injection H as H. apply fl_eqb_eq in H. apply Nat.eqb_eq in Heqb0, Heqb1. split; [exact Heqb0|]. unfold fv_list. rewrite <- Heqb0, Heqb1. cbn. rewrite H. reflexivity.
Qed.
Lemma scf_eq_true a b : scf_eq a b = true -> rd_sc a = rd_sc b.
Proof.
  destruct a as [|x u], b as [|y v]; cbn; try discriminate; auto. rewrite orb_true_iff. intros [H|H].
  - rewrite !andb_true_iff in H. destruct H as [[_ H1] H2]. destruct u, v; cbn in *; try discriminate. reflexivity.
  - apply fl_eqb_eq in H. subst. reflexivity.
Qed.
Lemma hpo_eq_true s p q : hpo_eq s p q = Ok true -> same_hx (rd_hp s p) (rd_hp s q).
Proof.
  unfold hpo_eq. destruct (arrf_eq s (q_beta p) (q_beta q)) as [[|]|] eqn:E1; cbn; try discriminate.
  destruct (arrf_eq s (q_theta p) (q_theta q)) as [[|]|] eqn:E2; cbn; try discriminate.
  intro H. injection H as H. rewrite !andb_true_iff in H. destruct H as [[[H1 H2] H3] H4].
  unfold same_hx, rd_hp; cbn. auto 10 using arrf_eq_true, scf_eq_true.
Qed.
Lemma same_obj_refl a : same_obj a a = true.
Proof. destruct a; cbn; auto; rewrite ?Nat.eqb_refl; auto. destruct (tab_eq_dec t t); [reflexivity|contradiction]. Qed.
Lemma scf_eq_refl a : scf_eq a a = true.
Proof. destruct a as [|x [v|]]; cbn; auto; rewrite ?Nat.eqb_refl; auto. rewrite orb_true_iff. right. destruct (Req_EM_T v v); auto. Qed.
Lemma hpo_eq_refl s q : hpo_eq s q q = Ok true.
Proof. unfold hpo_eq, arrf_eq. rewrite !same_obj_refl. cbn. rewrite !scf_eq_refl. reflexivity. Qed.

(** ** memory *)
Definition arr_in (s : gp) (a : arrf) : Prop := match a with ANone => True | AUser a => a < p_new s | AView _ g _ _ => g < p_new s end.
Definition hpo_in (s : gp) (q : option hpo) : Prop := match q with Some q => arr_in s (q_beta q) /\ arr_in s (q_theta q) | None => True end.
Record wf (s : gp) : Prop := { wf_hp : hpo_in s (p_hp s); wf_setup : hpo_in s (p_setup s); wf_cur : forall g, p_cur s = Some g -> g < p_new s }.
Lemma arr_in_le s s' a : p_new s <= p_new s' -> arr_in s a -> arr_in s' a.
Proof. destruct a; cbn; auto; lia. Qed.
Lemma hpo_in_le s s' q : p_new s <= p_new s' -> hpo_in s q -> hpo_in s' q.
Proof. destruct q as [q|]; cbn; auto. intros L [A B]. split; eapply arr_in_le; eauto. Qed.
Lemma mk_hp_in s g : arg_ok s g = true -> hpo_in (fst (mk_hp s g)) (Some (snd (mk_hp s g))).
Proof.
  unfold arg_ok, mk_hp. rewrite andb_true_iff. cbn. intros [A B]. split.
  - destruct (g_beta g); cbn; auto. apply Nat.ltb_lt in A. lia.
  - destruct (g_theta g); cbn; auto. apply Nat.ltb_lt in B. lia.
Qed.
Ltac wfs := match goal with
  | W : wf ?s |- wf ?s' => destruct W as [W1 W2 W3]; constructor; cbn;
      [ | | intros g0 Hg0; try (specialize (W3 g0 Hg0)); try lia ] end.
Lemma wf_setup_step condf cc s : wf s -> wf (fst (do_setup condf cc s)).
Proof.
  intro W. assert (Wu : wf (upd_setup s (p_hp s))) by (destruct W as [W1 W2 W3]; constructor; cbn; auto).
  unfold do_setup. destruct (p_data _); [|exact Wu]. destruct (p_hp (upd_setup s (p_hp s))) as [q|]; [|exact Wu].
  destruct (hpv_of _ _) as [[hp|]|]; [| |exact Wu].
  - destruct (setup_eval_model _ _ _ _ _); [|exact Wu]. destruct Wu as [W1 W2 W3]. constructor; cbn in *; auto.
  - destruct Wu as [W1 W2 W3]. constructor; cbn in *; auto.
Qed.
Lemma wf_from_idx i s : wf s -> wf (fst (do_from_idx i s)).
Proof.
  intro W. unfold do_from_idx. destruct (p_cur s) as [g|] eqn:Ec; [|exact W]. destruct (set_hp_from_idx _ _) as [[[kf kg] x]|e]; [|exact W].
  destruct W as [W1 W2 W3]. assert (Hg := W3 g Ec).
  destruct (p_data _); cbn; (constructor; cbn; [split; cbn; lia|eapply hpo_in_le; [|exact W2]; cbn; lia|intros gg Hgg; specialize (W3 gg Hgg); lia]).
Qed.
Lemma wf_store i q info cond t1 t2 t3 s : wf s -> hpo_in s (Some q) -> wf (fst (do_store i q info cond t1 t2 t3 s)).
Proof.
  intros W Hq. unfold do_store. assert (Wu : wf (upd_hp s (Some q))) by (destruct W as [W1 W2 W3]; constructor; cbn; auto).
  destruct (p_cur (upd_hp s (Some q))) eqn:Ec; [|exact Wu]. destruct (p_data (upd_hp s (Some q))); [|exact Wu].
  destruct Wu as [W1 W2 W3]. constructor; cbn in *; auto.
Qed.
Lemma wf_optz i out s : wf s -> wf (fst (do_optz i out s)).
Proof.
  intro W. unfold do_optz. destruct out as [u|e]; [|exact W]. cbn [mk_hp]. apply wf_store.
  - destruct W as [W1 W2 W3]. constructor; cbn; [eapply hpo_in_le; [|exact W1]; cbn; lia|eapply hpo_in_le; [|exact W2]; cbn; lia|].
    intros g Hg. specialize (W3 g Hg). lia.
  - cbn. lia.
Qed.
Lemma wf_mk s g : wf s -> arg_ok s g = true -> wf (upd_hp (fst (mk_hp s g)) (Some (snd (mk_hp s g)))) /\ wf (fst (mk_hp s g)).
Proof.
  intros W A. assert (H := mk_hp_in s g A). destruct W as [W1 W2 W3]. split; constructor; cbn [p_hp p_setup p_cur upd_hp mk_hp fst bump p_new].
  - exact H.
  - eapply hpo_in_le; [|exact W2]; cbn; lia.
  - intros g0 Hg. specialize (W3 g0 Hg). lia.
  - eapply hpo_in_le; [|exact W1]; cbn; lia.
  - eapply hpo_in_le; [|exact W2]; cbn; lia.
  - intros g0 Hg. specialize (W3 g0 Hg). lia.
Qed.
Lemma wf_then r k : wf (fst r) -> (forall s, wf s -> wf (fst (k s))) -> wf (fst (andthen r k)).
Proof. intros W K. unfold andthen. destruct r as [s [u|e]]; [apply K; exact W|exact W]. Qed.
Lemma wf_step condf x s : wf s -> wf (fst (step condf x s)).
Proof.
  intro W. destruct x; cbn [step].
  - destruct W as [W1 W2 W3]. constructor; cbn; [eapply hpo_in_le; [|exact W1]; cbn; lia|eapply hpo_in_le; [|exact W2]; cbn; lia|].
    intros g Hg. specialize (W3 g Hg). lia.
  - destruct (_ && _)%bool; [|exact W]. destruct W as [W1 W2 W3]. constructor; cbn; auto.
  - destruct (set_data _ _ _ _ _ _ _); destruct W as [W1 W2 W3]; constructor; cbn; auto.
  - destruct (arg_ok s g) eqn:A; [|exact W]. destruct (varK_pos _); [|exact W]. apply (wf_mk s g W A).
  - destruct (arg_ok s g) eqn:A; [|exact W]. apply (wf_mk s g W A).
  - apply wf_from_idx, W.
  - apply wf_setup_step, W.
  - apply wf_then; [apply wf_from_idx, W|apply wf_setup_step].
  - apply wf_then; [apply wf_optz, W|apply wf_setup_step].
  - destruct (_ && _)%bool; [apply wf_setup_step, W|exact W].
  - destruct (arg_ok s g) eqn:A; [|exact W]. apply wf_setup_step. apply (wf_mk s g W A).
  - destruct (arg_ok s g) eqn:A; [|exact W]. apply wf_store; [apply (wf_mk s g W A)|apply (mk_hp_in s g A)].
  - destruct W as [W1 W2 W3]. constructor; cbn; [eapply hpo_in_le; [|exact W1]; cbn; lia|eapply hpo_in_le; [|exact W2]; cbn; lia|].
    intros g [= <-]. lia.
  - destruct (p_cur s) eqn:Ec; [|exact W]. destruct W as [W1 W2 W3]. constructor; cbn; auto.
  - destruct (p_cur s) eqn:Ec; [|exact W]. destruct W as [W1 W2 W3]. constructor; cbn; auto.
Qed.
Lemma wf_run condf xs : forall s, wf s -> wf (run condf xs s).
Proof. induction xs as [|x xs IH]; intros s W; cbn; [exact W|]. apply IH, wf_step, W. Qed.
Lemma wf_reachable condf s : reachable condf s -> wf s.
Proof. intros (o & xs & ->). apply wf_run. constructor; cbn; auto. discriminate. Qed.

(** s' is s except for the current hyperparameters and newly allocated memory *)
Record ext (s s' : gp) : Prop := {
  ex_opt : p_opt s' = p_opt s; ex_data : p_data s' = p_data s; ex_surr : p_surr s' = p_surr s; ex_setup : p_setup s' = p_setup s;
  ex_new : p_new s <= p_new s'; ex_mem : forall a, arr_in s a -> rd_arr s' a = rd_arr s a }.
Lemma ext_refl s : ext s s. Proof. constructor; auto. Qed.
Lemma ext_trans a b c : ext a b -> ext b c -> ext a c.
Proof.
  intros [A1 A2 A3 A4 A5 A6] [B1 B2 B3 B4 B5 B6]. constructor; try congruence; try lia.
  intros x Hx. rewrite B6 by (eapply arr_in_le; [exact A5|exact Hx]). apply A6, Hx.
Qed.
Lemma ext_step condf x s : wf s -> replaces_hp_only x -> ext s (fst (step condf x s)).
Proof.
  intros W H. destruct x; cbn in H; try contradiction; cbn [step].
  - constructor; cbn; auto; try lia. intros a Ha. destruct a; cbn in *; auto. destruct (Nat.eqb_spec a (p_new s)); auto; lia.
  - destruct (arg_ok s g) eqn:A; [|apply ext_refl]. destruct (varK_pos _); [|apply ext_refl]. constructor; cbn; auto; lia.
  - destruct (arg_ok s g) eqn:A; [|apply ext_refl]. constructor; cbn; auto; lia.
  - constructor; cbn; auto; try lia. intros a Ha. destruct a; cbn in *; auto. destruct (Nat.eqb_spec g (p_new s)); auto; lia.
  - destruct (p_cur s) as [g|]; [|apply ext_refl]. constructor; cbn; auto. intros a Ha. destruct a; cbn in *; auto.
    destruct (Nat.eqb_spec g0 g); auto; subst. reflexivity.
Qed.
Lemma ext_run condf xs : forall s, wf s -> Forall replaces_hp_only xs -> ext s (run condf xs s).
Proof.
  induction xs as [|x xs IH]; intros s W H; cbn; [apply ext_refl|]. inversion H; subst.
  eapply ext_trans; [apply ext_step; eassumption|]. apply IH; [apply wf_step, W|assumption].
Qed.
Lemma ext_hp s s' q : ext s s' -> hpo_in s (Some q) -> rd_hp s' q = rd_hp s q.
Proof. intros E [A B]. unfold rd_hp. rewrite !(ex_mem s s' E) by assumption. reflexivity. Qed.

(** ** evaluating *)
Lemma do_eval_inv s x2 cg ch r : do_eval s x2 cg ch = Ok r ->
  exists d q q0, p_data s = Some d /\ p_hp s = Some q /\ p_setup s = Some q0 /\ same_hx (rd_hp s q) (rd_hp s q0) /\
    match p_surr s with
    | SuNone => False
    | SuNan => r = None
    | SuOk su => has (k_chofac (su_K su)) = true /\ exists v, hpv_of (o_kernel (p_opt s)) (rd_hp s q) = Ok v /\
        match v with Some hp => exists e, eval_model (p_opt s) d hp su x2 cg ch = Ok e /\ r = Some e | None => r = None end
    end.
Proof.
  unfold do_eval. intro H. destruct (p_surr s) as [| |su] eqn:Es; [discriminate| |];
  (destruct (p_data s) as [d|]; [|discriminate]); (destruct (p_hp s) as [q|]; [|discriminate]); (destruct (p_setup s) as [q0|]; [|discriminate]); exists d, q, q0.
  - cbn in H. destruct (hpo_eq s q q0) as [[|]|] eqn:E; cbn in H; try discriminate. injection H as <-. auto 10 using hpo_eq_true.
  - destruct (has (k_chofac (su_K su))) eqn:Ec; cbn in H; [|discriminate].
    destruct (hpo_eq s q q0) as [[|]|] eqn:E; cbn in H; try discriminate. do 3 (split; [reflexivity|]). split; [apply hpo_eq_true, E|].
    split; [reflexivity|]. destruct (hpv_of _ _) as [v|]; cbn in H; [|discriminate]. exists v. split; [reflexivity|].
    destruct v as [hp|]; [|congruence]. destruct (eval_model _ _ _ _ _ _ _) as [e|]; cbn in H; [|discriminate]. exists e. split; [reflexivity|congruence].
Qed.
Lemma do_setup_inv condf cc s s1 : do_setup condf cc s = (s1, Ok tt) ->
  exists d q v, p_data s = Some d /\ p_hp s = Some q /\ hpv_of (o_kernel (p_opt s)) (rd_hp s q) = Ok v /\
   match v with
   | None => s1 = upd_surr (upd_setup s (Some q)) SuNan
   | Some hp => exists su, setup_eval_model (p_opt s) d condf hp cc = Ok su /\ s1 = upd_surr (upd_setup s (Some q)) (SuOk su)
   end.
Proof.
  unfold do_setup. cbn [upd_setup p_data p_hp p_opt]. intro H. destruct (p_data s) as [d|]; [|discriminate]. destruct (p_hp s) as [q|] eqn:Eq; [|discriminate].
  exists d, q. change (rd_hp (upd_setup s (Some q)) q) with (rd_hp s q) in H. destruct (hpv_of _ _) as [v|]; [|discriminate]. exists v.
  do 3 (split; [reflexivity|]). destruct v as [hp|]; [|congruence]. destruct (setup_eval_model _ _ _ _ _) as [su|]; [|discriminate]. exists su. split; [reflexivity|congruence].
Qed.
