(** * Properties C27, C28 and the part of C25 in the coordinates of the optimisation. *)
From Coq Require Import Reals List Arith Bool Lia Lra.
From Coquelicot Require Import Coquelicot.
From Verif.Base Require Import NpLite NpFacts Deriv.
From Verif.Spec Require Import KernelSpec LinAlgSpec GpSpec HpSpec DataSpec LkdSpec OptzSpec.
From Verif.Model Require Import KernelSqExp KernelMatern KernelRatQuad KernelDispatch CommonFun WellCond Rescaling GpState Chol Cov HpInfo HpGrad MeanFun Lkd OptzLkd.
From Verif.Proofs Require Import KernTac LinAlg CovStruct StateFacts NoiseFacts NuggetCond NuggetMain HpInfoFacts HpGradFacts HpGradMain LkdCore LkdFacts LkdMain.
From Verif.Props Require Import CondProps DataProps HpGradProps LkdProps.
Import ListNotations.
Local Open Scope R_scope.

(** ** C27.  Whatever happened before, an evaluation returns what it returns on an object that has the
    current data and options and on which nothing was ever evaluated. *)
Definition clean (s : gpobj) : Prop := match g_last s with L1 _ => False | _ => True end.
Definition same_data (s s' : gpobj) : Prop := g_opt s = g_opt s' /\ g_lk s = g_lk s' /\ g_data s = g_data s' /\ g_info s = g_info s'.
Lemma clean_miss s v : clean s -> array_equal v (g_last s) = false.
Proof. unfold clean, array_equal. destruct (g_last s); tauto || reflexivity. Qed.
Lemma fresh_same la s s' v a g : same_data s s' -> fresh_likelihood la s v a g = fresh_likelihood la s' v a g.
Proof. intros (E1 & E2 & E3 & E4). unfold fresh_likelihood. rewrite E1, E2, E3, E4. reflexivity. Qed.
Lemma same_refl s : same_data s s. Proof. repeat split. Qed.
Lemma same_trans a b c : same_data a b -> same_data b c -> same_data a c.
Proof. intros (H1 & H2 & H3 & H4) (K1 & K2 & K3 & K4). repeat split; congruence. Qed.
Lemma same_sym a b : same_data a b -> same_data b a.
Proof. intros (H1 & H2 & H3 & H4). repeat split; congruence. Qed.
Lemma eval_clean la s v a g : clean s ->
  snd (calc_store_likelihood la s v a g) = fresh_likelihood la s v a g /\ clean (fst (calc_store_likelihood la s v a g)) /\ same_data s (fst (calc_store_likelihood la s v a g)).
Proof.
  intros C. unfold calc_store_likelihood. rewrite (clean_miss s v C). destruct (fresh_likelihood la s v a g); cbn [fst snd]; (split; [reflexivity|]); split; try exact C; repeat split.
Qed.
(** two clean objects with the same data give the same answers and stay so *)
Definition agree {A} (s s' : gpobj) (p p' : gpobj * res A) : Prop :=
  snd p = snd p' /\ clean (fst p) /\ clean (fst p') /\ same_data s (fst p) /\ same_data s' (fst p').
Lemma eval_agree la s s' v a g : clean s -> clean s' -> same_data s s' -> agree s s' (calc_store_likelihood la s v a g) (calc_store_likelihood la s' v a g).
Proof.
  intros C C' E. destruct (eval_clean la s v a g C) as (A1 & A2 & A3), (eval_clean la s' v a g C') as (B1 & B2 & B3).
  split; [rewrite A1, B1; apply fresh_same, E|]. auto.
Qed.
Lemma lift_agree {A} s s' p p' (f : stored -> res A) : agree s s' p p' -> agree s s' (lift_st p f) (lift_st p' f).
Proof. intros (A1 & A2). unfold lift_st, agree. cbn [fst snd]. rewrite A1. auto. Qed.
Lemma agree_step {A B} s s' (p p' : gpobj * res A) (k : gpobj -> A -> gpobj * res B) :
  same_data s s' -> agree s s' p p' ->
  (forall t t' a, clean t -> clean t' -> same_data t t' -> agree t t' (k t a) (k t' a)) ->
  agree s s' (let (s1, r) := p in match r with Ok a => k s1 a | Err e => (s1, Err e) end) (let (s1, r) := p' in match r with Ok a => k s1 a | Err e => (s1, Err e) end).
Proof.
  intros E (A1 & A2 & A3 & A4 & A5) K. destruct p as [t r], p' as [t' r']. cbn [fst snd] in *. subst r'. destruct r as [a|e].
  - assert (E' : same_data t t') by (eapply same_trans; [apply same_sym, A4|]; eapply same_trans; [exact E|exact A5]).
    destruct (K t t' a A2 A3 E') as (B1 & B2 & B3 & B4 & B5). split; [exact B1|]. split; [exact B2|]. split; [exact B3|]. split; eapply same_trans; eauto.
  - split; [reflexivity|]. cbn [fst]. auto.
Qed.
Lemma run_agree la p : forall s s', clean s -> clean s' -> same_data s s' -> agree s s' (run_opt la s p) (run_opt la s' p).
Proof.
  induction p as [x f b n|e|v k IH|v k IH|v k IH|v k IH]; intros s s' C C' E; cbn [run_opt].
  - split; [reflexivity|]. cbn [fst]. split; [exact C|]. split; [exact C'|]. split; apply same_refl.
  - split; [reflexivity|]. cbn [fst]. split; [exact C|]. split; [exact C'|]. split; apply same_refl.
  - apply (agree_step s s' _ _ (fun t a => run_opt la t (k a)) E); [apply lift_agree, eval_agree; assumption|]. intros; apply IH; assumption.
  - apply (agree_step s s' _ _ (fun t a => run_opt la t (k a)) E); [apply lift_agree, eval_agree; assumption|]. intros; apply IH; assumption.
  - apply (agree_step s s' _ _ (fun t a => run_opt la t (k a)) E); [apply lift_agree, eval_agree; assumption|]. intros; apply IH; assumption.
  - apply (agree_step s s' _ _ (fun t a => run_opt la t (k a)) E); [apply lift_agree, eval_agree; assumption|]. intros; apply IH; assumption.
Qed.
Lemma agree_map {A B} s s' (p p' : gpobj * res A) (f : res A -> res B) : agree s s' p p' ->
  agree s s' (let (t, r) := p in (t, f r)) (let (t, r) := p' in (t, f r)).
Proof. intros (A1 & A2). destruct p, p'. unfold agree. cbn [fst snd] in *. subst. auto. Qed.
Lemma agree_ret {A} s s' (r : res A) : clean s -> clean s' -> agree s s' (s, r) (s', r).
Proof. intros C C'. split; [reflexivity|]. split; [exact C|]. split; [exact C'|]. split; apply same_refl. Qed.
Lemma agree_base {A} s s' t t' (p p' : gpobj * res A) : same_data s t -> same_data s' t' -> agree t t' p p' -> agree s s' p p'.
Proof. intros E E' (A1 & A2 & A3 & A4 & A5). split; [exact A1|]. split; [exact A2|]. split; [exact A3|]. split; eapply same_trans; eauto. Qed.
Lemma one_agree la mini x0 st s s' : clean s -> clean s' -> same_data s s' -> agree s s' (optz_one la mini x0 s st) (optz_one la mini x0 s' st).
Proof.
  intros C C' E. unfold optz_one. assert (EO : g_opt s' = g_opt s) by (destruct E; congruence). rewrite !EO. set (use := b_use_cond_cstr (g_opt s)). cbv zeta.
  apply (agree_step s s' _ _ (fun s1 st1 => let (s2, r2) := run_opt la (with_last s1 (L2nan (vlen x0))) (mini x0) in
      match r2 with
      | Ok r => if use then let (s3, r3) := return_cond_val la s2 (or_x r) in (s3, c <- r3 ;; match c with None => Err EType | Some a => Ok (mkcand r (Some a) (rltb a (101 / 100 * o_cond_max (g_opt s))), st1) end)
        else (s2, Ok (mkcand r None true, st1))
      | Err e => (s2, Err e) end) E).
  - destruct use; [|apply agree_ret; assumption]. apply agree_map with (f := fun r => x <- r ;; match s_val x, s_cond x with
           | Some _, Some c => Ok (mkis (is_fail st) (is_big st + (if rltb (o_cond_max (g_opt s)) c then 1 else 0)) (npmax (is_max st) (Some c)))
           | _, _ => Err EType end). apply eval_agree; assumption.
  - intros t t' st1 Ct Ct' Et. apply agree_base with (t := with_last t (L2nan (vlen x0))) (t' := with_last t' (L2nan (vlen x0))); [repeat split|repeat split|].
    apply (agree_step _ _ _ _ (fun s2 r => if use then let (s3, r3) := return_cond_val la s2 (or_x r) in (s3, c <- r3 ;; match c with None => Err EType | Some a => Ok (mkcand r (Some a) (rltb a (101 / 100 * o_cond_max (g_opt s))), st1) end)
        else (s2, Ok (mkcand r None true, st1)))).
    + destruct Et as (E1 & E2 & E3 & E4). repeat split; assumption.
    + apply run_agree; [exact I|exact I|]. destruct Et as (E1 & E2 & E3 & E4). repeat split; assumption.
    + intros u u' r Cu Cu' Eu. destruct use; [|apply agree_ret; assumption].
      apply agree_map with (f := fun r3 => c <- r3 ;; match c with None => Err EType | Some a => Ok (mkcand r (Some a) (rltb a (101 / 100 * o_cond_max (g_opt s))), st1) end).
      apply lift_agree, eval_agree; assumption.
Qed.
Lemma all_agree la mini x0s : forall st s s', clean s -> clean s' -> same_data s s' -> agree s s' (optz_all la mini x0s s st) (optz_all la mini x0s s' st).
Proof.
  induction x0s as [|x0 t IH]; intros st s s' C C' E; cbn [optz_all]; [apply agree_ret; assumption|].
  assert (Z := agree_step s s' _ _ (fun s1 (x : cand * initstat) => let (s2, r2) := optz_all la mini t s1 (snd x) in (s2, y <- r2 ;; Ok (fst x :: fst y, snd y))) E (one_agree la mini x0 st s s' C C' E)).
  destruct (optz_one la mini x0 s st) as [s1 [[c st1]|e]] eqn:E1, (optz_one la mini x0 s' st) as [s1' [[c' st1']|e']] eqn:E2; apply Z;
    intros u u' [c0 st0] Cu Cu' Eu; apply (agree_map u u' _ _ (fun r2 => y <- r2 ;; Ok (fst (c0, st0) :: fst y, snd y))); apply IH; assumption.
Qed.
Lemma optz_agree la mini x0s s s' : clean s -> clean s' -> same_data s s' -> agree s s' (optz_hp_max_lkd la mini s x0s) (optz_hp_max_lkd la mini s' x0s).
Proof.
  intros C C' E. unfold optz_hp_max_lkd. destruct (E) as (E1 & _ & E3 & E4). rewrite <- E1, <- E3, <- E4.
  apply (agree_map s s' _ _ (fun r1 => x <- r1 ;; let '(l, st) := x in
       c <- select_best l ;; let best := or_x (c_res c) in let Rt := snd (get_scl_x_w_dist (g_data s)) in
       hp <- hp_vec2dataclass (g_data s) (g_info s) best ;;
       k <- (if d_noisy (g_data s) then calc_all_K_w_chofac (g_opt s) (g_data s) (la_cond la) Rt hp None false true None false
             else calc_Kern_w_chofac (g_opt s) (g_data s) (la_cond la) Rt hp None false true) ;;
       Ok (best, k_cond k, make_info l st))). apply all_agree; assumption.
Qed.
Lemma event_clean la s e : clean s -> clean (do_event la s e).
Proof.
  intros C. destruct e; cbn [do_event].
  - apply eval_clean, C.
  - apply (optz_agree la mini x0s s s C C (same_refl s)).
  - exact C.
Qed.
Lemma events_clean la h : forall s, clean s -> clean (do_events la s h).
Proof. induction h as [|e t IH]; intros s C; [exact C|]. apply IH, event_clean, C. Qed.

Theorem C27_never_stale :
  forall (la : npla) (h : list event) (o : gpopt) (lo : lkopt) (d : gpdata) (info : hpinfo),
  let s := do_events la (new_obj o lo d info) h in
  let s0 := new_obj (g_opt s) (g_lk s) (g_data s) (g_info s) in
  (forall v always_cond grad, snd (calc_store_likelihood la s v always_cond grad) = snd (calc_store_likelihood la s0 v always_cond grad)) /\
  (forall v, snd (return_optz_val la s v) = snd (return_optz_val la s0 v)) /\ (forall v, snd (return_optz_grad la s v) = snd (return_optz_grad la s0 v)) /\
  (forall v, snd (return_cond_val la s v) = snd (return_cond_val la s0 v)) /\ (forall v, snd (return_cond_grad la s v) = snd (return_cond_grad la s0 v)) /\
  (forall mini x0s, snd (optz_hp_max_lkd la mini s x0s) = snd (optz_hp_max_lkd la mini s0 x0s)).
Proof.
  intros la h o lo d info s s0. assert (C : clean s) by (apply events_clean; exact I). assert (C0 : clean s0) by exact I. assert (E : same_data s s0) by repeat split.
  split; [intros; apply eval_agree; assumption|].
  assert (L : forall A (f : stored -> res A) v, snd (lift_st (calc_store_likelihood la s v false true) f) = snd (lift_st (calc_store_likelihood la s0 v false true) f)) by (intros; apply (lift_agree s s0), eval_agree; assumption).
  split; [intros; apply L|]. split; [intros; apply L|]. split; [intros; apply L|]. split; [intros; apply L|]. intros; apply optz_agree; assumption.
Qed.
Print Assumptions C27_never_stale.

(** ** C28.  The selected vector *)
Lemma naf_spec l : forall i best, nanargmin_from i best l = best \/ exists k a, nth_error l k = Some (Some a) /\ nanargmin_from i best l = Some ((i + k)%nat, a).
Proof.
  induction l as [|x t IH]; intros i best; cbn [nanargmin_from]; [auto|].
  match goal with |- nanargmin_from _ ?b _ = _ \/ _ => destruct (IH (S i) b) as [E|(k & a & E1 & E2)] end.
  - rewrite E. destruct x as [a|]; [|auto]. destruct best as [[j b]|].
    + destruct (rltb a b); [right; exists 0%nat, a; rewrite Nat.add_0_r; auto|auto].
    + right. exists 0%nat, a. rewrite Nat.add_0_r. auto.
  - right. exists (S k), a. split; [exact E1|]. rewrite E2. f_equal. f_equal. lia.
Qed.
Lemma naf_min l : forall i best j b, nanargmin_from i best l = Some (j, b) ->
  (forall k c, best = Some (k, c) -> b <= c) /\ (forall k a, nth_error l k = Some (Some a) -> b <= a).
Proof.
  induction l as [|x t IH]; intros i best j b; cbn [nanargmin_from]; intros H.
  - split; [intros k c E; rewrite E in H; injection H as _ ->; lra|]. intros k a E. destruct k; discriminate.
  - apply IH in H. destruct H as (H1 & H2). split.
    + intros k c ->. destruct x as [a|]; [|apply (H1 k c eq_refl)]. unfold rltb in H1. destruct (Rlt_dec a c); [specialize (H1 i a eq_refl); lra|apply (H1 k c eq_refl)].
    + intros k a E. destruct k as [|k]; cbn [nth_error] in E; [|apply (H2 k a E)]. injection E as ->. destruct best as [[j' b']|]; [|apply (H1 i a eq_refl)].
      unfold rltb in H1. destruct (Rlt_dec a b'); [apply (H1 i a eq_refl)|specialize (H1 j' b' eq_refl); lra].
Qed.
Lemma naf_none l : forall i best, nanargmin_from i best l = None -> best = None /\ forall k a, nth_error l k <> Some (Some a).
Proof.
  induction l as [|x t IH]; intros i best; cbn [nanargmin_from]; intros H; [split; [exact H|intros [|k] a; discriminate]|].
  apply IH in H. destruct H as (H1 & H2). destruct x as [a|]; [destruct best as [[j b]|]; [destruct (rltb a b)|]; discriminate|].
  split; [exact H1|]. intros [|k] a; [discriminate|apply H2].
Qed.
Definition con_good_list (l : list cand) (c : cand) : Prop := (exists c', In c' l /\ c_good c' = true) -> c_good c = true.
Lemma select_best_spec l c : select_best l = Ok c ->
  In c l /\ con_good_list l c /\ exists f, or_fun (c_res c) = Some f /\ forall c' f', In c' l -> con_good_list l c' -> or_fun (c_res c') = Some f' -> f <= f'.
Proof.
  unfold select_best. intros H. set (l' := if existsb c_good l then filter c_good l else l) in *.
  assert (S : forall x, In x l' <-> In x l /\ con_good_list l x).
  { intros x. unfold l', con_good_list. destruct (existsb c_good l) eqn:E.
    - apply existsb_exists in E. rewrite filter_In. split; [intros (A & B); auto|intros (A & B); auto].
    - split; [|tauto]. intros A. split; [exact A|]. intros (c' & I1 & I2). assert (existsb c_good l = true) by (apply existsb_exists; eauto). congruence. }
  binv H i Ei. unfold nanargmin in Ei. destruct (nanargmin_from 0 None (map (fun c => or_fun (c_res c)) l')) as [[j b]|] eqn:EN; [|discriminate]. injection Ei as ->.
  destruct (nth_error l' i) as [c0|] eqn:EC; [|discriminate]. injection H as ->.
  assert (IC : In c l') by (apply nth_error_In in EC; exact EC). apply S in IC. split; [apply IC|]. split; [apply IC|].
  destruct (naf_spec (map (fun c => or_fun (c_res c)) l') 0 None) as [E|(k & a & E1 & E2)]; [congruence|]. rewrite EN in E2. injection E2 as -> ->. cbn [Nat.add] in EC.
  rewrite nth_error_map, EC in E1. injection E1 as E1. exists a. split; [exact E1|]. intros c' f' I1 I2 E'.
  assert (IN : In c' l') by (apply S; auto). apply In_nth_error in IN. destruct IN as (k' & EK).
  apply (proj2 (naf_min _ _ _ _ _ EN) k' f'). rewrite nth_error_map, EK. cbn. rewrite E'. reflexivity.
Qed.
(** it fails only when every candidate to choose from is NaN *)
Lemma select_best_total l c f : In c l -> con_good_list l c -> or_fun (c_res c) = Some f -> exists c', select_best l = Ok c'.
Proof.
  intros I1 I2 E. unfold select_best. set (l' := if existsb c_good l then filter c_good l else l).
  assert (S : In c l').
  { unfold l'. destruct (existsb c_good l) eqn:X; [|exact I1]. apply filter_In. split; [exact I1|]. apply I2. apply existsb_exists in X. exact X. }
  apply In_nth_error in S. destruct S as (k & EK). unfold nanargmin.
  destruct (nanargmin_from 0 None (map (fun c => or_fun (c_res c)) l')) as [[j b]|] eqn:EN.
  - rewrite bind_Ok. destruct (naf_spec (map (fun c => or_fun (c_res c)) l') 0 None) as [Q|(k' & a & E1 & E2)]; [congruence|]. rewrite EN in E2. injection E2 as -> ->. cbn [Nat.add].
    rewrite nth_error_map in E1. destruct (nth_error l' k'); [eauto|discriminate].
  - exfalso. destruct (naf_none _ _ _ EN) as (_ & N). apply (N k f). rewrite nth_error_map, EK. cbn. rewrite E. reflexivity.
Qed.

(** the candidates computed by the loop *)
Definition good_result (la : npla) (s : gpobj) (r : optres) : Prop :=
  b_use_cond_cstr (g_opt s) = true -> exists c, snd (return_cond_val la s (or_x r)) = Ok (Some c) /\ c < 101 / 100 * o_cond_max (g_opt s).
Definition cand_of (la : npla) (s : gpobj) (mini : vec -> optimiser) (x0 : vec) (c : cand) : Prop :=
  snd (run_opt la s (mini x0)) = Ok (c_res c) /\ (c_good c = true <-> good_result la s (c_res c)).
Lemma one_spec la mini x0 st s s1 c st1 : clean s -> optz_one la mini x0 s st = (s1, Ok (c, st1)) ->
  cand_of la s mini x0 c /\ clean s1 /\ same_data s s1 /\ is_fail st1 = is_fail st /\ (is_max st = None -> is_max st1 = None).
Proof.
  intros C H. assert (A := one_agree la mini x0 st s s C C (same_refl s)). rewrite H in A. destruct A as (_ & A2 & _ & A4 & _). cbn [fst] in A2, A4.
  unfold optz_one in H. cbv zeta in H.
  set (use := b_use_cond_cstr (g_opt s)) in *.
  match type of H with (let (_, _) := ?p in _) = _ => set (P := p) in H end.
  assert (Q : clean (fst P) /\ same_data s (fst P) /\ (forall st', snd P = Ok st' -> is_fail st' = is_fail st /\ (is_max st = None -> is_max st' = None))).
  { unfold P. destruct use; [|split; [exact C|]; split; [apply same_refl|]; intros st' Z; injection Z as <-; auto].
    destruct (eval_clean la s x0 false true C) as (_ & B2 & B3). destruct (calc_store_likelihood la s x0 false true) as [s' r]. cbn [fst snd] in *. split; [exact B2|]. split; [exact B3|].
    intros st' Z. binv Z x Ex. destruct (s_val x), (s_cond x); try discriminate. injection Z as <-. cbn [is_fail is_max]. split; [reflexivity|]. intros ->. reflexivity. }
  destruct P as [t r1]. cbn [fst snd] in Q. destruct Q as (Q1 & Q2 & Q3). destruct r1 as [st'|e]; [|discriminate].
  destruct (run_agree la (mini x0) (with_last t (L2nan (vlen x0))) s I C) as (R1 & R2 & R3 & R4 & R5).
  { destruct Q2 as (E1 & E2 & E3 & E4). repeat split; symmetry; assumption. }
  destruct (run_opt la (with_last t (L2nan (vlen x0))) (mini x0)) as [s2 r2]. cbn [fst snd] in *. destruct r2 as [r|e]; [|discriminate].
  assert (S2 : same_data s2 s) by (apply same_sym; eapply same_trans; [exact Q2|exact R4]).
  destruct use eqn:Eu.
  - destruct (lift_agree s2 s _ _ (fun x => Ok (s_cond x)) (eval_agree la s2 s (or_x r) false true R2 C S2)) as (L1 & L2 & _).
    fold (return_cond_val la s2 (or_x r)) in L1, L2. fold (return_cond_val la s (or_x r)) in L1.
    destruct (return_cond_val la s2 (or_x r)) as [s3 r3] eqn:E3. cbn [fst snd] in *. injection H as <- H. binv H cc Ec. destruct cc as [a|]; [|discriminate]. injection H as <- <-.
    split; [|split; [exact A2|]; split; [exact A4|]; apply Q3; reflexivity]. unfold cand_of. cbn [c_res c_good]. split; [symmetry; exact R1|]. unfold good_result, rltb. rewrite Ec in L1. fold use. rewrite Eu, <- L1.
    destruct (Rlt_dec a (101 / 100 * o_cond_max (g_opt s))); split; intros Z; auto; try discriminate; [intros _; eauto|].
    destruct (Z eq_refl) as (c0 & Z1 & Z2). injection Z1 as <-. contradiction.
  - injection H as <- <- <-. split; [|split; [exact A2|]; split; [exact A4|]; apply Q3; reflexivity]. unfold cand_of. cbn [c_res c_good]. split; [symmetry; exact R1|]. unfold good_result. fold use. rewrite Eu. split; [discriminate|reflexivity].
Qed.
Lemma cand_same la mini x0 c s s' : clean s -> clean s' -> same_data s s' -> cand_of la s mini x0 c -> cand_of la s' mini x0 c.
Proof.
  intros C C' E (H1 & H2). destruct (run_agree la (mini x0) s s' C C' E) as (R1 & _). split; [congruence|]. rewrite H2. unfold good_result. destruct E as (E1 & E2) eqn:EE. rewrite <- E1.
  destruct (lift_agree s s' _ _ (fun x => Ok (s_cond x)) (eval_agree la s s' (or_x (c_res c)) false true C C' E)) as (L1 & _).
  fold (return_cond_val la s (or_x (c_res c))) in L1. fold (return_cond_val la s' (or_x (c_res c))) in L1. rewrite L1. tauto.
Qed.
Lemma all_spec la mini x0s : forall st s s1 l st1, clean s -> optz_all la mini x0s s st = (s1, Ok (l, st1)) ->
  List.Forall2 (cand_of la s mini) x0s l /\ is_fail st1 = is_fail st /\ (is_max st = None -> is_max st1 = None).
Proof.
  induction x0s as [|x0 t IH]; intros st s s1 l st1 C; cbn [optz_all]; intros H.
  - injection H as <- <- <-. auto.
  - destruct (optz_one la mini x0 s st) as [s' [[c st']|e]] eqn:E1; [|discriminate].
    destruct (one_spec la mini x0 st s s' c st' C E1) as (A1 & A2 & A3 & A4 & A5).
    destruct (optz_all la mini t s' st') as [s2 r2] eqn:E2. injection H as <- H. binv H x Ex. subst r2. destruct x as [l' st2]. injection H as <- <-. cbn [fst snd].
    destruct (IH st' s' s2 l' st2 A2 E2) as (B1 & B2 & B3). split; [|split; [congruence|auto]]. constructor; [exact A1|].
    clear - B1 A2 A3 C. induction B1; constructor; auto. apply (cand_same la mini x y s' s); auto. apply same_sym, A3.
Qed.

Theorem C28_selection :
  forall (la : npla) (h : list event) (o : gpopt) (lo : lkopt) (d : gpdata) (info : hpinfo) (mini : vec -> optimiser) (x0s : list vec) (best : vec) (cond : option R) (rep : optzinfo),
  let s := do_events la (new_obj o lo d info) h in
  snd (optz_hp_max_lkd la mini s x0s) = Ok (best, cond, rep) ->
  exists results : list optres,
    (* one result per starting point *)
    List.Forall2 (fun x0 r => snd (run_opt la s (mini x0)) = Ok r) x0s results /\
    (* the selected one: a number, it satisfies the constraint if any does, and it has the smallest objective of those to choose from *)
    let eligible r := (exists r', In r' results /\ good_result la s r') -> good_result la s r in
    exists r f, In r results /\ best = or_x r /\ or_fun r = Some f /\ eligible r /\
      forall r' f', In r' results -> eligible r' -> or_fun r' = Some f' -> f <= f'.
Proof.
  intros la h o lo d info mini x0s best cond rep s H. assert (C : clean s) by (apply events_clean; exact I).
  unfold optz_hp_max_lkd in H. destruct (optz_all la mini x0s s (mkis 0 0 None)) as [s1 r1] eqn:EA. cbn [snd] in H. binv H x Ex. subst r1. destruct x as [l st].
  destruct (all_spec la mini x0s _ s s1 l st C EA) as (F2 & _). binv H c Ec. binv H hp Ehp. binv H k Ek. injection H as <- _ _.
  destruct (select_best_spec l c Ec) as (I1 & I2 & f & Ef & M). exists (map c_res l).
  assert (G : forall c', In c' l -> (c_good c' = true <-> good_result la s (c_res c'))).
  { clear - F2. induction F2; [intros c' []|]. intros c' [<-|Hc]; [apply H|apply IHF2, Hc]. }
  split; [clear - F2; induction F2; cbn [map]; constructor; [apply H|exact IHF2]|].
  assert (EL : forall c', In c' l -> (con_good_list l c' <-> ((exists r', In r' (map c_res l) /\ good_result la s r') -> good_result la s (c_res c')))).
  { intros c' Hc. unfold con_good_list. rewrite (G c' Hc). split; intros Z (r' & Z1 & Z2).
    - apply in_map_iff in Z1. destruct Z1 as (c'' & <- & Z1). apply Z. exists c''. split; [exact Z1|]. apply G; assumption.
    - apply Z. exists (c_res r'). split; [apply in_map, Z1|]. apply G; assumption. }
  cbv zeta. exists (c_res c), f. split; [apply in_map, I1|]. split; [reflexivity|]. split; [exact Ef|]. split; [apply EL; assumption|].
  intros r' f' Hr He Ef'. apply in_map_iff in Hr. destruct Hr as (c' & <- & Hc). apply (M c' f' Hc); [apply EL; assumption|exact Ef'].
Qed.
Print Assumptions C28_selection.
