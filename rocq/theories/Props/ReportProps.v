(** * C38: the report of the optimisation; more on C28 *)
From Coq Require Import Reals List Arith Bool Lia Lra.
From Verif.Base Require Import NpLite NpFacts.
From Verif.Spec Require Import KernelSpec LinAlgSpec GpSpec HpSpec DataSpec LkdSpec OptzSpec.
From Verif.Model Require Import KernelSqExp KernelMatern KernelRatQuad KernelDispatch CommonFun WellCond Rescaling GpState Chol Cov HpInfo HpGrad MeanFun Lkd OptzLkd.
From Verif.Proofs Require Import StateFacts.
From Verif.Props Require Import OptzProps.
Import ListNotations.
Local Open Scope R_scope.

(** [k] elements of [l] satisfy [P] *)
Inductive holds_for {A} (P : A -> Prop) : list A -> nat -> Prop :=
| hf_nil : holds_for P [] 0
| hf_yes a l k : P a -> holds_for P l k -> holds_for P (a :: l) (S k)
| hf_no a l k : ~ P a -> holds_for P l k -> holds_for P (a :: l) k.
Lemma holds_for_filter {A} (f : A -> bool) (P : A -> Prop) l : (forall a, In a l -> (f a = true <-> P a)) -> holds_for P l (List.length (filter f l)).
Proof.
  induction l as [|a t IH]; intros H; cbn [filter]; [constructor|]. assert (Ha := H a (or_introl eq_refl)). destruct (f a).
  - cbn [List.length]. constructor; [apply Ha; reflexivity|]. apply IH. intros b Hb. apply H. right. exact Hb.
  - constructor; [intros C; apply Ha in C; discriminate|]. apply IH. intros b Hb. apply H. right. exact Hb.
Qed.
Lemma holds_for_map {A B} (g : A -> B) (P : B -> Prop) l k : holds_for (fun a => P (g a)) l k -> holds_for P (map g l) k.
Proof. induction 1; cbn [map]; [constructor|constructor 2; assumption|constructor 3; assumption]. Qed.
Lemma holds_for_le {A} (P : A -> Prop) l k : holds_for P l k -> (k <= List.length l)%nat.
Proof. induction 1; cbn [List.length]; lia. Qed.
Lemma holds_for_unique {A} (P : A -> Prop) l k k' : holds_for P l k -> holds_for P l k' -> k = k'.
Proof. intros H. revert k'. induction H; intros k' H'; inversion H'; subst; try contradiction; auto. Qed.

(** the condition number at a start point is above the limit *)
Definition start_over (la : npla) (s : gpobj) (x0 : vec) : Prop :=
  b_use_cond_cstr (g_opt s) = true /\ exists c, snd (return_cond_val la s x0) = Ok (Some c) /\ o_cond_max (g_opt s) < c.
Lemma start_over_same la s s' x0 : clean s -> clean s' -> same_data s s' -> start_over la s x0 -> start_over la s' x0.
Proof.
  intros C C' E (H1 & c & H2 & H3). assert (E' := E). destruct E' as (E1 & _). split; [congruence|]. exists c. rewrite <- E1. split; [|exact H3].
  destruct (lift_agree s s' _ _ (fun x => Ok (s_cond x)) (eval_agree la s s' x0 false true C C' E)) as (L & _). fold (return_cond_val la s x0) in L. fold (return_cond_val la s' x0) in L. congruence.
Qed.
Lemma one_big la mini x0 st s s1 c st1 : clean s -> optz_one la mini x0 s st = (s1, Ok (c, st1)) ->
  exists b : bool, (b = true <-> start_over la s x0) /\ is_big st1 = (is_big st + if b then 1 else 0)%nat.
Proof.
  intros C H. unfold optz_one in H. cbv zeta in H. match type of H with (let (_, _) := ?p in _) = _ => set (P := p) in H end.
  assert (Q : forall st', snd P = Ok st' -> exists b : bool, (b = true <-> start_over la s x0) /\ is_big st' = (is_big st + if b then 1 else 0)%nat).
  { unfold P, start_over. destruct (b_use_cond_cstr (g_opt s)).
    - unfold return_cond_val, lift_st. destruct (calc_store_likelihood la s x0 false true) as [t r]. cbn [snd]. intros st' Z. binv Z x Ex. subst r. cbn [bind].
      destruct (s_val x), (s_cond x) as [cc|]; try discriminate. injection Z as <-. cbn [is_big]. exists (rltb (o_cond_max (g_opt s)) cc). split; [|reflexivity].
      unfold rltb. destruct (Rlt_dec (o_cond_max (g_opt s)) cc) as [L|L]; split; intros Z; try discriminate; eauto.
      destruct Z as (_ & c0 & Z1 & Z2). injection Z1 as <-. contradiction.
    - cbn [snd]. intros st' Z. injection Z as <-. exists false. split; [split; [discriminate|intros (Z & _); discriminate]|lia]. }
  destruct P as [t r1]. cbn [snd] in Q. destruct r1 as [st'|e]; [|discriminate]. destruct (Q st' eq_refl) as (b & Hb & E). exists b. split; [exact Hb|].
  destruct (run_opt la (with_last t (L2nan (vlen x0))) (mini x0)) as [s2 r2]. destruct r2 as [r|e]; [|discriminate]. destruct (b_use_cond_cstr (g_opt s)).
  - destruct (return_cond_val la s2 (or_x r)) as [s3 r3]. injection H as _ H. binv H cc Ec. destruct cc; [|discriminate]. injection H as _ <-. exact E.
  - injection H as _ _ <-. exact E.
Qed.
Lemma all_big la mini x0s : forall st s s1 l st1, clean s -> optz_all la mini x0s s st = (s1, Ok (l, st1)) ->
  exists k, holds_for (start_over la s) x0s k /\ is_big st1 = (is_big st + k)%nat.
Proof.
  induction x0s as [|x0 t IH]; intros st s s1 l st1 C; cbn [optz_all]; intros H.
  - injection H as <- <- <-. exists 0%nat. split; [constructor|lia].
  - destruct (optz_one la mini x0 s st) as [s' [[c st']|e]] eqn:E1; [|discriminate].
    destruct (one_spec la mini x0 st s s' c st' C E1) as (_ & A2 & A3 & _). destruct (one_big la mini x0 st s s' c st' C E1) as (b & Hb & EB).
    destruct (optz_all la mini t s' st') as [s2 r2] eqn:E2. injection H as <- H. binv H x Ex. subst r2. destruct x as [l' st2]. injection H as <- <-. cbn [fst snd].
    destruct (IH st' s' s2 l' st2 A2 E2) as (k & K1 & K2).
    assert (K1' : holds_for (start_over la s) t k).
    { clear - K1 A2 A3 C. induction K1; [constructor|constructor 2|constructor 3]; auto; [apply (start_over_same la s' s); auto; apply same_sym, A3|].
      intros Z. apply H. apply (start_over_same la s s'); auto. }
    destruct b.
    + exists (S k). split; [constructor 2; [apply Hb; reflexivity|exact K1']|lia].
    + exists k. split; [constructor 3; [intros Z; apply Hb in Z; discriminate|exact K1']|lia].
Qed.

(** The fractions, the numbers of iterations and the number of ill-conditioned start points are what their names
    say. *)
Theorem C38_report :
  forall (la : npla) (past : list event) (o : gpopt) (lo : lkopt) (d : gpdata) (info : hpinfo) (mini : vec -> optimiser) (x0s : list vec) (best : vec) (cond : option R) (rep : optzinfo),
  let s := do_events la (new_obj o lo d info) past in
  snd (optz_hp_max_lkd la mini s x0s) = Ok (best, cond, rep) ->
  exists results : list optres,
    List.Forall2 (fun x0 r => snd (run_opt la s (mini x0)) = Ok r) x0s results /\ results <> [] /\
    let n := INR (List.length results) in
    (exists k, holds_for (fun r => or_success r = true) results k /\ oi_success rep = INR k / n) /\
    (exists k, holds_for (good_result la s) results k /\ oi_con_good rep = INR k / n) /\
    0 <= oi_success rep <= 1 /\ 0 <= oi_con_good rep <= 1 /\
    (forall r, In r results -> (or_nit r <= oi_iter_max rep)%nat) /\ (exists r, In r results /\ or_nit r = oi_iter_max rep) /\
    oi_iter_mean rep = fold_right Rplus 0 (map (fun r => INR (or_nit r)) results) / n /\
    (exists k, holds_for (start_over la s) x0s k /\ is_big (oi_init rep) = k).
Proof.
  intros la past o lo d info mini x0s best cond rep s H. assert (C : clean s) by (apply events_clean; exact I).
  unfold optz_hp_max_lkd in H. destruct (optz_all la mini x0s s (mkis 0 0 None)) as [s1 r1] eqn:EA. cbn [snd] in H. binv H x Ex. subst r1. destruct x as [l st].
  destruct (all_spec la mini x0s _ s s1 l st C EA) as (F2 & _). destruct (all_big la mini x0s _ s s1 l st C EA) as (kb & KB & EB).
  binv H c Ec. binv H hp Ehp. binv H k Ek. injection H as _ _ <-.
  assert (G : forall c', In c' l -> (c_good c' = true <-> good_result la s (c_res c'))).
  { clear - F2. induction F2; [intros c' []|]. intros c' [<-|Hc]; [apply H|apply IHF2, Hc]. }
  assert (NE : l <> []). { destruct (select_best_spec l c Ec) as (I1 & _). intros ->. destruct I1. }
  exists (map c_res l). split; [clear - F2; induction F2; cbn [map]; constructor; [apply H|exact IHF2]|].
  split; [destruct l; [congruence|discriminate]|]. rewrite map_length. cbv zeta.
  assert (NP : 0 < INR (List.length l)). { destruct l; [congruence|]. cbn [List.length]. apply lt_0_INR. lia. }
  assert (FR : forall (P : optres -> Prop) f, (forall c', In c' l -> (f c' = true <-> P (c_res c'))) ->
     (exists k, holds_for P (map c_res l) k /\ frac f l = INR k / INR (List.length l)) /\ 0 <= frac f l <= 1).
  { intros P f Hf. assert (HH : holds_for P (map c_res l) (List.length (filter f l))) by (apply holds_for_map, holds_for_filter; exact Hf).
    split; [eexists; split; [exact HH|reflexivity]|]. apply holds_for_le in HH. rewrite map_length in HH. apply le_INR in HH. unfold frac. assert (Z := pos_INR (List.length (filter f l))).
    split; [apply Rmult_le_pos; [exact Z|left; apply Rinv_0_lt_compat, NP]|]. apply Rmult_le_reg_r with (INR (List.length l)); [exact NP|]. unfold Rdiv. rewrite Rmult_assoc, Rinv_l by lra. lra. }
  destruct (FR (fun r => or_success r = true) (fun c => or_success (c_res c))) as (S1 & S2); [intros; reflexivity|].
  destruct (FR (good_result la s) c_good G) as (T1 & T2).
  split; [exact S1|]. split; [exact T1|]. split; [exact S2|]. split; [exact T2|]. cbn [make_info oi_iter_max oi_iter_mean oi_init]. split.
  { intros r Hr. apply in_map_iff in Hr. destruct Hr as (c' & <- & Hc). clear - Hc. induction l as [|a t IH]; [destruct Hc|]. cbn [map fold_right]. destruct Hc as [->|Hc]; [lia|]. specialize (IH Hc). lia. }
  split.
  { clear - NE. induction l as [|a t IH]; [congruence|]. cbn [map fold_right]. destruct t as [|b t']; [exists (c_res a); split; [left; reflexivity|cbn; lia]|].
    destruct IH as (r & Hr & E); [discriminate|]. destruct (Nat.max_spec (or_nit (c_res a)) (fold_right Nat.max 0%nat (map (fun c => or_nit (c_res c)) (b :: t')))) as [(_ & Z)|(_ & Z)].
    - exists r. split; [right; exact Hr|]. congruence.
    - exists (c_res a). split; [left; reflexivity|]. congruence. }
  split.
  { f_equal. clear. induction l as [|a t IH]; [reflexivity|]. cbn [map fold_right]. rewrite plus_INR, IH. reflexivity. }
  exists kb. split; [exact KB|]. rewrite EB. reflexivity.
Qed.
Print Assumptions C38_report.

(** The reported number of failed factorisations is always 0 and the reported largest initial condition number is always NaN. *)
Theorem C38_constant_entries :
  forall (la : npla) (past : list event) (o : gpopt) (lo : lkopt) (d : gpdata) (info : hpinfo) (mini : vec -> optimiser) (x0s : list vec) (best : vec) (cond : option R) (rep : optzinfo),
  let s := do_events la (new_obj o lo d info) past in
  snd (optz_hp_max_lkd la mini s x0s) = Ok (best, cond, rep) -> is_fail (oi_init rep) = 0%nat /\ is_max (oi_init rep) = None.
Proof.
  intros la past o lo d info mini x0s best cond rep s H. assert (C : clean s) by (apply events_clean; exact I).
  unfold optz_hp_max_lkd in H. destruct (optz_all la mini x0s s (mkis 0 0 None)) as [s1 r1] eqn:EA. cbn [snd] in H. binv H x Ex. subst r1. destruct x as [l st].
  destruct (all_spec la mini x0s _ s s1 l st C EA) as (_ & E1 & E2). binv H c Ec. binv H hp Ehp. binv H k Ek. injection H as _ _ <-. cbn [make_info oi_init]. split; [exact E1|apply E2; reflexivity].
Qed.
Print Assumptions C38_constant_entries.
