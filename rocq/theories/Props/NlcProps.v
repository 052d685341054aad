(** * C44: nonlinear-constraint data in the scaled coordinates *)
From Coq Require Import Reals List Arith Bool Lia Lra.
From Coquelicot Require Import Coquelicot.
From Verif.Base Require Import NpLite NpFacts Deriv.
From Verif.Spec Require Import KernelSpec LinAlgSpec RescaleSpec NlcSpec.
From Verif.Model Require Import KernelSqExp CommonFun Rescaling NlcScaling.
From Verif.Proofs Require Import StateFacts RescaleFacts DataFacts.
From Verif.Props Require Import RescaleProps.
Import ListNotations.
Local Open Scope R_scope.

(** ** the state behind a history *)
(** the stored scaled data are the stored data scaled with the scaling in force, whose scale is positive *)
Definition nlc_ok (n : nresc) : Prop := 0 < n_scale n /\
  match n_dat n with
  | None => n_scl n = None
  | Some o => exists os, n_scl n = Some os /\ nlc_init_2_scl (r_scale (n_r n)) (n_shift n) (n_scale n) o = Ok os /\ r_nlc (n_r n) = true
  end.
Lemma do_call_scale r c r' : do_call r c = Ok r' -> r_nlc r = true -> (match c with CNlc _ _ => False | _ => True end) -> r_scale r' = r_scale r /\ r_nlc r' = true.
Proof.
  intros H N NC. destruct c; cbn [do_call] in H; try contradiction.
  - unfold set_xscale_data in H. binv H ss E1. destruct ss as (sh, sc). binv H xs E2. binv H Rt E3. binv H os E4. rewrite N in H. discriminate.
  - unfold set_obj_data in H. binv_assert H. binv H ss E1. destruct ss as (sh, sc). binv H os E2. injection H as <-. cbn. auto.
  - unfold set_obj_scaling in H. destruct (r_obj r); [|discriminate]. binv H os E2. injection H as <-. cbn. auto.
  - unfold set_boxcon in H. binv H b E. injection H as <-. cbn. auto.
  - unfold set_lincon in H. binv H b E. injection H as <-. cbn. auto.
Qed.
Definition base_call (c : ncall) : list call :=
  match c with NBase c => [c] | NData o _ m => [CNlc (nr (nl_val o)) m] | NScl _ _ => [] end.
Lemma do_ncall_base n c n' : do_ncall n c = Ok n' -> do_calls (n_r n) (base_call c) = Ok (n_r n').
Proof.
  intros H. destruct c as [c|o us m|a b]; cbn [base_call].
  - cbn [do_ncall] in H. assert (E : exists r, do_call (n_r n) c = Ok r /\ n_r n' = r).
    { destruct c; try discriminate; binv H r E; injection H as <-; exists r; split; try exact E; reflexivity. }
    destruct E as (r & E & ->). cbn [do_calls]. rewrite E. reflexivity.
  - cbn [do_ncall] in H. unfold set_nlc in H. binv H r E. binv H ss E2. destruct ss as (sh, sc). binv H os E3. injection H as <-. cbn [do_calls do_call]. rewrite E. reflexivity.
  - cbn [do_ncall] in H. unfold set_nlc_scaling in H. destruct (n_dat n); [|discriminate]. binv H os E. injection H as <-. reflexivity.
Qed.
Lemma do_calls_app l1 : forall l2 r r1, do_calls r l1 = Ok r1 -> do_calls r (l1 ++ l2) = do_calls r1 l2.
Proof. induction l1 as [|c l IH]; intros l2 r r1 H; cbn [do_calls app] in *; [injection H as <-; reflexivity|]. binv H r' E. rewrite E. cbn [bind]. apply IH. exact H. Qed.
Lemma do_ncalls_base l : forall n n', do_ncalls n l = Ok n' -> do_calls (n_r n) (List.concat (map base_call l)) = Ok (n_r n').
Proof.
  induction l as [|c l IH]; intros n n' H; cbn [do_ncalls] in H; [injection H as <-; reflexivity|]. binv H n1 E.
  cbn [map List.concat]. rewrite (do_calls_app _ _ _ _ (do_ncall_base _ _ _ E)). apply IH. exact H.
Qed.
Lemma base_pos l : List.Forall ncall_pos l -> List.Forall call_pos (List.concat (map base_call l)).
Proof.
  induction 1 as [|c l Hc _ IH]; cbn [map List.concat]; [constructor|]. apply List.Forall_app. split; [|exact IH].
  destruct c; cbn; repeat constructor. exact Hc.
Qed.
Lemma calc_nlc_pos r us m A sh sc : calc_nlc_scaling r us m A = Ok (sh, sc) -> 0 < r_obj_scale r -> 0 < sc /\ vlen sh = nc A.
Proof.
  unfold calc_nlc_scaling. intros H P. binv H a Ea. binv H b Eb. injection H as <- <-. split.
  - destruct (nr (r_x r) =? 1)%nat; [injection Eb as <-; lra|]. destruct m; [binv_assert Eb|..]; injection Eb as <- || discriminate; lra.
  - destruct us; [destruct (r_best r <? nr A)%nat; [|discriminate]|]; injection Ea as <-; reflexivity.
Qed.
Lemma set_nlc_flag r k m r' : Rescaling.set_nlc_data r k m = Ok r' -> r_nlc r' = true /\ r_scale r' = r_scale r /\ r_obj_scale r' = r_obj_scale r /\ r_x r' = r_x r /\ k = nr (r_x r) /\ m <> Ndflt_max /\ r_best r' = r_best r.
Proof.
  unfold Rescaling.set_nlc_data. intros H. binv_assert H. apply Nat.eqb_eq in HA. binv_assert H. binv H u E. injection H as <-. cbn. repeat split; auto. intros ->. discriminate.
Qed.
Lemma ncall_ok n c n' : do_ncall n c = Ok n' -> ncall_pos c -> 0 < r_obj_scale (n_r n) -> nlc_ok n -> nlc_ok n'.
Proof.
  intros H P PO (S & D). destruct c as [c|o us m|a b]; cbn [do_ncall] in H.
  - assert (E : exists r, do_call (n_r n) c = Ok r /\ n' = mknr r (n_dat n) (n_shift n) (n_scale n) (n_scl n) /\ (match c with CNlc _ _ => False | _ => True end)).
    { destruct c; try discriminate; binv H r E; injection H as <-; exists r; split; try exact E; auto. }
    destruct E as (r & E & -> & NC). split; [exact S|]. cbn. destruct (n_dat n) as [o|]; [|exact D]. destruct D as (os & D1 & D2 & D3).
    destruct (do_call_scale _ _ _ E D3 NC) as (K1 & K2). exists os. rewrite K1. auto.
  - unfold set_nlc in H. binv H r E. binv H ss E2. destruct ss as (sh, sc). binv H os E3. injection H as <-. 
    destruct (set_nlc_flag _ _ _ _ E) as (F1 & F2 & F3 & _). destruct (calc_nlc_pos _ _ _ _ _ _ E2 ltac:(lra)) as (Q & _).
    split; [exact Q|]. cbn. exists os. auto.
  - unfold set_nlc_scaling in H. destruct (n_dat n) as [o|] eqn:ED; [|discriminate]. binv H os E. injection H as <-. destruct D as (os0 & _ & _ & D3).
    split; [cbn; destruct b; [exact P|exact S]|]. cbn. exists os. auto.
Qed.
Lemma do_calls_osc1 r c r' : do_calls r c = Ok r' -> List.Forall call_pos c -> 0 < r_obj_scale r -> 0 < r_obj_scale r'.
Proof. intros H P S. eapply do_calls_osc; eauto. Qed.
Lemma ncalls_ok l : forall n n', do_ncalls n l = Ok n' -> List.Forall ncall_pos l -> 0 < r_obj_scale (n_r n) -> nlc_ok n -> nlc_ok n'.
Proof.
  induction l as [|c l IH]; intros n n' H P PO N; cbn [do_ncalls] in H; [injection H as <-; exact N|]. binv H n1 E.
  inversion P as [|? ? Pc Pl]; subst. apply (IH n1 n' H Pl); [|exact (ncall_ok _ _ _ E Pc PO N)].
  apply (do_calls_osc1 _ _ _ (do_ncall_base _ _ _ E)); [|exact PO]. assert (X := base_pos [c] (List.Forall_cons _ Pc (List.Forall_nil _))). cbn in X. rewrite app_nil_r in X. exact X.
Qed.
Lemma nlc_history X best us m dst r0 l n : rescaling_init X best us m dst = Ok r0 -> do_ncalls (fresh_nlc r0) l = Ok n -> List.Forall ncall_pos l ->
  nlc_ok n /\ do_calls r0 (List.concat (map base_call l)) = Ok (n_r n).
Proof.
  intros H1 H2 P. split; [|apply (do_ncalls_base l _ _ H2)]. apply (ncalls_ok l _ _ H2 P).
  - apply (history_osc X best us m dst r0 [] r0 H1 eq_refl). constructor.
  - split; [cbn; lra|reflexivity].
Qed.
Lemma nval_ok sh sc A : vlen sh = nc A -> rok (nlc_val_2_scl sh sc A) (fun B => mat_is B (nr A) (nc A) (fun p j => (mat_at A p j - vat sh j) * sc)).
Proof.
  intros H. unfold nlc_val_2_scl. assert (X := mrow_ok Rminus (nr A) (nc A) A (mat_at A) sh (vat sh) (mspec_refl A) ltac:(split; [exact H|reflexivity])).
  unfold msub. destruct (mzip Rminus A (rowmat sh)) as [T|]; [|contradiction]. cbn [bind]. destruct X as (X1 & X2 & X3). cbn. repeat split; auto. cbn. intros i j Hi Hj. rewrite X3 by assumption. reflexivity.
Qed.
Lemma nval_ini sh sc A : vlen sh = nc A -> rok (nlc_val_2_init sh sc A) (fun B => mat_is B (nr A) (nc A) (fun p j => mat_at A p j / sc + vat sh j)).
Proof.
  intros H. unfold nlc_val_2_init, madd. apply (mrow_ok Rplus (nr A) (nc A) (mmap (fun v => v / sc) A) (fun p j => mat_at A p j / sc) sh (vat sh)); [|split; [exact H|reflexivity]].
  split; [reflexivity|]. split; [reflexivity|]. reflexivity.
Qed.

(** ** the theorems *)
(** What get_scl_nlc_data returns after any history of successful calls: the data last given, shifted and scaled,
    the derivatives divided by the scale of their coordinate; and converting back gives the data again. *)
Theorem C44_scaled_constraint_data :
  forall (X : mat) (best : option nat) (use_shift : bool) (m : xmtd) (dst : option R) (r0 : resc) (calls : list ncall) (n : nresc) (o : nlcdata),
  rescaling_init X best use_shift m dst = Ok r0 -> do_ncalls (fresh_nlc r0) calls = Ok n -> scale_cfg_ok X m dst -> List.Forall ncall_pos calls ->
  get_init_nlc_data n = Ok o -> vlen (n_shift n) = nc (nl_val o) ->
  let s := r_scale (n_r n) in let sh := n_shift n in let sc := n_scale n in
  0 < sc /\ (forall i, (i < nc X)%nat -> 0 < vat s i) /\
  exists os, get_scl_nlc_data n = Ok os /\
    mat_is (nl_val os) (nr (nl_val o)) (nc (nl_val o)) (fun p j => (mat_at (nl_val o) p j - vat sh j) * sc) /\
    (exists Sd Sd', nl_std o = Some Sd /\ nl_std os = Some Sd' /\ mat_is Sd' (nr Sd) (nc Sd) (fun p j => mat_at Sd p j * sc)) /\
    (forall T, nl_grad o = Some T -> tc T = nc X -> exists T', nl_grad os = Some T' /\
       ten_is T' (td T) (tr T) (tc T) (fun p j i => tat T p j i * sc / vat s i)) /\
    (nl_grad o = None -> nl_grad os = None) /\
    (forall T, nl_stdg o = Some T -> tc T = nc X -> exists T', nl_stdg os = Some T' /\
       ten_is T' (td T) (tr T) (tc T) (fun p j i => tat T p j i * sc / vat s i)) /\
    (nl_stdg o = None -> nl_stdg os = None) /\
    (* and back *)
    ((forall T, nl_grad o = Some T -> tc T = nc X) -> (forall T, nl_stdg o = Some T -> tc T = nc X) ->
     exists A B G H, nlc_scl_2_init s sh sc (Some (nl_val os)) (nl_std os) (nl_grad os) (nl_stdg os) = Ok (A, B, G, H) /\
      mat_is A (nr (nl_val o)) (nc (nl_val o)) (mat_at (nl_val o)) /\
      match nl_std o, B with Some Sd, Some Sd' => mat_is Sd' (nr Sd) (nc Sd) (mat_at Sd) | _, _ => False end /\
      match nl_grad o, G with Some T, Some T' => ten_is T' (td T) (tr T) (tc T) (tat T) | None, None => True | _, _ => False end /\
      match nl_stdg o, H with Some T, Some T' => ten_is T' (td T) (tr T) (tc T) (tat T) | None, None => True | _, _ => False end).
Proof.
  intros X best us m dst r0 calls n o H1 H2 C P HG HL. cbv zeta. destruct (nlc_history _ _ _ _ _ _ _ _ H1 H2 P) as ((S & D) & HB).
  destruct (history_inv _ _ _ _ _ _ _ _ H1 HB) as ((I1 & I2 & _) & E1 & E2 & E3). rewrite E1, E2, E3 in *. specialize (I2 C). destruct I1 as (_ & L1 & L2 & _).
  unfold get_init_nlc_data in HG. destruct (n_dat n) as [o'|] eqn:ED; [|discriminate]. injection HG as ->. destruct D as (os & D1 & D2 & _).
  split; [exact S|]. split; [intros i Hi; apply I2; congruence|]. exists os. unfold get_scl_nlc_data. rewrite ED, D1. split; [reflexivity|].
  set (s := r_scale (n_r n)) in *. set (sc := n_scale n) in *. set (sh := n_shift n) in *.
  assert (SP : forall i, (i < nc X)%nat -> 0 < vat s i) by (intros i Hi; apply I2; congruence).
  unfold nlc_init_2_scl in D2. binv D2 v Ev. binv D2 S0 ES0. binv D2 g Eg. binv D2 sg Esg. injection D2 as <-. cbn [nl_val nl_std nl_grad nl_stdg].
  assert (NV := nval_ok sh sc (nl_val o) HL). rewrite Ev in NV. cbn in NV. destruct NV as (V1 & V2 & V3).
  split; [repeat split; auto|]. destruct (nl_std o) as [S1|] eqn:ESD; [|discriminate]. injection ES0 as <-.
  split; [exists S1, (nlc_std_2_scl sc S1); repeat split|].
  assert (GT : forall T T', tc T = nc X -> nlc_grad_2_scl s sc T = Ok T' -> ten_is T' (td T) (tr T) (tc T) (fun p j i => tat T p j i * sc / vat s i)).
  { intros T T' HT HE. unfold nlc_grad_2_scl in HE. assert (Y := tlast_ok T (vmap (fun s => 1 / s * sc) s) ltac:(cbn; congruence)). rewrite HE in Y. cbn in Y.
    destruct Y as (Y1 & Y2 & Y3 & Y4). split; [exact Y1|]. split; [exact Y2|]. split; [exact Y3|]. intros p j i Hp Hj Hi. rewrite Y4 by assumption. field.
    assert (0 < vat s i) by (apply SP; congruence). lra. }
  assert (GO : forall g0 g1, omap (nlc_grad_2_scl s sc) g0 = Ok g1 -> (forall T, g0 = Some T -> tc T = nc X -> exists T', g1 = Some T' /\ ten_is T' (td T) (tr T) (tc T) (fun p j i => tat T p j i * sc / vat s i)) /\ (g0 = None -> g1 = None)).
  { intros g0 g1 HE. destruct g0 as [T0|]; cbn [omap] in HE; [|injection HE as <-; split; [intros T ?; discriminate|reflexivity]].
    binv HE T' ET. injection HE as <-. split; [|discriminate]. intros T [= <-] HT. exists T'. split; [reflexivity|]. apply GT; assumption. }
  destruct (GO _ _ Eg) as (G1 & G2). destruct (GO _ _ Esg) as (G3 & G4).
  split; [exact G1|]. split; [exact G2|]. split; [exact G3|]. split; [exact G4|].
  intros HT1 HT2. unfold nlc_scl_2_init. destruct (rok_ex _ _ (nval_ini sh sc v ltac:(congruence))) as (A & EA & A1 & A2 & A3). rewrite EA. cbn [bind].
  assert (BK : forall g0 g1, (forall T, g0 = Some T -> tc T = nc X) -> omap (nlc_grad_2_scl s sc) g0 = Ok g1 -> exists g2, omap (nlc_grad_2_init s sc) g1 = Ok g2 /\
     match g0, g2 with Some T, Some T' => ten_is T' (td T) (tr T) (tc T) (tat T) | None, None => True | _, _ => False end).
  { intros g0 g1 HT HE. destruct g0 as [T0|]; cbn [omap] in HE; [|injection HE as <-; exists None; split; [reflexivity|exact I]].
    binv HE T' ET. injection HE as <-. destruct (GT T0 T' (HT T0 eq_refl) ET) as (Y1 & Y2 & Y3 & Y4).
    destruct (rok_ex _ _ (tlast_ok T' (vmap (fun t => t / sc) s) ltac:(cbn; rewrite Y3, (HT T0 eq_refl); congruence))) as (T2 & E4 & Z1 & Z2 & Z3 & Z4).
    exists (Some T2). cbn [omap]. unfold nlc_grad_2_init. rewrite E4. split; [reflexivity|]. split; [congruence|]. split; [congruence|]. split; [congruence|]. intros p j i Hp Hj Hi. rewrite Z4 by congruence. rewrite Y4 by assumption. cbn.
    assert (0 < vat s i) by (apply SP; rewrite (HT T0 eq_refl) in Hi; exact Hi). field. lra. }
  destruct (BK _ _ HT1 Eg) as (g2 & Eg2 & Mg2). destruct (BK _ _ HT2 Esg) as (sg2 & Esg2 & Msg2). rewrite Eg2, Esg2. cbn [bind].
  do 4 eexists. split; [reflexivity|]. split. { split; [congruence|]. split; [congruence|]. intros p j Hp Hj. rewrite A3 by congruence. rewrite V3 by assumption. field. lra. }
  split. { cbn. repeat split. intros p j Hp Hj. cbn. field. lra. }
  split; assumption.
Qed.
Print Assumptions C44_scaled_constraint_data.

(** The scaled values and gradients of the constraints are the values and gradients of the scaled constraints
    (as functions of the scaled coordinates) at the scaled points. *)
Theorem C44_scaled_gradients_are_gradients :
  forall (X : mat) (best : option nat) (use_shift : bool) (m : xmtd) (dst : option R) (r0 : resc) (calls : list ncall) (n : nresc) (k : nat) (c : nat -> pt -> R) (Y A : mat) (T : ten),
  rescaling_init X best use_shift m dst = Ok r0 -> do_ncalls (fresh_nlc r0) calls = Ok n -> scale_cfg_ok X m dst -> List.Forall ncall_pos calls ->
  vlen (n_shift n) = k ->
  (forall j, (j < k)%nat -> local (nc X) (c j)) -> nc Y = nc X -> is_con_values k c Y A -> is_con_gradients (nc X) k c Y T ->
  exists U A' T', x_init_2_scl (r_shift (n_r n)) (r_scale (n_r n)) Y = Ok U /\
    nlc_val_2_scl (n_shift n) (n_scale n) A = Ok A' /\ nlc_grad_2_scl (r_scale (n_r n)) (n_scale n) T = Ok T' /\
    let c' := fun j => scaled_fun (r_shift (n_r n)) (r_scale (n_r n)) (vat (n_shift n) j) (n_scale n) (c j) in
    is_con_values k c' U A' /\ is_con_gradients (nc X) k c' U T'.
Proof.
  intros X best us m dst r0 calls n k c Y A T H1 H2 C P HS L HY (A1 & A2 & A3) (T1 & T2 & T3 & T4).
  destruct (nlc_history _ _ _ _ _ _ _ _ H1 H2 P) as ((S & D) & HB).
  destruct (history_inv _ _ _ _ _ _ _ _ H1 HB) as ((I1 & I2 & _) & E1 & E2 & E3). rewrite E1, E2, E3 in *. specialize (I2 C). destruct I1 as (_ & L1 & L2 & _).
  destruct (rok_ex _ _ (x_init_2_scl_ok Y (r_shift (n_r n)) (r_scale (n_r n)) ltac:(congruence) ltac:(congruence))) as (U & EU & U1 & U2 & U3).
  destruct (rok_ex _ _ (nval_ok (n_shift n) (n_scale n) A ltac:(congruence))) as (A' & EA & V1 & V2 & V3).
  destruct (rok_ex _ _ (tlast_ok T (vmap (fun s => 1 / s * n_scale n) (r_scale (n_r n))) ltac:(cbn; congruence))) as (T' & ET & B1 & B2 & B3 & B4).
  exists U, A', T'. split; [exact EU|]. split; [exact EA|]. split; [exact ET|]. cbv zeta. split.
  - split; [congruence|]. split; [congruence|]. intros p j Hp Hj. rewrite V3 by congruence. unfold scaled_fun. rewrite A3 by congruence. f_equal. f_equal.
    apply (L j Hj). intros i Hi. unfold unscaled, rows_of. rewrite U3 by congruence. unfold scaled. assert (0 < vat (r_scale (n_r n)) i) by (apply I2; congruence). unfold rows_of. field. lra.
  - split; [congruence|]. split; [congruence|]. split; [congruence|]. intros p j i Hp Hj Hi. rewrite B4 by congruence. cbn [vat vmap].
    apply (partial_scaled_at (nc X) _ _ _ _ _ _ (rows_of Y p)); [apply L; exact Hj|exact Hi|intros q Hq; apply I2; congruence| |apply T4; congruence].
    intros q Hq. unfold rows_of. rewrite U3 by congruence. reflexivity.
Qed.
Print Assumptions C44_scaled_gradients_are_gradients.

(** The two scaling methods: None keeps the size of the constraints, 'obj_scl' takes the scale of the objective at
    that time; with use_nlc_shift the constraints of the best point are 0 after scaling, otherwise the shift is 0. *)
Theorem C44_method : forall (n n' : nresc) (o : nlcdata) (use_shift : bool) (m : nlcmtd),
  set_nlc n o use_shift m = Ok n' ->
  (m = Nnone \/ nr (r_x (n_r n)) = 1%nat -> n_scale n' = 1) /\
  (m = Nobj_scl -> nr (r_x (n_r n)) <> 1%nat -> n_scale n' = r_obj_scale (n_r n)) /\
  vlen (n_shift n') = nc (nl_val o) /\
  (use_shift = true -> exists os, get_scl_nlc_data n' = Ok os /\ forall j, (j < nc (nl_val o))%nat -> mat_at (nl_val os) (r_best (n_r n)) j = 0) /\
  (use_shift = false -> forall j, vat (n_shift n') j = 0).
Proof.
  intros n n' o us m H. unfold set_nlc in H. binv H r E. binv H ss E2. destruct ss as (sh, sc). binv H os E3. injection H as <-.
  destruct (set_nlc_flag _ _ _ _ E) as (F1 & F2 & F3 & F4 & F5 & F6 & F7). unfold calc_nlc_scaling in E2. binv E2 a Ea. binv E2 b Eb. injection E2 as <- <-. cbn [n_scale n_shift].
  assert (LA : vlen a = nc (nl_val o)) by (destruct us; [destruct (r_best r <? nr (nl_val o))%nat; [|discriminate]|]; injection Ea as <-; reflexivity).
  split. { intros [->|Hn]; [|rewrite F4, Hn in Eb; cbn in Eb; injection Eb as <-; reflexivity]. destruct (nr (r_x r) =? 1)%nat; injection Eb as <-; reflexivity. }
  split. { intros -> Hn. rewrite F4 in Eb. destruct (Nat.eqb_spec (nr (r_x (n_r n))) 1); [contradiction|]. binv_assert Eb. injection Eb as <-. exact F3. }
  split; [exact LA|]. split.
  - intros ->. exists os. split; [reflexivity|]. intros j Hj. unfold nlc_init_2_scl in E3. binv E3 v Ev. binv E3 S0 ES0. binv E3 g Eg. binv E3 sg Esg. injection E3 as <-. cbn [nl_val].
    assert (NV := nval_ok a b (nl_val o) LA). rewrite Ev in NV. cbn in NV. destruct NV as (V1 & V2 & V3). rewrite F7 in Ea. destruct (Nat.ltb_spec (r_best (n_r n)) (nr (nl_val o))); [|discriminate].
    injection Ea as <-. rewrite V3 by assumption. cbn. ring.
  - intros ->. injection Ea as <-. reflexivity.
Qed.
Print Assumptions C44_method.

(** The default method of set_nlc_data, 'dflt_max', is not one of its methods: the call always raises. *)
Theorem C44_default_method_refuted : forall (n : nresc) (o : nlcdata) (use_shift : bool), exists e, set_nlc n o use_shift nlc_dflt = Err e.
Proof.
  intros n o us. destruct (set_nlc n o us nlc_dflt) as [n'|e] eqn:H; [|exists e; reflexivity]. exfalso.
  unfold set_nlc in H. binv H r E. destruct (set_nlc_flag _ _ _ _ E) as (_ & _ & _ & _ & _ & F & _). apply F. reflexivity.
Qed.
Print Assumptions C44_default_method_refuted.
(** Converting gradients back without the values, which the signature allows, raises. *)
Theorem C44_gradients_alone_refuted : forall s sh sc Sd g sg, nlc_scl_2_init s sh sc None Sd g sg = Err EAttr.
Proof. reflexivity. Qed.
Print Assumptions C44_gradients_alone_refuted.

(** a concrete case: two points in one dimension, two constraints, the scale of the objective *)
Definition nx_X : mat := mkmat 2 1 (fun p _ => INR p).
Definition nx_o : nlcdata := mknlc (mkmat 2 2 (fun p j => INR p + INR j)) (Some (mconst 2 2 0)) (Some (mkten 2 2 1 (fun _ _ _ => 1))) None.
Example C44_case : exists r0 n, rescaling_init nx_X None true Xnone None = Ok r0 /\
  do_ncalls (fresh_nlc r0) [NBase (CObj (mkobj (mkvec 2 (fun p => INR p)) None None None) true false); NData nx_o true Nobj_scl; NScl None (Some 3)] = Ok n /\
  scale_cfg_ok nx_X Xnone None /\ get_init_nlc_data n = Ok nx_o /\ vlen (n_shift n) = nc (nl_val nx_o) /\
  is_con_values 2 (fun j x => x 0%nat + INR j) nx_X (nl_val nx_o) /\ is_con_gradients 1 2 (fun j x => x 0%nat + INR j) nx_X (mkten 2 2 1 (fun _ _ _ => 1)).
Proof.
  eexists. eexists. split; [unfold rescaling_init, set_xscale_data, calc_x_shift_n_scale; cbn; reflexivity|]. split; [reflexivity|].
  split; [split; [discriminate|discriminate]|]. split; [reflexivity|]. split; [reflexivity|]. split.
  - repeat split.
  - split; [reflexivity|]. split; [reflexivity|]. split; [reflexivity|]. intros p j i _ _ Hi. assert (i = 0)%nat by lia. subst i. unfold is_partial, upd. cbn.
    eapply dR_val; [apply dR_plus; [apply dR_id|apply dR_const]|]. ring.
Qed.
