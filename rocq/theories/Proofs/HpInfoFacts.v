(** Facts about the hyperparameter bookkeeping. *)
From Coq Require Import Reals List Arith Bool Lia Lra.
From Verif.Base Require Import NpLite NpFacts.
From Verif.Spec Require Import KernelSpec GpSpec HpSpec.
From Verif.Model Require Import KernelSqExp KernelMatern KernelRatQuad KernelDispatch CommonFun WellCond Rescaling GpState Chol Cov HpInfo.
From Verif.Proofs Require Import StateFacts CovStruct.
Import ListNotations.
Local Open Scope R_scope.

Section Info.
Variables (o : gpopt) (d : gpdata) (lo : lkopt) (ht hk hv hf hg : bool).
Notation c1 := (b2n ht * o_dim o)%nat.
Notation c2 := (b2n ht * o_dim o + b2n hk)%nat.
Notation c3 := (b2n ht * o_dim o + b2n hk + b2n hv)%nat.
Notation c4 := (b2n ht * o_dim o + b2n hk + b2n hv + b2n hf)%nat.
Notation cn := (b2n ht * o_dim o + b2n hk + b2n hv + b2n hf + b2n hg)%nat.

Definition log_list : list bool :=
  let b := repeat false cn in
  let b := if ht && lk_log_theta lo then bsets b (seq 0 (o_dim o)) else b in
  let b := if hk && lk_log_kernel lo then bset b c1 else b in
  let b := if hv && lk_log_var lo then bset b c2 else b in
  let b := if hf && lk_log_var lo then bset b c3 else b in
  if hg && lk_log_var lo then bset b c4 else b.

Lemma info_inv info : set_hp_optz_info o d lo ht hk hv hf hg = Ok info ->
  (hk = true -> kernel_has_hp (o_kernel o) = true) /\ (hf = true -> d_known_fval d = false) /\ (hg = true -> d_known_fgrad d = false) /\
  info = mkhi cn (if ht then Some (seq 0 (o_dim o)) else None) (if hk then Some [c1] else None)
    (if hv then Some c2 else None) (if hf then Some c3 else None) (if hg then Some c4 else None) log_list.
Proof.
  unfold set_hp_optz_info, log_list. generalize (lk_log_theta lo) (lk_log_kernel lo) (lk_log_var lo). intros l1 l2 l3.
  destruct ht, hk, hv, hf, hg; cbn [b2n andb]; intros H;
  repeat match type of H with
  | context [assert_ (kernel_has_hp ?x)] => destruct (kernel_has_hp x) eqn:?; cbn [assert_] in H; [|discriminate H]
  | context [assert_ (negb (d_known_fval ?x))] => destruct (d_known_fval x) eqn:?; cbn [negb assert_] in H; [discriminate H|]
  | context [assert_ (negb (d_known_fgrad ?x))] => destruct (d_known_fgrad x) eqn:?; cbn [negb assert_] in H; [discriminate H|]
  end; cbn [bind] in H; injection H as <-;
  (split; [intros; try discriminate; assumption|]); (split; [intros; try discriminate; reflexivity|]); (split; [intros; try discriminate; reflexivity|]);
  f_equal; try (f_equal; lia); try (f_equal; f_equal; lia); repeat (rewrite ?Nat.add_0_r, ?Nat.mul_1_l, ?Nat.mul_0_l, ?Nat.add_0_l); try reflexivity; destruct l1, l2, l3; try reflexivity; repeat f_equal; try lia.
Qed.
Lemma info_total : (hk = true -> kernel_has_hp (o_kernel o) = true) -> (hf = true -> d_known_fval d = false) -> (hg = true -> d_known_fgrad d = false) ->
  exists info, set_hp_optz_info o d lo ht hk hv hf hg = Ok info.
Proof.
  intros A B C. unfold set_hp_optz_info.
  destruct hk; [rewrite (A eq_refl)|]; destruct hf; [rewrite (B eq_refl)| |rewrite (B eq_refl)|]; destruct hg; try rewrite (C eq_refl);
  destruct ht, hv; cbn [bind assert_ negb]; eauto.
Qed.

(** the slot listed at position r *)
Lemma slots_nth r s : nth_error (slots (o_dim o) ht hk hv hf hg) r = Some s <->
  match s with
  | HTheta e => ht = true /\ r = e /\ (e < o_dim o)%nat
  | HKernel => hk = true /\ r = c1
  | HVarK => hv = true /\ r = c2
  | HVarF => hf = true /\ r = c3
  | HVarG => hg = true /\ r = c4
  end.
Proof.
  unfold slots.
  assert (T : forall rest, nth_error ((if ht then map HTheta (seq 0 (o_dim o)) else []) ++ rest) r =
     if r <? c1 then Some (HTheta r) else nth_error rest (r - c1)).
  { intros rest. destruct ht; cbn [b2n].
    - destruct (Nat.ltb_spec r (1 * o_dim o)).
      + rewrite nth_error_app1 by (rewrite map_length, seq_length; lia). apply map_nth_error.
        rewrite nth_error_nth' with (d := 0%nat) by (rewrite seq_length; lia). rewrite seq_nth by lia. reflexivity.
      + rewrite nth_error_app2 by (rewrite map_length, seq_length; lia). rewrite map_length, seq_length. f_equal. lia.
    - simpl. rewrite Nat.sub_0_r. reflexivity. }
  rewrite T. clear T. destruct (Nat.ltb_spec r c1) as [H|H].
  - destruct ht; cbn [b2n] in *; [|lia]. split.
    + intros E; injection E as <-. repeat split; lia.
    + destruct s; intros; try lia. f_equal. f_equal. lia.
  - remember (r - c1)%nat as q eqn:Eq.
    destruct hk, hv, hf, hg; cbn [b2n app]; destruct q as [|[|[|[|q]]]]; cbn [nth_error];
    (split; [intros E; try discriminate E; try (injection E as <-); try (split; [reflexivity|lia]); try (destruct q; discriminate E)
            | destruct s; intros Hs; try (destruct Hs as (E1 & E2)); try discriminate; try reflexivity; try lia; destruct ht; cbn [b2n] in *; try lia]).
Qed.
Lemma slots_len : length (slots (o_dim o) ht hk hv hf hg) = cn.
Proof.
  unfold slots. rewrite !app_length. destruct ht, hk, hv, hf, hg; cbn [b2n length]; rewrite ?map_length, ?seq_length; lia.
Qed.

(** the log flags: exactly those of the corresponding option *)
Lemma bset_len b k : length (bset b k) = length b.
Proof. revert k; induction b as [|x b IH]; intros [|k]; simpl; auto. Qed.
Lemma bset_nth b k i : (k < length b)%nat -> nth i (bset b k) false = if (i =? k)%nat then true else nth i b false.
Proof. revert k i; induction b as [|x b IH]; intros [|k] [|i]; simpl; intros; try lia; auto. apply IH. lia. Qed.
Lemma bsets_len b l : length (bsets b l) = length b.
Proof. revert b; induction l as [|k l IH]; intros b; simpl; auto. unfold bsets in *. simpl. rewrite IH, bset_len. reflexivity. Qed.
Lemma bsets_nth b n i : (n <= length b)%nat -> nth i (bsets b (seq 0 n)) false = if (i <? n)%nat then true else nth i b false.
Proof.
  revert i; induction n as [|n IH]; intros i H; [reflexivity|].
  rewrite seq_S. unfold bsets. rewrite fold_left_app. simpl. fold (bsets b (seq 0 n)).
  rewrite bset_nth by (rewrite bsets_len; lia). rewrite IH by lia.
  destruct (Nat.eqb_spec i n), (Nat.ltb_spec i n), (Nat.ltb_spec i (S n)); try lia; reflexivity.
Qed.
Definition slot_log (s : hslot) : bool :=
  match s with HTheta _ => lk_log_theta lo | HKernel => lk_log_kernel lo | _ => lk_log_var lo end.
Lemma log_list_len : length log_list = cn.
Proof.
  unfold log_list. cbv zeta. repeat match goal with |- context [if ?b then _ else _] => destruct b end;
  rewrite ?bset_len, ?bsets_len, ?repeat_length; reflexivity.
Qed.
Lemma nth_bset_if c b k i : (c = true -> k < length b)%nat ->
  nth i (if c then bset b k else b) false = if (c && (i =? k)%nat) then true else nth i b false.
Proof. destruct c; intros H; simpl; [apply bset_nth; auto|reflexivity]. Qed.
Lemma len_bset_if (c : bool) b k : length (if c then bset b k else b) = length b.
Proof. destruct c; [apply bset_len|reflexivity]. Qed.
Lemma log_list_nth r s : nth_error (slots (o_dim o) ht hk hv hf hg) r = Some s -> nth r log_list false = slot_log s.
Proof.
  intros H. apply slots_nth in H. unfold log_list. cbv zeta.
  assert (L0 : length (if ht && lk_log_theta lo then bsets (repeat false cn) (seq 0 (o_dim o)) else repeat false cn) = cn).
  { destruct (_ && _); rewrite ?bsets_len; apply repeat_length. }
  assert (N0 : nth r (if ht && lk_log_theta lo then bsets (repeat false cn) (seq 0 (o_dim o)) else repeat false cn) false
    = ht && lk_log_theta lo && (r <? o_dim o)%nat).
  { assert (Z : forall n i, nth i (repeat false n) false = false) by (induction n; destruct i; simpl; auto).
    destruct ht; cbn [andb]; [|apply Z]. destruct (lk_log_theta lo); cbn [andb]; [|apply Z].
    rewrite bsets_nth by (rewrite repeat_length; cbn [b2n]; lia). destruct (r <? o_dim o)%nat; [reflexivity|apply Z]. }
  rewrite !nth_bset_if; rewrite ?len_bset_if, ?L0; try (intros E; apply andb_prop in E; destruct E as (E & _); rewrite ?E; cbn [b2n]; lia).
  rewrite N0. unfold slot_log.
  destruct s; [destruct H as (E & -> & H)| | | |]; try (destruct H as (E & ->)); rewrite E in *; cbn [b2n andb];
  destruct ht, hk, hv, hf, hg; try discriminate; cbn [b2n andb] in *;
  destruct (lk_log_theta lo), (lk_log_kernel lo), (lk_log_var lo); cbn [andb];
  repeat match goal with
  | |- context [(?a =? ?b)%nat] => destruct (Nat.eqb_spec a b); [try lia|try lia]
  | |- context [(?a <? ?b)%nat] => destruct (Nat.ltb_spec a b); [try lia|try lia]
  end; reflexivity.
Qed.
End Info.
