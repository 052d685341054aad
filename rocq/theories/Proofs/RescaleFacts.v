(** Facts about the scaling object. *)
From Coq Require Import Reals List Arith Bool Lia Lra Psatz.
From Coquelicot Require Import Coquelicot.
From Verif.Base Require Import NpLite NpFacts Deriv.
From Verif.Spec Require Import KernelSpec LinAlgSpec.
From Verif.Model Require Import KernelSqExp KernelMatern KernelRatQuad KernelDispatch CommonFun WellCond Rescaling GpState.
From Verif.Spec Require Import GpSpec DataSpec RescaleSpec.
From Verif.Proofs Require Import KernTac KernGradBlocks RadialCalculus KernelExact CovStruct StateFacts MinMax DataFacts.
Import ListNotations.
Local Open Scope R_scope.

(** the scale is the given (or unit) scale times a coefficient *)
Definition base_scale (d : nat) (s : option vec) (i : nat) : R := match s with Some v => vat v i | None => 1 end.
Definition base_pos (d : nat) (s : option vec) : Prop := forall v, s = Some v -> forall i, (i < d)%nat -> 0 < vat v i.
Definition req_dist (m : xmtd) (dst : option R) : R := match dst with Some v => v | None => 1 end.

Lemma vpositive_inv v : vpositive v = true -> forall i, (i < vlen v)%nat -> 0 < vat v i.
Proof.
  unfold vpositive. intros H i Hi. rewrite forallb_forall in H. specialize (H i ltac:(apply in_seq; lia)).
  destruct (Rlt_dec 0 (vat v i)); [assumption|discriminate].
Qed.

Lemma calc_scale_inv X best us m dst shi sci sh sc : calc_x_shift_n_scale X best us m dst shi sci = Ok (sh, sc) ->
  shi = None /\ base_pos (nc X) sci /\ (forall v, sci = Some v -> vlen v = nc X) /\
  vlen sh = nc X /\ vlen sc = nc X /\
  (forall i, (i < nc X)%nat -> vat sh i = if us then mat_at X best i else 0) /\
  (us = true -> (best < nr X)%nat) /\
  exists X1 c, mspec (nr X) (nc X) X1 (fun p i => (mat_at X p i - vat sh i) * base_scale (nc X) sci i) /\
    (forall i, (i < nc X)%nat -> vat sc i = base_scale (nc X) sci i * c) /\
    (if (nr X =? 1)%nat then c = 1 else match m with
       | Xnone => c = 1
       | Xvmin => exists m0, is_dist_min X1 m0 /\ c = req_dist m dst / Rmax tol_min_dist_x m0
       | Xvmax => exists m0, is_dist_max X1 m0 /\ c = req_dist m dst / m0 end).
Proof.
  unfold calc_x_shift_n_scale. cbv zeta. intros H. binv H s1 E1. binv H s2 E2. binv H X1 E3. binv H cf E4. injection H as <- <-.
  assert (shi = None) as -> by (destruct shi; [binv_assert E1; discriminate|reflexivity]).
  assert (A1 : vlen s1 = nc X /\ (forall i, vat s1 i = if us then mat_at X best i else 0) /\ (us = true -> (best < nr X)%nat)).
  { destruct us; [|injection E1 as <-; repeat split; discriminate]. destruct (Nat.ltb_spec best (nr X)); [|discriminate]. injection E1 as <-. repeat split; auto. }
  destruct A1 as (L1 & V1 & B1).
  assert (A2 : vlen s2 = nc X /\ (forall i, (i < nc X)%nat -> vat s2 i = base_scale (nc X) sci i) /\ base_pos (nc X) sci /\ (forall v, sci = Some v -> vlen v = nc X)).
  { unfold base_pos. destruct sci as [v|]; [|injection E2 as <-; repeat split; intros; discriminate].
    binv_assert E2. binv_assert E2. injection E2 as <-. apply Nat.eqb_eq in HA. split; [exact HA|]. split; [reflexivity|]. split.
    - intros v' E. injection E as <-. rewrite <- HA. apply vpositive_inv; exact HA0.
    - intros v' E. injection E as <-. exact HA. }
  destruct A2 as (L2 & V2 & P2 & P3).
  split; [reflexivity|]. split; [exact P2|]. split; [exact P3|]. split; [exact L1|]. split; [exact L2|]. split; [auto|]. split; [exact B1|].
  exists X1, cf. split.
  { assert (Z := rok_inv _ _ _ (x_init_2_scl_ok X s1 s2 L1 L2) E3). eapply mspec_ext; [exact Z|]. intros p i Hp Hi. cbv beta. rewrite V2 by exact Hi. reflexivity. }
  split; [intros i Hi; simpl; rewrite V2 by exact Hi; reflexivity|].
  assert (R1 : nr X1 = nr X) by (apply (rok_inv _ _ _ (x_init_2_scl_ok X s1 s2 L1 L2) E3)).
  destruct (nr X =? 1)%nat eqn:En1; [injection E4 as <-; reflexivity|]. apply Nat.eqb_neq in En1.
  destruct m; [injection E4 as <-; reflexivity| |]; unfold isoscaling in E4; binv E4 mm Em.
  - assert (2 <= nr X1)%nat.
    { destruct (nr X1) as [|[|k]] eqn:K; try lia. unfold calc_dist_min in Em. rewrite K in Em. discriminate. }
    destruct (dist_min_ok X1 H) as (m0 & Em0 & Z). rewrite Em in Em0. injection Em0 as ->. injection E4 as <-. exists m0. split; [exact Z|]. destruct dst; reflexivity.
  - assert (2 <= nr X1)%nat.
    { destruct (nr X1) as [|[|k]] eqn:K; try lia. unfold calc_dist_max in Em. rewrite K in Em. discriminate. }
    destruct (dist_max_ok X1 H) as (m0 & Em0 & Z). rewrite Em in Em0. injection Em0 as ->. injection E4 as <-. exists m0. split; [exact Z|]. destruct dst; reflexivity.
Qed.

Lemma tol_pos : 0 < tol_min_dist_x. Proof. unfold tol_min_dist_x. apply Rinv_0_lt_compat, pow_lt. lra. Qed.
Lemma dist_pos d x y i : (i < d)%nat -> x i <> y i -> 0 < dist d x y.
Proof.
  intros Hi Hn. unfold dist. apply sqrt_lt_R0.
  assert (K : (x i - y i) ^ 2 <= rsum d (fun i => (x i - y i) ^ 2)) by (apply (rsum_le_term d (fun i => (x i - y i) ^ 2)); [intros; apply pow2_ge_0|exact Hi]).
  assert (0 < (x i - y i) ^ 2) by (apply pow2_gt_0; lra). lra.
Qed.
Lemma base_scale_pos d s i : base_pos d s -> (i < d)%nat -> 0 < base_scale d s i.
Proof. intros H Hi. unfold base_scale. destruct s; [apply H; auto|lra]. Qed.
Lemma req_pos m dst : (forall v, dst = Some v -> 0 < v) -> 0 < req_dist m dst.
Proof. intros H. unfold req_dist. destruct dst; [auto|lra]. Qed.

(** positive scales *)
Lemma calc_scale_pos X best us m dst shi sci sh sc : calc_x_shift_n_scale X best us m dst shi sci = Ok (sh, sc) ->
  scale_cfg_ok X m dst -> forall i, (i < nc X)%nat -> 0 < vat sc i.
Proof.
  intros H (C1 & C2) i Hi. apply calc_scale_inv in H.
  destruct H as (_ & P & _ & _ & _ & _ & _ & X1 & c & (R1 & R2 & HX1) & Hsc & Hc). rewrite Hsc by exact Hi.
  assert (B := base_scale_pos _ _ _ P Hi). apply Rmult_lt_0_compat; [exact B|].
  assert (Q := req_pos m dst C1).
  destruct (Nat.eqb_spec (nr X) 1); [lra|]. destruct m; [lra| |].
  - destruct Hc as (m0 & _ & ->). apply Rdiv_lt_0_compat; [exact Q|]. eapply Rlt_le_trans; [apply tol_pos|apply Rmax_l].
  - destruct Hc as (m0 & ((p0 & q0 & A1 & _) & M) & ->). apply Rdiv_lt_0_compat; [exact Q|].
    destruct (C2 eq_refl ltac:(lia)) as (p & q & k & Hp & Hq & Hk & Hne).
    eapply Rlt_le_trans; [|apply (M p q); lia]. apply (dist_pos _ _ _ k); [lia|]. unfold rows_of. rewrite !HX1 by auto.
    assert (0 < base_scale (nc X) sci k) by (apply base_scale_pos; auto). intros E. apply Hne.
    apply Rmult_eq_reg_r in E; lra.
Qed.

(** reached distances *)
Lemma scaled_dist X X1 Y sh sci sc c p q : mspec (nr X) (nc X) X1 (fun p i => (mat_at X p i - vat sh i) * base_scale (nc X) sci i) ->
  (forall i, (i < nc X)%nat -> vat sc i = base_scale (nc X) sci i * c) -> 0 <= c ->
  mspec (nr X) (nc X) Y (fun i j => (mat_at X i j - vat sh j) * vat sc j) ->
  (p < nr X)%nat -> (q < nr X)%nat -> cdist Y p q = c * cdist X1 p q.
Proof.
  intros (A1 & A2 & A3) Hs Hc (B1 & B2 & B3) Hp Hq. apply cdist_scale; [congruence|exact Hc|]. rewrite A2. intros i Hi.
  rewrite !A3, !B3, Hs by assumption. ring.
Qed.

(** ** the invariant of a scaling object *)
Definition resc_inv (r : resc) : Prop :=
  resc_ok r (r_x r) /\ (scale_cfg_ok (r_x r) (r_mtd r) (r_dist r) -> forall i, (i < nc (r_x r))%nat -> 0 < vat (r_scale r) i) /\
  (forall o, r_obj r = Some o -> exists s, r_obj_scl r = Some s /\ scl_objdata (r_scale r) (r_obj_shift r) (r_obj_scale r) o = Ok s) /\
  (forall l u, r_box r = Some (l, u) -> exists b, r_box_scl r = Some b /\ boxcon_init_2_scl (r_shift r) (r_scale r) l u = Ok b) /\
  (forall A l u, r_lin r = Some (A, l, u) -> exists b, r_lin_scl r = Some b /\ lincon_init_2_scl (r_shift r) (r_scale r) A l u = Ok b).
Lemma set_xscale_inv r a b r' : set_xscale_data r a b = Ok r' -> resc_inv r' /\ r_x r' = r_x r /\ r_mtd r' = r_mtd r /\ r_dist r' = r_dist r /\
  r_obj r' = r_obj r /\ r_box r' = r_box r /\ r_lin r' = r_lin r /\
  calc_x_shift_n_scale (r_x r) (r_best r) (r_use_shift r) (r_mtd r) (r_dist r) a b = Ok (r_shift r', r_scale r').
Proof.
  intros H. assert (H' := H). apply set_xscale_data_inv in H'. destruct H' as (K1 & K2 & K3 & K4 & K5).
  unfold set_xscale_data in H. binv H ss E1. destruct ss as (sh, sc). binv H xs E2. binv H Rt E3. binv H os E4.
  binv H u E5. binv H bs E6. binv H ls E7. injection H as <-. cbn [r_x r_mtd r_dist r_obj r_box r_lin r_shift r_scale] in *.
  split; [|repeat split; auto]. unfold resc_inv. cbn [r_x r_mtd r_dist r_obj r_box r_lin r_shift r_scale r_obj_scl r_box_scl r_lin_scl r_obj_shift r_obj_scale].
  split; [exact K1|]. split; [intros C; exact (calc_scale_pos _ _ _ _ _ _ _ _ _ K2 C)|].
  split; [intros o Ho; rewrite Ho in E4; binv E4 s Es; injection E4 as <-; eauto|].
  split; [intros l u' Hb; rewrite Hb in E6; binv E6 s Es; injection E6 as <-; eauto|].
  intros A l u' Hb; rewrite Hb in E7; binv E7 s Es; injection E7 as <-; eauto.
Qed.
Lemma resc_ok_ext r r' X : r_x r' = r_x r -> r_shift r' = r_shift r -> r_scale r' = r_scale r -> r_xscl r' = r_xscl r -> r_Rt r' = r_Rt r ->
  resc_ok r X -> resc_ok r' X.
Proof. intros A B C D E. unfold resc_ok. rewrite A, B, C, D, E. auto. Qed.
Lemma do_call_inv r c r' : resc_inv r -> do_call r c = Ok r' -> resc_inv r' /\ r_x r' = r_x r /\ r_mtd r' = r_mtd r /\ r_dist r' = r_dist r.
Proof.
  intros (I1 & I2 & I3 & I4 & I5) H. destruct c as [a b|o us dm|a b|n m|l u|A l u]; cbn [do_call] in H.
  - apply set_xscale_inv in H. tauto.
  - unfold set_obj_data in H. binv_assert H. binv H ss E1. destruct ss as (sh, sc). binv H os E2. injection H as <-. cbn [r_x r_mtd r_dist].
    split; [|auto]. split; [exact I1|]. split; [exact I2|]. split; [|split; [exact I4|exact I5]].
    intros o' E. cbn in E. injection E as <-. exists os. split; [reflexivity|exact E2].
  - unfold set_obj_scaling in H. destruct (r_obj r) as [o|] eqn:Eo; [|discriminate]. cbv zeta in H. binv H os E2. injection H as <-. cbn [r_x r_mtd r_dist].
    split; [|auto]. split; [exact I1|]. split; [exact I2|]. split; [|split; [exact I4|exact I5]].
    intros o' E. cbn in E. injection E as <-. exists os. split; [reflexivity|exact E2].
  - unfold set_nlc_data in H. binv_assert H. binv_assert H. binv H u E1. injection H as <-. cbn [r_x r_mtd r_dist]. split; [|auto].
    split; [exact I1|]. split; [exact I2|]. split; [exact I3|]. split; [exact I4|exact I5].
  - unfold set_boxcon in H. binv H b E1. injection H as <-. cbn [r_x r_mtd r_dist]. split; [|auto].
    split; [exact I1|]. split; [exact I2|]. split; [exact I3|]. split; [|exact I5].
    intros l' u' E. cbn in E. injection E as <- <-. exists b. split; [reflexivity|exact E1].
  - unfold set_lincon in H. binv H b E1. injection H as <-. cbn [r_x r_mtd r_dist]. split; [|auto].
    split; [exact I1|]. split; [exact I2|]. split; [exact I3|]. split; [exact I4|].
    intros A' l' u' E. cbn in E. injection E as <- <- <-. exists b. split; [reflexivity|exact E1].
Qed.
Lemma do_calls_inv l : forall r r', resc_inv r -> do_calls r l = Ok r' -> resc_inv r' /\ r_x r' = r_x r /\ r_mtd r' = r_mtd r /\ r_dist r' = r_dist r.
Proof.
  induction l as [|c l IH]; intros r r' I H; cbn [do_calls] in H; [injection H as <-; auto|].
  binv H r1 E1. destruct (do_call_inv _ _ _ I E1) as (I' & A & B & C). destruct (IH _ _ I' H) as (I'' & A' & B' & C'). repeat split; try congruence; apply I''.
Qed.
Lemma init_inv X best us m dst r : rescaling_init X best us m dst = Ok r -> resc_inv r /\ r_x r = X /\ r_mtd r = m /\ r_dist r = dst.
Proof. unfold rescaling_init. intros H. apply set_xscale_inv in H. cbn [r_x r_mtd r_dist] in H. tauto. Qed.
Lemma history_inv X best us m dst r0 l r : rescaling_init X best us m dst = Ok r0 -> do_calls r0 l = Ok r ->
  resc_inv r /\ r_x r = X /\ r_mtd r = m /\ r_dist r = dst.
Proof.
  intros H1 H2. apply init_inv in H1. destruct H1 as (I & A & B & C). destruct (do_calls_inv _ _ _ I H2) as (I' & A' & B' & C'). repeat split; try congruence; apply I'.
Qed.

(** the function scale stays positive *)
Lemma calc_obj_scale_pos best us dm v sh sc : calc_obj_scaling best us dm v = Ok (sh, sc) -> 0 < sc.
Proof.
  unfold calc_obj_scaling. intros H. binv H a Ea. binv H b Eb. injection H as <- <-.
  destruct ((vlen v =? 1)%nat || negb dm); [injection Eb as <-; lra|]. binv Eb Mm Em. injection Eb as <-.
  apply Rdiv_lt_0_compat; [unfold rangeobj_max_dflt; lra|]. eapply Rlt_le_trans; [|apply Rmax_l]. unfold tol_min_range_obj. apply Rinv_0_lt_compat, pow_lt. lra.
Qed.
Lemma do_calls_osc l : forall r r', List.Forall call_pos l -> 0 < r_obj_scale r -> do_calls r l = Ok r' -> 0 < r_obj_scale r'.
Proof.
  induction l as [|c l IH]; intros r r' Fl P H; cbn [do_calls] in H; [injection H as <-; exact P|].
  inversion Fl; subst. binv H r1 E1. apply (IH r1 r'); auto. clear IH H. destruct c as [a b|o us dm|a b|n m|lb u|A lb u]; cbn [do_call] in E1.
  - unfold set_xscale_data in E1. binv E1 ss E2. destruct ss as (sh, sc). binv E1 xs E3. binv E1 Rt E4. binv E1 os E5.
    binv E1 u E6. binv E1 bs E7. binv E1 ls E8. injection E1 as <-. exact P.
  - unfold set_obj_data in E1. binv_assert E1. binv E1 ss E2. destruct ss as (sh, sc). binv E1 os E3. injection E1 as <-. cbn. eapply calc_obj_scale_pos; exact E2.
  - unfold set_obj_scaling in E1. destruct (r_obj r); [|discriminate]. cbv zeta in E1. binv E1 os E3. injection E1 as <-. cbn. destruct b; [assumption|exact P].
  - unfold set_nlc_data in E1. binv_assert E1. binv_assert E1. binv E1 u E2. injection E1 as <-. exact P.
  - unfold set_boxcon in E1. binv E1 bb E2. injection E1 as <-. exact P.
  - unfold set_lincon in E1. binv E1 bb E2. injection E1 as <-. exact P.
Qed.
Lemma history_osc X best us m dst r0 l r : rescaling_init X best us m dst = Ok r0 -> do_calls r0 l = Ok r -> List.Forall call_pos l -> 0 < r_obj_scale r.
Proof.
  intros H1 H2 Hl. eapply do_calls_osc; [exact Hl| |exact H2]. unfold rescaling_init, set_xscale_data in H1. binv H1 ss E2. destruct ss as (sh, sc). binv H1 xs E3. binv H1 Rt E4. binv H1 os E5.
  binv H1 u E6. binv H1 bs E7. binv H1 ls E8. injection H1 as <-. cbn. lra.
Qed.
