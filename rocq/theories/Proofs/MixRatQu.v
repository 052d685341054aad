(** The rational quadratic kernel is a gamma mixture of squared exponentials. *)
From Coq Require Import Reals List Arith Bool Lia Lra Psatz.
From Coquelicot Require Import Coquelicot.
From Verif.Base Require Import NpLite NpFacts.
From Verif.Spec Require Import KernelSpec.
From Verif.Proofs Require Import Jets Mixture.
Import ListNotations.
Local Open Scope R_scope.

(** ** sequences that vanish geometrically *)
Definition geo (u : nat -> R) : Prop := exists C b, 0 < b /\ forall n, Rabs (u n) <= C * exp (- (b * INR n)).
Lemma geo_lim u : geo u -> is_lim_seq u 0.
Proof.
  intros (C & b & Hb & H).
  assert (L : is_lim_seq (fun n => C * exp (- (b * INR n))) 0).
  { replace (Finite 0) with (Rbar_mult C 0) by (simpl; f_equal; ring). apply (is_lim_seq_scal_l _ C 0).
    apply (is_lim_seq_ext (fun n => (exp (- b)) ^ n)).
    - intros n. induction n as [|n IH]; [simpl; rewrite Rmult_0_r, Ropp_0, exp_0; reflexivity|].
      rewrite S_INR. simpl pow. rewrite IH, <- exp_plus. f_equal. ring.
    - apply is_lim_seq_geom. rewrite Rabs_pos_eq by (left; apply exp_pos). rewrite <- exp_0. apply exp_increasing. lra. }
  apply is_lim_seq_abs_0. apply (is_lim_seq_le_le (fun _ => 0) _ (fun n => C * exp (- (b * INR n)))); [|apply is_lim_seq_const|exact L].
  intros n. split; [apply Rabs_pos | apply H].
Qed.
Lemma geo_le u v C : (forall n, Rabs (u n) <= C * Rabs (v n)) -> 0 <= C -> geo v -> geo u.
Proof.
  intros H HC (D & b & Hb & Hv). exists (C * D), b. split; [exact Hb|]. intros n.
  eapply Rle_trans; [apply H|]. rewrite Rmult_assoc. apply Rmult_le_compat_l; auto.
Qed.
Lemma exp_le x y : x <= y -> exp x <= exp y.
Proof. intros [H|<-]; [left; apply exp_increasing; exact H | right; reflexivity]. Qed.
Lemma geo_plus u v : geo u -> geo v -> geo (fun n => u n + v n).
Proof.
  intros (C & b & Hb & H) (C' & b' & Hb' & H').
  assert (HC : 0 <= C). { assert (Z := H 0%nat). simpl in Z. rewrite Rmult_0_r, Ropp_0, exp_0 in Z. assert (P := Rabs_pos (u 0%nat)). lra. }
  assert (HC' : 0 <= C'). { assert (Z := H' 0%nat). simpl in Z. rewrite Rmult_0_r, Ropp_0, exp_0 in Z. assert (P := Rabs_pos (v 0%nat)). lra. }
  exists (C + C'), (Rmin b b'). split; [apply Rmin_pos; auto|]. intros n.
  eapply Rle_trans; [apply Rabs_triang|]. rewrite Rmult_plus_distr_r.
  assert (Hn := pos_INR n).
  apply Rplus_le_compat; (eapply Rle_trans; [apply H || apply H'|]); apply Rmult_le_compat_l; auto; apply exp_le.
  - assert (Z := Rmin_l b b'). nra.
  - assert (Z := Rmin_r b b'). nra.
Qed.
Lemma geo_opp u : geo u -> geo (fun n => - u n).
Proof. intros (C & b & Hb & H). exists C, b. split; auto. intros n. rewrite Rabs_Ropp. auto. Qed.
Lemma geo_minus u v : geo u -> geo v -> geo (fun n => u n - v n).
Proof. intros H H'. apply (geo_plus u (fun n => - v n)); auto. apply geo_opp, H'. Qed.
Lemma geo_scal c u : geo u -> geo (fun n => c * u n).
Proof. intros H. apply (geo_le _ u (Rabs c)); auto; [intros; rewrite Rabs_mult; lra | apply Rabs_pos]. Qed.
Lemma geo_ext u v : (forall n, u n = v n) -> geo u -> geo v.
Proof. intros E (C & b & Hb & H). exists C, b. split; auto. intros. rewrite <- E. auto. Qed.
(** ratio of a quantity geometrically close to L * v n, with v bounded below *)
Lemma geo_ratio u v L k : 0 < k -> (forall n, k <= v (S n)) -> (forall n, 0 < v n) -> geo (fun n => u n - L * v n) ->
  is_lim_seq (fun n => u n / v n) L.
Proof.
  intros Hk Hv Hp G. apply is_lim_seq_incr_1.
  apply (is_lim_seq_ext (fun n => L + (u (S n) - L * v (S n)) / v (S n))).
  - intros n. field. apply Rgt_not_eq, Hp.
  - replace (Finite L) with (Finite (L + 0)) by (f_equal; ring). apply is_lim_seq_plus'; [apply is_lim_seq_const|].
    assert (Z : is_lim_seq (fun n => u n - L * v n) 0) by (apply geo_lim; exact G).
    apply is_lim_seq_incr_1 in Z. apply is_lim_seq_abs_0. apply is_lim_seq_abs_0 in Z.
    apply (is_lim_seq_le_le (fun _ => 0) _ (fun n => / k * Rabs (u (S n) - L * v (S n)))).
    + intros n. split; [apply Rabs_pos|]. unfold Rdiv. rewrite Rabs_mult, Rmult_comm. apply Rmult_le_compat_r; [apply Rabs_pos|].
      rewrite Rabs_pos_eq; [|left; apply Rinv_0_lt_compat, Hp]. apply Rinv_le_contravar; auto.
    + apply is_lim_seq_const.
    + replace (Finite 0) with (Rbar_mult (/ k) 0) by (simpl; f_equal; ring). apply (is_lim_seq_scal_l _ (/ k) 0). exact Z.
Qed.

Lemma ln_le_sub1 x : 0 < x -> ln x <= x - 1.
Proof. intros H. assert (Z := exp_ineq1_le (ln x)). rewrite exp_ln in Z by exact H. lra. Qed.
Lemma ln_le_half x : 0 < x -> ln x <= x / 2.
Proof.
  intros H. assert (Z := ln_le_sub1 (x / 2) ltac:(lra)). unfold Rdiv in Z. rewrite ln_mult in Z by lra.
  rewrite ln_Rinv in Z by lra. assert (ln 2 <= 1) by (assert (Y := ln_le_sub1 2 ltac:(lra)); lra). lra.
Qed.

Section RQ.
Variables (a : R). Hypothesis (Ha : 0 < a).
Definition wq (m : nat) (l : R) : R := l ^ m * exp ((a - 1) * ln l - a * l).
(** h(l) = l^a e^(-a l) *)
Definition hq (l : R) : R := exp (a * (ln l - l)).
Lemma wq_hq m l : 0 < l -> wq (S m) l = l ^ m * hq l.
Proof.
  intros Hl. unfold wq, hq. simpl pow. replace (a * (ln l - l)) with (ln l + ((a - 1) * ln l - a * l)) by ring.
  rewrite exp_plus, exp_ln by exact Hl. ring.
Qed.
Lemma wq_pos m l : 0 < l -> 0 < wq m l.
Proof. intros H. apply Rmult_lt_0_compat; [apply pow_lt, H | apply exp_pos]. Qed.
Lemma wq_cont m l : 0 < l -> continuous (wq m) l.
Proof. intros H. apply (ex_derive_continuous (wq m)). unfold wq. auto_derive. exact H. Qed.
Lemma Rmin_pos2 x y z : 0 < x -> 0 < y -> Rmin x y <= z <= Rmax x y -> 0 < z.
Proof. intros Hx Hy [H _]. apply Rlt_le_trans with (Rmin x y); [apply Rmin_pos; auto | exact H]. Qed.
Lemma wq_int m x y : 0 < x -> 0 < y -> ex_RInt (wq m) x y.
Proof. intros Hx Hy. apply (ex_RInt_continuous (V := R_CompleteNormedModule)). intros z Hz. apply wq_cont. apply (Rmin_pos2 x y _ Hx Hy); assumption. Qed.
Definition Jq m x y := RInt (wq m) x y.
(** integration by parts: (a+m) J_m - a J_(m+1) is a boundary term *)
Lemma Jq_parts m x y : 0 < x -> 0 < y ->
  (a + INR m) * Jq m x y - a * Jq (S m) x y = y ^ m * hq y - x ^ m * hq x.
Proof.
  intros Hx Hy.
  assert (I1 : is_RInt (fun l => (a + INR m) * wq m l - a * wq (S m) l) x y (minus (y ^ m * hq y) (x ^ m * hq x))).
  { apply (is_RInt_derive (fun l => l ^ m * hq l)).
    - intros l Hl. assert (Pl : 0 < l) by (apply (Rmin_pos2 x y _ Hx Hy); assumption).
      assert (EW : wq m l = l ^ m * (hq l / l)) by (assert (Z := wq_hq m l Pl); unfold wq in *; simpl pow in Z;
        apply (Rmult_eq_reg_l l); [|lra]; rewrite <- Rmult_assoc, Z; field; lra).
      rewrite wq_hq, EW by exact Pl. unfold hq. auto_derive; [exact Pl|].
      unfold Rminus. set (E := exp (a * (ln l + - l))).
      destruct m as [|m]; [simpl; field; lra|]. simpl pred. simpl pow. field. lra.
    - intros l Hl. assert (Pl : 0 < l) by (apply (Rmin_pos2 x y _ Hx Hy); assumption).
      apply (continuous_minus (fun l => (a + INR m) * wq m l) (fun l => a * wq (S m) l));
        apply (continuous_scal_r _ (wq _)); apply wq_cont; exact Pl. }
  apply (is_RInt_unique (V := R_CompleteNormedModule)) in I1. unfold minus, plus, opp in I1; simpl in I1.
  replace (y ^ m * hq y - x ^ m * hq x) with (y ^ m * hq y + - (x ^ m * hq x)) by ring. rewrite <- I1.
  symmetry. unfold Jq. apply is_RInt_unique.
  apply (is_RInt_minus (fun l => (a + INR m) * wq m l) (fun l => a * wq (S m) l));
    apply (is_RInt_scal (wq _)); apply (RInt_correct (wq _)); apply wq_int; auto.
Qed.
Lemma hq_pos l : 0 < hq l. Proof. apply exp_pos. Qed.
(** h on [x, c x] *)
Lemma hq_small l X : 0 < l -> l <= exp X -> hq l <= exp (a * X).
Proof.
  intros Hl H. apply exp_le. apply Rmult_le_compat_l; [lra|].
  assert (ln l <= X). { rewrite <- (ln_exp X). destruct H as [H|H]; [left; apply ln_increasing; auto | right; f_equal; auto]. }
  lra.
Qed.
Lemma hq_large l : 0 < l -> hq l <= exp (- (a / 2 * l)).
Proof. intros Hl. apply exp_le. assert (Z := ln_le_half l Hl). nra. Qed.
Lemma lhq_large l : 0 < l -> l * hq l <= 4 / a * exp (- (a / 4 * l)).
Proof.
  intros Hl. apply (Rle_trans _ (l * exp (- (a / 2 * l)))); [apply Rmult_le_compat_l; [lra | apply hq_large, Hl]|].
  replace (- (a / 2 * l)) with (- (a / 4 * l) + - (a / 4 * l)) by field. rewrite exp_plus, <- Rmult_assoc.
  apply Rmult_le_compat_r; [left; apply exp_pos|].
  assert (Z := exp_ineq1_le (a / 4 * l)). rewrite exp_Ropp.
  assert (P : 0 < a / 4 * l) by (apply Rmult_lt_0_compat; lra).
  apply (Rmult_le_reg_r (exp (a / 4 * l))); [apply exp_pos|]. rewrite Rmult_assoc, Rinv_l by (apply Rgt_not_eq, exp_pos).
  apply (Rmult_le_reg_r (a / 4)); [lra|]. replace (4 / a * exp (a / 4 * l) * (a / 4)) with (exp (a / 4 * l)) by (field; lra). lra.
Qed.
Lemma lhq_small l : 0 < l -> l * hq l <= l.
Proof.
  intros Hl. rewrite <- (Rmult_1_r l) at 3. apply Rmult_le_compat_l; [lra|]. rewrite <- exp_0. apply exp_le.
  assert (Z := ln_le_sub1 l Hl). nra.
Qed.

Variable c : R. Hypothesis (Hc : 1 <= c).
Definition ee (n : nat) := exp (- INR n).
Definition TT (n : nat) := exp (INR n).
Lemma ee_pos n : 0 < ee n. Proof. apply exp_pos. Qed.
Lemma TT_pos n : 0 < TT n. Proof. apply exp_pos. Qed.
Lemma TT_ge n : INR n <= TT n. Proof. unfold TT. assert (Z := exp_ineq1_le (INR n)). lra. Qed.
Lemma ee_le_TT n : ee n <= TT n.
Proof. apply exp_le. assert (Z := pos_INR n). lra. Qed.
Lemma Jq0_piece x M : 0 < x -> (forall l, x <= l <= c * x -> hq l <= M) -> 0 <= Jq 0 x (c * x) <= (c - 1) * M.
Proof.
  intros Hx HM. assert (Hxc : x <= c * x) by nra. split.
  - apply RInt_ge_0; [exact Hxc | apply wq_int; nra|]. intros l Hl. left. apply wq_pos. lra.
  - assert (Z : Rabs (Jq 0 x (c * x)) <= (c * x - x) * (M / x)).
    { apply abs_RInt_le_const; [exact Hxc | apply wq_int; nra|]. intros l Hl. assert (Pl : 0 < l) by lra.
      rewrite Rabs_pos_eq by (left; apply wq_pos, Pl).
      assert (E : wq 0 l = hq l / l). { assert (Z := wq_hq 0 l Pl). unfold wq in *. simpl in *. rewrite Rmult_1_l. rewrite Rmult_1_r in Z. rewrite Rmult_1_l in Z. rewrite <- Z. field. lra. }
      rewrite E. unfold Rdiv. apply Rmult_le_compat; [left; apply hq_pos | left; apply Rinv_0_lt_compat, Pl | apply HM, Hl | apply Rinv_le_contravar; lra]. }
    assert (Y := Rle_abs (Jq 0 x (c * x))). eapply Rle_trans; [exact Y|]. eapply Rle_trans; [exact Z|]. right. field. lra.
Qed.
Lemma geo_exp b D : 0 < b -> geo (fun n => exp (D - b * INR n)).
Proof.
  intros Hb. exists (exp D), b. split; [exact Hb|]. intros n. rewrite Rabs_pos_eq by (left; apply exp_pos).
  rewrite <- exp_plus. right. apply f_equal. ring.
Qed.
Lemma geo_bound u b D C : 0 < b -> (forall n, Rabs (u n) <= C * exp (D - b * INR n)) -> geo u.
Proof.
  intros Hb H. exists (C * exp D), b. split; auto. intros n. eapply Rle_trans; [apply H|]. right.
  rewrite Rmult_assoc, <- exp_plus. f_equal; f_equal; ring.
Qed.
Lemma small_pt n l : l <= c * ee n -> l <= exp (ln c - INR n).
Proof. intros H. unfold Rminus. rewrite exp_plus, exp_ln by lra. exact H. Qed.
Lemma Jq0_geo : geo (fun n => Jq 0 (c * ee n) (c * TT n) - 1 * Jq 0 (ee n) (TT n)).
Proof.
  assert (Pc : 0 < c) by lra.
  apply (geo_ext (fun n => Jq 0 (TT n) (c * TT n) - Jq 0 (ee n) (c * ee n))).
  { intros n. assert (P1 := ee_pos n). assert (P2 := TT_pos n).
    assert (C1 := RInt_Chasles (wq 0) (ee n) (c * ee n) (c * TT n) ltac:(apply wq_int; nra) ltac:(apply wq_int; nra)).
    assert (C2 := RInt_Chasles (wq 0) (ee n) (TT n) (c * TT n) ltac:(apply wq_int; nra) ltac:(apply wq_int; nra)).
    unfold plus in C1, C2; simpl in C1, C2. unfold Jq. lra. }
  apply geo_minus.
  - apply (geo_bound _ (a / 2) 0 (c - 1)); [lra|]. intros n. assert (P2 := TT_pos n).
    destruct (Jq0_piece (TT n) (exp (0 - a / 2 * INR n)) P2) as [Z1 Z2].
    + intros l Hl. eapply Rle_trans; [apply hq_large; lra|]. apply exp_le. assert (Z := TT_ge n). nra.
    + rewrite Rabs_pos_eq by exact Z1. exact Z2.
  - apply (geo_bound _ a (a * ln c) (c - 1)); [lra|]. intros n. assert (P1 := ee_pos n).
    destruct (Jq0_piece (ee n) (exp (a * ln c - a * INR n)) P1) as [Z1 Z2].
    + intros l Hl. replace (a * ln c - a * INR n) with (a * (ln c - INR n)) by ring. apply hq_small; [lra|]. apply small_pt. lra.
    + rewrite Rabs_pos_eq by exact Z1. exact Z2.
Qed.
Lemma hq_geo_T : geo (fun n => hq (c * TT n)).
Proof.
  apply (geo_bound _ (a / 2) 0 1); [lra|]. intros n. rewrite Rabs_pos_eq by (left; apply hq_pos). rewrite Rmult_1_l.
  assert (P2 := TT_pos n). eapply Rle_trans; [apply hq_large; nra|]. apply exp_le. assert (Z := TT_ge n).
  assert (INR n <= c * TT n) by nra. nra.
Qed.
Lemma hq_geo_e : geo (fun n => hq (c * ee n)).
Proof.
  apply (geo_bound _ a (a * ln c) 1); [lra|]. intros n. rewrite Rabs_pos_eq by (left; apply hq_pos). rewrite Rmult_1_l.
  replace (a * ln c - a * INR n) with (a * (ln c - INR n)) by ring. assert (P1 := ee_pos n).
  apply hq_small; [nra|]. apply small_pt. lra.
Qed.
Lemma lhq_geo_T : geo (fun n => c * TT n * hq (c * TT n)).
Proof.
  apply (geo_bound _ (a / 4) 0 (4 / a)); [lra|]. intros n. assert (P2 := TT_pos n). assert (P3 : 0 < c * TT n) by nra.
  rewrite Rabs_pos_eq by (left; apply Rmult_lt_0_compat; [exact P3 | apply hq_pos]).
  eapply Rle_trans; [apply lhq_large, P3|]. apply Rmult_le_compat_l.
  - left. apply Rdiv_lt_0_compat; lra.
  - apply exp_le. assert (Z := TT_ge n). assert (INR n <= c * TT n) by nra. nra.
Qed.
Lemma lhq_geo_e : geo (fun n => c * ee n * hq (c * ee n)).
Proof.
  apply (geo_bound _ 1 0 c); [lra|]. intros n. assert (P2 := ee_pos n). assert (P3 : 0 < c * ee n) by nra.
  rewrite Rabs_pos_eq by (left; apply Rmult_lt_0_compat; [exact P3 | apply hq_pos]).
  eapply Rle_trans; [apply lhq_small, P3|]. right. unfold ee. f_equal; f_equal; ring.
Qed.
Definition Nq n := Jq 0 (ee n) (TT n).
Lemma Jq1_geo : geo (fun n => Jq 1 (c * ee n) (c * TT n) - 1 * Nq n).
Proof.
  assert (Pc : 0 < c) by lra.
  apply (geo_ext (fun n => (Jq 0 (c * ee n) (c * TT n) - 1 * Jq 0 (ee n) (TT n)) - / a * (hq (c * TT n) - hq (c * ee n)))).
  - intros n. assert (P1 := ee_pos n). assert (P2 := TT_pos n).
    assert (Z := Jq_parts 0 (c * ee n) (c * TT n) ltac:(nra) ltac:(nra)). simpl pow in Z. simpl INR in Z.
    rewrite !Rmult_1_l, Rplus_0_r in Z. rewrite <- Z. unfold Nq. field. lra.
  - apply geo_minus; [apply Jq0_geo|]. apply geo_scal. apply geo_minus; [apply hq_geo_T | apply hq_geo_e].
Qed.
Lemma Jq2_geo : geo (fun n => Jq 2 (c * ee n) (c * TT n) - (1 + 1 / a) * Nq n).
Proof.
  assert (Pc : 0 < c) by lra.
  apply (geo_ext (fun n => (1 + 1 / a) * (Jq 1 (c * ee n) (c * TT n) - 1 * Nq n) - / a * (c * TT n * hq (c * TT n) - c * ee n * hq (c * ee n)))).
  - intros n. assert (P1 := ee_pos n). assert (P2 := TT_pos n).
    assert (Z := Jq_parts 1 (c * ee n) (c * TT n) ltac:(nra) ltac:(nra)). simpl INR in Z. rewrite !pow_1 in Z.
    rewrite <- Z. unfold Nq. field. lra.
  - apply geo_minus; [apply geo_scal, Jq1_geo|]. apply geo_scal. apply geo_minus; [apply lhq_geo_T | apply lhq_geo_e].
Qed.
(** substitution *)
Lemma wq_sub m n : is_RInt (fun l => c ^ m * Rpower c a * (l ^ m * exp ((a - 1) * ln l - a * c * l))) (ee n) (TT n) (Jq m (c * ee n) (c * TT n)).
Proof.
  assert (Pc : 0 < c) by lra. assert (P1 := ee_pos n). assert (P2 := TT_pos n).
  apply (is_RInt_ext (fun y => scal c (wq m (c * y + 0)))).
  - intros l [Hl _]. assert (Pl : 0 < l) by (eapply Rlt_trans; [|exact Hl]; apply Rmin_pos; auto).
    unfold scal; simpl; unfold mult; simpl. unfold wq. rewrite Rplus_0_r, Rpow_mult_distr, ln_mult by auto.
    unfold Rpower. replace ((a - 1) * (ln c + ln l) - a * (c * l)) with (a * ln c + - ln c + ((a - 1) * ln l - a * c * l)) by ring.
    rewrite !exp_plus, exp_Ropp, exp_ln by exact Pc. field. lra.
  - apply (is_RInt_comp_lin (wq m) c 0 (ee n) (TT n) (Jq m (c * ee n) (c * TT n))). rewrite !Rplus_0_r. apply (RInt_correct (wq m)). apply wq_int; nra.
Qed.
End RQ.

Lemma Nq_pos a n : 0 < a -> (0 < n)%nat -> 0 < Nq a n.
Proof.
  intros Ha Hn. apply RInt_gt_0.
  - apply exp_increasing. assert (0 < INR n) by (apply lt_0_INR; exact Hn). lra.
  - intros x Hx. apply wq_pos. assert (Z := ee_pos n). lra.
  - intros x Hx. apply wq_cont. assert (Z := ee_pos n). lra.
Qed.
Lemma Nq_mono a n : 0 < a -> Nq a 1 <= Nq a (S n).
Proof.
  intros Ha. unfold Nq. assert (P1 := ee_pos (S n)). assert (P2 := TT_pos (S n)). assert (P3 := ee_pos 1). assert (P4 := TT_pos 1).
  assert (L1 : ee (S n) <= ee 1). { apply exp_le. rewrite (S_INR n). change (INR 1) with 1. assert (Z := pos_INR n). lra. }
  assert (L2 : TT 1 <= TT (S n)). { apply exp_le. rewrite (S_INR n). change (INR 1) with 1. assert (Z := pos_INR n). lra. }
  assert (C1 := RInt_Chasles (wq a 0) (ee (S n)) (ee 1) (TT (S n)) ltac:(apply wq_int; auto) ltac:(apply wq_int; auto)).
  assert (C2 := RInt_Chasles (wq a 0) (ee 1) (TT 1) (TT (S n)) ltac:(apply wq_int; auto) ltac:(apply wq_int; auto)).
  unfold plus in C1, C2; simpl in C1, C2. unfold Jq.
  assert (0 <= RInt (wq a 0) (ee (S n)) (ee 1)).
  { apply RInt_ge_0; [exact L1 | apply wq_int; auto |]. intros l Hl. left. apply wq_pos. lra. }
  assert (0 <= RInt (wq a 0) (TT 1) (TT (S n))).
  { apply RInt_ge_0; [exact L2 | apply wq_int; auto |]. intros l Hl. left. apply wq_pos. lra. }
  unfold TT, ee in *. lra.
Qed.

Theorem mixture_rq d th a f : 0 < a -> (forall i, 0 <= th i) ->
  (forall l, 0 < l -> 0 <= ev f (sejet d th l)) ->
  0 <= ev f (rjet d th (fun s => Rpower (1 + s / a) (- a)) (fun s => - Rpower (1 + s / a) (- a - 1))
                       (fun s => (1 + 1 / a) * Rpower (1 + s / a) (- a - 2))).
Proof.
  intros Ha Hnn Hf.
  assert (CC : forall s, 0 <= s -> 1 <= 1 + s / a). { intros s Hs. assert (0 <= s / a) by (apply Rle_mult_inv_pos; auto). lra. }
  set (K := fun m n s => Jq a m ((1 + s / a) * ee (S n)) ((1 + s / a) * TT (S n)) / ((1 + s / a) ^ m * Rpower (1 + s / a) a)).
  assert (PC : forall m s, 0 <= s -> 0 < (1 + s / a) ^ m * Rpower (1 + s / a) a).
  { intros m s Hs. apply Rmult_lt_0_compat; [apply pow_lt; assert (Z := CC s Hs); lra | apply exp_pos]. }
  assert (KI : forall m n s, 0 <= s ->
     is_RInt (fun l => l ^ m * exp ((a - 1) * ln l - (a + s) * l)) (ee (S n)) (TT (S n)) (K m n s)).
  { intros m n s Hs. assert (Z := wq_sub a (1 + s / a) (CC s Hs) m (S n)).
    assert (P := PC m s Hs). set (q := (1 + s / a) ^ m * Rpower (1 + s / a) a) in *.
    apply (is_RInt_scal _ _ _ (/ q)) in Z. unfold scal in Z; simpl in Z; unfold mult in Z; simpl in Z.
    unfold K. fold q. replace (Jq a m ((1 + s / a) * ee (S n)) ((1 + s / a) * TT (S n)) / q) with (/ q * Jq a m ((1 + s / a) * ee (S n)) ((1 + s / a) * TT (S n))) by (unfold Rdiv; ring).
    eapply is_RInt_extR; [|exact Z]. intros u. cbv beta.
    replace (a * (1 + s / a) * u) with ((a + s) * u) by (field; lra). field. lra. }
  assert (KL : forall m s L, 0 <= s -> geo (fun n => Jq a m ((1 + s / a) * ee n) ((1 + s / a) * TT n) - L * Nq a n) ->
     is_lim_seq (fun n => K m n s / Nq a (S n)) (L / ((1 + s / a) ^ m * Rpower (1 + s / a) a))).
  { intros m s L Hs G. assert (P := PC m s Hs). unfold K. set (q := (1 + s / a) ^ m * Rpower (1 + s / a) a) in *.
    destruct G as (C & b & Hb & G).
    assert (G' : geo (fun n => Jq a m ((1 + s / a) * ee (S n)) ((1 + s / a) * TT (S n)) - L * Nq a (S n))).
    { exists (C * exp (- b)), b. split; [exact Hb|]. intros n. eapply Rle_trans; [apply G|]. right.
      rewrite Rmult_assoc, <- exp_plus. f_equal; f_equal; rewrite S_INR; ring. }
    assert (Z := geo_ratio _ (fun n => Nq a (S n)) L (Nq a 1) (Nq_pos a 1 Ha ltac:(lia)) (fun n => Nq_mono a (S n) Ha) (fun n => Nq_pos a (S n) Ha ltac:(lia)) G').
    apply (is_lim_seq_scal_l _ (/ q)) in Z. simpl Rbar_mult in Z.
    replace (L / q) with (/ q * L) by (unfold Rdiv; ring).
    eapply is_lim_seq_ext; [|exact Z]. intros n. simpl. assert (Y := Nq_pos a (S n) Ha ltac:(lia)). field. lra. }
  assert (PW : forall s, 0 <= s -> 0 < 1 + s / a) by (intros s Hs; assert (Z := CC s Hs); lra).
  apply (mixture d th Hnn f _ _ _ (fun n => ee (S n)) (fun n => TT (S n)) (fun n => Nq a (S n))
     (fun l => exp ((a - 1) * ln l - a * l)) (fun l => l) (K 0%nat) (K 1%nat) (K 2%nat) Hf).
  - intros n. apply ee_le_TT.
  - intros n. apply Nq_pos; [exact Ha | lia].
  - intros n u Hu. split; [left; apply exp_pos|]. assert (Z := ee_pos (S n)). lra.
  - intros n s Hs. eapply is_RInt_extR; [|apply (KI 0%nat n s Hs)]. intros u. cbv beta. rewrite <- exp_plus, pow_O, Rmult_1_l. f_equal. ring.
  - intros n s Hs. eapply is_RInt_extR; [|apply (KI 1%nat n s Hs)]. intros u. cbv beta. rewrite pow_1.
    replace ((a - 1) * ln u - (a + s) * u) with (((a - 1) * ln u - a * u) + - (u * s)) by ring. rewrite exp_plus. ring.
  - intros n s Hs. eapply is_RInt_extR; [|apply (KI 2%nat n s Hs)]. intros u. cbv beta.
    replace ((a - 1) * ln u - (a + s) * u) with (((a - 1) * ln u - a * u) + - (u * s)) by ring. rewrite exp_plus. ring.
  - intros s Hs. assert (Z := KL 0%nat s 1 Hs (Jq0_geo a Ha _ (CC s Hs))).
    rewrite Rpower_Ropp. rewrite pow_O, Rmult_1_l in Z. unfold Rdiv in Z. rewrite Rmult_1_l in Z. exact Z.
  - intros s Hs. assert (Z := KL 1%nat s 1 Hs (Jq1_geo a Ha _ (CC s Hs))). rewrite Ropp_involutive.
    replace (- a - 1) with (- (a + 1)) by ring. rewrite Rpower_Ropp, Rpower_plus, Rpower_1 by auto.
    rewrite pow_1 in Z. unfold Rdiv at 2 in Z. rewrite Rmult_1_l in Z. rewrite (Rmult_comm (Rpower _ _)). exact Z.
  - intros s Hs. assert (Z := KL 2%nat s _ Hs (Jq2_geo a Ha _ (CC s Hs))).
    replace (- a - 2) with (- (a + 2)) by ring. rewrite Rpower_Ropp, Rpower_plus.
    replace (Rpower (1 + s / a) 2) with ((1 + s / a) ^ 2) by (rewrite <- Rpower_pow by auto; reflexivity).
    rewrite (Rmult_comm (Rpower _ _)). exact Z.
Qed.
