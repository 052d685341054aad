(** Bounds on the absolute row sums of correlation matrices of values and partial derivatives. *)
From Coq Require Import Reals List Arith Bool Lia Lra Psatz.
From Coquelicot Require Import Coquelicot.
From Verif.Base Require Import NpLite NpFacts.
From Verif.Spec Require Import KernelSpec LinAlgSpec.
From Verif.Proofs Require Import KernGradBlocks LinAlg MixRatQu.
Import ListNotations.
Local Open Scope R_scope.

Lemma exp1_ge : 5 / 2 <= exp 1.
Proof.
  replace 1 with (1 / 8 + 1 / 8 + (1 / 8 + 1 / 8) + (1 / 8 + 1 / 8 + (1 / 8 + 1 / 8))) by field.
  rewrite !exp_plus. assert (Z := exp_ineq1_le (1 / 8)). set (e := exp (1 / 8)) in *.
  assert (E2 : 81 / 64 <= e * e) by nra. assert (E4 : 81 / 64 * (81 / 64) <= e * e * (e * e)) by nra.
  assert (81 / 64 * (81 / 64) * (81 / 64 * (81 / 64)) <= e * e * (e * e) * (e * e * (e * e))) by nra. lra.
Qed.
Lemma exp_ge_ex x : 5 / 2 * x <= exp x.
Proof.
  assert (Z := exp_ineq1_le (x - 1)). assert (E : exp x = exp 1 * exp (x - 1)) by (rewrite <- exp_plus; f_equal; ring).
  rewrite E. assert (H1 := exp1_ge). assert (P := exp_pos (x - 1)).
  apply (Rle_trans _ (5 / 2 * exp (x - 1))); [lra|]. apply Rmult_le_compat_r; lra.
Qed.

(** sum of absolute values against the Euclidean norm *)
Lemma sum_abs_le d u : rsum d (fun j => Rabs (u j)) <= sqrt (INR d) * sqrt (rsum d (fun j => u j ^ 2)).
Proof.
  assert (C := cauchy_schwarz d (fun _ => 1) (fun j => Rabs (u j))). unfold dotp in C.
  assert (E1 : rsum d (fun i => 1 * Rabs (u i)) = rsum d (fun j => Rabs (u j))) by (apply rsum_ext; intros; ring).
  assert (E2 : rsum d (fun _ => 1 * 1) = INR d).
  { clear. induction d as [|d IH]; [reflexivity|]. cbn [rsum]. rewrite IH, S_INR. ring. }
  assert (E3 : rsum d (fun i => Rabs (u i) * Rabs (u i)) = rsum d (fun j => u j ^ 2)).
  { apply rsum_ext; intros j _. rewrite <- (pow2_abs (u j)). ring. }
  rewrite E1, E2, E3 in C. rewrite <- sqrt_mult_alt by apply pos_INR.
  assert (P : 0 <= rsum d (fun j => Rabs (u j))) by (apply rsum_nonneg; intros; apply Rabs_pos).
  rewrite <- (sqrt_pow2 _ P). apply sqrt_le_1_alt. exact C.
Qed.

(** ** squared exponential *)
Definition seM (d : nat) : R :=
  / 2 * (1 + sqrt (1 + 4 * INR d)) * exp (- (1 + 2 * INR d - sqrt (1 + 4 * INR d)) / (4 * INR d)).
Lemma seM_max d t : (0 < d)%nat -> 0 <= t -> (1 + sqrt (INR d) * t) * exp (- (t ^ 2 / 2)) <= seM d.
Proof.
  intros Hd Ht. assert (Pd : 0 < INR d) by (apply lt_0_INR; exact Hd).
  set (k := sqrt (INR d)). assert (Pk : 0 < k) by (apply sqrt_lt_R0; exact Pd).
  assert (kk : k * k = INR d) by (apply sqrt_sqrt; lra).
  set (w := sqrt (1 + 4 * INR d)). assert (ww : w * w = 1 + 4 * INR d) by (apply sqrt_sqrt; lra).
  assert (Pw : 1 < w). { rewrite <- sqrt_1. apply sqrt_lt_1; lra. }
  set (ts := (w - 1) / (2 * k)).
  assert (S1 : 1 + k * ts = (1 + w) / 2) by (unfold ts; field; lra).
  assert (S2 : ts ^ 2 / 2 = (1 + 2 * INR d - w) / (4 * INR d)).
  { unfold ts. rewrite <- kk. replace (((w - 1) / (2 * k)) ^ 2 / 2) with ((w * w - 2 * w + 1) / (8 * (k * k))) by (field; lra).
    rewrite ww, kk. field. lra. }
  assert (ST : ts * (1 + k * ts) = k).
  { rewrite S1. unfold ts. replace ((w - 1) / (2 * k) * ((1 + w) / 2)) with ((w * w - 1) / (4 * k)) by (field; lra).
    rewrite ww. replace (1 + 4 * INR d - 1) with (4 * (k * k)) by (rewrite kk; ring). field. lra. }
  unfold seM. fold w. replace (- (1 + 2 * INR d - w) / (4 * INR d)) with (- (ts ^ 2 / 2)) by (rewrite S2; field; lra).
  replace (/ 2 * (1 + w)) with (1 + k * ts) by (rewrite S1; field).
  assert (E : 1 + k * t = (1 + k * ts) * (1 + ts * (t - ts))).
  { replace ((1 + k * ts) * (1 + ts * (t - ts))) with ((1 + k * ts) + (ts * (1 + k * ts)) * (t - ts)) by ring. rewrite ST. ring. }
  rewrite E. rewrite Rmult_assoc. apply Rmult_le_compat_l; [rewrite S1; lra|].
  apply (Rle_trans _ (exp (ts * (t - ts)) * exp (- (t ^ 2 / 2)))).
  - apply Rmult_le_compat_r; [left; apply exp_pos | apply exp_ineq1_le].
  - rewrite <- exp_plus. apply exp_le. assert (Z := pow2_ge_0 (t - ts)). simpl in *. lra.
Qed.
Lemma seM_ge1 d : (0 < d)%nat -> 1 <= seM d.
Proof.
  intros Hd. assert (Z := seM_max d 0 Hd (Rle_refl 0)). replace (- (0 ^ 2 / 2)) with 0 in Z by (simpl; field).
  rewrite exp_0 in Z. lra.
Qed.
Lemma se_fun_row d u : (0 < d)%nat ->
  (1 + rsum d (fun j => Rabs (u j))) * exp (- (rsum d (fun j => u j ^ 2) / 2)) <= seM d.
Proof.
  intros Hd. set (q := rsum d (fun j => u j ^ 2)).
  assert (Pq : 0 <= q) by (apply rsum_nonneg; intros; apply pow2_ge_0).
  assert (Z := seM_max d (sqrt q) Hd (sqrt_pos q)). replace (sqrt q ^ 2) with q in Z by (simpl; rewrite Rmult_1_r, sqrt_sqrt; auto).
  eapply Rle_trans; [|exact Z]. apply Rmult_le_compat_r; [left; apply exp_pos|].
  assert (Y := sum_abs_le d u). fold q in Y. lra.
Qed.
Lemma split_at d i (f : nat -> R) : (i < d)%nat ->
  rsum d f = f i + rsum d (fun j => if (j =? i)%nat then 0 else f j).
Proof. intros Hi. assert (Z := rsum_upd d i f 0 Hi). rewrite Z. ring. Qed.
Lemma se_grad_row d u i : (i < d)%nat ->
  (Rabs (u i) + rsum d (fun j => Rabs ((if (i =? j)%nat then 1 else 0) - u i * u j))) * exp (- (rsum d (fun j => u j ^ 2) / 2)) <= seM d.
Proof.
  intros Hi. assert (Hd : (0 < d)%nat) by lia. set (a := Rabs (u i)).
  set (v := fun j => if (j =? i)%nat then 0 else u j).
  assert (Pa : 0 <= a) by apply Rabs_pos.
  assert (EA : rsum d (fun j => Rabs ((if (i =? j)%nat then 1 else 0) - u i * u j)) = Rabs (1 - a ^ 2) + a * rsum d (fun j => Rabs (v j))).
  { rewrite (split_at d i _ Hi), Nat.eqb_refl. f_equal.
    - f_equal. unfold a. rewrite pow2_abs. ring.
    - rewrite <- rsum_scal. apply rsum_ext; intros j _. unfold v. rewrite (Nat.eqb_sym i j). destruct (Nat.eqb_spec j i).
      + rewrite Rabs_R0. ring.
      + unfold a. rewrite <- Rabs_mult, <- Rabs_Ropp. f_equal. ring. }
  assert (ES : rsum d (fun j => Rabs (u j)) = a + rsum d (fun j => Rabs (v j))).
  { rewrite (split_at d i _ Hi). f_equal. apply rsum_ext; intros j _. unfold v. destruct (Nat.eqb_spec j i); [rewrite Rabs_R0|]; reflexivity. }
  assert (EQ : rsum d (fun j => u j ^ 2) = a ^ 2 + rsum d (fun j => v j ^ 2)).
  { rewrite (split_at d i _ Hi). f_equal; [unfold a; rewrite pow2_abs; reflexivity|].
    apply rsum_ext; intros j _. unfold v. destruct (Nat.eqb_spec j i); [simpl; ring | reflexivity]. }
  set (S' := rsum d (fun j => Rabs (v j))) in *. assert (PS : 0 <= S') by (apply rsum_nonneg; intros; apply Rabs_pos).
  rewrite EA. destruct (Rle_lt_dec a 1) as [L|L].
  - (* dominated by the function row *)
    assert (Z := se_fun_row d u Hd). eapply Rle_trans; [|exact Z]. apply Rmult_le_compat_r; [left; apply exp_pos|].
    rewrite ES. rewrite Rabs_pos_eq by (simpl; nra). simpl. nra.
  - rewrite EQ. replace (- ((a ^ 2 + rsum d (fun j => v j ^ 2)) / 2)) with (- (a ^ 2 / 2) + - (rsum d (fun j => v j ^ 2) / 2)) by field.
    rewrite exp_plus, <- Rmult_assoc.
    assert (Z := se_fun_row d v Hd). fold S' in Z. eapply Rle_trans; [|exact Z]. apply Rmult_le_compat_r; [left; apply exp_pos|].
    rewrite Rabs_left1 by (simpl; nra). rewrite exp_Ropp.
    assert (Pe := exp_pos (a ^ 2 / 2)). apply (Rmult_le_reg_r (exp (a ^ 2 / 2))); [exact Pe|].
    rewrite Rmult_assoc, Rinv_l, Rmult_1_r by lra.
    assert (B1 : a ^ 2 + a - 1 <= exp (a ^ 2 / 2)).
    { eapply Rle_trans; [|apply exp_ge_ex]. assert (W := pow2_ge_0 (a / 2 - 1)). simpl in *. lra. }
    assert (B2 : a <= exp (a ^ 2 / 2)).
    { eapply Rle_trans; [|apply exp_ineq1_le]. assert (W := pow2_ge_0 (a - 1)). simpl in *. lra. }
    replace (a + (- (1 - a ^ 2) + a * S')) with ((a ^ 2 + a - 1) + a * S') by ring. rewrite Rmult_plus_distr_r, Rmult_1_l.
    apply Rplus_le_compat; [exact B1|]. rewrite Rmult_comm. apply Rmult_le_compat_l; auto.
Qed.

(** ** Matern 5/2.  r^2 = sum u_j^2 *)
Definition maF (d : nat) (r : R) : R := 1 + (1 + sqrt (INR d / 3)) * r + (1 / 3 + sqrt (INR d / 3)) * r ^ 2.
Definition ma_alpha (d : nat) : R :=
  (sqrt (3 * INR d) - 1 + sqrt (15 * INR d + 2 * sqrt (3 * INR d) + 1)) / (2 * (3 * INR d + sqrt (3 * INR d))).
Definition maM (d : nat) : R :=
  (1 + (INR d + sqrt (3 * INR d)) * ma_alpha d + INR d * (1 + sqrt (3 * INR d)) * ma_alpha d ^ 2) * exp (- sqrt (3 * INR d) * ma_alpha d).
Lemma maM_max d r : (0 < d)%nat -> 0 <= r -> maF d r * exp (- r) <= maM d.
Proof.
  intros Hd Hr. assert (Pd : 0 < INR d) by (apply lt_0_INR; exact Hd).
  set (q := sqrt (3 * INR d)). assert (qq : q * q = 3 * INR d) by (apply sqrt_sqrt; lra).
  assert (Pq : 0 < q) by (apply sqrt_lt_R0; lra).
  assert (K : sqrt (INR d / 3) = q / 3).
  { rewrite <- (sqrt_pow2 (q / 3)) by lra. f_equal. simpl. replace (q / 3 * (q / 3 * 1)) with (q * q / 9) by field. rewrite qq. field. }
  assert (Ed : INR d = q * q / 3) by (rewrite qq; field).
  set (w := sqrt (15 * INR d + 2 * q + 1)).
  assert (ww : w * w = 5 * (q * q) + 2 * q + 1) by (unfold w; rewrite sqrt_sqrt by lra; rewrite Ed; field).
  assert (Pw : 0 < w) by (apply sqrt_lt_R0; lra).
  set (rs := (q - 1 + w) / (2 * (q + 1))).
  assert (Prs : 0 < rs).
  { unfold rs. apply Rdiv_lt_0_compat; [|lra]. assert (H : 1 - q < w); [|lra].
    destruct (Rle_lt_dec (1 - q) 0); [lra|]. apply Rsqr_incrst_0; unfold Rsqr; nra. }
  assert (Rt : (1 + q) * (rs * rs) = (q - 1) * rs + q).
  { assert (E1 : (2 * (q + 1)) * rs = q - 1 + w) by (unfold rs; field; lra).
    assert (E2 : ((2 * (q + 1)) * rs - (q - 1)) * ((2 * (q + 1)) * rs - (q - 1)) = w * w) by (rewrite E1; ring).
    rewrite ww in E2. apply (Rmult_eq_reg_l (4 * (q + 1))); [|lra]. ring_simplify. ring_simplify in E2. lra. }
  assert (EM : maM d = maF d rs * exp (- rs)).
  { unfold maM, maF, ma_alpha. fold q w. rewrite K.
    replace (3 * INR d) with (q * q) by (rewrite Ed; field). clearbody q w. rewrite Ed.
    replace ((q - 1 + w) / (2 * (q * q + q))) with (rs / q) by (unfold rs; field; lra).
    replace (- q * (rs / q)) with (- rs) by (field; lra). f_equal. field. lra. }
  rewrite EM.
  set (df := fun x => - ((1 + q) / 3) * (x - rs) * (x + q / ((1 + q) * rs)) * exp (- x)).
  destruct (MVT_gen (fun x => maF d x * exp (- x)) r rs df) as (c & (C1 & C2) & EC).
  - intros x _. unfold maF, df. rewrite K. auto_derive; [exact I|].
    assert (G : (1 + q) / 3 * ((x - rs) * (x + q / ((1 + q) * rs))) = (1 + q) / 3 * x ^ 2 - (q - 1) / 3 * x - q / 3).
    { assert (Eq : q / ((1 + q) * rs) = rs - (q - 1) / (1 + q)).
      { apply (Rmult_eq_reg_l ((1 + q) * rs)); [|apply Rgt_not_eq; apply Rmult_lt_0_compat; lra].
        replace ((1 + q) * rs * (q / ((1 + q) * rs))) with q by (field; split; lra).
        replace ((1 + q) * rs * (rs - (q - 1) / (1 + q))) with ((1 + q) * (rs * rs) - (q - 1) * rs) by (field; lra). rewrite Rt. ring. }
      rewrite Eq. replace ((1 + q) / 3 * ((x - rs) * (x + (rs - (q - 1) / (1 + q))))) with
        ((1 + q) / 3 * x ^ 2 - (q - 1) / 3 * x - ((1 + q) * (rs * rs) - (q - 1) * rs) / 3) by (field; lra). rewrite Rt. field. }
    replace (- ((1 + q) / 3) * (x - rs) * (x + q / ((1 + q) * rs)) * exp (- x)) with
      (- ((1 + q) / 3 * ((x - rs) * (x + q / ((1 + q) * rs)))) * exp (- x)) by ring. rewrite G. ring_simplify. field.
  - intros x _. apply continuity_pt_filterlim. apply (ex_derive_continuous (fun x => maF d x * exp (- x))).
    unfold maF. auto_derive. exact I.
  - simpl in EC. apply Rminus_le_0. rewrite EC. unfold df.
    assert (P1 : 0 <= (rs - c) * (rs - r)).
    { destruct (Rle_lt_dec r rs) as [L|L].
      - rewrite Rmax_right in C2 by lra. apply Rmult_le_pos; lra.
      - rewrite Rmin_right in C1 by lra. replace ((rs - c) * (rs - r)) with ((c - rs) * (r - rs)) by ring. apply Rmult_le_pos; lra. }
    assert (P2 : 0 <= c + q / ((1 + q) * rs)).
    { apply Rplus_le_le_0_compat; [eapply Rle_trans; [|exact C1]; apply Rmin_glb; lra|].
      left; apply Rdiv_lt_0_compat; [lra|apply Rmult_lt_0_compat; lra]. }
    replace (- ((1 + q) / 3) * (c - rs) * (c + q / ((1 + q) * rs)) * exp (- c) * (rs - r)) with
      ((1 + q) / 3 * ((rs - c) * (rs - r)) * (c + q / ((1 + q) * rs)) * exp (- c)) by ring.
    assert (Pe := exp_pos (- c)). apply Rmult_le_pos; [apply Rmult_le_pos; [apply Rmult_le_pos|]|]; lra.
Qed.

Lemma maM_ge1 d : (0 < d)%nat -> 1 <= maM d.
Proof.
  intros Hd. assert (Z := maM_max d 0 Hd (Rle_refl 0)). unfold maF in Z. rewrite Ropp_0, exp_0 in Z. lra.
Qed.
Lemma ma_fun_row d u : (0 < d)%nat -> let r := sqrt (rsum d (fun j => u j ^ 2)) in
  (1 + r + r ^ 2 / 3 + rsum d (fun j => Rabs (u j) / sqrt 3 * (1 + r))) * exp (- r) <= maM d.
Proof.
  intros Hd r. assert (Pr : 0 <= r) by apply sqrt_pos.
  eapply Rle_trans; [|apply (maM_max d r Hd Pr)]. apply Rmult_le_compat_r; [left; apply exp_pos|].
  assert (E : rsum d (fun j => Rabs (u j) / sqrt 3 * (1 + r)) = (1 + r) / sqrt 3 * rsum d (fun j => Rabs (u j))).
  { rewrite <- rsum_scal. apply rsum_ext; intros j _. unfold Rdiv. ring. }
  rewrite E. assert (Y := sum_abs_le d u). fold r in Y.
  assert (T : 0 < sqrt 3) by (apply sqrt_lt_R0; lra).
  assert (EK : sqrt (INR d) = sqrt (INR d / 3) * sqrt 3).
  { rewrite <- sqrt_mult_alt by (assert (0 <= INR d) by apply pos_INR; lra). f_equal. field. }
  unfold maF. set (k := sqrt (INR d / 3)) in *. rewrite EK in Y.
  assert (H : (1 + r) / sqrt 3 * rsum d (fun j => Rabs (u j)) <= (1 + r) / sqrt 3 * (k * sqrt 3 * r)).
  { apply Rmult_le_compat_l; [|exact Y]. apply Rle_mult_inv_pos; lra. }
  replace ((1 + r) / sqrt 3 * (k * sqrt 3 * r)) with ((1 + r) * k * r) in H by (field; lra). nra.
Qed.
Lemma ma_grad_row d u i : (i < d)%nat -> let r := sqrt (rsum d (fun j => u j ^ 2)) in
  (Rabs (u i) / sqrt 3 * (1 + r) + rsum d (fun j => Rabs ((if (i =? j)%nat then 1 + r else 0) - u i * u j))) * exp (- r) <= maM d.
Proof.
  intros Hi r. assert (Hd : (0 < d)%nat) by lia. assert (Pr : 0 <= r) by apply sqrt_pos.
  set (a := Rabs (u i)). set (v := fun j => if (j =? i)%nat then 0 else u j).
  assert (Pa : 0 <= a) by apply Rabs_pos.
  assert (EA : rsum d (fun j => Rabs ((if (i =? j)%nat then 1 + r else 0) - u i * u j)) = Rabs (1 + r - a ^ 2) + a * rsum d (fun j => Rabs (v j))).
  { rewrite (split_at d i _ Hi), Nat.eqb_refl. f_equal.
    - f_equal. unfold a. rewrite pow2_abs. ring.
    - rewrite <- rsum_scal. apply rsum_ext; intros j _. unfold v. rewrite (Nat.eqb_sym i j). destruct (Nat.eqb_spec j i).
      + rewrite Rabs_R0. ring.
      + unfold a. rewrite <- Rabs_mult, <- Rabs_Ropp. f_equal. ring. }
  assert (EQ : rsum d (fun j => u j ^ 2) = a ^ 2 + rsum d (fun j => v j ^ 2)).
  { rewrite (split_at d i _ Hi). f_equal; [unfold a; rewrite pow2_abs; reflexivity|].
    apply rsum_ext; intros j _. unfold v. destruct (Nat.eqb_spec j i); [simpl; ring | reflexivity]. }
  assert (Er : r * r = rsum d (fun j => u j ^ 2)) by (apply sqrt_sqrt, rsum_nonneg; intros; apply pow2_ge_0).
  rewrite EQ in Er. set (S' := rsum d (fun j => Rabs (v j))) in *. assert (PS : 0 <= S') by (apply rsum_nonneg; intros; apply Rabs_pos).
  set (p2 := rsum d (fun j => v j ^ 2)) in *. assert (Pp : 0 <= p2) by (apply rsum_nonneg; intros; apply pow2_ge_0).
  set (p := sqrt p2). assert (P0 : 0 <= p) by apply sqrt_pos. assert (pp : p * p = p2) by (apply sqrt_sqrt; exact Pp).
  assert (Y := sum_abs_le d v). fold S' p2 p in Y.
  set (t := sqrt 3) in *. assert (tt : t * t = 3) by (apply sqrt_sqrt; lra).
  assert (T1 : 1.732 < t) by (apply Rsqr_incrst_0; unfold Rsqr; try lra; apply sqrt_pos).
  assert (T2 : t < 1.7321) by (apply Rsqr_incrst_0; unfold Rsqr; try lra; apply sqrt_pos).
  assert (ID : 1 <= INR d) by (apply (le_INR 1); lia).
  set (k := sqrt (INR d / 3)).
  assert (EK : sqrt (INR d) = k * t). { unfold k, t. rewrite <- sqrt_mult_alt by lra. f_equal. field. }
  assert (Kk : k * k = INR d / 3) by (apply sqrt_sqrt; lra).
  assert (Kt : 1 <= k * t). { rewrite <- EK. rewrite <- sqrt_1. apply sqrt_le_1_alt. exact ID. }
  assert (Pk : 0 < k) by nra. assert (K1 : 0.577 < k) by nra.
  rewrite EK in Y. rewrite EA.
  assert (A1 : a <= r) by (clear - Er Pa Pr Pp; apply Rsqr_incr_0_var; unfold Rsqr; simpl in *; lra).
  assert (AP : a * p <= r * r / 2) by (clear - Er pp; assert (W := pow2_ge_0 (a - p)); simpl in *; lra).
  assert (AS : a * S' <= k * t * (r * r / 2)).
  { apply (Rle_trans _ (a * (k * t * p))); [apply Rmult_le_compat_l; lra|].
    replace (a * (k * t * p)) with (k * t * (a * p)) by ring. apply Rmult_le_compat_l; lra. }
  assert (kt2 : k * t <= 1.7321 * k) by nra.
  assert (AS2 : a * S' <= 1.7321 * k * (r * r / 2)).
  { eapply Rle_trans; [exact AS|]. apply Rmult_le_compat_r; nra. }
  assert (It : / t < 0.5774). { apply (Rmult_lt_reg_r t); [lra|]. rewrite Rinv_l by lra. lra. }
  assert (It0 : 0 < / t) by (apply Rinv_0_lt_compat; lra).
  assert (B1 : a / t * (1 + r) <= 0.5774 * (a * (1 + r))).
  { replace (a / t * (1 + r)) with (/ t * (a * (1 + r))) by (unfold Rdiv; ring). apply Rmult_le_compat_r; [nra|lra]. }
  assert (B2 : a / t <= k * a).
  { apply (Rmult_le_reg_r t); [lra|]. unfold Rdiv. rewrite Rmult_assoc, Rinv_l, Rmult_1_r by lra. nra. }
  destruct (Rle_lt_dec (a ^ 2) (1 + r)) as [L|L]; [|destruct (Rle_lt_dec r 2.4) as [L2|L2]].
  - eapply Rle_trans; [|apply (maM_max d r Hd Pr)]. apply Rmult_le_compat_r; [left; apply exp_pos|].
    unfold maF. fold k. rewrite Rabs_pos_eq by lra.
    assert (B3 : a / t * (1 + r) <= k * r + 0.5774 * (a * r)).
    { replace (a / t * (1 + r)) with (a / t + / t * (a * r)) by (unfold Rdiv; ring).
      apply Rplus_le_compat; [nra|]. apply Rmult_le_compat_r; [nra|lra]. }
    assert (B4 : 0.5774 * (a * r) - a ^ 2 <= r * r / 3) by (simpl; nra).
    assert (B5 : 1.7321 * k * (r * r / 2) <= k * (r * r)) by nra. simpl in *. lra.
  - eapply Rle_trans; [|apply (maM_max d r Hd Pr)]. apply Rmult_le_compat_r; [left; apply exp_pos|].
    unfold maF. fold k. rewrite Rabs_left by lra.
    assert (B3 : 0.5774 * (a * (1 + r)) <= 0.5774 * (r * (1 + r))) by nra.
    assert (B4 : a ^ 2 <= r * r) by (simpl; nra).
    assert (B6 : 0 <= (k - 0.577) * (r * r)) by (apply Rmult_le_pos; nra).
    assert (B7 : 0 <= (k - 0.577) * r) by (apply Rmult_le_pos; nra).
    assert (B8 : r * r * 1.17 <= 2 + 1.999 * r) by nra.
    simpl in *. lra.
  - eapply Rle_trans; [|apply (maM_max d 1.5 Hd); lra].
    rewrite Rabs_left by lra.
    assert (B3 : 0.5774 * (a * (1 + r)) <= 0.5774 * (r * (1 + r))) by nra.
    assert (B4 : a ^ 2 <= r * r) by (simpl; nra).
    assert (G : a / t * (1 + r) + (- (1 + r - a ^ 2) + a * S') <= (1.5774 + 0.86605 * k) * (r * r)) by (simpl in *; lra).
    assert (Q : r * r * exp (- r) <= 5.76 * exp (- (2.4))).
    { assert (Z := exp_ineq1_le ((r - 2.4) / 2.4)). set (e := exp ((r - 2.4) / 2.4)) in *.
      assert (E2 : e * e <= exp (r - 2.4)). { unfold e. rewrite <- exp_plus. apply exp_le. lra. }
      assert (E3 : exp (r - 2.4) * exp (- r) = exp (- (2.4))) by (rewrite <- exp_plus; f_equal; lra).
      rewrite <- E3, <- Rmult_assoc. apply Rmult_le_compat_r; [left; apply exp_pos|].
      assert (R1 : 0 <= r / 2.4) by lra. assert (R2 : r / 2.4 <= e) by lra.
      assert (R3 : r / 2.4 * (r / 2.4) <= e * e) by nra. lra. }
    assert (E9 : exp (- (2.4)) <= / 2.25 * exp (- (1.5))).
    { assert (Z := exp_ineq1_le 0.225). set (e := exp 0.225) in *.
      assert (E1 : 1.5 <= e * e) by nra. assert (E2 : 2.25 <= e * e * (e * e)) by nra.
      assert (E3 : e * e * (e * e) * exp (- (2.4)) = exp (- (1.5))) by (unfold e; rewrite <- !exp_plus; f_equal; lra).
      assert (Pe := exp_pos (- (2.4))). rewrite <- E3. assert (E5 := Rmult_le_compat_r _ _ _ (Rlt_le _ _ Pe) E2). lra. }
    apply (Rle_trans _ ((1.5774 + 0.86605 * k) * (r * r) * exp (- r))); [apply Rmult_le_compat_r; [left; apply exp_pos|exact G]|].
    rewrite Rmult_assoc. apply (Rle_trans _ ((1.5774 + 0.86605 * k) * (5.76 * (/ 2.25 * exp (- (1.5)))))).
    { apply Rmult_le_compat_l; [lra|]. eapply Rle_trans; [exact Q|]. apply Rmult_le_compat_l; [lra|exact E9]. }
    rewrite <- !Rmult_assoc. apply Rmult_le_compat_r; [left; apply exp_pos|]. unfold maF. fold k. simpl. lra.
Qed.
