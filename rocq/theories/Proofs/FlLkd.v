(** Rounding errors of the mean and of the log-likelihood, given a Cholesky factor with accurate solutions. *)
From Coq Require Import Reals List Arith Bool Lia Lra Psatz.
From Verif.Base Require Import NpLite NpFacts.
From Verif.Spec Require Import KernelSpec LinAlgSpec LkdSpec FloatSpec FloatKernSpec FloatLkdSpec.
From Verif.Model Require Import Chol CholFl EvalFl LkdFl.
From Verif.Proofs Require Import LinAlg CholCorrect Det FlOrder FlChol FlMargin FlSolve FlSol FlTarget FlEval.
Import ListNotations.
Local Open Scope R_scope.

(** an entry of A x in relation to the length of x *)
Lemma within_solves A x b : pd A -> solves A x b -> within A (energy A x) b.
Proof.
  intros HP S i Hi. assert (Esq := pd_square A HP). set (z := fun j => if (j =? i)%nat then 1 else 0).
  assert (E1 : dotp (nr A) b z = b i).
  { unfold dotp, z. rewrite (rsum_ext _ _ (fun j => if (j =? i)%nat then b j else 0)) by (intros j Hj; destruct (j =? i)%nat; ring). apply rsum_delta, Hi. }
  assert (E2 : bform (nr A) (mat_at A) z z = mat_at A i i).
  { unfold bform, z. rewrite (rsum_ext _ _ (fun r => if (r =? i)%nat then mat_at A r i else 0)).
    - apply (rsum_delta (nr A) i (fun r => mat_at A r i)). exact Hi.
    - intros r Hr. destruct (r =? i)%nat; [|apply rsum_0; intros; ring].
      rewrite (rsum_ext _ _ (fun j => if (j =? i)%nat then mat_at A r j else 0)) by (intros j Hj; destruct (j =? i)%nat; ring). apply rsum_delta, Hi. }
  assert (C := energy_cs A z x HP). rewrite (bform_solves A x z b HP S), E1 in C.
  replace (energy A z) with (sqrt (mat_at A i i)) in C; [lra|]. unfold energy. rewrite qform_bform by exact Esq. rewrite E2. reflexivity.
Qed.
(** a perturbation of the right-hand side that is small in relation to the diagonal *)
Lemma energy_within A k g x b : pd A -> scaled_cond_le A k -> 0 <= k -> 0 <= g -> solves A x b -> within A g b -> energy A x <= sqrt (INR (nr A) * k) * g.
Proof.
  intros HP HC K0 G0 S W. set (a := sqrt (INR (nr A) * k)). assert (A0 : 0 <= a) by apply sqrt_pos. assert (E0 := energy_nonneg A x).
  assert (Q : energy A x * energy A x <= g * (a * energy A x)).
  { rewrite energy_sq by exact HP. rewrite (bform_solves A x x b HP S). unfold dotp. eapply Rle_trans; [apply Rle_abs|]. eapply Rle_trans; [apply rsum_abs|].
    apply Rle_trans with (g * rsum (nr A) (fun j => sqrt (mat_at A j j) * Rabs (x j))); [|apply Rmult_le_compat_l; [exact G0|apply sum_energy; assumption]].
    rewrite <- rsum_scal. apply rsum_le; intros i Hi. rewrite Rabs_mult, <- Rmult_assoc. apply Rmult_le_compat_r; [apply Rabs_pos|apply W, Hi]. }
  destruct (Rle_lt_or_eq_dec 0 _ E0) as [P|Z]; [|rewrite <- Z; apply Rmult_le_pos; assumption].
  apply Rmult_le_reg_r with (energy A x); [exact P|]. lra.
Qed.
Lemma solves_lin A x y b c s t : solves A x b -> solves A y c -> solves A (fun i => s * x i + t * y i) (fun i => s * b i + t * c i).
Proof.
  intros H1 H2 i Hi. rewrite <- (H1 i Hi), <- (H2 i Hi). unfold mv. rewrite <- !rsum_scal, <- rsum_plus. apply rsum_ext; intros; ring.
Qed.
Lemma solves_eq A x b b' : solves A x b -> (forall i, (i < nr A)%nat -> b i = b' i) -> solves A x b'.
Proof. intros H E i Hi. rewrite <- E by exact Hi. apply H, Hi. Qed.
Lemma solution_of A b : pd A -> exists x, solves A x b.
Proof. intros HP. destruct (cho_factor_pd A true HP) as (c0 & _ & H0). exists (cho_solve_fn c0 b). apply cho_solve_solves, H0. Qed.

Section L.
Variables (u r k : R) (m : machine) (A : mat) (c : mat * bool).
Hypothesis Hm : machine_rounds u m.
Hypothesis HP : pd A.
Hypothesis EN : nr (fst c) = nr A.
Hypothesis HC : scaled_cond_le A k.
Hypothesis K0 : 0 <= k.
Hypothesis Hr : 0 <= r < 1.
Notation ar := (m_ar m).
Notation n := (nr A).
Notation sol := (cho_solve_fl ar c).
Hypothesis HA : forall b x, solves A x b -> accurate A r (sol b) x.
Let RO := mr_ar _ _ Hm.
Let Hu := ro_u _ _ RO.
Notation a := (sqrt (INR n * k)).
Notation p := (prod_acc u r k n).
Notation E := (energy A).

Lemma ir_pos : 0 < / (1 - r). Proof. apply Rinv_0_lt_compat. lra. Qed.
Lemma sol_energy b x : solves A x b -> E (sol b) <= / (1 - r) * E x.
Proof.
  intros S. destruct (HA b x S) as (_ & _ & H2). specialize (H2 (proj2 Hr)). assert (T := energy_sub A (sol b) x HP).
  replace (/ (1 - r) * E x) with (r / (1 - r) * E x + E x) by (field; lra). lra.
Qed.
(** sum of absolute products of a right-hand side with a computed solution *)
Lemma sol_abs b x b' x' : solves A x b -> solves A x' b' -> rsum n (fun j => Rabs (b j * sol b' j)) <= a / (1 - r) * (E x * E x').
Proof.
  intros S S'. apply Rle_trans with (E x * rsum n (fun j => sqrt (mat_at A j j) * Rabs (sol b' j))).
  - rewrite <- rsum_scal. apply rsum_le; intros i Hi. rewrite Rabs_mult, <- Rmult_assoc. apply Rmult_le_compat_r; [apply Rabs_pos|]. apply (within_solves A x b HP S i Hi).
  - assert (X := sum_energy A k (sol b') HP HC K0). assert (Y := sol_energy b' x' S'). unfold Rdiv. replace (a * / (1 - r) * (E x * E x')) with (E x * (a * (/ (1 - r) * E x'))) by ring.
    apply Rmult_le_compat_l; [apply energy_nonneg|]. eapply Rle_trans; [exact X|]. apply Rmult_le_compat_l; [apply sqrt_pos|exact Y].
Qed.
Lemma sol_dot b x b' x' : solves A x b -> solves A x' b' -> Rabs (dotp n b (sol b') - dotp n b x') <= r / (1 - r) * (E x * E x').
Proof.
  intros S S'. destruct (HA b' x' S') as (_ & _ & H2). specialize (H2 (proj2 Hr)).
  replace (dotp n b (sol b') - dotp n b x') with (dotp n b (fun i => sol b' i - x' i)) by (unfold dotp; rewrite <- rsum_minus; apply rsum_ext; intros; ring).
  rewrite <- (bform_solves A x _ b HP S). eapply Rle_trans; [apply energy_cs, HP|].
  replace (r / (1 - r) * (E x * E x')) with (r / (1 - r) * E x' * E x) by ring. apply Rmult_le_compat_r; [apply energy_nonneg|exact H2].
Qed.
Lemma p_eq : p = r / (1 - r) + gam u (n + 3) * (a / (1 - r)).
Proof. unfold prod_acc. field. lra. Qed.
Lemma p_nonneg : 0 <= p.
Proof.
  rewrite p_eq. assert (I := ir_pos). assert (G := gam_nonneg u (n + 3) Hu). assert (S := sqrt_pos (INR n * k)). unfold Rdiv.
  assert (0 <= r * / (1 - r)) by (apply Rmult_le_pos; lra). assert (0 <= a * / (1 - r)) by (apply Rmult_le_pos; lra). assert (0 <= gam u (n + 3) * (a * / (1 - r))) by (apply Rmult_le_pos; assumption). lra.
Qed.
(** a computed product of a right-hand side with a computed solution *)
Lemma prod_err b x b' x' : solves A x b -> solves A x' b' -> Rabs (dot_fl ar n b (sol b') - dotp n b x') <= p * (E x * E x').
Proof.
  intros S S'. assert (D := dot_fl_err u ar n b (sol b') RO). change (rsum n (fun j => b j * sol b' j)) with (dotp n b (sol b')) in D.
  assert (F := sol_dot b x b' x' S S'). assert (G := sol_abs b x b' x' S S').
  replace (dot_fl ar n b (sol b') - dotp n b x') with ((dot_fl ar n b (sol b') - dotp n b (sol b')) + (dotp n b (sol b') - dotp n b x')) by ring.
  eapply Rle_trans; [apply Rabs_triang|]. rewrite p_eq, Rmult_plus_distr_r.
  assert (G1 := gam_mono u (n + 1) (n + 3) Hu ltac:(lia)). assert (G0 := gam_nonneg u (n + 1) Hu).
  assert (X : gam u (n + 1) * rsum n (fun j => Rabs (b j * sol b' j)) <= gam u (n + 3) * (a / (1 - r) * (E x * E x'))).
  { apply Rmult_le_compat; auto. apply rsum_nonneg; intros; apply Rabs_pos. }
  lra.
Qed.

(** ** The mean *)
Variables (h y xh xy : nat -> R).
Hypothesis Sh : solves A xh h.
Hypothesis Sy : solves A xy y.
Hypothesis Hh : nonzero n h.
Hypothesis P1 : p < 1.
Notation H := (E xh).
Notation Y := (E xy).
Notation bs := (dotp n y xh / dotp n h xh).
Notation bh := (beta_fl m c h y).
Notation C := (beta_acc u r k n).
Lemma HH : H * H = dotp n h xh. Proof. rewrite energy_sq by exact HP. apply (bform_solves A xh xh h HP Sh). Qed.
Lemma YY : Y * Y = dotp n y xy. Proof. rewrite energy_sq by exact HP. apply (bform_solves A xy xy y HP Sy). Qed.
Lemma H_pos : 0 < H.
Proof.
  assert (N : nonzero n xh).
  { destruct (nonzero_dec n xh) as [N|Z]; [exact N|]. exfalso. destruct Hh as (i & Hi & Hn). apply Hn. rewrite <- (Sh i Hi). unfold mv. apply rsum_0. intros j Hj. assert (Esq := pd_square A HP). rewrite <- Esq in Hj. rewrite (Z j Hj). ring. }
  unfold energy. apply sqrt_lt_R0. apply HP, N.
Qed.
Lemma C_nonneg : 0 <= C.
Proof. unfold beta_acc. cbv zeta. assert (P := p_nonneg). assert (I : 0 < / (1 - p)) by (apply Rinv_0_lt_compat; lra). unfold Rdiv. apply Rmult_le_pos; lra. Qed.
Lemma bs_size : Rabs bs * H <= Y.
Proof.
  assert (HP1 := H_pos). assert (D : Rabs (dotp n y xh) <= H * Y). { rewrite <- (bform_solves A xy xh y HP Sy). apply energy_cs, HP. }
  rewrite <- HH. unfold Rdiv. rewrite Rabs_mult, Rabs_inv, (Rabs_pos_eq (H * H)) by nra. apply Rmult_le_reg_r with H; [exact HP1|].
  replace (Rabs (dotp n y xh) * / (H * H) * H * H) with (Rabs (dotp n y xh)) by (field; lra). lra.
Qed.
Lemma beta_err : Rabs (bh - bs) * H <= C * Y.
Proof.
  assert (PH := H_pos). assert (P0 := p_nonneg). assert (Y0 := energy_nonneg A xy). unfold beta_fl. cbv zeta. rewrite EN.
  set (w := sol h). set (s := dot_fl ar n h w). assert (Es := prod_err h xh h xh Sh Sh). fold w s in Es. rewrite <- HH in Es.
  assert (Q : 0 < H * H) by nra. apply Rabs_le_both in Es. assert (S0 : (1 - p) * (H * H) <= s) by lra. assert (SP : 0 < s) by (assert (0 < (1 - p) * (H * H)) by (apply Rmult_lt_0_compat; lra); lra).
  set (t := fun j => f_quo ar (w j) s). set (b := dot_fl ar n t y).
  assert (T : forall j, Rabs (t j - w j / s) <= gam u 2 * Rabs (w j / s)) by (intros j; apply (ro_quo _ _ RO); lra).
  assert (G2 := gam_nonneg u 2 Hu). assert (Gn := gam_nonneg u (n + 1) Hu).
  set (Q0 := rsum n (fun j => Rabs (y j * w j))). assert (QQ := sol_abs y xy h xh Sy Sh). fold w Q0 in QQ. assert (DD := sol_dot y xy h xh Sy Sh). fold w in DD.
  assert (B1 : Rabs (b - rsum n (fun j => t j * y j)) <= gam u (n + 1) * rsum n (fun j => Rabs (t j * y j))) by apply (dot_fl_err u ar n t y RO).
  assert (IS : 0 < / s) by (apply Rinv_0_lt_compat, SP).
  assert (AS : forall j, Rabs (w j / s) * Rabs (y j) = / s * Rabs (y j * w j)) by (intros j; unfold Rdiv; rewrite !Rabs_mult, (Rabs_pos_eq (/ s)) by lra; ring).
  assert (B2 : rsum n (fun j => Rabs (t j * y j)) <= (1 + gam u 2) * (/ s * Q0)).
  { unfold Q0. rewrite <- !rsum_scal. apply rsum_le; intros j Hj. rewrite <- AS, Rabs_mult, <- Rmult_assoc. apply Rmult_le_compat_r; [apply Rabs_pos|].
    assert (X := T j). replace (t j) with ((t j - w j / s) + w j / s) by ring. eapply Rle_trans; [apply Rabs_triang|]. lra. }
  assert (B3 : Rabs (rsum n (fun j => t j * y j) - / s * dotp n y w) <= gam u 2 * (/ s * Q0)).
  { unfold Q0, dotp. rewrite <- !rsum_scal, <- rsum_minus. eapply Rle_trans; [apply rsum_abs|]. apply rsum_le; intros j Hj.
    replace (t j * y j - / s * (y j * w j)) with ((t j - w j / s) * y j) by (unfold Rdiv; ring). rewrite Rabs_mult, <- AS, <- Rmult_assoc. apply Rmult_le_compat_r; [apply Rabs_pos|apply T]. }
  assert (B4 : Rabs (b - / s * dotp n y w) <= gam u (n + 3) * (/ s * Q0)).
  { replace (b - / s * dotp n y w) with ((b - rsum n (fun j => t j * y j)) + (rsum n (fun j => t j * y j) - / s * dotp n y w)) by ring. eapply Rle_trans; [apply Rabs_triang|].
    assert (X : gam u (n + 1) * rsum n (fun j => Rabs (t j * y j)) <= gam u (n + 1) * ((1 + gam u 2) * (/ s * Q0))) by (apply Rmult_le_compat_l; assumption).
    replace (n + 3)%nat with ((n + 1) + 2)%nat by lia. rewrite <- (gam_add u (n + 1) 2). lra. }
  (* multiply by s *)
  assert (B5 : Rabs (b * s - dotp n y xh) <= p * (H * Y)).
  { replace (b * s - dotp n y xh) with ((b - / s * dotp n y w) * s + (dotp n y w - dotp n y xh)) by (field; lra). eapply Rle_trans; [apply Rabs_triang|]. rewrite Rabs_mult, (Rabs_pos_eq s) by lra.
    assert (X : Rabs (b - / s * dotp n y w) * s <= gam u (n + 3) * Q0). { apply Rle_trans with (gam u (n + 3) * (/ s * Q0) * s); [apply Rmult_le_compat_r; lra|]. right. field. lra. }
    assert (Z : gam u (n + 3) * Q0 <= gam u (n + 3) * (a / (1 - r) * (Y * H))) by (apply Rmult_le_compat_l; [apply gam_nonneg, Hu|exact QQ]). rewrite p_eq. lra. }
  assert (BS := bs_size). set (b0 := bs) in *. assert (EB : b0 * (H * H) = dotp n y xh). { unfold b0. rewrite <- HH. field. nra. }
  assert (B6 : Rabs (b - b0) * s <= 2 * p * (H * Y)).
  { replace (Rabs (b - b0) * s) with (Rabs ((b - b0) * s)) by (rewrite Rabs_mult, (Rabs_pos_eq s) by lra; reflexivity).
    replace ((b - b0) * s) with ((b * s - dotp n y xh) + b0 * (H * H - s)) by (rewrite <- EB; ring). eapply Rle_trans; [apply Rabs_triang|]. rewrite Rabs_mult.
    assert (X : Rabs (H * H - s) <= p * (H * H)) by (apply Rabs_le; lra).
    assert (Z : Rabs b0 * Rabs (H * H - s) <= Rabs b0 * (p * (H * H))) by (apply Rmult_le_compat_l; [apply Rabs_pos|exact X]).
    assert (W : (Rabs b0 * H) * (p * H) <= Y * (p * H)) by (apply Rmult_le_compat_r; [apply Rmult_le_pos; lra|exact BS]). lra. }
  assert (B7 : Rabs (b - b0) * ((1 - p) * (H * H)) <= 2 * p * (H * Y)).
  { eapply Rle_trans; [|exact B6]. apply Rmult_le_compat_l; [apply Rabs_pos|exact S0]. }
  unfold beta_acc. cbv zeta. apply Rmult_le_reg_r with ((1 - p) * H); [apply Rmult_lt_0_compat; lra|].
  replace (2 * p / (1 - p) * Y * ((1 - p) * H)) with (2 * p * (H * Y)) by (field; lra). lra.
Qed.

(** ** The weighted sum of squares of the residuals *)
Notation dv := (fun b i => 1 * y i + - b * h i).
Notation dx := (fun b i => 1 * xy i + - b * xh i).
Definition qb (b : R) : R := dotp n (dv b) (dx b).
Lemma dv_solves b : solves A (dx b) (dv b). Proof. apply solves_lin; assumption. Qed.
Lemma qb_sq b : E (dx b) * E (dx b) = qb b.
Proof. rewrite energy_sq by exact HP. apply (bform_solves A (dx b) (dx b) (dv b) HP (dv_solves b)). Qed.
Lemma qb_eq b : qb b = Y * Y - 2 * b * dotp n y xh + b * b * (H * H).
Proof.
  rewrite HH, YY. assert (X : dotp n h xy = dotp n y xh).
  { rewrite <- (bform_solves A xh xy h HP Sh), <- (bform_solves A xy xh y HP Sy). apply bform_sym, symf_of, HP. }
  replace (qb b) with (dotp n y xy - b * dotp n y xh - b * dotp n h xy + b * b * dotp n h xh); [rewrite X; ring|].
  unfold qb, dotp. rewrite <- !rsum_scal, <- !rsum_minus, <- rsum_plus. apply rsum_ext; intros; ring.
Qed.
Lemma qb_min b : qb b = qb bs + (b - bs) * (b - bs) * (H * H).
Proof.
  rewrite !qb_eq. assert (P := H_pos). assert (EB : bs * (H * H) = dotp n y xh) by (rewrite <- HH; field; nra). set (b0 := bs) in *. rewrite <- EB. ring.
Qed.
Lemma qb_le : qb bs <= Y * Y.
Proof. assert (X := qb_min 0). rewrite (qb_eq 0) in X. assert (0 <= (0 - bs) * (0 - bs) * (H * H)) by (replace ((0 - bs) * (0 - bs) * (H * H)) with ((bs * H) * (bs * H)) by ring; apply Rle_0_sqr). lra. Qed.
Lemma diff_err b : within A (gam u 3 * (Y + Rabs b * H)) (fun i => 1 * diff_fl m h y b i + -1 * dv b i).
Proof.
  intros i Hi. unfold diff_fl. set (md := dot_fl ar 1 (fun _ => h i) (fun _ => b)).
  assert (D := dot_fl_err u ar 1 (fun _ => h i) (fun _ => b) RO). fold md in D. cbn [rsum] in D. rewrite !Rplus_0_l in D. change (1 + 1)%nat with 2%nat in D.
  destruct (ro_sub _ _ RO (y i) md) as (N & _). set (z := f_sub ar (y i) md) in *.
  assert (WY := within_solves A xy y HP Sy i Hi). assert (WH := within_solves A xh h HP Sh i Hi). assert (SQ := sqrt_pos (mat_at A i i)).
  assert (G3 := gam_nonneg u 3 Hu). assert (G2 := gam_nonneg u 2 Hu).
  assert (MD : Rabs md <= (1 + gam u 2) * Rabs (h i * b)). { replace md with ((md - h i * b) + h i * b) by ring. eapply Rle_trans; [apply Rabs_triang|]. lra. }
  assert (B0 := Rabs_pos b).
  replace (1 * z + -1 * (1 * y i + - b * h i)) with ((z - (y i - md)) - (md - h i * b)) by ring.
  apply Rle_trans with (gam u 3 * (Rabs (y i) + Rabs (h i * b))).
  - unfold Rminus at 1. eapply Rle_trans; [apply Rabs_triang|]. rewrite Rabs_Ropp. fold (Rminus z (y i - md)).
    assert (X : Rabs (y i - md) <= Rabs (y i) + Rabs md). { unfold Rminus. eapply Rle_trans; [apply Rabs_triang|]. rewrite Rabs_Ropp. lra. }
    assert (X2 : u * Rabs (y i - md) <= u * (Rabs (y i) + (1 + gam u 2) * Rabs (h i * b))) by (apply Rmult_le_compat_l; [exact Hu|lra]).
    assert (G13 : u <= gam u 3) by (replace u with (gam u 1) at 1 by (unfold gam; cbn [pow]; ring); apply gam_mono; [exact Hu|lia]). assert (Y0 := Rabs_pos (y i)).
    assert (X3 : u * Rabs (y i) <= gam u 3 * Rabs (y i)) by (apply Rmult_le_compat_r; assumption). rewrite (gam_S u 2) in *. lra.
  - rewrite (Rmult_assoc (gam u 3)). apply Rmult_le_compat_l; [exact G3|]. rewrite Rabs_mult. assert (Rabs (h i) * Rabs b <= H * sqrt (mat_at A i i) * Rabs b) by (apply Rmult_le_compat_r; assumption). lra.
Qed.
Lemma quad_err : let rh := diff_fl m h y bh in Rabs (dot_fl ar n rh (sol rh) - qb bs) <= quad_acc u r k n * (Y * Y).
Proof.
  cbv zeta. set (rh := diff_fl m h y bh). set (b := bh) in *. set (b0 := bs) in *. assert (PH := H_pos). assert (P0 := p_nonneg). assert (C0 := C_nonneg). assert (Y0 := energy_nonneg A xy). assert (G3 := gam_nonneg u 3 Hu). assert (A0 := sqrt_pos (INR n * k)).
  assert (BE : Rabs (b - b0) * H <= C * Y) by apply beta_err. assert (BS : Rabs b0 * H <= Y) by apply bs_size.
  assert (BB : Rabs b * H <= (1 + C) * Y). { replace b with ((b - b0) + b0) by ring. assert (X := Rabs_triang (b - b0) b0). assert (Rabs (b - b0 + b0) * H <= (Rabs (b - b0) + Rabs b0) * H) by (apply Rmult_le_compat_r; lra). lra. }
  destruct (solution_of A rh HP) as (xr & Sr). set (ep := a * gam u 3 * (2 + C)). assert (E0 : 0 <= ep) by (unfold ep; apply Rmult_le_pos; [apply Rmult_le_pos; assumption|lra]).
  assert (SD := solves_lin A xr (dx b) rh (dv b) 1 (-1) Sr (dv_solves b)). cbv beta in SD.
  assert (YB : 0 <= Y + Rabs b * H) by (assert (0 <= Rabs b * H) by (apply Rmult_le_pos; [apply Rabs_pos|lra]); lra).
  assert (ED := energy_within A k (gam u 3 * (Y + Rabs b * H)) _ _ HP HC K0 (Rmult_le_pos _ _ G3 YB) SD (diff_err b)).
  assert (ED2 : E (fun i => 1 * xr i + -1 * dx b i) <= ep * Y).
  { eapply Rle_trans; [exact ED|]. unfold ep. replace (a * gam u 3 * (2 + C) * Y) with (a * (gam u 3 * ((2 + C) * Y))) by ring. apply Rmult_le_compat_l; [exact A0|]. apply Rmult_le_compat_l; [exact G3|]. lra. }
  set (F := E xr). set (G := E (dx b)) in *. assert (F0 : 0 <= F) by apply energy_nonneg. assert (G0 : 0 <= G) by apply energy_nonneg.
  assert (EX : forall f g, (forall i, f i = g i) -> E f = E g). { intros f g Hfg. unfold energy. f_equal. rewrite !qform_bform by (apply pd_square, HP). apply bform_ext; intros; auto. }
  assert (FG : F <= G + ep * Y).
  { assert (T := energy_triangle A (dx b) (fun i => 1 * xr i + -1 * dx b i) HP). rewrite (EX _ xr) in T by (intros; ring). fold F G in T. lra. }
  assert (GF : G <= F + ep * Y).
  { assert (T := energy_triangle A xr (fun i => -1 * (1 * xr i + -1 * dx b i)) HP). rewrite (EX _ (dx b)) in T by (intros; ring). fold F G in T.
    assert (N : E (fun i => -1 * (1 * xr i + -1 * dx b i)) = E (fun i => 1 * xr i + -1 * dx b i)).
    { unfold energy. f_equal. rewrite !qform_bform by (apply pd_square, HP). unfold bform. apply rsum_ext; intros; apply rsum_ext; intros; ring. } lra. }
  assert (GQ : G * G = qb b0 + (b - b0) * (b - b0) * (H * H)) by (unfold G; rewrite qb_sq; apply qb_min).
  assert (QL : qb b0 <= Y * Y) by apply qb_le.
  assert (D0 := Rabs_pos (b - b0)). assert (DS : (b - b0) * (b - b0) * (H * H) = (Rabs (b - b0) * H) * (Rabs (b - b0) * H)). { replace ((b - b0) * (b - b0)) with (Rabs (b - b0) * Rabs (b - b0)) by (rewrite <- Rabs_mult; apply Rabs_pos_eq, Rle_0_sqr). ring. }
  set (w := Rabs (b - b0) * H) in *. assert (W0 : 0 <= w) by (apply Rmult_le_pos; lra). set (cy := C * Y) in *. assert (CY0 : 0 <= cy) by (apply Rmult_le_pos; assumption).
  assert (WW : w * w <= cy * cy) by (apply Rmult_le_compat; assumption).
  assert (GU : G <= Y + cy). { apply Rsqr_incr_0_var; [|lra]. unfold Rsqr. assert (0 <= Y * cy) by (apply Rmult_le_pos; assumption). lra. }
  set (ey := ep * Y) in *. assert (EY0 : 0 <= ey) by (apply Rmult_le_pos; assumption).
  assert (FU : F <= Y + cy + ey) by lra.
  assert (PE := prod_err rh xr rh xr Sr Sr). assert (RR : dotp n rh xr = F * F). { unfold F. rewrite energy_sq by exact HP. symmetry. apply (bform_solves A xr xr rh HP Sr). }
  rewrite RR in PE. fold F in PE. set (q := dot_fl ar n rh (sol rh)) in *.
  assert (FF : F * F <= (Y + cy + ey) * (Y + cy + ey)) by (apply Rmult_le_compat; assumption).
  assert (PF : p * (F * F) <= p * ((Y + cy + ey) * (Y + cy + ey))) by (apply Rmult_le_compat_l; assumption).
  assert (FG2 : Rabs (F * F - G * G) <= ey * (2 * (Y + cy) + ey)).
  { replace (F * F - G * G) with ((F - G) * (F + G)) by ring. rewrite Rabs_mult, (Rabs_pos_eq (F + G)) by lra. apply Rmult_le_compat; [apply Rabs_pos|lra|apply Rabs_le; lra|lra]. }
  replace (quad_acc u r k n * (Y * Y)) with (p * ((Y + cy + ey) * (Y + cy + ey)) + cy * cy + ey * (2 * (Y + cy) + ey)).
  2:{ unfold quad_acc. cbv zeta. fold ep. unfold ey, cy. ring. }
  replace (q - qb b0) with ((q - F * F) + ((F * F - G * G) + w * w)) by (rewrite <- DS; lra).
  eapply Rle_trans; [apply Rabs_triang|]. assert (T := Rabs_triang (F * F - G * G) (w * w)). rewrite (Rabs_pos_eq (w * w)) in T by nra. lra.
Qed.

(** ** The logarithm of the determinant *)
Hypothesis HL : exists L, is_chol n L A /\ forall i, (i < n)%nat -> 0 < mat_at (fst c) i i /\ Rabs (2 * ln (mat_at (fst c) i i) - 2 * ln (L i i)) <= - ln (1 - r).
Lemma pivot_size L i : is_chol n L A -> (i < n)%nat -> L i i * L i i <= mat_at A i i <= k * (L i i * L i i).
Proof.
  intros CL Hi. assert (CL' := CL). destruct CL' as (_ & _ & LP & LE). assert (Esq := pd_square A HP). split.
  - rewrite (LE i i Hi Hi). apply Rle_trans with (low L i i * low L i i); [unfold low; rewrite Nat.leb_refl; lra|].
    apply (rsum_ge_one n (fun q => low L i q * low L i q) i Hi). intros; apply Rle_0_sqr.
  - set (D := mkmat n n (fun i j => if (i =? j)%nat then mat_at A i i else 0)). set (S := fun i j => if (i =? j)%nat then sqrt (mat_at A i i) else 0).
    assert (DPos : forall j, (j < n)%nat -> 0 < mat_at A j j) by (intros; apply pd_diag; assumption).
    assert (CD : is_chol n S D).
    { split; [reflexivity|]. split; [reflexivity|]. split.
      - intros j Hj. unfold S. rewrite Nat.eqb_refl. apply sqrt_lt_R0, DPos, Hj.
      - intros a0 b0 Ha Hb. cbn [D mat_at]. rewrite (rsum_single n a0).
        + unfold low, S. rewrite Nat.leb_refl, Nat.eqb_refl. destruct (Nat.eqb_spec a0 b0) as [<-|Ne].
          * rewrite Nat.leb_refl. rewrite Nat.eqb_refl. rewrite sqrt_sqrt; [reflexivity|left; apply DPos, Ha].
          * destruct (Nat.leb_spec a0 b0); [|ring]. destruct (Nat.eqb_spec b0 a0); [lia|ring].
        + exact Ha.
        + intros q Hq Nq. unfold low, S. destruct (Nat.leb_spec q a0); [|ring]. destruct (Nat.eqb_spec a0 q); [congruence|ring]. }
    assert (X := pivot_le n S L D A k i CD CL Hi). unfold S in X. rewrite Nat.eqb_refl, sqrt_sqrt in X by (left; apply DPos, Hi). apply X. intros v.
    assert (Q := HC v). rewrite qform_bform in Q by exact Esq. eapply Rle_trans; [|exact Q]. right. unfold len. rewrite nrm_sq. unfold dotp, bform. cbn [D mat_at].
    apply rsum_ext; intros j Hj. rewrite (rsum_ext n _ (fun q => if (q =? j)%nat then v j * mat_at A j j * v j else 0)).
    + rewrite (rsum_delta n j (fun _ => v j * mat_at A j j * v j) Hj). assert (P := sqrt_sqrt (mat_at A j j) (Rlt_le _ _ (DPos j Hj))). rewrite <- P at 1. ring.
    + intros q _. rewrite (Nat.eqb_sym j q). destruct (Nat.eqb_spec q j) as [->|Ne]; ring.
Qed.
Lemma lndet_err : Rabs (lndet_fl m c - ln (det n (mat_at A))) <= det_acc u r k A.
Proof.
  destruct HL as (L & CL & HLi). destruct (logdet_chol n L A CL) as (_ & ED). rewrite ED. unfold lndet_fl. rewrite EN.
  set (l := map (fun i => m_ln m (mat_at (fst c) i i)) (seq 0 n)). assert (G2 := gam_nonneg u 2 Hu). assert (Gn := gam_nonneg u n Hu). assert (G3 := gam_nonneg u (n + 3) Hu).
  set (x := fun i => ln (mat_at (fst c) i i)). set (S := rsum n (fun i => Rabs (x i))). assert (S0 : 0 <= S) by (apply rsum_nonneg; intros; apply Rabs_pos).
  assert (NR : forall i, (i < n)%nat -> Rabs (m_ln m (mat_at (fst c) i i) - x i) <= gam u 2 * Rabs (x i)) by (intros i Hi; apply (mr_ln _ _ Hm), HLi, Hi).
  assert (TL : total l = rsum n (fun i => m_ln m (mat_at (fst c) i i))) by apply total_seq.
  assert (TA : total (map Rabs l) <= (1 + gam u 2) * S).
  { unfold l. rewrite map_map, total_seq. unfold S. rewrite <- rsum_scal. apply rsum_le; intros i Hi. assert (X := NR i Hi). replace (m_ln m (mat_at (fst c) i i)) with ((m_ln m (mat_at (fst c) i i) - x i) + x i) by ring. eapply Rle_trans; [apply Rabs_triang|]. lra. }
  assert (LL : length l = n) by (unfold l; rewrite map_length, seq_length; reflexivity).
  assert (B1 := mr_any _ _ Hm l). rewrite LL in B1.
  assert (B2 : Rabs (total l - rsum n x) <= gam u 2 * S).
  { rewrite TL, <- rsum_minus. eapply Rle_trans; [apply rsum_abs|]. unfold S. rewrite <- rsum_scal. apply rsum_le; intros i Hi. apply NR, Hi. }
  assert (B3 : Rabs (m_sum m l - rsum n x) <= gam u (n + 2) * S).
  { replace (m_sum m l - rsum n x) with ((m_sum m l - total l) + (total l - rsum n x)) by ring. eapply Rle_trans; [apply Rabs_triang|].
    assert (gam u n * total (map Rabs l) <= gam u n * ((1 + gam u 2) * S)) by (apply Rmult_le_compat_l; assumption). rewrite <- (gam_add u n 2). lra. }
  destruct (ro_mul _ _ RO 2 (m_sum m l)) as (M & _). set (z := f_mul ar 2 (m_sum m l)) in *.
  assert (SX : Rabs (rsum n x) <= S) by apply rsum_abs.
  assert (B4 : Rabs (z - 2 * rsum n x) <= gam u (n + 3) * (2 * S)).
  { replace (z - 2 * rsum n x) with ((z - 2 * m_sum m l) + 2 * (m_sum m l - rsum n x)) by ring. eapply Rle_trans; [apply Rabs_triang|]. rewrite (Rabs_mult 2 (m_sum m l - rsum n x)). rewrite (Rabs_mult 2) in M. rewrite (Rabs_pos_eq 2) in * by lra.
    assert (X : Rabs (m_sum m l) <= (1 + gam u (n + 2)) * S). { replace (m_sum m l) with ((m_sum m l - rsum n x) + rsum n x) by ring. eapply Rle_trans; [apply Rabs_triang|]. lra. }
    assert (X2 : u * (2 * Rabs (m_sum m l)) <= u * (2 * ((1 + gam u (n + 2)) * S))) by (apply Rmult_le_compat_l; [exact Hu|lra]). replace (n + 3)%nat with (Datatypes.S (n + 2)) by lia. rewrite gam_S. lra. }
  set (d := - ln (1 - r)) in *.
  assert (LA : forall i, (i < n)%nat -> 2 * Rabs (x i) <= Rabs (ln (mat_at A i i)) + (ln k + d)).
  { intros i Hi. destruct (HLi i Hi) as (CP & CE). destruct (pivot_size L i CL Hi) as (Q1 & Q2). assert (LP : 0 < L i i) by (apply CL; exact Hi). assert (PP : 0 < L i i * L i i) by nra.
    assert (KP : 0 < k). { destruct (Rle_lt_or_eq_dec 0 k K0) as [X|X]; [exact X|exfalso]. rewrite <- X in Q2. lra. }
    apply ln_le_mono in Q1; [|exact PP]. assert (AP := pd_diag A i HP Hi). apply ln_le_mono in Q2; [|exact AP]. rewrite (ln_mult k) in Q2 by assumption. rewrite !ln_sq in Q1, Q2 by exact LP.
    assert (LK : 0 <= ln k) by lra. replace (2 * Rabs (x i)) with (Rabs (2 * x i)) by (rewrite Rabs_mult, (Rabs_pos_eq 2) by lra; reflexivity).
    replace (2 * x i) with ((2 * x i - 2 * ln (L i i)) + 2 * ln (L i i)) by ring. eapply Rle_trans; [apply Rabs_triang|]. unfold x at 1.
    assert (X : Rabs (2 * ln (L i i)) <= Rabs (ln (mat_at A i i)) + ln k). { apply Rabs_le. assert (Y1 := Rle_abs (ln (mat_at A i i))). assert (Y2 := Rle_abs (- ln (mat_at A i i))). rewrite Rabs_Ropp in Y2. lra. } lra. }
  assert (SA : 2 * S <= rsum n (fun i => Rabs (ln (mat_at A i i))) + INR n * (ln k + d)).
  { unfold S. rewrite <- rsum_scal. rewrite <- (Rmult_comm (ln k + d)), <- (rsum_const n (ln k + d)) || rewrite <- (rsum_const n (ln k + d)). rewrite <- rsum_plus. apply rsum_le. exact LA. }
  assert (B5 : Rabs (2 * rsum n x - 2 * rsum n (fun i => ln (L i i))) <= INR n * d).
  { rewrite <- !rsum_scal, <- rsum_minus. eapply Rle_trans; [apply rsum_abs|]. replace (INR n * d) with (rsum n (fun _ => d)) by (rewrite rsum_const; ring). apply rsum_le; intros i Hi. apply HLi, Hi. }
  unfold det_acc. cbv zeta. replace (ln k - ln (1 - r)) with (ln k + d) by (unfold d; ring). replace (- (INR n * ln (1 - r))) with (INR n * d) by (unfold d; ring).
  replace (z - 2 * rsum n (fun i => ln (L i i))) with ((z - 2 * rsum n x) + (2 * rsum n x - 2 * rsum n (fun i => ln (L i i)))) by ring. eapply Rle_trans; [apply Rabs_triang|].
  assert (gam u (n + 3) * (2 * S) <= gam u (n + 3) * (rsum n (fun i => Rabs (ln (mat_at A i i))) + INR n * (ln k + d))) by (apply Rmult_le_compat_l; assumption). lra.
Qed.
Lemma lkd_err : let L := - (ln (det n (mat_at A)) + qb bs) / 2 in Rabs (lkd_fl m c h y - L) <= lkd_acc u r k A (dotp n y xy) L.
Proof.
  cbv zeta. unfold lkd_fl. cbv zeta. rewrite EN. assert (Q := quad_err). cbv zeta in Q. rewrite YY in Q. set (q := dot_fl ar n _ _) in *. assert (D := lndet_err). set (ld := lndet_fl m c) in *. set (l0 := ln (det n (mat_at A))) in *. set (q0 := qb bs) in *.
  set (L := - (l0 + q0) / 2). unfold lkd_acc. cbv zeta. set (W := (det_acc u r k A + quad_acc u r k n * dotp n y xy) / 2).
  destruct (mr_add _ _ Hm ld q) as (N1 & _). set (s := m_add m ld q) in *. destruct (ro_div _ _ RO (- s) 2 ltac:(lra)) as (N2 & _). set (z := f_div ar (- s) 2) in *.
  assert (LW : Rabs (- (ld + q) / 2 - L) <= W).
  { unfold L. replace (- (ld + q) / 2 - - (l0 + q0) / 2) with (- ((ld - l0) + (q - q0)) / 2) by field. unfold Rdiv. rewrite Rabs_mult, Rabs_Ropp, (Rabs_pos_eq (/ 2)) by lra. assert (T := Rabs_triang (ld - l0) (q - q0)). unfold W. lra. }
  assert (E1 : Rabs (- (ld + q) / 2) <= Rabs L + W). { replace (- (ld + q) / 2) with ((- (ld + q) / 2 - L) + L) by ring. eapply Rle_trans; [apply Rabs_triang|]. lra. }
  assert (E2 : Rabs (ld + q) = 2 * Rabs (- (ld + q) / 2)). { unfold Rdiv. rewrite Rabs_mult, Rabs_Ropp, (Rabs_pos_eq (/ 2)) by lra. lra. }
  set (X := Rabs (- (ld + q) / 2)) in *. rewrite E2 in N1.
  assert (N1' : Rabs (- s / 2 - - (ld + q) / 2) <= u * X). { replace (- s / 2 - - (ld + q) / 2) with (- (s - (ld + q)) / 2) by field. unfold Rdiv. rewrite Rabs_mult, Rabs_Ropp, (Rabs_pos_eq (/ 2)) by lra. lra. }
  assert (S1 : Rabs (- s / 2) <= (1 + u) * X). { replace (- s / 2) with ((- s / 2 - - (ld + q) / 2) + - (ld + q) / 2) by ring. eapply Rle_trans; [apply Rabs_triang|]. fold X. lra. }
  assert (N3 : Rabs (z - - (ld + q) / 2) <= gam u 2 * X).
  { replace (z - - (ld + q) / 2) with ((z - - s / 2) + (- s / 2 - - (ld + q) / 2)) by ring. eapply Rle_trans; [apply Rabs_triang|].
    assert (u * Rabs (- s / 2) <= u * ((1 + u) * X)) by (apply Rmult_le_compat_l; assumption). unfold gam. cbn [pow]. lra. }
  replace (z - L) with ((z - - (ld + q) / 2) + (- (ld + q) / 2 - L)) by ring. eapply Rle_trans; [apply Rabs_triang|].
  assert (gam u 2 * X <= gam u 2 * (Rabs L + W)) by (apply Rmult_le_compat_l; [apply gam_nonneg, Hu|exact E1]). lra.
Qed.
(** the exact value is the best likelihood *)
Lemma best_lkd res : (forall b i, (i < n)%nat -> res b i = y i - b * h i) -> best_likelihood A res bs (- (ln (det n (mat_at A)) + qb bs) / 2).
Proof.
  intros HRes. assert (SR : forall b, solves A (dx b) (res b)) by (intros b; eapply solves_eq; [apply dv_solves|]; intros i Hi; cbv beta; rewrite HRes by exact Hi; ring).
  assert (WQ : forall b q, weighted_square A (res b) q -> q = qb b).
  { intros b q (x & Sx & ->). rewrite <- (bform_solves A x x (res b) HP Sx). unfold qb.
    assert (X : forall i, (i < n)%nat -> x i = dx b i). { intros i Hi. exact (pd_unique A x (dx b) (res b) HP Sx (SR b) i Hi). }
    rewrite (bform_ext n (mat_at A) (mat_at A) x x (dx b) (dx b)) by (intros; auto). apply (bform_solves A (dx b) (dx b) (dv b) HP (dv_solves b)). }
  split.
  - exists (qb bs). split; [|reflexivity]. exists (dx bs). split; [apply SR|]. unfold qb, dotp. apply rsum_ext; intros i Hi. rewrite HRes by exact Hi. ring.
  - intros b L' (q & W & ->). apply WQ in W. subst q. assert (X := qb_min b). assert (0 <= (b - bs) * (b - bs) * (H * H)) by (apply Rmult_le_pos; apply Rle_0_sqr). lra.
Qed.
End L.
