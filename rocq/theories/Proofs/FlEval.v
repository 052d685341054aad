(** The predicted mean and variance in an arithmetic with rounding errors. *)
From Coq Require Import Reals List Arith Bool Lia Lra Psatz.
From Verif.Base Require Import NpLite NpFacts.
From Verif.Spec Require Import KernelSpec LinAlgSpec FloatSpec.
From Verif.Model Require Import Chol CholFl EvalFl.
From Verif.Proofs Require Import LinAlg CholCorrect FlChol FlMargin FlSolve FlSol.
Import ListNotations.
Local Open Scope R_scope.

Lemma add_near u ar a b : rounds u ar -> near u (a + b) (f_add ar a b).
Proof. intros RO. unfold f_add. replace (a + b) with (a - - b) by ring. apply (ro_sub _ _ RO). Qed.
Lemma dot_fl_err u ar m f g : rounds u ar ->
  Rabs (dot_fl ar m f g - rsum m (fun j => f j * g j)) <= gam u (m + 1) * rsum m (fun j => Rabs (f j * g j)).
Proof. intros RO. assert (X := ro_dot _ _ RO (pairs f g m)). rewrite pairs_length, pairs_sum, pairs_abs in X. exact X. Qed.

(** sum and sum of squares *)
Lemma sum_sq n (x : nat -> R) : rsum n x ^ 2 <= INR n * rsum n (fun i => x i * x i).
Proof.
  assert (C := cauchy_schwarz n (fun _ => 1) x). unfold dotp in C. rewrite (rsum_ext n (fun i => 1 * x i) x) in C by (intros; ring).
  rewrite (rsum_ext n (fun _ => 1 * 1) (fun _ => 1)) in C by (intros; ring). rewrite rsum_const in C. cbn [pow] in *. lra.
Qed.
Lemma covariances_size A eta k : pd A -> 0 <= eta -> covariances A eta k -> within A 1 k.
Proof.
  intros HP He HC i Hi. assert (P := pd_diag A i HP Hi). set (a := mat_at A i i) in *.
  assert (C := HC (fun j => if (j =? i)%nat then k i / a else 0)).
  assert (S1 : rsum (nr A) (fun j => mat_at A j j * ((if (j =? i)%nat then k i / a else 0) * (if (j =? i)%nat then k i / a else 0))) = a * (k i / a * (k i / a))).
  { rewrite (rsum_ext _ _ (fun j => if (j =? i)%nat then mat_at A j j * (k i / a * (k i / a)) else 0)) by (intros j Hj; destruct (j =? i)%nat; ring).
    rewrite (rsum_delta (nr A) i (fun j => mat_at A j j * (k i / a * (k i / a)))) by exact Hi. reflexivity. }
  assert (S2 : dotp (nr A) k (fun j => if (j =? i)%nat then k i / a else 0) = k i * (k i / a)).
  { unfold dotp. rewrite (rsum_ext _ _ (fun j => if (j =? i)%nat then k j * (k i / a) else 0)) by (intros j Hj; destruct (j =? i)%nat; ring).
    rewrite (rsum_delta (nr A) i (fun j => k j * (k i / a))) by exact Hi. reflexivity. }
  assert (S3 : qform A (fun j => if (j =? i)%nat then k i / a else 0) = a * (k i / a * (k i / a))).
  { rewrite qform_bform by (apply pd_square; exact HP). unfold bform.
    rewrite (rsum_ext _ _ (fun r => if (r =? i)%nat then a * (k i / a * (k i / a)) else 0)).
    - apply (rsum_delta (nr A) i (fun _ => a * (k i / a * (k i / a)))). exact Hi.
    - intros r Hr. destruct (Nat.eqb_spec r i) as [->|N].
      + rewrite (rsum_ext _ _ (fun j => if (j =? i)%nat then k i / a * mat_at A i j * (k i / a) else 0)) by (intros j Hj; destruct (j =? i)%nat; ring).
        rewrite (rsum_delta (nr A) i (fun j => k i / a * mat_at A i j * (k i / a))) by exact Hi. fold a. ring.
      + apply rsum_0; intros; ring. }
  cbv beta in C. rewrite S1, S2, S3 in C. clear S1 S2 S3.
  replace (1 - 2 * (k i * (k i / a)) + a * (k i / a * (k i / a))) with (1 - k i * k i / a) in C by (field; lra).
  assert (NN : 0 <= eta * (a * (k i / a * (k i / a)))). { apply Rmult_le_pos; [exact He|]. apply Rmult_le_pos; [lra|]. apply Rle_0_sqr. }
  assert (K2 : k i * k i <= a). { apply Rmult_le_reg_r with (/ a); [apply Rinv_0_lt_compat; exact P|]. rewrite Rinv_r by lra. unfold Rdiv in C. lra. }
  rewrite Rmult_1_l. rewrite <- sqrt_Rsqr_abs. apply sqrt_le_1_alt. exact K2.
Qed.

Lemma var_fl_nonneg u e eta t ar A c kx kh : rounds u ar -> u <= 1 -> pd A -> nr (fst c) = nr A -> 0 <= e -> 0 <= t ->
  covariances A eta kx -> within A e (fun i => kh i - kx i) ->
  (forall i, (i < nr A)%nat -> Rabs (kh i - mv A (cho_solve_fl ar c kh) i) <= t * (sqrt (mat_at A i i) * rsum (nr A) (fun j => sqrt (mat_at A j j) * Rabs (cho_solve_fl ar c kh j)))) ->
  INR (nr A) * (t + (1 + gam u (nr A + 1)) * (1 + e) * (2 * e + gam u (nr A + 1) * (1 + e))) <= eta ->
  0 <= var_fl ar c kh.
Proof.
  intros RO U1 HP EN He Ht HC HK HR HE. assert (Hu := ro_u _ _ RO). assert (Esq := pd_square A HP). unfold var_fl. rewrite EN. set (n := nr A) in *.
  set (w := cho_solve_fl ar c kh) in *. set (q := dot_fl ar n kh w). set (g := gam u (n + 1)) in *. assert (G0 : 0 <= g) by (apply gam_nonneg, Hu).
  assert (Q1 : q <= 1).
  2:{ destruct (ro_sub _ _ RO 1 q) as (D & _). rewrite (Rabs_pos_eq (1 - q)) in D by lra. assert (X := Rle_abs (- (f_sub ar 1 q - (1 - q)))). rewrite Rabs_Ropp in X. nra. }
  destruct (Nat.eq_dec n 0) as [Z|NZ]. { unfold q. rewrite Z. assert (X := dot_fl_err u ar 0 kh w RO). cbn [rsum] in X. rewrite Rmult_0_r, Rminus_0_r in X. assert (Y := Rle_abs (dot_fl ar 0 kh w)). lra. }
  assert (IN : 0 < INR n) by (apply lt_0_INR; lia).
  set (b := 2 * e + g * (1 + e)) in *. set (c1 := (1 + g) * (1 + e)) in *. assert (B0 : 0 <= b) by (unfold b; nra). assert (C1 : 1 <= c1) by (unfold c1; nra).
  assert (T0 : 0 <= t + c1 * b) by nra. assert (E0 : 0 <= eta) by nra.
  set (s := fun i => sqrt (mat_at A i i)). set (S := rsum n (fun j => s j * Rabs (w j))). set (D := rsum n (fun i => mat_at A i i * (w i * w i))).
  assert (S0 : 0 <= S) by (apply rsum_nonneg; intros; apply Rmult_le_pos; [apply sqrt_pos|apply Rabs_pos]).
  assert (SD : S * S <= INR n * D).
  { assert (X := sum_sq n (fun j => s j * Rabs (w j))). fold S in X. cbn [pow] in X. rewrite Rmult_1_r in X. eapply Rle_trans; [exact X|]. right. f_equal. unfold D. apply rsum_ext; intros i Hi.
    assert (P := pd_diag A i HP Hi). unfold s. replace (sqrt (mat_at A i i) * Rabs (w i) * (sqrt (mat_at A i i) * Rabs (w i))) with (sqrt (mat_at A i i) * sqrt (mat_at A i i) * (Rabs (w i) * Rabs (w i))) by ring.
    rewrite sqrt_sqrt by lra. rewrite <- Rabs_mult, (Rabs_pos_eq (w i * w i)) by apply Rle_0_sqr. reflexivity. }
  assert (F1 : Rabs (dotp n kh w - qform A w) <= t * (S * S)).
  { replace (dotp n kh w - qform A w) with (rsum n (fun i => (kh i - mv A w i) * w i)).
    - eapply Rle_trans; [apply rsum_abs|]. apply Rle_trans with (rsum n (fun i => t * S * (s i * Rabs (w i)))).
      + apply rsum_le; intros i Hi. rewrite Rabs_mult. assert (X := HR i Hi). fold (s i) in X. change (rsum n (fun j => sqrt (mat_at A j j) * Rabs (w j))) with S in X.
        apply Rle_trans with (t * (s i * S) * Rabs (w i)); [apply Rmult_le_compat_r; [apply Rabs_pos|exact X]|right; ring].
      + rewrite rsum_scal. fold S. right; ring.
    - rewrite (rsum_ext n _ (fun i => kh i * w i - mv A w i * w i)) by (intros; ring). rewrite rsum_minus. f_equal. rewrite qform_bform by exact Esq. fold n. rewrite bform_dotp. rewrite dotp_sym. unfold dotp.
      apply rsum_ext; intros i Hi. f_equal. unfold mv. rewrite <- Esq. reflexivity. }
  assert (F2 : Rabs (dotp n kh w - dotp n kx w) <= e * S).
  { unfold dotp. rewrite <- rsum_minus. eapply Rle_trans; [apply rsum_abs|]. unfold S. rewrite <- rsum_scal. apply rsum_le; intros i Hi.
    replace (kh i * w i - kx i * w i) with ((kh i - kx i) * w i) by ring. rewrite Rabs_mult, <- Rmult_assoc. apply Rmult_le_compat_r; [apply Rabs_pos|]. apply (HK i Hi). }
  assert (F3 : rsum n (fun j => Rabs (kh j * w j)) <= (1 + e) * S).
  { unfold S. rewrite <- rsum_scal. apply rsum_le; intros i Hi. rewrite Rabs_mult, <- Rmult_assoc. apply Rmult_le_compat_r; [apply Rabs_pos|].
    assert (X := covariances_size A eta kx HP E0 HC i Hi). assert (Y := HK i Hi). fold (s i) in X, Y. assert (Z := Rabs_triang (kh i - kx i) (kx i)). replace (kh i - kx i + kx i) with (kh i) in Z by ring. lra. }
  assert (F4 := dot_fl_err u ar n kh w RO). fold q g in F4. change (rsum n (fun j => kh j * w j)) with (dotp n kh w) in F4.
  assert (F5 : g * rsum n (fun j => Rabs (kh j * w j)) <= g * ((1 + e) * S)) by (apply Rmult_le_compat_l; assumption).
  assert (F6 : dotp n kh w <= (1 + e) * S). { eapply Rle_trans; [apply Rle_abs|]. eapply Rle_trans; [apply rsum_abs|exact F3]. }
  assert (F7 := HC w). fold n D in F7.
  assert (X1 := Rle_abs (q - dotp n kh w)). assert (X2 := Rle_abs (- (dotp n kh w - qform A w))). rewrite Rabs_Ropp in X2. assert (X3 := Rle_abs (- (dotp n kh w - dotp n kx w))). rewrite Rabs_Ropp in X3.
  assert (X4 := Rle_abs (dotp n kh w - dotp n kx w)).
  assert (F8 : (t + c1 * b) * (S * S) <= eta * D).
  { assert (D0 : 0 <= D) by (apply rsum_nonneg; intros i Hi; apply Rmult_le_pos; [left; apply pd_diag; assumption|apply Rle_0_sqr]).
    apply Rle_trans with ((t + c1 * b) * (INR n * D)); [apply Rmult_le_compat_l; assumption|]. rewrite <- Rmult_assoc. apply Rmult_le_compat_r; [exact D0|]. lra. }
  assert (F9 : q <= 1 + b * S * (1 - c1 * S)).
  { unfold b at 1. set (cb := c1 * b) in *. replace (1 + (2 * e + g * (1 + e)) * S * (1 - c1 * S)) with (1 + 2 * (e * S) + g * ((1 + e) * S) - cb * (S * S)) by (unfold cb, b; ring). lra. }
  assert (F10 : q <= c1 * S) by (unfold c1; lra).
  destruct (Rle_dec 1 (c1 * S)) as [Y|N]; [|lra]. assert (B1 : 0 <= b * S * (c1 * S - 1)) by (apply Rmult_le_pos; [apply Rmult_le_pos; assumption|lra]). lra.
Qed.
Lemma covariances_energy A eta k v : pd A -> 0 <= eta -> covariances A eta k -> Rabs (dotp (nr A) k v) <= energy A v.
Proof.
  intros HP He HC. assert (Esq := pd_square A HP). unfold energy. rewrite <- sqrt_Rsqr_abs. apply sqrt_le_1_alt.
  assert (D : dotp (nr A) k v ^ 2 <= qform A v * 1); [|unfold Rsqr; cbn [pow] in D; lra].
  apply disc_le. intros t0. set (t := - t0). assert (C := HC (fun i => t * v i)). cbv beta in C.
  assert (NN : 0 <= eta * rsum (nr A) (fun i => mat_at A i i * (t * v i * (t * v i)))).
  { apply Rmult_le_pos; [exact He|]. apply rsum_nonneg; intros i Hi. apply Rmult_le_pos; [left; apply pd_diag; assumption|apply Rle_0_sqr]. }
  assert (E1 : dotp (nr A) k (fun i => t * v i) = t * dotp (nr A) k v) by (unfold dotp; rewrite <- rsum_scal; apply rsum_ext; intros; ring).
  assert (E2 : qform A (fun i => t * v i) = t * t * qform A v).
  { rewrite !qform_bform by exact Esq. unfold bform. rewrite <- rsum_scal. apply rsum_ext; intros i Hi. rewrite <- rsum_scal. apply rsum_ext; intros; ring. }
  rewrite E1, E2 in C. unfold t in *. cbn [pow]. lra.
Qed.
Lemma sum_len A x : (forall i, (i < nr A)%nat -> 0 < mat_at A i i) -> rsum (nr A) (fun j => sqrt (mat_at A j j) * Rabs (x j)) <= sqrt (INR (nr A)) * len A x.
Proof.
  intros HP. set (n := nr A). assert (X := sum_sq n (fun j => sqrt (mat_at A j j) * Rabs (x j))).
  assert (S0 : 0 <= rsum n (fun j => sqrt (mat_at A j j) * Rabs (x j))) by (apply rsum_nonneg; intros; apply Rmult_le_pos; [apply sqrt_pos|apply Rabs_pos]).
  unfold len. fold n. rewrite <- nrm_abs. set (f := fun j => sqrt (mat_at A j j) * Rabs (x j)) in *. unfold nrm, dotp. rewrite <- sqrt_mult_alt by apply pos_INR.
  rewrite <- (sqrt_square (rsum n f)) by exact S0. apply sqrt_le_1_alt. cbn [pow] in X. lra.
Qed.
Lemma mu_fl_err u e eta r k ar A c kx kh b x base : rounds u ar -> pd A -> scaled_cond_le A k -> 0 <= k -> nr (fst c) = nr A -> 0 <= e -> 0 <= eta -> 0 <= r < 1 ->
  covariances A eta kx -> within A e (fun i => kh i - kx i) -> accurate A r (cho_solve_fl ar c b) x ->
  let d := mean_err u e r k (nr A) * energy A x in
  let mu := base + dotp (nr A) kx x in
  Rabs (mu_fl ar c base kh b - mu) <= d + u * (Rabs mu + d).
Proof.
  intros RO HP HC K0 EN He He' Hr CO HK AC. cbv zeta. assert (Hu := ro_u _ _ RO). assert (Esq := pd_square A HP). unfold mu_fl. rewrite EN.
  set (n := nr A) in *. set (w := cho_solve_fl ar c b) in *. set (g := gam u (n + 1)). assert (G0 : 0 <= g) by (apply gam_nonneg, Hu).
  set (E := energy A x). assert (E0 : 0 <= E) by apply energy_nonneg.
  destruct AC as ((_ & L1) & (_ & L2)). specialize (L1 (proj2 Hr)). specialize (L2 (proj2 Hr)). fold E in L2.
  set (S := rsum n (fun j => sqrt (mat_at A j j) * Rabs (w j))).
  assert (S0 : 0 <= S) by (apply rsum_nonneg; intros; apply Rmult_le_pos; [apply sqrt_pos|apply Rabs_pos]).
  assert (IR : 0 < / (1 - r)) by (apply Rinv_0_lt_compat; lra).
  assert (SL : S <= sqrt (INR n * k) / (1 - r) * E).
  { assert (X := sum_len A w (fun i Hi => pd_diag A i HP Hi)). fold n S in X. assert (Y := len_sub A w x).
    assert (LX : len A x <= sqrt k * E).
    { assert (Q := HC x). assert (Q0 : 0 <= qform A x) by (rewrite qform_bform by exact Esq; apply psd_of; exact HP). unfold E, energy. rewrite <- sqrt_mult_alt by exact K0. rewrite <- (sqrt_square (len A x)) by apply nrm_nonneg. apply sqrt_le_1_alt. exact Q. }
    assert (LW : len A w <= / (1 - r) * (sqrt k * E)).
    { apply Rle_trans with (/ (1 - r) * len A x); [|apply Rmult_le_compat_l; lra]. replace (/ (1 - r)) with (r / (1 - r) + 1) by (field; lra). lra. }
    eapply Rle_trans; [exact X|]. rewrite sqrt_mult_alt by apply pos_INR. unfold Rdiv. apply Rle_trans with (sqrt (INR n) * (/ (1 - r) * (sqrt k * E))); [apply Rmult_le_compat_l; [apply sqrt_pos|exact LW]|right; ring]. }
  assert (F2 : Rabs (dotp n kh w - dotp n kx w) <= e * S).
  { unfold dotp. rewrite <- rsum_minus. eapply Rle_trans; [apply rsum_abs|]. unfold S. rewrite <- rsum_scal. apply rsum_le; intros i Hi.
    replace (kh i * w i - kx i * w i) with ((kh i - kx i) * w i) by ring. rewrite Rabs_mult, <- Rmult_assoc. apply Rmult_le_compat_r; [apply Rabs_pos|]. apply (HK i Hi). }
  assert (F3 : rsum n (fun j => Rabs (kh j * w j)) <= (1 + e) * S).
  { unfold S. rewrite <- rsum_scal. apply rsum_le; intros i Hi. rewrite Rabs_mult, <- Rmult_assoc. apply Rmult_le_compat_r; [apply Rabs_pos|].
    assert (X := covariances_size A eta kx HP He' CO i Hi). assert (Y := HK i Hi). cbv beta in Y. assert (Z := Rabs_triang (kh i - kx i) (kx i)). replace (kh i - kx i + kx i) with (kh i) in Z by ring. lra. }
  assert (F4 := dot_fl_err u ar n kh w RO). fold g in F4. change (rsum n (fun j => kh j * w j)) with (dotp n kh w) in F4. set (q := dot_fl ar n kh w) in *.
  assert (F5 : g * rsum n (fun j => Rabs (kh j * w j)) <= g * ((1 + e) * S)) by (apply Rmult_le_compat_l; assumption).
  assert (F6 : Rabs (dotp n kx w - dotp n kx x) <= r / (1 - r) * E).
  { replace (dotp n kx w - dotp n kx x) with (dotp n kx (fun i => w i - x i)) by (unfold dotp; rewrite <- rsum_minus; apply rsum_ext; intros; ring).
    eapply Rle_trans; [apply (covariances_energy A eta); assumption|exact L2]. }
  set (d := mean_err u e r k n * E).
  assert (QD : Rabs (q - dotp n kx x) <= d).
  { replace (q - dotp n kx x) with ((q - dotp n kh w) + ((dotp n kh w - dotp n kx w) + (dotp n kx w - dotp n kx x))) by ring.
    eapply Rle_trans; [apply Rabs_triang|]. assert (T := Rabs_triang (dotp n kh w - dotp n kx w) (dotp n kx w - dotp n kx x)).
    assert (X : (e + g * (1 + e)) * S <= (e + g * (1 + e)) * (sqrt (INR n * k) / (1 - r) * E)) by (apply Rmult_le_compat_l; [nra|exact SL]).
    replace d with (r / (1 - r) * E + (e + g * (1 + e)) * (sqrt (INR n * k) / (1 - r) * E)) by (unfold d, mean_err; fold g; field; lra). lra. }
  destruct (add_near u ar base q RO) as (N & _). set (y := f_add ar base q) in *. set (mu := base + dotp n kx x).
  assert (BQ : Rabs (base + q) <= Rabs mu + d). { replace (base + q) with (mu + (q - dotp n kx x)) by (unfold mu; ring). eapply Rle_trans; [apply Rabs_triang|]. lra. }
  replace (y - mu) with ((y - (base + q)) + (q - dotp n kx x)) by (unfold mu; ring). eapply Rle_trans; [apply Rabs_triang|].
  assert (X : u * Rabs (base + q) <= u * (Rabs mu + d)) by (apply Rmult_le_compat_l; assumption). lra.
Qed.
Lemma sum_energy A k x : pd A -> scaled_cond_le A k -> 0 <= k -> rsum (nr A) (fun j => sqrt (mat_at A j j) * Rabs (x j)) <= sqrt (INR (nr A) * k) * energy A x.
Proof.
  intros HP HC K0. eapply Rle_trans; [apply sum_len; intros; apply pd_diag; assumption|]. rewrite sqrt_mult_alt by apply pos_INR. rewrite Rmult_assoc.
  apply Rmult_le_compat_l; [apply sqrt_pos|]. apply len_energy; assumption.
Qed.
Lemma bform_solves A y z c : pd A -> solves A y c -> bform (nr A) (mat_at A) z y = dotp (nr A) c z.
Proof.
  intros HP S. assert (Esq := pd_square A HP). rewrite bform_dotp. rewrite (dotp_sym _ c). apply dotp_ext; [reflexivity|]. intros i Hi. rewrite <- (S i Hi). unfold mv. rewrite <- Esq. reflexivity.
Qed.
Lemma var_fl_err u e eta r k ar A c kx kh x xh : rounds u ar -> pd A -> scaled_cond_le A k -> 0 <= k -> nr (fst c) = nr A -> 0 <= e -> 0 <= eta -> 0 <= r < 1 ->
  covariances A eta kx -> within A e (fun i => kh i - kx i) -> solves A x kx -> solves A xh kh -> accurate A r (cho_solve_fl ar c kh) xh ->
  let v := 1 - dotp (nr A) kx x in let d := var_acc u e r k (nr A) in
  0 <= v <= 1 /\ Rabs (var_fl ar c kh - v) <= d + u * (v + d).
Proof.
  intros RO HP HC K0 EN He He' Hr CO HK SX SH AC. cbv zeta. assert (Hu := ro_u _ _ RO). assert (Esq := pd_square A HP). unfold var_fl. rewrite EN.
  set (n := nr A) in *. set (w := cho_solve_fl ar c kh) in *. set (g := gam u (n + 1)). assert (G0 : 0 <= g) by (apply gam_nonneg, Hu).
  set (a := sqrt (INR n * k)). assert (A0 : 0 <= a) by apply sqrt_pos.
  set (E := energy A x). assert (E0 : 0 <= E) by apply energy_nonneg. set (Eh := energy A xh). assert (Eh0 : 0 <= Eh) by apply energy_nonneg.
  assert (EE : dotp n kx x = E * E) by (unfold E, n; rewrite energy_sq by exact HP; rewrite (bform_solves A x x kx HP SX); reflexivity).
  assert (EEh : dotp n kh xh = Eh * Eh) by (unfold Eh, n; rewrite energy_sq by exact HP; rewrite (bform_solves A xh xh kh HP SH); reflexivity).
  assert (E1 : E <= 1). { assert (X := covariances_energy A eta kx x HP He' CO). fold n E in X. rewrite EE, Rabs_pos_eq in X by nra. nra. }
  assert (DH : energy A (fun i => xh i - x i) <= a * e).
  { set (D := energy A (fun i => xh i - x i)). assert (D0 : 0 <= D) by apply energy_nonneg.
    assert (SD : solves A (fun i => xh i - x i) (fun i => kh i - kx i)).
    { intros i Hi. rewrite <- (SX i Hi), <- (SH i Hi). unfold mv. rewrite <- rsum_minus. apply rsum_ext; intros; ring. }
    assert (DD : D * D = dotp n (fun i => kh i - kx i) (fun i => xh i - x i)) by (unfold D, n; rewrite energy_sq by exact HP; rewrite (bform_solves A _ (fun i => xh i - x i) _ HP SD); reflexivity).
    assert (B : dotp n (fun i => kh i - kx i) (fun i => xh i - x i) <= e * (a * D)).
    { apply Rle_trans with (e * rsum n (fun j => sqrt (mat_at A j j) * Rabs (xh j - x j))); [|apply Rmult_le_compat_l; [exact He|]; exact (sum_energy A k (fun i => xh i - x i) HP HC K0)].
      unfold dotp. eapply Rle_trans; [apply Rle_abs|]. eapply Rle_trans; [apply rsum_abs|]. rewrite <- rsum_scal. apply rsum_le; intros i Hi. rewrite Rabs_mult, <- Rmult_assoc.
      apply Rmult_le_compat_r; [apply Rabs_pos|]. apply (HK i Hi). }
    destruct (Rle_lt_or_eq_dec 0 D D0) as [P|Z]; [|rewrite <- Z; apply Rmult_le_pos; assumption].
    apply Rmult_le_reg_r with D; [exact P|]. rewrite DD. lra. }
  set (b := 1 + a * e). assert (AE : 0 <= a * e) by (apply Rmult_le_pos; assumption).
  assert (EhB : Eh <= E + a * e) by (assert (X := energy_sub A xh x HP); fold E Eh in X; lra).
  assert (EB : E <= Eh + a * e).
  { assert (X := energy_sub A x xh HP). fold E Eh in X. assert (Y : energy A (fun i => x i - xh i) = energy A (fun i => xh i - x i)) by (unfold energy; f_equal; rewrite !qform_bform by exact Esq; unfold bform; apply rsum_ext; intros i _; apply rsum_ext; intros j _; ring). lra. }
  destruct AC as (_ & (_ & L2)). specialize (L2 (proj2 Hr)). fold Eh in L2. assert (IR : 0 < / (1 - r)) by (apply Rinv_0_lt_compat; lra).
  assert (EW : energy A w <= b / (1 - r)).
  { assert (X := energy_sub A w xh HP). fold Eh in X. replace (b / (1 - r)) with (r / (1 - r) * b + b) by (field; lra).
    assert (r / (1 - r) * Eh <= r / (1 - r) * b) by (apply Rmult_le_compat_l; [unfold Rdiv; nra|unfold b; lra]). unfold b in *. lra. }
  set (S := rsum n (fun j => sqrt (mat_at A j j) * Rabs (w j))).
  assert (SL : S <= a * (b / (1 - r))) by (eapply Rle_trans; [apply (sum_energy A k w HP HC K0)|]; fold n a; apply Rmult_le_compat_l; assumption).
  assert (F3 : rsum n (fun j => Rabs (kh j * w j)) <= (1 + e) * S).
  { unfold S. rewrite <- rsum_scal. apply rsum_le; intros i Hi. rewrite Rabs_mult, <- Rmult_assoc. apply Rmult_le_compat_r; [apply Rabs_pos|].
    assert (X := covariances_size A eta kx HP He' CO i Hi). assert (Y := HK i Hi). cbv beta in Y. assert (Z := Rabs_triang (kh i - kx i) (kx i)). replace (kh i - kx i + kx i) with (kh i) in Z by ring. lra. }
  assert (F4 := dot_fl_err u ar n kh w RO). fold g in F4. change (rsum n (fun j => kh j * w j)) with (dotp n kh w) in F4. set (q := dot_fl ar n kh w) in *.
  assert (F5 : g * rsum n (fun j => Rabs (kh j * w j)) <= g * ((1 + e) * (a * (b / (1 - r))))).
  { apply Rmult_le_compat_l; [exact G0|]. eapply Rle_trans; [exact F3|]. apply Rmult_le_compat_l; [lra|exact SL]. }
  assert (F6 : Rabs (dotp n kh w - dotp n kh xh) <= r / (1 - r) * (b * b)).
  { replace (dotp n kh w - dotp n kh xh) with (dotp n kh (fun i => w i - xh i)) by (unfold dotp; rewrite <- rsum_minus; apply rsum_ext; intros; ring).
    unfold n. rewrite <- (bform_solves A xh _ kh HP SH). eapply Rle_trans; [apply energy_cs; exact HP|]. fold Eh.
    assert (R0 : 0 <= r / (1 - r)) by (unfold Rdiv; nra). assert (Eb : Eh <= b) by (unfold b; lra).
    apply Rle_trans with (r / (1 - r) * Eh * Eh); [apply Rmult_le_compat_r; assumption|]. rewrite Rmult_assoc. apply Rmult_le_compat_l; [exact R0|]. apply Rmult_le_compat; assumption. }
  assert (F7 : Rabs (dotp n kh xh - dotp n kx x) <= a * e * (1 + b)).
  { rewrite EE, EEh. replace (Eh * Eh - E * E) with ((Eh - E) * (Eh + E)) by ring. rewrite Rabs_mult. apply Rmult_le_compat; try apply Rabs_pos; [apply Rabs_le; lra|]. rewrite Rabs_pos_eq by lra. unfold b. lra. }
  set (d := var_acc u e r k n).
  assert (QD : Rabs (q - dotp n kx x) <= d).
  { replace (q - dotp n kx x) with ((q - dotp n kh w) + ((dotp n kh w - dotp n kh xh) + (dotp n kh xh - dotp n kx x))) by ring.
    eapply Rle_trans; [apply Rabs_triang|]. assert (T := Rabs_triang (dotp n kh w - dotp n kh xh) (dotp n kh xh - dotp n kx x)).
    replace d with (r / (1 - r) * (b * b) + g * ((1 + e) * (a * (b / (1 - r)))) + a * e * (1 + b)) by (unfold d, var_acc; cbv zeta; fold g a b; field; lra). lra. }
  assert (V : 0 <= 1 - dotp n kx x <= 1) by (rewrite EE; nra). split; [exact V|].
  destruct (ro_sub _ _ RO 1 q) as (N & _). set (y := f_sub ar 1 q) in *. set (v := 1 - dotp n kx x) in *.
  assert (BQ : Rabs (1 - q) <= v + d).
  { replace (1 - q) with (v - (q - dotp n kx x)) by (unfold v; ring). unfold Rminus at 1. eapply Rle_trans; [apply Rabs_triang|]. rewrite Rabs_Ropp, (Rabs_pos_eq v) by lra. lra. }
  replace (y - v) with ((y - (1 - q)) + - (q - dotp n kx x)) by (unfold v; ring). eapply Rle_trans; [apply Rabs_triang|]. rewrite Rabs_Ropp.
  assert (X : u * Rabs (1 - q) <= u * (v + d)) by (apply Rmult_le_compat_l; assumption). lra.
Qed.
Lemma sig_ok u ar c k varK : rounds u ar -> u <= 1 -> 0 <= varK -> 0 <= var_fl ar c k ->
  exists s, sig_fl ar c k varK = Ok s /\ 0 <= s /\ Rabs (s - sqrt (var_fl ar c k) * sqrt varK) <= gam u 3 * (sqrt (var_fl ar c k) * sqrt varK).
Proof.
  intros RO U1 HV H. assert (Hu := ro_u _ _ RO). unfold sig_fl. cbv zeta. set (v := var_fl ar c k) in *. destruct (Rle_dec 0 v) as [_|N]; [|contradiction].
  eexists. split; [reflexivity|]. destruct (ro_sqrt _ _ RO v H) as (P & _). destruct (ro_sqrt _ _ RO varK HV) as (Q & _).
  set (x := sqrt v) in *. set (y := sqrt varK) in *. set (xh := f_sqrt ar v) in *. set (yh := f_sqrt ar varK) in *. destruct (ro_mul _ _ RO xh yh) as (S & _). set (z := f_mul ar xh yh) in *.
  assert (X0 : 0 <= x) by apply sqrt_pos. assert (Y0 : 0 <= y) by apply sqrt_pos. rewrite (Rabs_pos_eq x X0) in P. rewrite (Rabs_pos_eq y Y0) in Q.
  assert (UX : u * x <= x) by nra. assert (UY : u * y <= y) by nra.
  assert (PX := Rle_abs (xh - x)). assert (PX' := Rle_abs (- (xh - x))). rewrite Rabs_Ropp in PX'.
  assert (QX := Rle_abs (yh - y)). assert (QX' := Rle_abs (- (yh - y))). rewrite Rabs_Ropp in QX'.
  assert (XH : 0 <= xh) by lra. assert (YH : 0 <= yh) by lra. assert (XY : 0 <= xh * yh) by (apply Rmult_le_pos; assumption). rewrite (Rabs_pos_eq (xh * yh)) in S by exact XY.
  assert (SX := Rle_abs (z - xh * yh)). assert (SX' := Rle_abs (- (z - xh * yh))). rewrite Rabs_Ropp in SX'.
  split; [nra|].
  assert (M : Rabs (xh * yh - x * y) <= (u + u * (1 + u)) * (x * y)).
  { replace (xh * yh - x * y) with ((xh - x) * yh + x * (yh - y)) by ring. eapply Rle_trans; [apply Rabs_triang|]. rewrite !Rabs_mult, (Rabs_pos_eq yh), (Rabs_pos_eq x) by assumption.
    assert (M1 : Rabs (xh - x) * yh <= u * x * (y + u * y)) by (apply Rmult_le_compat; try apply Rabs_pos; lra).
    assert (M2 : x * Rabs (yh - y) <= x * (u * y)) by (apply Rmult_le_compat_l; assumption). nra. }
  assert (M3 : xh * yh <= (1 + u) * x * ((1 + u) * y)) by (apply Rmult_le_compat; lra).
  assert (M4 : u * (xh * yh) <= u * ((1 + u) * x * ((1 + u) * y))) by (apply Rmult_le_compat_l; assumption).
  replace (z - x * y) with ((z - xh * yh) + (xh * yh - x * y)) by ring. eapply Rle_trans; [apply Rabs_triang|].
  replace (gam u 3 * (x * y)) with (u * ((1 + u) * x * ((1 + u) * y)) + (u + u * (1 + u)) * (x * y)) by (unfold gam; cbn [pow]; ring). lra.
Qed.
