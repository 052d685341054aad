(** The gradient of the predicted variance in an arithmetic with rounding errors. *)
From Coq Require Import Reals List Arith Bool Lia Lra Psatz.
From Verif.Base Require Import NpLite NpFacts.
From Verif.Spec Require Import KernelSpec LinAlgSpec FloatSpec FloatKernSpec FloatGradSpec.
From Verif.Model Require Import Chol CholFl EvalFl EvalStdGradFl.
From Verif.Proofs Require Import CondBound LinAlg CholCorrect FlChol FlMargin FlSolve FlSol FlTarget FlEval FlFac FlGrad.
Local Open Scope R_scope.

(** the solution for a right-hand side with errors *)
Lemma shift_weights e k A kx kh x xh : pd A -> scaled_cond_le A k -> 0 <= k -> 0 <= e -> within A e (fun i => kh i - kx i) -> solves A x kx -> solves A xh kh ->
  energy A (fun i => xh i - x i) <= sqrt (INR (nr A) * k) * e.
Proof.
  intros HP HC K0 He HK SX SH. assert (Esq := pd_square A HP). set (n := nr A) in *.
  set (a := sqrt (INR n * k)). assert (A0 : 0 <= a) by apply sqrt_pos.
  set (D := energy A (fun i => xh i - x i)). assert (D0 : 0 <= D) by apply energy_nonneg.
  assert (SD : solves A (fun i => xh i - x i) (fun i => kh i - kx i)).
  { intros i Hi. rewrite <- (SX i Hi), <- (SH i Hi). unfold mv. rewrite <- rsum_minus. apply rsum_ext; intros; ring. }
  assert (DD : D * D = dotp n (fun i => kh i - kx i) (fun i => xh i - x i)) by (unfold D, n; rewrite energy_sq by exact HP; rewrite (bform_solves A _ (fun i => xh i - x i) _ HP SD); reflexivity).
  assert (B : dotp n (fun i => kh i - kx i) (fun i => xh i - x i) <= e * (a * D)).
  { apply Rle_trans with (e * rsum n (fun j => sqrt (mat_at A j j) * Rabs (xh j - x j))); [|apply Rmult_le_compat_l; [exact He|]; exact (sum_energy A k (fun i => xh i - x i) HP HC K0)].
    unfold dotp. eapply Rle_trans; [apply Rle_abs|]. eapply Rle_trans; [apply rsum_abs|]. rewrite <- rsum_scal. apply rsum_le; intros i Hi. rewrite Rabs_mult, <- Rmult_assoc.
    apply Rmult_le_compat_r; [apply Rabs_pos|]. apply (HK i Hi). }
  destruct (Rle_lt_or_eq_dec 0 D D0) as [P|Z]; [|rewrite <- Z; apply Rmult_le_pos; assumption].
  apply Rmult_le_reg_r with D; [exact P|]. rewrite DD. lra.
Qed.

Lemma dcov_err u e eta r k s ar A c dx dh kx kh x xh : rounds u ar -> pd A -> scaled_cond_le A k -> 0 <= k -> nr (fst c) = nr A -> 0 <= e -> 0 <= eta -> 0 <= r < 1 -> 0 < s ->
  covariances A eta (fun i => dx i / s) -> covariances A eta kx -> within A (e * s) (fun i => dh i - dx i) -> within A e (fun i => kh i - kx i) ->
  solves A x kx -> solves A xh kh -> accurate A r (cho_solve_fl ar c kh) xh ->
  Rabs (dcov_fl ar c dh kh - dotp (nr A) dx x) <= std_err u e r k (nr A) * s.
Proof.
  intros RO HP HC K0 EN He He' Hr Hs CD CK HD HK SX SH AC. assert (Hu := ro_u _ _ RO). unfold dcov_fl. rewrite EN.
  assert (DH := shift_weights e k A kx kh x xh HP HC K0 He HK SX SH). set (n := nr A) in *. set (w := cho_solve_fl ar c kh) in *. set (a := sqrt (INR n * k)) in *. assert (A0 : 0 <= a) by apply sqrt_pos.
  set (q := dot_fl _ _ _ _). assert (AE : 0 <= a * e) by (apply Rmult_le_pos; assumption).
  assert (G0 : 0 <= gam u (n + 1)) by (apply gam_nonneg, Hu).
  assert (F4 : Rabs (q - dotp n dh w) <= gam u (n + 2) * rsum n (fun j => Rabs (dh j * w j))).
  { assert (X := dot_fl_err u ar n (fun i => f_mul ar (dh i) (w i)) (fun _ => 1) RO). fold q in X.
    assert (M : forall i, Rabs (f_mul ar (dh i) (w i) * 1 - dh i * w i) <= u * Rabs (dh i * w i)) by (intros i; rewrite Rmult_1_r; apply (ro_mul _ _ RO)).
    set (T := rsum n (fun j => Rabs (dh j * w j))) in *.
    assert (Y : Rabs (rsum n (fun j => f_mul ar (dh j) (w j) * 1) - dotp n dh w) <= u * T).
    { unfold dotp, T. rewrite <- rsum_minus, <- rsum_scal. eapply Rle_trans; [apply rsum_abs|]. apply rsum_le; intros i Hi. apply M. }
    assert (Z : rsum n (fun j => Rabs (f_mul ar (dh j) (w j) * 1)) <= (1 + u) * T).
    { unfold T. rewrite <- rsum_scal. apply rsum_le; intros i Hi. assert (V := M i). assert (V' := Rabs_triang (f_mul ar (dh i) (w i) * 1 - dh i * w i) (dh i * w i)).
      replace (f_mul ar (dh i) (w i) * 1 - dh i * w i + dh i * w i) with (f_mul ar (dh i) (w i) * 1) in V' by ring. lra. }
    assert (Z' := Rmult_le_compat_l _ _ _ G0 Z).
    replace (gam u (n + 2) * T) with (gam u (n + 1) * ((1 + u) * T) + u * T) by (unfold gam; replace (n + 2)%nat with (S (n + 1)) by lia; cbn [pow]; ring).
    replace (q - dotp n dh w) with ((q - rsum n (fun j => f_mul ar (dh j) (w j) * 1)) + (rsum n (fun j => f_mul ar (dh j) (w j) * 1) - dotp n dh w)) by ring.
    eapply Rle_trans; [apply Rabs_triang|]. lra. }
  assert (H := dot_weights_gen e eta s r k (gam u (n + 2)) q A dx dh w xh HP HC K0 (gam_nonneg u (n + 2) Hu) He He' Hr Hs CD HD AC F4). fold n a in H.
  set (E := energy A x). assert (E0 : 0 <= E) by apply energy_nonneg.
  assert (EE : dotp n kx x = E * E) by (unfold E, n; rewrite energy_sq by exact HP; rewrite (bform_solves A x x kx HP SX); reflexivity).
  assert (E1 : E <= 1). { assert (X := covariances_energy A eta kx x HP He' CK). fold n E in X. rewrite EE, Rabs_pos_eq in X by nra. nra. }
  assert (EH : energy A xh <= 1 + a * e) by (assert (X := energy_sub A xh x HP); fold E in X; lra).
  set (G := (r + a * (e + gam u (n + 2) * (1 + e))) / (1 - r)) in *.
  assert (GP : 0 <= G).
  { unfold G. apply Rmult_le_pos; [|left; apply Rinv_0_lt_compat; lra]. assert (0 <= gam u (n + 2) * (1 + e)) by (apply Rmult_le_pos; [apply gam_nonneg, Hu|lra]). assert (0 <= a * (e + gam u (n + 2) * (1 + e))) by (apply Rmult_le_pos; lra). lra. }
  assert (H1 : G * (s * energy A xh) <= G * (s * (1 + a * e))) by (apply Rmult_le_compat_l; [exact GP|]; apply Rmult_le_compat_l; lra).
  assert (H2 : Rabs (dotp n dx xh - dotp n dx x) <= s * (a * e)).
  { replace (dotp n dx xh - dotp n dx x) with (s * dotp n (fun i => dx i / s) (fun i => xh i - x i)) by (unfold dotp; rewrite <- rsum_minus, <- rsum_scal; apply rsum_ext; intros; field; lra).
    rewrite Rabs_mult, (Rabs_pos_eq s) by lra. apply Rmult_le_compat_l; [lra|]. eapply Rle_trans; [apply (covariances_energy A eta); assumption|exact DH]. }
  replace (q - dotp n dx x) with ((q - dotp n dx xh) + (dotp n dx xh - dotp n dx x)) by ring. eapply Rle_trans; [apply Rabs_triang|].
  unfold std_err. cbv zeta. fold a G. replace ((G * (1 + a * e) + a * e) * s) with (G * (s * (1 + a * e)) + s * (a * e)) by ring. lra.
Qed.

(** the last steps *)
Lemma dsig_last u ar c dk k varK s : rounds u ar -> u < 1 -> 0 < varK -> sig_fl ar c k varK = Ok s -> 0 < s ->
  exists t, dsig_fl ar c dk k varK = Ok t /\ Rabs (t * s - - (dcov_fl ar c dk k * varK)) <= gam u 6 * (Rabs (dcov_fl ar c dk k) * varK).
Proof.
  intros RO U1 HV ES SP. assert (Hu := ro_u _ _ RO). unfold dsig_fl. rewrite ES. cbn. destruct (Req_EM_T s 0) as [Z|_]; [lra|]. set (q := dcov_fl ar c dk k). eexists. split; [reflexivity|].
  assert (F1 : fac u 1 (1 / s) (f_div ar 1 s)) by (apply near_fac; auto; apply (ro_div _ _ RO); lra).
  assert (F2 : fac u 1 (sqrt varK) (f_sqrt ar varK)) by (apply near_fac; auto; apply (ro_sqrt _ _ RO); lra). set (y := f_sqrt ar varK) in *.
  assert (F3 : fac u 3 varK (f_mul ar y y)).
  { replace varK with (sqrt varK * sqrt varK) at 1 by (apply sqrt_sqrt; lra). apply (fac_trans u Hu 2 1 _ (y * y)); [apply (fac_mult u Hu 1 1); exact F2|apply near_fac; auto; apply (ro_mul _ _ RO)]. }
  set (z := f_mul ar y y) in *.
  assert (F4 : fac u 4 (q * varK) (f_mul ar q z)).
  { apply (fac_trans u Hu 3 1 _ (q * z)); [apply (fac_mult u Hu 0 3); [apply fac_refl; exact Hu|exact F3]|apply near_fac; auto; apply (ro_mul _ _ RO)]. }
  set (w := f_mul ar q z) in *. set (v := f_div ar 1 s) in *.
  assert (F5 : fac u 6 (- (1 / s) * (q * varK)) (f_mul ar (- v) w)).
  { apply (fac_trans u Hu 5 1 _ (- v * w)); [apply (fac_mult u Hu 1 4); [apply fac_opp; exact F1|exact F4]|apply near_fac; auto; apply (ro_mul _ _ RO)]. }
  assert (H := fac_err u Hu 6 _ _ F5). set (t := f_mul ar (- v) w) in *.
  replace (t * s - - (q * varK)) with ((t - - (1 / s) * (q * varK)) * s) by (field; lra). rewrite Rabs_mult, (Rabs_pos_eq s) by lra.
  replace (gam u 6 * (Rabs q * varK)) with (gam u 6 * Rabs (- (1 / s) * (q * varK)) * s); [apply Rmult_le_compat_r; [lra|exact H]|].
  rewrite !Rabs_mult, Rabs_Ropp, (Rabs_pos_eq (1 / s)), (Rabs_pos_eq varK); [field; lra|lra|left; apply Rdiv_lt_0_compat; lra].
Qed.
Lemma dsig2_last u ar c dk k varK s : rounds u ar -> u < 1 -> 0 < varK -> sig2_fl ar c k varK = Ok s ->
  exists t, dsig2_fl ar c dk k varK = Ok t /\ Rabs (t - -2 * (dcov_fl ar c dk k * varK)) <= gam u 6 * (2 * (Rabs (dcov_fl ar c dk k) * varK)).
Proof.
  intros RO U1 HV ES. assert (Hu := ro_u _ _ RO). unfold dsig2_fl. rewrite ES. cbn. set (q := dcov_fl ar c dk k). eexists. split; [reflexivity|].
  assert (F1 : fac u 1 (-2 * q) (f_mul ar (-2) q)) by (apply near_fac; auto; apply (ro_mul _ _ RO)). set (w := f_mul ar (-2) q) in *.
  assert (F2 : fac u 2 (-2 * q * varK) (f_mul ar w varK)).
  { apply (fac_trans u Hu 1 1 _ (w * varK)); [apply (fac_mult u Hu 1 0); [exact F1|apply fac_refl; exact Hu]|apply near_fac; auto; apply (ro_mul _ _ RO)]. }
  assert (H := fac_err u Hu 6 _ _ (fac_mono u Hu 2 6 _ _ ltac:(lia) F2)). rewrite !Rabs_mult, (Rabs_pos_eq varK) in H by lra. replace (Rabs (-2)) with 2 in H by (rewrite Rabs_left; lra).
  replace (-2 * (q * varK)) with (-2 * q * varK) by ring. lra.
Qed.

(** the computed variance is positive *)
Lemma var_fl_pos u e eta t ar A c kx kh : rounds u ar -> u < 1 -> pd A -> nr (fst c) = nr A -> 0 <= e -> 0 <= t ->
  covariances A eta kx -> within A e (fun i => kh i - kx i) ->
  (forall i, (i < nr A)%nat -> Rabs (kh i - mv A (cho_solve_fl ar c kh) i) <= t * (sqrt (mat_at A i i) * rsum (nr A) (fun j => sqrt (mat_at A j j) * Rabs (cho_solve_fl ar c kh j)))) ->
  INR (nr A) * (t + (1 + gam u (nr A + 1)) * (1 + e) * (2 * e + gam u (nr A + 1) * (1 + e))) < eta ->
  0 < var_fl ar c kh.
Proof.
  intros RO U1 HP EN He Ht HC HK HR HE. assert (Hu := ro_u _ _ RO). assert (Esq := pd_square A HP). unfold var_fl. rewrite EN. set (n := nr A) in *.
  set (w := cho_solve_fl ar c kh) in *. set (q := dot_fl ar n kh w). set (g := gam u (n + 1)) in *. assert (G0 : 0 <= g) by (apply gam_nonneg, Hu).
  assert (Q1 : q < 1).
  2:{ destruct (ro_sub _ _ RO 1 q) as (D & _). rewrite (Rabs_pos_eq (1 - q)) in D by lra. assert (X := Rle_abs (- (f_sub ar 1 q - (1 - q)))). rewrite Rabs_Ropp in X. assert (u * (1 - q) < 1 * (1 - q)) by (apply Rmult_lt_compat_r; lra). lra. }
  destruct (Nat.eq_dec n 0) as [Z|NZ]. { unfold q. rewrite Z. assert (X := dot_fl_err u ar 0 kh w RO). cbn [rsum] in X. rewrite Rmult_0_r, Rminus_0_r in X. assert (Y := Rle_abs (dot_fl ar 0 kh w)). lra. }
  assert (IN : 0 < INR n) by (apply lt_0_INR; lia).
  set (b := 2 * e + g * (1 + e)) in *. set (c1 := (1 + g) * (1 + e)) in *. assert (B0 : 0 <= b) by (unfold b; nra). assert (C1 : 1 <= c1) by (unfold c1; nra).
  assert (T0 : 0 <= t + c1 * b) by nra. assert (E0 : 0 <= eta) by nra. assert (E1 : 0 < eta) by nra.
  set (s := fun i => sqrt (mat_at A i i)). set (S := rsum n (fun j => s j * Rabs (w j))). set (D := rsum n (fun i => mat_at A i i * (w i * w i))).
  assert (S0 : 0 <= S) by (apply rsum_nonneg; intros; apply Rmult_le_pos; [apply sqrt_pos|apply Rabs_pos]).
  assert (SD : S * S <= INR n * D).
  { assert (X := sum_sq n (fun j => s j * Rabs (w j))). fold S in X. cbn [pow] in X. rewrite Rmult_1_r in X. eapply Rle_trans; [exact X|]. right. f_equal. unfold D. apply rsum_ext; intros i Hi.
    assert (P := pd_diag A i HP Hi). unfold s. replace (sqrt (mat_at A i i) * Rabs (w i) * (sqrt (mat_at A i i) * Rabs (w i))) with (sqrt (mat_at A i i) * sqrt (mat_at A i i) * (Rabs (w i) * Rabs (w i))) by ring.
    rewrite sqrt_sqrt by lra. rewrite <- Rabs_mult, (Rabs_pos_eq (w i * w i)) by apply Rle_0_sqr. reflexivity. }
  assert (F1 : Rabs (dotp n kh w - qform A w) <= t * (S * S)).
  { replace (dotp n kh w - qform A w) with (rsum n (fun i => (kh i - mv A w i) * w i)).
    - eapply Rle_trans; [apply rsum_abs|]. apply Rle_trans with (rsum n (fun i => t * S * (s i * Rabs (w i)))).
      + apply rsum_le; intros i Hi. rewrite Rabs_mult. assert (X := HR i Hi). fold (s i) in X. change (rsum n (fun j => sqrt (mat_at A j j) * Rabs (w j))) with S in X.
        apply Rle_trans with (t * (s i * S) * Rabs (w i)); [apply Rmult_le_compat_r; [apply Rabs_pos|exact X]|right; ring].
      + rewrite rsum_scal. fold S. right; ring.
    - rewrite (rsum_ext n _ (fun i => kh i * w i - mv A w i * w i)) by (intros; ring). rewrite rsum_minus. f_equal. rewrite qform_bform by exact Esq. fold n. rewrite bform_dotp. rewrite dotp_sym. unfold dotp.
      apply rsum_ext; intros i Hi. f_equal. unfold mv. rewrite <- Esq. reflexivity. }
  assert (F2 : Rabs (dotp n kh w - dotp n kx w) <= e * S).
  { unfold dotp. rewrite <- rsum_minus. eapply Rle_trans; [apply rsum_abs|]. unfold S. rewrite <- rsum_scal. apply rsum_le; intros i Hi.
    replace (kh i * w i - kx i * w i) with ((kh i - kx i) * w i) by ring. rewrite Rabs_mult, <- Rmult_assoc. apply Rmult_le_compat_r; [apply Rabs_pos|]. apply (HK i Hi). }
  assert (F3 : rsum n (fun j => Rabs (kh j * w j)) <= (1 + e) * S).
  { unfold S. rewrite <- rsum_scal. apply rsum_le; intros i Hi. rewrite Rabs_mult, <- Rmult_assoc. apply Rmult_le_compat_r; [apply Rabs_pos|].
    assert (X := covariances_size A eta kx HP E0 HC i Hi). assert (Y := HK i Hi). fold (s i) in X, Y. assert (Z := Rabs_triang (kh i - kx i) (kx i)). replace (kh i - kx i + kx i) with (kh i) in Z by ring. lra. }
  assert (F4 := dot_fl_err u ar n kh w RO). fold q g in F4. change (rsum n (fun j => kh j * w j)) with (dotp n kh w) in F4.
  assert (F5 : g * rsum n (fun j => Rabs (kh j * w j)) <= g * ((1 + e) * S)) by (apply Rmult_le_compat_l; assumption).
  assert (F6 : dotp n kh w <= (1 + e) * S). { eapply Rle_trans; [apply Rle_abs|]. eapply Rle_trans; [apply rsum_abs|exact F3]. }
  assert (F7 := HC w). fold n D in F7.
  assert (X1 := Rle_abs (q - dotp n kh w)). assert (X2 := Rle_abs (- (dotp n kh w - qform A w))). rewrite Rabs_Ropp in X2. assert (X3 := Rle_abs (- (dotp n kh w - dotp n kx w))). rewrite Rabs_Ropp in X3.
  assert (X4 := Rle_abs (dotp n kh w - dotp n kx w)).
  assert (F8 : (t + c1 * b) * (S * S) <= eta * D).
  { assert (D0 : 0 <= D) by (apply rsum_nonneg; intros i Hi; apply Rmult_le_pos; [left; apply pd_diag; assumption|apply Rle_0_sqr]).
    apply Rle_trans with ((t + c1 * b) * (INR n * D)); [apply Rmult_le_compat_l; assumption|]. rewrite <- Rmult_assoc. apply Rmult_le_compat_r; [exact D0|]. lra. }
  assert (F9 : q <= 1 + b * S * (1 - c1 * S)).
  { unfold b at 1. set (cb := c1 * b) in *. replace (1 + (2 * e + g * (1 + e)) * S * (1 - c1 * S)) with (1 + 2 * (e * S) + g * ((1 + e) * S) - cb * (S * S)) by (unfold cb, b; ring). lra. }
  assert (F10 : q <= c1 * S) by (unfold c1; lra).
  destruct (Rle_dec 1 (c1 * S)) as [Y|N]; [|lra].
  assert (SP : 0 < S) by nra. assert (DP : 0 < D) by nra. assert (F8' : (t + c1 * b) * (S * S) < eta * D).
  { apply Rle_lt_trans with ((t + c1 * b) * (INR n * D)); [apply Rmult_le_compat_l; assumption|]. rewrite <- Rmult_assoc. apply Rmult_lt_compat_r; [exact DP|]. lra. }
  assert (F9' : q < 1 + b * S * (1 - c1 * S)).
  { unfold b at 1. set (cb := c1 * b) in *. replace (1 + (2 * e + g * (1 + e)) * S * (1 - c1 * S)) with (1 + 2 * (e * S) + g * ((1 + e) * S) - cb * (S * S)) by (unfold cb, b; ring). lra. } assert (B1 : 0 <= b * S * (c1 * S - 1)) by (apply Rmult_le_pos; [apply Rmult_le_pos; assumption|lra]). lra.
Qed.

Lemma sig_pos u ar c k varK : rounds u ar -> u < 1 -> 0 < varK -> 0 < var_fl ar c k -> exists s, sig_fl ar c k varK = Ok s /\ 0 < s.
Proof.
  intros RO U1 HV H. assert (Hu := ro_u _ _ RO). unfold sig_fl. cbv zeta. destruct (Rle_dec 0 (var_fl ar c k)) as [_|N]; [|lra]. eexists. split; [reflexivity|].
  assert (A : 0 < f_sqrt ar (var_fl ar c k)). { apply (fac_pos u Hu 1 (sqrt (var_fl ar c k))); [apply sqrt_lt_R0; exact H|]. apply near_fac; auto. apply (ro_sqrt _ _ RO). lra. }
  assert (B : 0 < f_sqrt ar varK). { apply (fac_pos u Hu 1 (sqrt varK)); [apply sqrt_lt_R0; exact HV|]. apply near_fac; auto. apply (ro_sqrt _ _ RO). lra. }
  apply (fac_pos u Hu 1 (f_sqrt ar (var_fl ar c k) * f_sqrt ar varK)); [apply Rmult_lt_0_compat; assumption|]. apply near_fac; auto. apply (ro_mul _ _ RO).
Qed.
Lemma sig2_pos u ar c k varK : rounds u ar -> u < 1 -> 0 < varK -> 0 < var_fl ar c k -> exists s, sig2_fl ar c k varK = Ok s /\ 0 < s.
Proof.
  intros RO U1 HV H. assert (Hu := ro_u _ _ RO).
  assert (A : 0 < f_mul ar varK (var_fl ar c k)). { apply (fac_pos u Hu 1 (varK * var_fl ar c k)); [apply Rmult_lt_0_compat; assumption|]. apply near_fac; auto. apply (ro_mul _ _ RO). }
  unfold sig2_fl. cbv zeta. destruct (Rle_dec 0 _) as [_|N]; [|lra]. eexists. split; [reflexivity|exact A].
Qed.
