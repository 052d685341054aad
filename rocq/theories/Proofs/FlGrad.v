(** The gradient of the predicted mean in an arithmetic with rounding errors. *)
From Coq Require Import Reals List Arith Bool Lia Lra Psatz.
From Verif.Base Require Import NpLite NpFacts.
From Verif.Spec Require Import KernelSpec LinAlgSpec GpSpec FloatSpec FloatKernSpec.
From Verif.Model Require Import KernelSqExp KernelMatern KernelRatQuad KernelDispatch CommonFun WellCond Rescaling GpState Chol CholFl Cov EvalModel EvalFl EvalGradFl KernFl.
From Verif.Proofs Require Import CondBound KernGradBlocks KernelExact RadialCalculus Jets Psd StateFacts NoiseFacts LinAlg CholCorrect FlChol FlMargin FlSolve FlSol FlTarget FlEval FlFac FlKern FlCov FlCovMain FlPred CovStruct NuggetCond NuggetMain CondMain EvalKern EvalFacts.
Import ListNotations.
Local Open Scope R_scope.

(** joint positive semidefiniteness of the observations and one more *)
Lemma joint_psd_obs k hp d th N (ob : nat -> obs) a c (z : nat -> R) : hp_ok k hp -> (forall i, (i < d)%nat -> 0 <= th i) ->
  let kj := kjet k (hp_val hp) d (cut d th) in
  0 <= bform N (fun r s => kj (ob r) (ob s)) z z - 2 * c * dotp N (fun r => kj (ob r) a) z + c * c * kj a a.
Proof.
  intros Hhp Hnn kj.
  assert (P := kjet_psd k hp d th (S N) (fun r => if (r <? N)%nat then ob r else a) (fun r => if (r <? N)%nat then z r else - c) Hhp Hnn).
  fold kj in P. unfold bform in P. cbn [rsum] in P.
  rewrite (rsum_ext N _ (fun i => rsum N (fun j => z i * kj (ob i) (ob j) * z j) + - (c * (z i * kj (ob i) a)))) in P.
  - rewrite rsum_plus in P. rewrite (rsum_ext N (fun i => (if (N <? N)%nat then _ else _) * _ * _) (fun i => - (c * (z i * kj (ob i) a)))) in P.
    + rewrite Nat.ltb_irrefl in P. unfold bform, dotp. rewrite rsum_opp, rsum_scal in P.
      rewrite (rsum_ext N (fun i => kj (ob i) a * z i) (fun i => z i * kj (ob i) a)) by (intros; ring). lra.
    + intros i Hi. rewrite Nat.ltb_irrefl. destruct (Nat.ltb_spec i N); [|lia]. unfold kj. rewrite (kj_sym k hp d th a). ring.
  - intros i Hi. rewrite Nat.ltb_irrefl. destruct (Nat.ltb_spec i N); [|lia]. f_equal; [|ring].
    apply rsum_ext. intros j Hj. destruct (Nat.ltb_spec j N); [|lia]. ring.
Qed.

(** an inner product with the computed weights *)
Lemma dot_weights_gen e eta s r k g q A kx kh w x : pd A -> scaled_cond_le A k -> 0 <= k -> 0 <= g -> 0 <= e -> 0 <= eta -> 0 <= r < 1 -> 0 < s ->
  covariances A eta (fun i => kx i / s) -> within A (e * s) (fun i => kh i - kx i) -> accurate A r w x ->
  Rabs (q - dotp (nr A) kh w) <= g * rsum (nr A) (fun j => Rabs (kh j * w j)) ->
  Rabs (q - dotp (nr A) kx x) <= (r + sqrt (INR (nr A) * k) * (e + g * (1 + e))) / (1 - r) * (s * energy A x).
Proof.
  intros HP HC K0 G0 He He' Hr Hs CO HK AC F4. assert (Esq := pd_square A HP).
  set (n := nr A) in *.
  set (E := energy A x). assert (E0 : 0 <= E) by apply energy_nonneg.
  destruct AC as ((_ & L1) & (_ & L2)). specialize (L1 (proj2 Hr)). specialize (L2 (proj2 Hr)). fold E in L2.
  set (S := rsum n (fun j => sqrt (mat_at A j j) * Rabs (w j))).
  assert (S0 : 0 <= S) by (apply rsum_nonneg; intros; apply Rmult_le_pos; [apply sqrt_pos|apply Rabs_pos]).
  assert (IR : 0 < / (1 - r)) by (apply Rinv_0_lt_compat; lra).
  assert (SL : S <= sqrt (INR n * k) / (1 - r) * E).
  { assert (X := sum_len A w (fun i Hi => pd_diag A i HP Hi)). fold n S in X. assert (Y := len_sub A w x).
    assert (LX : len A x <= sqrt k * E) by (apply len_energy; assumption).
    assert (LW : len A w <= / (1 - r) * (sqrt k * E)).
    { apply Rle_trans with (/ (1 - r) * len A x); [|apply Rmult_le_compat_l; lra]. replace (/ (1 - r)) with (r / (1 - r) + 1) by (field; lra). lra. }
    eapply Rle_trans; [exact X|]. rewrite sqrt_mult_alt by apply pos_INR. unfold Rdiv. apply Rle_trans with (sqrt (INR n) * (/ (1 - r) * (sqrt k * E))); [apply Rmult_le_compat_l; [apply sqrt_pos|exact LW]|right; ring]. }
  assert (F2 : Rabs (dotp n kh w - dotp n kx w) <= e * s * S).
  { unfold dotp. rewrite <- rsum_minus. eapply Rle_trans; [apply rsum_abs|]. unfold S. rewrite <- rsum_scal. apply rsum_le; intros i Hi.
    replace (kh i * w i - kx i * w i) with ((kh i - kx i) * w i) by ring. rewrite Rabs_mult, <- Rmult_assoc. apply Rmult_le_compat_r; [apply Rabs_pos|]. apply (HK i Hi). }
  assert (F3 : rsum n (fun j => Rabs (kh j * w j)) <= (1 + e) * s * S).
  { unfold S. rewrite <- rsum_scal. apply rsum_le; intros i Hi. rewrite Rabs_mult, <- Rmult_assoc. apply Rmult_le_compat_r; [apply Rabs_pos|].
    assert (X := covariances_size A eta _ HP He' CO i Hi). cbv beta in X. unfold Rdiv in X. rewrite Rabs_mult, (Rabs_pos_eq (/ s)) in X by (left; apply Rinv_0_lt_compat; exact Hs).
    assert (X' : Rabs (kx i) <= s * sqrt (mat_at A i i)). { apply Rmult_le_reg_r with (/ s); [apply Rinv_0_lt_compat; exact Hs|]. replace (s * sqrt (mat_at A i i) * / s) with (1 * sqrt (mat_at A i i)) by (field; lra). exact X. }
    assert (Y := HK i Hi). cbv beta in Y. assert (Z := Rabs_triang (kh i - kx i) (kx i)). replace (kh i - kx i + kx i) with (kh i) in Z by ring. lra. }
  assert (F5 : g * rsum n (fun j => Rabs (kh j * w j)) <= g * ((1 + e) * s * S)) by (apply Rmult_le_compat_l; assumption).
  assert (F6 : Rabs (dotp n kx w - dotp n kx x) <= s * (r / (1 - r) * E)).
  { replace (dotp n kx w - dotp n kx x) with (s * dotp n (fun i => kx i / s) (fun i => w i - x i)) by (unfold dotp; rewrite <- rsum_minus, <- rsum_scal; apply rsum_ext; intros; field; lra).
    rewrite Rabs_mult, (Rabs_pos_eq s) by lra. apply Rmult_le_compat_l; [lra|]. eapply Rle_trans; [apply (covariances_energy A eta); assumption|exact L2]. }
  replace (q - dotp n kx x) with ((q - dotp n kh w) + ((dotp n kh w - dotp n kx w) + (dotp n kx w - dotp n kx x))) by ring.
  eapply Rle_trans; [apply Rabs_triang|]. assert (T := Rabs_triang (dotp n kh w - dotp n kx w) (dotp n kx w - dotp n kx x)).
  assert (X : (e + g * (1 + e)) * s * S <= (e + g * (1 + e)) * s * (sqrt (INR n * k) / (1 - r) * E)).
  { apply Rmult_le_compat_l; [|exact SL]. apply Rmult_le_pos; [|lra]. assert (0 <= g * (1 + e)) by (apply Rmult_le_pos; lra). lra. }
  replace ((r + sqrt (INR n * k) * (e + g * (1 + e))) / (1 - r) * (s * E)) with (s * (r / (1 - r) * E) + (e + g * (1 + e)) * s * (sqrt (INR n * k) / (1 - r) * E)) by (field; lra). lra.
Qed.

Lemma dot_weights u e eta s r k ar A c kx kh b x : rounds u ar -> pd A -> scaled_cond_le A k -> 0 <= k -> 0 <= e -> 0 <= eta -> 0 <= r < 1 -> 0 < s ->
  covariances A eta (fun i => kx i / s) -> within A (e * s) (fun i => kh i - kx i) -> accurate A r (cho_solve_fl ar c b) x ->
  Rabs (dot_fl ar (nr A) kh (cho_solve_fl ar c b) - dotp (nr A) kx x) <= mean_err u e r k (nr A) * (s * energy A x).
Proof.
  intros RO HP HC K0 He He' Hr Hs CO HK AC. unfold mean_err. apply (dot_weights_gen e eta s r k _ _ A kx kh (cho_solve_fl ar c b) x); auto; [apply gam_nonneg, (ro_u _ _ RO)|].
  apply (dot_fl_err u ar (nr A) kh (cho_solve_fl ar c b) RO).
Qed.

Section P.
Variables (u : R) (m : machine).
Hypothesis Hm : machine_rounds u m.
Variables (o : gpopt) (d : gpdata) (hp : hpv).
Hypothesis HR : gp_ready o d.
Hypothesis Hh : hyper_ok o hp.
Hypothesis Hk : o_kernel o <> RatQu.
Hypothesis HG : (1 + u) ^ (o_dim o + 5) <= 11 / 10.
Notation X := (fst (get_scl_x_w_dist d)).
Notation kf := (ckf o d hp X).
Notation N := (cN o d).
Notation th := (vat (hp_theta hp)).
Notation rp := (row_point (d_n_eval d) (d_n_grad d) (d_bvec d)).
Notation rd := (row_dir (d_n_eval d) (d_n_grad d)).
Let Hu := ro_u _ _ (mr_ar _ _ Hm).
Lemma dkf_entry x j r : (j < o_dim o)%nat -> (r < N)%nat -> dkf o d hp j x r = entry_ex (o_dim o) th (fun i => mat_at X (rp r) i - x i) (o_kernel o) (rd r) (Some j).
Proof.
  intros Hj Hr. assert (D1 := rd_ok o d r Hr). unfold dkf, cobs, rowobs, unradr, row_dir, row_point in *.
  assert (PH : forall a x, phi0 (o_kernel o) a x = phi0 (o_kernel o) 0 x /\ phi1 (o_kernel o) a x = phi1 (o_kernel o) 0 x /\ phi2 (o_kernel o) a x = phi2 (o_kernel o) 0 x) by (intros; destruct (o_kernel o); [auto|auto|congruence]).
  assert (SL : forall l q, osel (Some l) q = nth q (true_idx l) 0%nat) by reflexivity.
  destruct (r <? d_n_eval d)%nat; cbn [obs_at kjet rjet entry_ex dir_ok] in *; unfold kjet; cbn [rjet]; rewrite ?sqd_cut, ?cut_lt by assumption; unfold sqd, rows_of;
    match goal with |- context [phi0 _ ?a ?x] => destruct (PH a x) as (P0 & P1 & P2) | |- context [phi1 _ ?a ?x] => destruct (PH a x) as (P0 & P1 & P2) end; rewrite ?P0, ?P1, ?P2; destruct (d_bvec d); rewrite ?SL; reflexivity.
Qed.
Lemma cross_der_err x j r : (j < o_dim o)%nat -> (r < N)%nat -> Rabs (cross_der_fl m o d hp x j r - dkf o d hp j x r) <= kern_err u (o_dim o) * (sqrt (kf r r) * sqrt (gamma2 (o_kernel o) (th j))).
Proof.
  intros Hj Hr. assert (S2 := Hs2 u m Hm o HG). rewrite (dkf_entry x j r Hj Hr), <- (osize_sqrt o d hp Hh Hk r Hr). unfold cross_der_fl. cbv zeta.
  assert (TP := th_pos o hp Hh).
  assert (DF : forall q, (q < o_dim o)%nat -> fac u 1 (mat_at X (rp r) q - x q) (f_sub (m_ar m) (mat_at X (rp r) q) (x q))).
  { intros q _. apply near_fac; [exact Hu|apply (u1 u m Hm S2)|apply (ro_sub _ _ (mr_ar _ _ Hm))]. }
  exact (entry_err u m Hm S2 (o_dim o) th _ _ TP DF HG (o_kernel o) (rd r) (Some j) Hk (rd_ok o d r Hr) Hj).
Qed.
End P.
