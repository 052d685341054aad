(** * The posterior covariance of two observations, and bounds on the predictions. *)
From Coq Require Import Reals List Arith Bool Lia Lra Psatz.
From Coquelicot Require Import Coquelicot.
From Verif.Base Require Import NpLite NpFacts Deriv.
From Verif.Spec Require Import KernelSpec LinAlgSpec.
From Verif.Model Require Import KernelSqExp KernelMatern KernelRatQuad KernelDispatch GpState Rescaling.
From Verif.Proofs Require Import KernTac KernGradBlocks RadialCalculus RadialFns KernelExact LinAlg Mixture Jets Psd LinDeriv LkdCore StateFacts NoiseFacts NuggetCond EvalKern EvalFacts FlGrad.
Local Open Scope R_scope.

(** a nonnegative binary quadratic form *)
Lemma form_cs p c q : (forall a b, 0 <= a * a * p + 2 * a * b * c + b * b * q) -> 0 <= p /\ 0 <= q /\ c * c <= p * q.
Proof.
  intros H. assert (P : 0 <= p) by (assert (Z := H 1 0); lra). assert (Q : 0 <= q) by (assert (Z := H 0 1); lra). split; [exact P|]. split; [exact Q|].
  destruct (Req_dec q 0) as [->|Nq].
  - destruct (Req_dec c 0) as [->|Nc]; [lra|]. assert (Z := H 1 (- (p + 1) / (2 * c))). replace (1 * 1 * p + 2 * 1 * (- (p + 1) / (2 * c)) * c + - (p + 1) / (2 * c) * (- (p + 1) / (2 * c)) * 0) with (-1) in Z by (field; exact Nc). lra.
  - assert (Z := H q (- c)). replace (q * q * p + 2 * q * - c * c + - c * - c * q) with (q * (p * q - c * c)) in Z by ring. assert (0 < q) by lra.
    destruct (Rle_lt_dec (c * c) (p * q)) as [L|L]; [exact L|]. nra.
Qed.
Lemma bform_S n (A : nat -> nat -> R) z : (forall i, (i < n)%nat -> A n i = A i n) -> bform (S n) A z z = bform n A z z + 2 * z n * dotp n (fun i => A i n) z + z n * A n n * z n.
Proof.
  intros Sy. unfold bform. cbn [rsum]. rewrite (rsum_ext n _ (fun i => rsum n (fun j => z i * A i j * z j) + z n * (A i n * z i))) by (intros i Hi; cbn [rsum]; ring).
  rewrite rsum_plus, rsum_scal. rewrite (rsum_ext n (fun j => z n * A n j * z j) (fun j => z n * (A j n * z j))) by (intros j Hj; rewrite Sy by exact Hj; ring). rewrite rsum_scal. unfold dotp. ring.
Qed.
Lemma joint_psd2 k hp d th N (ob : nat -> obs) a b s t (z : nat -> R) : hp_ok k hp -> (forall i, (i < d)%nat -> 0 <= th i) ->
  let kj := kjet k (hp_val hp) d (cut d th) in
  0 <= bform N (fun i j => kj (ob i) (ob j)) z z - 2 * s * dotp N (fun i => kj (ob i) a) z - 2 * t * dotp N (fun i => kj (ob i) b) z + (s * s * kj a a + 2 * s * t * kj a b + t * t * kj b b).
Proof.
  intros Hh Hth kj. set (ob' := fun i => if (i <? N)%nat then ob i else a). set (z' := fun i => if (i <? N)%nat then z i else - s).
  assert (P := joint_psd_obs k hp d th (S N) ob' b t z' Hh Hth). cbv zeta in P. fold kj in P.
  rewrite bform_S in P by (intros i Hi; apply kjet_sym). cbv beta in P.
  assert (OB : ob' N = a) by (unfold ob'; rewrite Nat.ltb_irrefl; reflexivity). assert (ZN : z' N = - s) by (unfold z'; rewrite Nat.ltb_irrefl; reflexivity). rewrite OB, ZN in P.
  assert (E1 : bform N (fun r s0 => kj (ob' r) (ob' s0)) z' z' = bform N (fun i j => kj (ob i) (ob j)) z z).
  { unfold bform. apply rsum_ext; intros i Hi. apply rsum_ext; intros j Hj. unfold ob', z'. destruct (Nat.ltb_spec i N), (Nat.ltb_spec j N); try lia. reflexivity. }
  assert (E2 : dotp N (fun i => kj (ob' i) a) z' = dotp N (fun i => kj (ob i) a) z).
  { apply dotp_ext; intros i Hi; unfold ob', z'; destruct (Nat.ltb_spec i N); try lia; reflexivity. }
  assert (E3 : dotp (S N) (fun r => kj (ob' r) b) z' = dotp N (fun i => kj (ob i) b) z - s * kj a b).
  { unfold dotp. cbn [rsum]. rewrite OB, ZN. rewrite (rsum_ext N _ (fun i => kj (ob i) b * z i)) by (intros i Hi; unfold ob', z'; destruct (Nat.ltb_spec i N); [reflexivity|lia]). ring. }
  rewrite E3, E1, E2 in P. lra.
Qed.

Section Q.
Variables (n : nat) (A : nat -> nat -> R).
Hypothesis HA : pdf n A.
Notation q u w := (dotp n u (ksol n A w)).
Lemma q_lin s t u w x : q (fun i => s * u i + t * w i) x = s * q u x + t * q w x.
Proof. rewrite dotp_plus_l, !dotp_scal_l. reflexivity. Qed.
Lemma q_sym u w : q u w = q w u.
Proof. rewrite <- (ksol_sym n A u w HA). apply dotp_sym. Qed.
Lemma q_form s t u w : q (fun i => s * u i + t * w i) (fun i => s * u i + t * w i) = s * s * q u u + 2 * s * t * q u w + t * t * q w w.
Proof.
  rewrite q_lin, (q_sym u (fun i => s * u i + t * w i)), (q_sym w (fun i => s * u i + t * w i)), !q_lin, (q_sym w u). ring.
Qed.
Lemma q_cs u w : q u w * q u w <= q u u * q w w.
Proof. apply (form_cs (q u u) (q u w) (q w w)). intros a b. rewrite <- q_form. apply ksol_quad_nn, HA. Qed.
End Q.

Section P.
Variables (o : gpopt) (d : gpdata) (hp : hpv) (e : R).
Notation X := (fst (get_scl_x_w_dist d)).
Notation N := (cN o d).
Notation A := (smat o d hp e).
Hypothesis Hh : hp_ok (o_kernel o) (hp_kernel hp).
Hypothesis Hth : forall i, (i < o_dim o)%nat -> 0 <= vat (hp_theta hp) i.
Hypothesis HA : pdf N A.
Hypothesis HD : forall i, (i < N)%nat -> 0 < sdiag o d hp e i.
Notation kj := (kjet (o_kernel o) (hp_val (hp_kernel hp)) (o_dim o) (cut (o_dim o) (vat (hp_theta hp)))).
Definition kc (a : obs) (c : nat) : R := kj (cobs d X c) a.
(** posterior covariance of two observations *)
Definition pc (a b : obs) : R := kj a b - dotp N (kc a) (ksol N A (kc b)).
Lemma noisy_quad z : bform N (fun i j => kj (cobs d X i) (cobs d X j)) z z <= bform N A z z.
Proof.
  assert (B : bform N A z z = bform N (fun i j => kj (cobs d X i) (cobs d X j)) z z + rsum N (fun i => sdiag o d hp e i * z i ^ 2)).
  { unfold bform. rewrite <- rsum_plus. apply rsum_ext; intros i Hi.
    transitivity (rsum N (fun j => z i * kj (cobs d X i) (cobs d X j) * z j + (if (j =? i)%nat then z i * sdiag o d hp e i * z i else 0))).
    - apply rsum_ext; intros j Hj. unfold smat. rewrite (Nat.eqb_sym j i). change (ckf o d hp X i j) with (kj (cobs d X i) (cobs d X j)). destruct (Nat.eqb_spec i j) as [->|]; ring.
    - rewrite rsum_plus. rewrite (rsum_delta N i (fun _ => z i * sdiag o d hp e i * z i)) by exact Hi. ring. }
  assert (S : 0 <= rsum N (fun i => sdiag o d hp e i * z i ^ 2)) by (apply rsum_nonneg; intros i Hi; apply Rmult_le_pos; [left; auto|apply pow2_ge_0]). lra.
Qed.
Lemma pc_form a b s t : 0 <= s * s * pc a a + 2 * s * t * pc a b + t * t * pc b b.
Proof.
  set (w := fun i => s * kc a i + t * kc b i). set (z := ksol N A w). assert (J := joint_psd2 (o_kernel o) (hp_kernel hp) (o_dim o) (vat (hp_theta hp)) N (cobs d X) a b s t z Hh Hth). cbv zeta in J.
  assert (B := noisy_quad z). assert (Q := ksol_quad N A w HA). fold z in Q. assert (F := q_form N A HA s t (kc a) (kc b)). fold w z in F.
  assert (L : dotp N w z = s * dotp N (kc a) z + t * dotp N (kc b) z) by (unfold w; rewrite dotp_plus_l, !dotp_scal_l; reflexivity).
  change (fun i => kj (cobs d X i) a) with (kc a) in J. change (fun i => kj (cobs d X i) b) with (kc b) in J. unfold pc. lra.
Qed.
Lemma pc_cs a b : 0 <= pc a a /\ 0 <= pc b b /\ pc a b * pc a b <= pc a a * pc b b.
Proof. apply form_cs. intros. apply pc_form. Qed.
Lemma pc_le a : dotp N (kc a) (ksol N A (kc a)) <= kj a a.
Proof. destruct (pc_cs a a) as (Z & _). unfold pc in Z. lra. Qed.
Lemma pc_diff a b : pc a a - 2 * pc a b + pc b b <= kj a a - 2 * kj a b + kj b b /\ 
  dotp N (fun i => kc a i - kc b i) (ksol N A (fun i => kc a i - kc b i)) <= kj a a - 2 * kj a b + kj b b.
Proof.
  assert (F := q_form N A HA 1 (-1) (kc a) (kc b)).
  assert (E : forall i, (i < N)%nat -> 1 * kc a i + -1 * kc b i = kc a i - kc b i) by (intros; ring).
  assert (E2 : dotp N (fun i => kc a i - kc b i) (ksol N A (fun i => kc a i - kc b i)) = dotp N (fun i => 1 * kc a i + -1 * kc b i) (ksol N A (fun i => 1 * kc a i + -1 * kc b i))).
  { apply dotp_ext; [intros i Hi; symmetry; apply E, Hi|]. intros i Hi. apply ksol_ext; auto. intros j Hj. symmetry. apply E, Hj. }
  rewrite E2, F. assert (Q := ksol_quad_nn N A (fun i => 1 * kc a i + -1 * kc b i) HA). rewrite F in Q.
  assert (Z := pc_form a b 1 (-1)). unfold pc in *. split; lra.
Qed.
End P.

(** a lower bound on the three kernels *)
Lemma phi0_lower k hp s : hp_ok k hp -> 0 <= s -> 1 - s <= phi0 k (hp_val hp) s.
Proof.
  intros Hh Hs. destruct k; cbn [phi0 hp_ok] in *.
  - unfold se0. destruct (Req_dec s 0) as [->|Ns]; [rewrite Ropp_0, exp_0; lra|]. assert (Z := exp_ineq1 (- s) ltac:(lra)). lra.
  - unfold ma0. set (v := sqrt s). assert (V0 : 0 <= v) by apply sqrt_pos. assert (V2 : v * v = s) by (apply sqrt_sqrt; exact Hs).
    set (df := fun c => - (5 / 3) * c * (1 + sqrt 5 * c) * exp (- sqrt 5 * c) + 5 / 3 * c).
    destruct (MVT_gen (fun t => matern_base_entry t + 5 / 6 * (t * t)) 0 v df) as (c & C1 & C2).
    + intros x _. unfold df. refine (dR_val _ _ _ _ (dR_plus _ _ _ _ _ (mat_base_derive x) (dR_scal (fun t => t * t) (5 / 6) _ (1 * x + x * 1) (dR_mult _ _ _ _ _ (dR_id x) (dR_id x)))) _). lazymatch goal with |- @eq _ ?l ?r => change (@eq R l r) end. field.
    + intros x _. apply continuity_pt_filterlim. change (continuous (fun t => matern_base_entry t + 5 / 6 * (t * t)) x). eapply cont_of_derive.
      refine (dR_plus _ _ _ _ _ (mat_base_derive x) (dR_scal (fun t => t * t) (5 / 6) _ (1 * x + x * 1) (dR_mult _ _ _ _ _ (dR_id x) (dR_id x)))).
    + rewrite Rmin_left, Rmax_right in C1 by exact V0. assert (M0 : matern_base_entry 0 = 1) by (unfold matern_base_entry; rewrite !Rmult_0_r, exp_0; field).
      rewrite M0 in C2. assert (DF : 0 <= df c).
      { unfold df. set (w := sqrt 5 * c). assert (W0 : 0 <= w) by (unfold w; apply Rmult_le_pos; [apply sqrt_pos|lra]). replace (- sqrt 5 * c) with (- w) by (unfold w; ring).
        assert (EW : (1 + w) * exp (- w) <= 1). { rewrite exp_Ropp. assert (P := exp_pos w). apply (Rmult_le_reg_r (exp w)); [exact P|]. rewrite Rmult_assoc, Rinv_l, Rmult_1_r, Rmult_1_l by lra. destruct (Req_dec w 0) as [->|Nw]; [rewrite exp_0; lra|]. left. apply exp_ineq1. lra. }
        replace (- (5 / 3) * c * (1 + w) * exp (- w) + 5 / 3 * c) with (5 / 3 * c * (1 - (1 + w) * exp (- w))) by ring. apply Rmult_le_pos; lra. }
      assert (0 <= df c * (v - 0)) by (apply Rmult_le_pos; lra). nra.
  - destruct Hh as (a & -> & Ha). cbn [hp_val]. unfold rq0, rat_pow, rat_B. assert (SA : 0 <= s / a) by (apply Rmult_le_pos; [exact Hs|left; apply Rinv_0_lt_compat, Ha]).
    unfold Rpower. assert (L : ln (1 + s / a) <= s / a).
    { destruct (Req_dec (s / a) 0) as [E|E]; [rewrite E, Rplus_0_r, ln_1; lra|]. rewrite <- (ln_exp (s / a)) at 2. left. apply ln_increasing; [lra|]. apply exp_ineq1. exact E. }
    assert (LA : a * ln (1 + s / a) <= s). { apply (Rmult_le_compat_l a) in L; [|lra]. replace (a * (s / a)) with s in L by (field; lra). exact L. }
    set (y := - a * ln (1 + s / a)). assert (Y : - s <= y) by (unfold y; lra). destruct (Req_dec y 0) as [->|Ny]; [rewrite exp_0; lra|]. assert (Z := exp_ineq1 y Ny). lra.
Qed.
