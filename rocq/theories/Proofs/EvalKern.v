(** Derivatives of the covariance between an observation and the function at a variable point. *)
From Coq Require Import Reals List Arith Bool Lia Lra Psatz.
From Coquelicot Require Import Coquelicot.
From Verif.Base Require Import NpLite NpFacts Deriv.
From Verif.Spec Require Import KernelSpec LinAlgSpec.
From Verif.Model Require Import KernelSqExp KernelMatern KernelRatQuad KernelDispatch.
From Verif.Proofs Require Import KernTac KernGradBlocks RadialCalculus RadialFns KernelExact KernelExtra LinAlg Jets Mixture MixRatQu MixMatern Psd PreconBound JetGersh RowSum LinDeriv LkdCore.
Import ListNotations.
Local Open Scope R_scope.

Definition obs_lt (d : nat) (a : obs) : Prop := match a with Val _ => True | Der i _ => (i < d)%nat end.

Lemma is_cov_fun_ext (k k' : pt -> pt -> R) a b v : (forall x y, k x y = k' x y) -> is_cov k a b v -> is_cov k' a b v.
Proof.
  intros E. destruct a as [x|i x], b as [y|j y]; simpl.
  - rewrite E. auto.
  - intros H. eapply is_derive_ext; [|exact H]. intros; apply E.
  - intros H. eapply is_derive_ext; [|exact H]. intros; apply E.
  - intros (g & G1 & G2). exists g. split; [|exact G2]. intros x'. eapply is_derive_ext; [|apply G1]. intros; apply E.
Qed.

Section K.
Variables (k : kernel) (hp : option R) (d : nat) (th : nat -> R).
Hypothesis Hhp : hp_ok k hp.
Hypothesis Hth : th_ok k d th.
Notation kj := (kjet k (hp_val hp) d (cut d th)).

Lemma kjet_is_cov a b : obs_lt d a -> obs_lt d b -> is_cov (kfun k d th (hp_val hp)) a b (kj a b).
Proof.
  intros Ha Hb.
  set (a' := match a with Val _ => F 0 | Der i _ => G i 0 end). set (b' := match b with Val _ => F 0 | Der i _ => G i 0 end).
  set (xa := match a with Val x => x | Der _ x => x end). set (xb := match b with Val x => x | Der _ x => x end).
  assert (Va : rvalid 1 1 d a') by (destruct a; simpl in *; lia). assert (Vb : rvalid 1 1 d b') by (destruct b; simpl in *; lia).
  assert (Ea : obs_at (fun _ => xa) (fun p => p) a' = a) by (destruct a; reflexivity).
  assert (Eb : obs_at (fun _ => xb) (fun p => p) b' = b) by (destruct b; reflexivity).
  apply (is_cov_fun_ext (fun x y => phi0 k (hp_val hp) (sqd d th x y))); [intros; apply phi0_kfun|].
  assert (Z := rk_is_cov d th (Dk k) (phi0 k (hp_val hp)) (phi1 k (hp_val hp)) (phi2 k (hp_val hp)) (Dk_sqd k d th Hth) (phi_d01 k hp Hhp) (phi_d12 k hp Hhp)
     (fun _ => xa) (fun _ => xb) (fun p => p) (fun p => p) 1%nat 1%nat 1%nat 1%nat a' b' Va Vb).
  rewrite Ea, Eb in Z.
  assert (W := rkk_kjet k (hp_val hp) d th (fun _ => xa) (fun _ => xb) (fun p => p) (fun p => p) 1 1 1 1 a' b' Va Vb).
  unfold rkk in W. rewrite W in Z. rewrite Ea, Eb in Z. exact Z.
Qed.
Lemma kjet_val x y : kfun k d th (hp_val hp) x y = kj (Val x) (Val y).
Proof. symmetry. apply (kjet_is_cov (Val x) (Val y) I I). Qed.
Lemma kj_sym a b : kj a b = kj b a. Proof. apply rjet_sym. Qed.

(** derivative in coordinate j of the covariance with the function at x *)
Lemma kjet_dx a x j : obs_lt d a -> (j < d)%nat -> is_derive (fun t => kj a (Val (upd x j t))) (x j) (kj a (Der j x)).
Proof.
  intros Ha Hj. destruct a as [y|i y].
  - assert (Z := kjet_is_cov (Val y) (Der j x) I Hj). simpl in Z. eapply is_derive_ext; [|exact Z]. intros t. apply kjet_val.
  - assert (Z := kjet_is_cov (Der j x) (Der i y) Hj Ha). destruct Z as (g & G1 & G2).
    assert (E : forall x', g x' = kj (Der i y) (Val x')).
    { intros x'. rewrite kj_sym. apply (is_cov_unique (kfun k d th (hp_val hp)) (Val x') (Der i y)); [exact (G1 x')|]. apply kjet_is_cov; [exact I|exact Ha]. }
    rewrite kj_sym. eapply is_derive_ext; [|exact G2]. intros t. apply E.
Qed.
(** second derivative, from the specification of the Hessian tensors *)
Lemma kjet_dx2 a x l i v : obs_lt d a -> (i < d)%nat -> is_cov_dx (kfun k d th (hp_val hp)) l i x a v ->
  is_derive (fun t => kj a (Der i (upd x l t))) (x l) v.
Proof.
  intros Ha Hi (g & G1 & G2). eapply is_derive_ext; [|exact G2]. intros t. rewrite kj_sym.
  apply (is_cov_unique (kfun k d th (hp_val hp)) (Der i (upd x l t)) a); [apply G1|]. apply kjet_is_cov; [exact Hi|exact Ha].
Qed.
End K.

(** the cross covariance matrices *)
Lemma cross_grad k X Y theta hp b :
  nc X = nc Y -> vlen theta = nc X -> th_ok k (nc X) (vat theta) -> hp_ok k hp -> mask_ok (nr X) b -> (k = RatQu -> b = None) ->
  exists Rt K, calc_Rtensor X Y = Ok Rt /\ calc_KernGrad k Rt theta hp b None = Ok K /\
  let n := nr X in let g := opt_count n b in let m := nr Y in
  mspec (n + g * nc X) (m + m * nc X) K (fun r c => kjet k (hp_val hp) (nc X) (cut (nc X) (vat theta)) (rowobs n g (rows_of X) (osel b) r) (rowobs m m (rows_of Y) (fun p => p) c)).
Proof.
  intros E Hd Hth Hhp M MO.
  destruct (rok_ex _ _ (Rtensor_ok X Y E)) as (Rt & ERt & HRt). cbv beta in HRt. exists Rt.
  assert (MK : masks_ok k b None) by (destruct k; simpl; auto).
  destruct (rok_ex _ _ (KernGrad_blocks k Rt theta hp _ _ _ _ _ b None HRt Hd Hth Hhp M I MK)) as (K & EK & K1 & K2 & HK).
  exists K. split; [exact ERt|]. split; [exact EK|]. cbv zeta. split; [exact K1|]. split; [exact K2|].
  intros r c Hr Hc. destruct (unradr_ok _ _ _ r Hr) as (V1 & E1). destruct (unradr_ok _ _ _ c Hc) as (V2 & E2).
  rewrite <- E1 at 1. rewrite <- E2 at 1. cbn [opt_count] in HK. rewrite HK by auto. apply (rkk_kjet k _ _ _ _ _ _ _ (nr X) (opt_count (nr X) b) (nr Y) (nr Y)); auto.
Qed.
Lemma cross_base k X Y theta hp :
  nc X = nc Y -> vlen theta = nc X -> hp_ok k hp ->
  exists Rt K, calc_Rtensor X Y = Ok Rt /\ calc_KernBase k Rt theta hp = Ok K /\
  mspec (nr X) (nr Y) K (fun r c => kjet k (hp_val hp) (nc X) (cut (nc X) (vat theta)) (Val (rows_of X r)) (Val (rows_of Y c))).
Proof.
  intros E Hd Hhp. destruct (rok_ex _ _ (Rtensor_ok X Y E)) as (Rt & ERt & HRt). cbv beta in HRt. exists Rt.
  destruct (rok_ex _ _ (KernBase_blocks k Rt theta hp _ _ _ _ _ HRt Hd Hhp)) as (K & EK & HK). exists K. split; [exact ERt|]. split; [exact EK|].
  eapply mspec_ext; [exact HK|]. intros p q Hp Hq. unfold kjet, rjet. rewrite sqd_cut. reflexivity.
Qed.

(** ** the posterior, as functions of the point *)
Section P.
Variables (N : nat) (A : nat -> nat -> R) (r : nat -> R) (b0 vK : R).
Hypothesis HA : pdf N A.
Variables (m : nat) (kx : pt -> nat -> R) (dk : nat -> pt -> nat -> R).
Hypothesis Hdk : forall x j c, (j < m)%nat -> (c < N)%nat -> is_derive (fun t => kx (upd x j t) c) (x j) (dk j x c).
Definition pw : nat -> R := ksol N A r.
Definition pmu (x : pt) : R := b0 + dotp N (kx x) pw.
Definition pz (x : pt) : nat -> R := ksol N A (kx x).
Definition pv (x : pt) : R := 1 - dotp N (kx x) (pz x).
Definition pdmu (j : nat) (x : pt) : R := dotp N (dk j x) pw.
Definition pdv (j : nat) (x : pt) : R := dotp N (dk j x) (pz x).

Lemma dR_ksol (f : R -> nat -> R) df t0 : (forall c, (c < N)%nat -> is_derive (fun t => f t c) t0 (df c)) ->
  forall c, (c < N)%nat -> is_derive (fun t => ksol N A (f t) c) t0 (ksol N A df c).
Proof.
  intros H c Hc. apply (dR_ext (fun t => rsum N (fun j => kinv N A c j * f t j))).
  - intros t. symmetry. apply (kinv_apply N A (f t) HA c Hc).
  - rewrite (kinv_apply N A df HA c Hc). apply dR_rsum. intros i Hi. apply dR_scal, H, Hi.
Qed.
Lemma upd_self (x : pt) j : forall i, upd x j (x j) i = x i.
Proof. intros i. unfold upd. destruct (Nat.eqb_spec i j); congruence. Qed.

Lemma pmu_dx x j : (j < m)%nat -> is_derive (fun t => pmu (upd x j t)) (x j) (pdmu j x).
Proof.
  intros Hj. unfold pmu, pdmu, dotp. refine (dR_val _ _ _ _ (dR_plus _ _ _ _ _ (dR_const b0 _) (dR_rsum N (fun c t => kx (upd x j t) c * pw c) (fun c => dk j x c * pw c) (x j) _)) _).
  - intros c Hc. refine (dR_val _ _ _ _ (dR_mult _ _ _ _ _ (Hdk x j c Hj Hc) (dR_const (pw c) _)) _). ring.
  - ring.
Qed.
Hypothesis Hkx : forall x y, (forall i, x i = y i) -> forall c, (c < N)%nat -> kx x c = kx y c.
Lemma pv_dx x j : (j < m)%nat -> is_derive (fun t => pv (upd x j t)) (x j) (-2 * pdv j x).
Proof.
  intros Hj. unfold pv, pdv.
  assert (D := dR_dotp N (x j) (fun t => kx (upd x j t)) (dk j x) (fun t => pz (upd x j t)) (ksol N A (dk j x))
     (fun c Hc => Hdk x j c Hj Hc) (dR_ksol _ _ _ (fun c Hc => Hdk x j c Hj Hc))). cbv beta in D.
  refine (dR_val _ _ _ _ (dR_minus _ _ _ _ _ (dR_const 1 _) D) _).
  assert (E : forall c, (c < N)%nat -> kx (upd x j (x j)) c = kx x c) by (intros c Hc; apply Hkx; [apply upd_self|exact Hc]).
  assert (E1 : dotp N (dk j x) (pz (upd x j (x j))) = dotp N (dk j x) (pz x)).
  { apply dotp_ext; [reflexivity|]. intros i Hi. apply ksol_ext; auto. }
  assert (E2 : dotp N (kx (upd x j (x j))) (ksol N A (dk j x)) = dotp N (dk j x) (pz x)).
  { rewrite <- (ksol_sym N A _ _ HA). rewrite dotp_sym. apply dotp_ext; [reflexivity|]. intros i Hi. apply ksol_ext; auto. }
  rewrite E1, E2. ring.
Qed.

(** second derivatives *)
Variable (d2 : nat -> nat -> pt -> nat -> R).
Lemma pdmu_dx x l i : (forall c, (c < N)%nat -> is_derive (fun t => dk i (upd x l t) c) (x l) (d2 l i x c)) ->
  is_derive (fun t => pdmu i (upd x l t)) (x l) (dotp N (d2 l i x) pw).
Proof.
  intros H. unfold pdmu, dotp. apply (dR_rsum N (fun c t => dk i (upd x l t) c * pw c) (fun c => d2 l i x c * pw c)).
  intros c Hc. refine (dR_val _ _ _ _ (dR_mult _ _ _ _ _ (H c Hc) (dR_const (pw c) _)) _). ring.
Qed.
Lemma pdv_dx x l i : (l < m)%nat -> (forall c, (c < N)%nat -> is_derive (fun t => dk i (upd x l t) c) (x l) (d2 l i x c)) ->
  (forall y z, (forall i, y i = z i) -> forall c, (c < N)%nat -> dk i y c = dk i z c) ->
  is_derive (fun t => pdv i (upd x l t)) (x l) (dotp N (d2 l i x) (pz x) + dotp N (dk i x) (ksol N A (dk l x))).
Proof.
  intros Hl H Hx. unfold pdv.
  assert (D := dR_dotp N (x l) (fun t => dk i (upd x l t)) (d2 l i x) (fun t => pz (upd x l t)) (ksol N A (dk l x))
     H (dR_ksol _ _ _ (fun c Hc => Hdk x l c Hl Hc))). cbv beta in D.
  refine (dR_val _ _ _ _ D _). f_equal.
  - apply dotp_ext; [reflexivity|]. intros c Hc. apply ksol_ext; auto. intros k Hk. apply Hkx; [apply upd_self|exact Hk].
  - apply dotp_ext; [|reflexivity]. intros c Hc. apply Hx; [apply upd_self|exact Hc].
Qed.
End P.

(** the posterior variance lies between 0 and 1 *)
Section V.
Variables (N : nat) (A : nat -> nat -> R) (kf : nat -> nat -> R) (D kxv : nat -> R).
Hypothesis HA : pdf N A.
Hypothesis EA : forall i j, (i < N)%nat -> (j < N)%nat -> A i j = kf i j + (if (i =? j)%nat then D i else 0).
Hypothesis HD : forall i, (i < N)%nat -> 0 <= D i.
(** the covariance matrix of the observations and of the function at the point *)
Hypothesis HJ : forall z : nat -> R, 0 <= bform N kf z z - 2 * dotp N kxv z + 1.
Lemma var_bounds : 0 <= 1 - dotp N kxv (ksol N A kxv) <= 1.
Proof.
  split; [|assert (Z := ksol_quad_nn N A kxv HA); lra].
  assert (Q := ksol_quad N A kxv HA). set (z := ksol N A kxv) in *.
  assert (B : bform N A z z = bform N kf z z + rsum N (fun i => D i * z i ^ 2)).
  { unfold bform. rewrite <- rsum_plus. apply rsum_ext; intros i Hi.
    transitivity (rsum N (fun j => z i * kf i j * z j + (if (j =? i)%nat then z i * D i * z i else 0))).
    - apply rsum_ext; intros j Hj. rewrite EA by assumption. rewrite (Nat.eqb_sym j i). destruct (Nat.eqb_spec i j) as [->|]; ring.
    - rewrite rsum_plus. rewrite (rsum_delta N i (fun _ => z i * D i * z i)) by exact Hi. ring. }
  assert (S : 0 <= rsum N (fun i => D i * z i ^ 2)) by (apply rsum_nonneg; intros i Hi; apply Rmult_le_pos; [auto|apply pow2_ge_0]).
  assert (J := HJ z). rewrite Q, B in *. lra.
Qed.
End V.

(** joint positive semidefiniteness of the observations and the function at a point *)
Lemma joint_psd k hp d th N (ob : nat -> obs) x (z : nat -> R) : hp_ok k hp -> (forall i, (i < d)%nat -> 0 <= th i) ->
  let kj := kjet k (hp_val hp) d (cut d th) in
  0 <= bform N (fun r s => kj (ob r) (ob s)) z z - 2 * dotp N (fun r => kj (ob r) (Val x)) z + kj (Val x) (Val x).
Proof.
  intros Hhp Hnn kj.
  assert (P := kjet_psd k hp d th (S N) (fun r => if (r <? N)%nat then ob r else Val x) (fun r => if (r <? N)%nat then z r else -1) Hhp Hnn).
  fold kj in P. unfold bform in P. cbn [rsum] in P.
  rewrite (rsum_ext N _ (fun i => rsum N (fun j => z i * kj (ob i) (ob j) * z j) + - (z i * kj (ob i) (Val x)))) in P.
  - rewrite rsum_plus in P. rewrite (rsum_ext N (fun i => (if (N <? N)%nat then _ else _) * _ * _) (fun i => - (z i * kj (ob i) (Val x)))) in P.
    + rewrite Nat.ltb_irrefl in P. unfold bform, dotp. rewrite rsum_opp in P.
      rewrite (rsum_ext N (fun i => kj (ob i) (Val x) * z i) (fun i => z i * kj (ob i) (Val x))) by (intros; ring). lra.
    + intros i Hi. rewrite Nat.ltb_irrefl. destruct (Nat.ltb_spec i N); [|lia]. unfold kj. rewrite (kj_sym k hp d th (Val x)). ring.
  - intros i Hi. rewrite Nat.ltb_irrefl. destruct (Nat.ltb_spec i N); [|lia]. f_equal; [|ring].
    apply rsum_ext. intros j Hj. destruct (Nat.ltb_spec j N); [|lia]. ring.
Qed.
