(** * C60: the plotted correlations are those of the kernels *)
From Coq Require Import Reals List Arith Bool Lia Lra.
From Verif.Base Require Import NpLite NpFacts.
From Verif.Spec Require Import KernelSpec.
From Verif.Model Require Import KernelSqExp KernelMatern KernelRatQuad KernelDispatch Scripts.
From Verif.Proofs Require Import KernTac KernGradBlocks RadialCalculus RadialFns KernelExact.
Import ListNotations.
Local Open Scope R_scope.

(** the correlation coefficient of two observations whose covariances are in K *)
Definition correlation (K : mat) (a b : nat) : R := mat_at K a b / sqrt (mat_at K a a * mat_at K b b).
(** rows of the covariance matrix of n points: the value at point p, the derivative in coordinate i at point p *)
Definition val_row (p : nat) : nat := p.
Definition der_row (n i p : nat) : nat := (n + i * n + p)%nat.
(** the three curves for a kernel *)
Definition curves (k : kernel) (alpha r : R) : R * R * R :=
  match k with SqExp => sq_exp_1d_corr r | Ma5f2 => ma5f2_1d_corr r | RatQu => rat_qd_corr alpha r end.

Lemma sqd_one d th (x y : pt) i : (i < d)%nat -> (forall j, (j < d)%nat -> j <> i -> x j = y j) -> sqd d th x y = th i * (x i - y i) ^ 2.
Proof.
  intros Hi H. unfold sqd. rewrite (rsum_ext _ _ (fun j => if (j =? i)%nat then th i * (x i - y i) ^ 2 else 0)).
  - clear H. induction d as [|d IH]; [lia|]. cbn [rsum]. destruct (Nat.eqb_spec d i).
    + subst. rewrite rsum_0; [ring|]. intros j Hj. destruct (Nat.eqb_spec j i); [lia|reflexivity].
    + rewrite IH by lia. ring.
  - intros j Hj. destruct (Nat.eqb_spec j i); [subst; reflexivity|]. rewrite (H j Hj) by assumption. ring.
Qed.
Lemma sqd_same d th (x : pt) : sqd d th x x = 0.
Proof. unfold sqd. apply rsum_0. intros. ring. Qed.
Lemma sqd_two d th (x y : pt) i j : (i < d)%nat -> (j < d)%nat -> i <> j -> (forall l, (l < d)%nat -> l <> i -> l <> j -> x l = y l) ->
  sqd d th x y = th i * (x i - y i) ^ 2 + th j * (x j - y j) ^ 2.
Proof.
  intros Hi Hj N H. unfold sqd.
  rewrite (rsum_ext _ _ (fun l => (if (l =? i)%nat then th i * (x i - y i) ^ 2 else 0) + (if (l =? j)%nat then th j * (x j - y j) ^ 2 else 0))).
  - rewrite rsum_plus. rewrite (rsum_delta d i (fun _ => th i * (x i - y i) ^ 2)), (rsum_delta d j (fun _ => th j * (x j - y j) ^ 2)) by assumption. reflexivity.
  - intros l Hl. destruct (Nat.eqb_spec l i), (Nat.eqb_spec l j); subst; try congruence; try ring. rewrite (H l Hl) by assumption. ring.
Qed.
Lemma rat_pow_0 a p : 0 < a -> rat_pow a p 0 = 1.
Proof. intros Ha. unfold rat_pow, rat_B. replace (1 + 0 / a) with 1 by (field; lra). unfold Rpower. rewrite ln_1, Rmult_0_r. apply exp_0. Qed.
Lemma phi1_0 k a : (k = RatQu -> 0 < a) -> phi1 k a 0 = match k with Ma5f2 => - (5 / 6) | _ => -1 end.
Proof.
  intros Ha. destruct k; cbn [phi1]; unfold se1, ma1, rq1, matern_mat1_entry.
  - rewrite Ropp_0, exp_0. ring.
  - rewrite sqrt_0, Rmult_0_r, Rmult_0_r, exp_0. field.
  - rewrite rat_pow_0 by (apply Ha; reflexivity). ring.
Qed.
Lemma corr_finish k a t g dl :
  0 < g -> (k = RatQu -> 0 < a) -> t = match k with Ma5f2 => 3 / 5 * g ^ 2 | _ => 0.5 * g ^ 2 end ->
  (phi0 k a (t * dl ^ 2) / sqrt (phi0 k a 0 * phi0 k a 0),
   2 * t * dl * phi1 k a (t * dl ^ 2) / sqrt (- (2 * t * 1 * phi1 k a 0 + 4 * t * t * 0 * 0 * phi2 k a 0) * phi0 k a 0),
   - (2 * t * 1 * phi1 k a (t * dl ^ 2) + 4 * t * t * dl * dl * phi2 k a (t * dl ^ 2)) /
   sqrt (- (2 * t * 1 * phi1 k a 0 + 4 * t * t * 0 * 0 * phi2 k a 0) * - (2 * t * 1 * phi1 k a 0 + 4 * t * t * 0 * 0 * phi2 k a 0)))
  = curves k a (g * dl).
Proof.
  intros Hg Ha Ht'. assert (Ht : t = match k with Ma5f2 => 3 / 5 * g ^ 2 | _ => g ^ 2 / 2 end) by (rewrite Ht'; destruct k; lra). clear Ht'.
  assert (P0 : phi0 k a 0 = 1). { apply phi0_0. destruct k; [right; discriminate|right; discriminate|left; apply Ha; reflexivity]. }
  assert (D0 : - (2 * t * 1 * phi1 k a 0 + 4 * t * t * 0 * 0 * phi2 k a 0) = g ^ 2). { rewrite (phi1_0 k a Ha), Ht. destruct k; cbn [phi2]; field. }
  rewrite D0, P0. replace (1 * 1) with 1 by ring. rewrite sqrt_1. rewrite Rmult_1_r.
  rewrite (sqrt_square (g ^ 2)) by nra. replace (g ^ 2) with (g * g) by ring. rewrite (sqrt_square g) by lra.
  destruct k; cbn [phi0 phi1 phi2 curves].
  - unfold se0, se1, se2, sq_exp_1d_corr. rewrite Ht. replace (- (g ^ 2 / 2 * dl ^ 2)) with (-0.5 * (g * dl) ^ 2) by lra.
    f_equal; [f_equal|]; field; lra.
  - unfold ma0, ma1, ma2, ma5f2_1d_corr, matern_base_entry, matern_mat1_entry, matern_Abase_entry. rewrite Ht.
    set (s := sqrt (3 / 5 * g ^ 2 * dl ^ 2)).
    assert (S5 : sqrt 5 * s = sqrt 3 * Rabs (g * dl)).
    { unfold s. rewrite <- sqrt_mult_alt by lra. rewrite <- sqrt_Rsqr_abs. rewrite <- sqrt_mult_alt by lra. f_equal. unfold Rsqr. field. }
    assert (SS : s ^ 2 = 3 / 5 * g ^ 2 * dl ^ 2). { unfold s. rewrite pow2_sqrt; [reflexivity|]. pose proof (pow2_ge_0 g). pose proof (pow2_ge_0 dl). apply Rmult_le_pos; [lra|assumption]. }
    assert (AA : Rabs (g * dl) ^ 2 = g ^ 2 * dl ^ 2). { rewrite pow2_abs. ring. }
    replace (- sqrt 5 * s) with (- sqrt 3 * Rabs (g * dl)) by (replace (- sqrt 5 * s) with (- (sqrt 5 * s)) by ring; rewrite S5; ring).
    rewrite S5, SS, AA. f_equal; [f_equal|]; field; lra.
  - assert (Ap := Ha eq_refl). unfold rq0, rq1, rq2, rat_qd_corr, rat_pow, rat_B. rewrite Ht.
    replace (1 + g ^ 2 / 2 * dl ^ 2 / a) with (1 + (g * dl) ^ 2 / (2 * a)) by (field; lra).
    f_equal; [f_equal|]; field; lra.
Qed.
Theorem C60_plotted_correlations :
  forall (k : kernel) (X : mat) (gamma : vec) (hp : option R) (p q i : nat),
  vlen gamma = nc X -> (forall j, (j < nc X)%nat -> 0 < vat gamma j) -> hp_ok k hp ->
  (p < nr X)%nat -> (q < nr X)%nat -> (i < nc X)%nat ->
  (forall j, (j < nc X)%nat -> j <> i -> mat_at X p j = mat_at X q j) ->
  exists Rt K, calc_Rtensor X X = Ok Rt /\ calc_KernGrad k Rt (gamma2theta k gamma) hp None None = Ok K /\
    let r := vat gamma i * (mat_at X p i - mat_at X q i) in
    (correlation K (val_row p) (val_row q), correlation K (der_row (nr X) i p) (val_row q), correlation K (der_row (nr X) i p) (der_row (nr X) i q))
    = curves k (hp_val hp) r.
Proof.
  intros k X gamma hp p q i Hl Hg Hhp Hp Hq Hi Hd. set (th := gamma2theta k gamma).
  assert (Lth : vlen th = nc X) by (unfold th; destruct k; exact Hl).
  assert (Tth : forall j, vat th j = match k with Ma5f2 => 3 / 5 * vat gamma j ^ 2 | _ => 0.5 * vat gamma j ^ 2 end) by (intros j; unfold th; destruct k; reflexivity).
  assert (OK : th_ok k (nc X) (vat th)). { apply th_ok_nn. intros j Hj. rewrite Tth. specialize (Hg j Hj). destruct k; nra. }
  destruct (rok_ex _ _ (Rtensor_ok X X eq_refl)) as (Rt & ERt & HRt).
  destruct (rok_ex _ _ (KernGrad_blocks k Rt th hp _ _ _ _ _ None None HRt Lth OK Hhp I I (match k with RatQu => fun _ => eq_refl | _ => I end))) as (K & EK & HK1 & HK2 & HK).
  exists Rt, K. split; [exact ERt|]. split; [exact EK|]. cbv zeta.
  set (dl := mat_at X p i - mat_at X q i). set (g := vat gamma i). assert (Gp : 0 < g) by (apply Hg; exact Hi).
  assert (SE : sqd (nc X) (vat th) (rows_of X p) (rows_of X q) = vat th i * dl ^ 2) by (apply sqd_one; [exact Hi|exact Hd]).
  assert (VV := HK (F p) (F q) Hp Hq). assert (VP := HK (F p) (F p) Hp Hp). assert (VQ := HK (F q) (F q) Hq Hq).
  assert (DV := HK (G i p) (F q) (conj Hi Hp) Hq). assert (DD := HK (G i p) (G i q) (conj Hi Hp) (conj Hi Hq)).
  assert (DP := HK (G i p) (G i p) (conj Hi Hp) (conj Hi Hp)). assert (DQ := HK (G i q) (G i q) (conj Hi Hq) (conj Hi Hq)).
  unfold rkk, rk in VV, VP, VQ, DV, DD, DP, DQ. cbn [radr opt_count osel] in VV, VP, VQ, DV, DD, DP, DQ.
  rewrite SE in VV, DV, DD. rewrite !sqd_same in VP, VQ, DP, DQ. unfold delta in *. rewrite Nat.eqb_refl in *.
  unfold rows_of in *. fold dl in VV, DV, DD. replace (mat_at X p i - mat_at X p i) with 0 in DP by ring. replace (mat_at X q i - mat_at X q i) with 0 in DQ by ring.
  unfold correlation, val_row, der_row. rewrite VV, VP, VQ, DV, DD, DP, DQ. clear VV VP VQ DV DD DP DQ.
  clear HK HK1 HK2 EK SE. set (a := hp_val hp).
  assert (A0 : k = RatQu -> 0 < a). { intros ->. destruct Hhp as (v & -> & Hv). exact Hv. }
  apply corr_finish; [exact Gp|exact A0|apply Tth].
Qed.

Print Assumptions C60_plotted_correlations.

(** the correlation between the derivatives in two different coordinates, plotted over a plane *)
Theorem C60_plotted_cross_correlation :
  forall (X : mat) (gamma : vec) (hp : option R) (p q i j : nat),
  vlen gamma = nc X -> (forall l, (l < nc X)%nat -> 0 < vat gamma l) ->
  (p < nr X)%nat -> (q < nr X)%nat -> (i < nc X)%nat -> (j < nc X)%nat -> i <> j ->
  (forall l, (l < nc X)%nat -> l <> i -> l <> j -> mat_at X p l = mat_at X q l) ->
  exists Rt K, calc_Rtensor X X = Ok Rt /\ calc_KernGrad SqExp Rt (gamma2theta SqExp gamma) hp None None = Ok K /\
    let ri := vat gamma i * (mat_at X p i - mat_at X q i) in let rj := vat gamma j * (mat_at X p j - mat_at X q j) in
    correlation K (der_row (nr X) i p) (der_row (nr X) j q) = sq_exp_2d_corr ri rj ri rj.
Proof.
  intros X gamma hp p q i j Hl Hg Hp Hq Hi Hj N Hd. set (th := gamma2theta SqExp gamma).
  assert (Lth : vlen th = nc X) by exact Hl.
  assert (Tth : forall l, vat th l = vat gamma l ^ 2 / 2) by (intros l; transitivity (0.5 * vat gamma l ^ 2); [reflexivity|lra]).
  assert (OK : th_ok SqExp (nc X) (vat th)). { apply th_ok_nn. intros l Hl'. rewrite Tth. specialize (Hg l Hl'). nra. }
  destruct (rok_ex _ _ (Rtensor_ok X X eq_refl)) as (Rt & ERt & HRt).
  destruct (rok_ex _ _ (KernGrad_blocks SqExp Rt th hp _ _ _ _ _ None None HRt Lth OK I I I I)) as (K & EK & HK1 & HK2 & HK).
  exists Rt, K. split; [exact ERt|]. split; [exact EK|]. cbv zeta.
  set (di := mat_at X p i - mat_at X q i). set (dj := mat_at X p j - mat_at X q j).
  assert (Gi := Hg i Hi). assert (Gj := Hg j Hj).
  assert (SE : sqd (nc X) (vat th) (rows_of X p) (rows_of X q) = vat th i * di ^ 2 + vat th j * dj ^ 2) by (apply sqd_two; assumption).
  assert (DD := HK (G i p) (G j q) (conj Hi Hp) (conj Hj Hq)).
  assert (DP := HK (G i p) (G i p) (conj Hi Hp) (conj Hi Hp)). assert (DQ := HK (G j q) (G j q) (conj Hj Hq) (conj Hj Hq)).
  unfold rkk, rk in DD, DP, DQ. cbn [radr opt_count osel] in DD, DP, DQ.
  rewrite SE in DD. rewrite !sqd_same in DP, DQ. unfold delta in *. rewrite Nat.eqb_refl in *. destruct (Nat.eqb_spec i j) as [E|_]; [contradiction|].
  unfold rows_of in *. fold di dj in DD. replace (mat_at X p i - mat_at X p i) with 0 in DP by ring. replace (mat_at X q j - mat_at X q j) with 0 in DQ by ring.
  unfold correlation, der_row. rewrite DD, DP, DQ. clear - Tth Gi Gj. rewrite !Tth.
  cbn [phi0 phi1 phi2]. unfold se1, se2. rewrite Ropp_0, exp_0.
  set (gi := vat gamma i) in *. set (gj := vat gamma j) in *.
  replace (- (2 * (gi ^ 2 / 2) * 1 * - (1) + 4 * (gi ^ 2 / 2) * (gi ^ 2 / 2) * 0 * 0 * 1) * - (2 * (gj ^ 2 / 2) * 1 * - (1) + 4 * (gj ^ 2 / 2) * (gj ^ 2 / 2) * 0 * 0 * 1))
    with ((gi * gj) * (gi * gj)) by field.
  rewrite sqrt_square by nra. unfold sq_exp_2d_corr.
  replace (-0.5 * ((gi * di) ^ 2 + (gj * dj) ^ 2)) with (- (gi ^ 2 / 2 * di ^ 2 + gj ^ 2 / 2 * dj ^ 2)) by lra.
  field. lra.
Qed.
Print Assumptions C60_plotted_cross_correlation.

(** the function that computes it returns the same values whatever arguments it is called with: it reads the module's own grid *)
Theorem C60_cross_correlation_arguments_refuted :
  ~ (forall Xrvec Yrvec x y, sq_exp_2d_corr Xrvec Yrvec x y = - x * y * exp (-0.5 * (x ^ 2 + y ^ 2))).
Proof.
  intros H. specialize (H 1 1 0 0). unfold sq_exp_2d_corr in H. pose proof (exp_pos (-0.5 * (1 ^ 2 + 1 ^ 2))). lra.
Qed.
Print Assumptions C60_cross_correlation_arguments_refuted.

(** two points one coordinate apart *)
Example C60_case : exists X gamma, vlen gamma = nc X /\ (forall j, (j < nc X)%nat -> 0 < vat gamma j) /\ nr X = 2%nat /\ nc X = 2%nat /\
  (forall j, (j < nc X)%nat -> j <> 1%nat -> mat_at X 0 j = mat_at X 1 j) /\ mat_at X 0 1 <> mat_at X 1 1.
Proof.
  exists (mkmat 2 2 (fun p j => if (j =? 1)%nat then INR p else 7)), (mkvec 2 (fun j => 1 + INR j)). cbn [vlen nc nr mat_at vat].
  repeat split; auto.
  - intros j Hj. pose proof (pos_INR j). lra.
  - intros j Hj N. destruct (Nat.eqb_spec j 1); [contradiction|reflexivity].
  - cbn [Nat.eqb INR]. lra.
Qed.
