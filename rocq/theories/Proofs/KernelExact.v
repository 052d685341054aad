(** C01-C05: kernel matrices are exact, symmetric, have the right diagonal, and masks select
    submatrices. *)
From Coq Require Import Reals List Arith Bool Lia Lra Psatz.
From Coquelicot Require Import Coquelicot.
From Verif.Base Require Import NpLite NpFacts.
From Verif.Spec Require Import KernelSpec.
From Verif.Model Require Import KernelSqExp KernelMatern KernelRatQuad KernelDispatch.
From Verif.Proofs Require Import KernTac KernGradBlocks RadialCalculus RadialFns.
Import ListNotations.
Local Open Scope R_scope.

(** the radial functions by kernel *)
Definition phi0 (k : kernel) (a : R) : R -> R := match k with SqExp => se0 | Ma5f2 => ma0 | RatQu => rq0 a end.
Definition phi1 (k : kernel) (a : R) : R -> R := match k with SqExp => se1 | Ma5f2 => ma1 | RatQu => rq1 a end.
Definition phi2 (k : kernel) (a : R) : R -> R := match k with SqExp => se2 | Ma5f2 => ma2 | RatQu => rq2 a end.
Definition Dk (k : kernel) : R -> Prop := match k with SqExp => Dall | _ => Dnn end.

(** admissible theta: arbitrary for SqExp, non-negative otherwise *)
Definition th_ok (k : kernel) (d : nat) (th : nat -> R) : Prop :=
  match k with SqExp => True | _ => forall i, (i < d)%nat -> 0 <= th i end.
Lemma th_ok_nn k d th : (forall i, (i < d)%nat -> 0 <= th i) -> th_ok k d th.
Proof. destruct k; simpl; auto. Qed.

Lemma Dk_sqd k d th : th_ok k d th -> forall x y, Dk k (sqd d th x y).
Proof. destruct k; simpl; intros H x y; [exact I | apply sqd_nonneg; exact H | apply sqd_nonneg; exact H]. Qed.
Lemma Dk_nn k s : 0 <= s -> Dk k s.
Proof. destruct k; simpl; auto. exact (fun _ => I). Qed.
Lemma phi_d01 k hp : hp_ok k hp -> deriv_on (Dk k) (phi0 k (hp_val hp)) (phi1 k (hp_val hp)).
Proof.
  destruct k; simpl; intros H; [apply se_d01 | apply ma_d01 |].
  destruct H as (a & -> & Ha). apply rq_d01; exact Ha.
Qed.
Lemma phi_d12 k hp : hp_ok k hp -> deriv_on (Dk k) (phi1 k (hp_val hp)) (phi2 k (hp_val hp)).
Proof.
  destruct k; simpl; intros H; [apply se_d12 | apply ma_d12 |].
  destruct H as (a & -> & Ha). apply rq_d12; exact Ha.
Qed.
Lemma phi0_kfun k a d th x y : phi0 k a (sqd d th x y) = kfun k d th a x y.
Proof. destruct k; [apply se0_spec | apply ma0_spec | apply rq0_spec]. Qed.

Lemma Rtensor_ok X Y : nc X = nc Y ->
  rok (calc_Rtensor X Y) (fun Rt => tspec (nc X) (nr X) (nr Y) Rt (fun i p q => rows_of X p i - rows_of Y q i)).
Proof.
  intros E. unfold calc_Rtensor. rewrite E, Nat.eqb_refl. simpl. repeat split; auto.
Qed.

(** block description of the kernel matrix for all three kernels *)
Definition rkk (k : kernel) (a : R) d th (X Y : nat -> pt) s1 s2 : rix -> rix -> R :=
  rk th (fun i p q => X p i - Y q i)
     (fun p q => phi0 k a (sqd d th (X p) (Y q))) (fun p q => phi1 k a (sqd d th (X p) (Y q)))
     (fun p q => phi2 k a (sqd d th (X p) (Y q))) s1 s2.

(** the one combination of masks for which the RatQu code reads the wrong array *)
Definition masks_ok (k : kernel) (b1 b2 : option (list bool)) : Prop :=
  match k with RatQu => b2 = None -> b1 = None | _ => True end.

Lemma KernGrad_blocks k Rt theta hp d n1 n2 X Y b1 b2 :
  tspec d n1 n2 Rt (fun i p q => X p i - Y q i) -> vlen theta = d ->
  th_ok k d (vat theta) -> hp_ok k hp -> mask_ok n1 b1 -> mask_ok n2 b2 -> masks_ok k b1 b2 ->
  rok (calc_KernGrad k Rt theta hp b1 b2)
    (fun K => bspec n1 (opt_count n1 b1) d n2 (opt_count n2 b2) d K
                (rkk k (hp_val hp) d (vat theta) X Y (osel b1) (osel b2))).
Proof.
  intros HR Hd Hth Hhp M1 M2 Hm.
  assert (Hv : vspec d theta (vat theta)) by (split; [exact Hd | auto]).
  destruct k; simpl in *.
  - exact (sq_exp_KernGrad_blocks Rt theta d n1 n2 _ _ HR Hv b1 b2 M1 M2).
  - exact (matern_KernGrad_blocks Rt theta d n1 n2 _ _ HR Hv b1 b2 M1 M2 Hth).
  - destruct Hhp as (a & -> & Ha). simpl.
    exact (rat_KernGrad_blocks Rt theta d n1 n2 _ _ HR Hv b1 b2 M1 M2 a Hm).
Qed.

Theorem KernGrad_exact k X Y theta hp b1 b2 :
  nc X = nc Y -> vlen theta = nc X -> th_ok k (nc X) (vat theta) -> hp_ok k hp ->
  mask_ok (nr X) b1 -> mask_ok (nr Y) b2 -> masks_ok k b1 b2 ->
  exists Rt K, calc_Rtensor X Y = Ok Rt /\ calc_KernGrad k Rt theta hp b1 b2 = Ok K /\
    is_cov_matrix (kfun k (nc X) (vat theta) (hp_val hp))
      (observations (nr X) (nc X) (rows_of X) b1) (observations (nr Y) (nc X) (rows_of Y) b2) K.
Proof.
  intros E Hd Hth Hhp M1 M2 Hm.
  destruct (rok_ex _ _ (Rtensor_ok X Y E)) as (Rt & ERt & HRt).
  destruct (rok_ex _ _ (KernGrad_blocks k Rt theta hp _ _ _ _ _ b1 b2 HRt Hd Hth Hhp M1 M2 Hm)) as (K & EK & HK).
  exists Rt, K. repeat split; auto.
  - assert (C := bspec_is_cov_matrix (nc X) (vat theta) (Dk k) (phi0 k (hp_val hp)) (phi1 k (hp_val hp)) (phi2 k (hp_val hp))
      (rows_of X) (rows_of Y) _ _ b1 b2 K (Dk_sqd k _ _ Hth) (phi_d01 k hp Hhp) (phi_d12 k hp Hhp) M1 M2 HK).
    exact (proj1 C).
  - assert (C := bspec_is_cov_matrix (nc X) (vat theta) (Dk k) (phi0 k (hp_val hp)) (phi1 k (hp_val hp)) (phi2 k (hp_val hp))
      (rows_of X) (rows_of Y) _ _ b1 b2 K (Dk_sqd k _ _ Hth) (phi_d01 k hp Hhp) (phi_d12 k hp Hhp) M1 M2 HK).
    exact (proj1 (proj2 C)).
  - intros r c a b Ha Hb.
    assert (C := bspec_is_cov_matrix (nc X) (vat theta) (Dk k) (phi0 k (hp_val hp)) (phi1 k (hp_val hp)) (phi2 k (hp_val hp))
      (rows_of X) (rows_of Y) _ _ b1 b2 K (Dk_sqd k _ _ Hth) (phi_d01 k hp Hhp) (phi_d12 k hp Hhp) M1 M2 HK).
    destruct C as (_ & _ & C). specialize (C r c a b Ha Hb).
    destruct k; [exact C | | exact C].
    revert C. clear. destruct a as [x|i x], b as [y|j y]; simpl; rewrite ?ma0_spec; auto.
    + intros C. eapply is_derive_ext; [intros t; apply ma0_spec | exact C].
    + intros C. eapply is_derive_ext; [intros t; apply ma0_spec | exact C].
    + intros (g & C1 & C2). exists g. split; [|exact C2].
      intros x'. eapply is_derive_ext; [intros t; apply ma0_spec | apply C1].
Qed.

(** gradient-free kernel matrix *)
Lemma KernBase_blocks k Rt theta hp d n1 n2 X Y :
  tspec d n1 n2 Rt (fun i p q => X p i - Y q i) -> vlen theta = d -> hp_ok k hp ->
  rok (calc_KernBase k Rt theta hp)
    (fun K => mspec n1 n2 K (fun p q => phi0 k (hp_val hp) (sqd d (vat theta) (X p) (Y q)))).
Proof.
  intros HR Hd Hhp. assert (Hv : vspec d theta (vat theta)) by (split; [exact Hd | auto]).
  destruct k; simpl in *.
  - unfold sq_exp_calc_KernBase. eapply rok_bind; [eapply sq_exp_sum_ok; eassumption|].
    intros A HA. cbv beta in HA. simpl. eapply mspec_ext; [mspec_tac|]. intros; reflexivity.
  - unfold matern_calc_KernBase. eapply rok_bind; [eapply nu_mat_ok; eassumption|].
    intros A HA. cbv beta in HA. simpl. eapply mspec_ext; [mspec_tac|]. intros; reflexivity.
  - destruct Hhp as (a & -> & Ha). simpl. unfold rat_calc_KernBase.
    eapply rok_bind; [eapply pos_sum_ok; eassumption|].
    intros A HA. cbv beta in HA. simpl. eapply mspec_ext; [mspec_tac|]. intros; reflexivity.
Qed.
Theorem KernBase_exact k X Y theta hp :
  nc X = nc Y -> vlen theta = nc X -> hp_ok k hp ->
  exists Rt K, calc_Rtensor X Y = Ok Rt /\ calc_KernBase k Rt theta hp = Ok K /\
    nr K = nr X /\ nc K = nr Y /\
    forall p q, (p < nr X)%nat -> (q < nr Y)%nat ->
      mat_at K p q = kfun k (nc X) (vat theta) (hp_val hp) (rows_of X p) (rows_of Y q).
Proof.
  intros E Hd Hhp.
  destruct (rok_ex _ _ (Rtensor_ok X Y E)) as (Rt & ERt & HRt).
  destruct (rok_ex _ _ (KernBase_blocks k Rt theta hp _ _ _ _ _ HRt Hd Hhp)) as (K & EK & H1 & H2 & H3).
  exists Rt, K. repeat split; auto. intros p q Hp Hq. rewrite H3 by auto. apply phi0_kfun.
Qed.

(** ** symmetry and diagonal *)
Lemma rkk_sym k a d th X sl x y : rkk k a d th X X sl sl x y = rkk k a d th X X sl sl y x.
Proof.
  destruct x as [p|i p], y as [q|j q]; unfold rkk, rk.
  - rewrite sqd_sym; reflexivity.
  - rewrite (sqd_sym d th (X (sl q))). ring.
  - rewrite (sqd_sym d th (X q)). ring.
  - rewrite (sqd_sym d th (X (sl q))). unfold delta. rewrite (Nat.eqb_sym j i).
    destruct (Nat.eqb_spec i j); [subst|]; ring.
Qed.
Lemma phi0_0 k a : 0 < a \/ k <> RatQu -> phi0 k a 0 = 1.
Proof.
  destruct k; simpl; intros H.
  - unfold se0. rewrite Ropp_0. apply exp_0.
  - unfold ma0, matern_base_entry. rewrite sqrt_0, !Rmult_0_r, exp_0. ring.
  - destruct H as [H|H]; [|congruence]. unfold rq0, rat_pow, rat_B, Rpower.
    replace (1 + 0 / a) with 1 by (field; lra). rewrite ln_1, Rmult_0_r, exp_0. reflexivity.
Qed.
Lemma phi1_0 k a t : 0 < a \/ k <> RatQu -> - (2 * t * phi1 k a 0) = gamma2 k t.
Proof.
  destruct k; simpl; intros H.
  - unfold se1. rewrite Ropp_0, exp_0. ring.
  - unfold ma1, matern_mat1_entry. rewrite sqrt_0, !Rmult_0_r, exp_0. field.
  - destruct H as [H|H]; [|congruence]. unfold rq1, rat_pow, rat_B, Rpower.
    replace (1 + 0 / a) with 1 by (field; lra). rewrite ln_1, Rmult_0_r, exp_0. ring.
Qed.
Lemma hp_cond k hp : hp_ok k hp -> 0 < hp_val hp \/ k <> RatQu.
Proof. destruct k; simpl; [right; discriminate | right; discriminate |]. intros (a & -> & H). left; exact H. Qed.

Lemma rkk_diag k hp d th X sl x : hp_ok k hp ->
  rkk k (hp_val hp) d th X X sl sl x x = match x with F _ => 1 | G i _ => gamma2 k (th i) end.
Proof.
  intros H. destruct x as [p|i p]; unfold rkk, rk; rewrite sqd_refl.
  - apply phi0_0, hp_cond, H.
  - rewrite <- (phi1_0 k (hp_val hp) (th i)) by apply hp_cond, H. unfold delta. rewrite Nat.eqb_refl. ring.
Qed.

Lemma masks_ok_same k b : masks_ok k b b.
Proof. destruct k; simpl; auto. Qed.

Theorem KernGrad_sym k X theta hp b Rt K :
  vlen theta = nc X -> th_ok k (nc X) (vat theta) -> hp_ok k hp -> mask_ok (nr X) b ->
  calc_Rtensor X X = Ok Rt -> calc_KernGrad k Rt theta hp b b = Ok K ->
  symmetric K /\
  (forall p, (p < nr X)%nat -> mat_at K p p = 1) /\
  (forall i p, (i < nc X)%nat -> (p < length (grad_points (nr X) b))%nat ->
     let r := (nr X + i * length (grad_points (nr X) b) + p)%nat in
     mat_at K r r = gamma2 k (vat theta i)).
Proof.
  intros Hd Hth Hhp M ERt EK.
  assert (HRt := rok_inv _ _ _ (Rtensor_ok X X eq_refl) ERt). cbv beta in HRt.
  assert (HK := rok_inv _ _ _ (KernGrad_blocks k Rt theta hp _ _ _ _ _ b b HRt Hd Hth Hhp M M (masks_ok_same k b)) EK).
  cbv beta in HK. rewrite (grad_points_length _ _ M).
  destruct HK as (K1 & K2 & HK). repeat split.
  - congruence.
  - intros i j Hi Hj. rewrite K1 in Hi, Hj.
    destruct (unradr_ok _ _ _ _ Hi) as [V1 <-]. destruct (unradr_ok _ _ _ _ Hj) as [V2 <-].
    rewrite !HK by auto. apply rkk_sym.
  - intros p Hp. assert (E := HK (F p) (F p) Hp Hp). simpl in E. rewrite E. apply (rkk_diag k hp _ _ _ (osel b) (F p) Hhp).
  - intros i p Hi Hp. cbv zeta.
    change (nr X + i * opt_count (nr X) b + p)%nat with (radr (nr X) (opt_count (nr X) b) (G i p)).
    rewrite HK by (simpl; auto). apply (rkk_diag k hp _ _ _ (osel b) (G i p) Hhp).
Qed.

Theorem KernBase_sym k X theta hp Rt K :
  vlen theta = nc X -> hp_ok k hp ->
  calc_Rtensor X X = Ok Rt -> calc_KernBase k Rt theta hp = Ok K ->
  symmetric K /\ (forall p, (p < nr X)%nat -> mat_at K p p = 1).
Proof.
  intros Hd Hhp ERt EK.
  assert (HRt := rok_inv _ _ _ (Rtensor_ok X X eq_refl) ERt). cbv beta in HRt.
  assert (HK := rok_inv _ _ _ (KernBase_blocks k Rt theta hp _ _ _ _ _ HRt Hd Hhp) EK).
  destruct HK as (K1 & K2 & HK). repeat split.
  - congruence.
  - intros i j Hi Hj. rewrite K1 in *. rewrite !HK by auto. rewrite sqd_sym. reflexivity.
  - intros p Hp. rewrite HK by auto. rewrite sqd_refl. apply phi0_0, hp_cond, Hhp.
Qed.

(** ** masks select submatrices *)
Lemma kept_nth n d b a : mask_ok n b -> rvalid n (opt_count n b) d a ->
  nth_error (kept n d b) (radr n (opt_count n b) a)
  = Some (radr n n (match a with F p => F p | G i p => G i (osel b p) end)).
Proof.
  intros H Ha. unfold kept. destruct a as [p|i p]; simpl in *.
  - rewrite nth_error_app1 by (rewrite seq_length; exact Ha). rewrite nth_error_seq by exact Ha. reflexivity.
  - rewrite nth_error_app2 by (rewrite seq_length; lia). rewrite seq_length.
    replace (n + i * opt_count n b + p - n)%nat with (i * opt_count n b + p)%nat by lia.
    rewrite (flat_map_nth _ (opt_count n b) d); try tauto.
    + simpl. erewrite map_nth_error; [|apply grad_points_nth; tauto]. reflexivity.
    + intros j. rewrite map_length. apply grad_points_length; exact H.
Qed.
Lemma kept_length n d b : mask_ok n b -> length (kept n d b) = (n + opt_count n b * d)%nat.
Proof.
  intros H. unfold kept. rewrite app_length, seq_length.
  rewrite (flat_map_len _ (opt_count n b)); [reflexivity|].
  intros i. rewrite map_length. apply grad_points_length; exact H.
Qed.
Theorem KernGrad_mask k X Y theta hp b1 b2 :
  nc X = nc Y -> vlen theta = nc X -> th_ok k (nc X) (vat theta) -> hp_ok k hp ->
  mask_ok (nr X) b1 -> mask_ok (nr Y) b2 -> masks_ok k b1 b2 ->
  exists Rt Kfull K, calc_Rtensor X Y = Ok Rt /\
    calc_KernGrad k Rt theta hp None None = Ok Kfull /\
    calc_KernGrad k Rt theta hp b1 b2 = Ok K /\
    nr K = length (kept (nr X) (nc X) b1) /\ nc K = length (kept (nr Y) (nc X) b2) /\
    forall r c r' c', nth_error (kept (nr X) (nc X) b1) r = Some r' ->
      nth_error (kept (nr Y) (nc X) b2) c = Some c' -> mat_at K r c = mat_at Kfull r' c'.
Proof.
  intros E Hd Hth Hhp M1 M2 Hm.
  destruct (rok_ex _ _ (Rtensor_ok X Y E)) as (Rt & ERt & HRt).
  destruct (rok_ex _ _ (KernGrad_blocks k Rt theta hp _ _ _ _ _ b1 b2 HRt Hd Hth Hhp M1 M2 Hm)) as (K & EK & K1 & K2 & HK).
  destruct (rok_ex _ _ (KernGrad_blocks k Rt theta hp _ _ _ _ _ None None HRt Hd Hth Hhp I I (masks_ok_same k None))) as (Kf & EKf & F1 & F2 & HKf).
  exists Rt, Kf, K. rewrite !kept_length by auto. repeat split; auto.
  intros r c r' c' Hr Hc.
  assert (Lr : (r < nr X + opt_count (nr X) b1 * nc X)%nat)
    by (rewrite <- (kept_length _ (nc X) _ M1); apply nth_error_Some; congruence).
  assert (Lc : (c < nr Y + opt_count (nr Y) b2 * nc X)%nat)
    by (rewrite <- (kept_length _ (nc X) _ M2); apply nth_error_Some; congruence).
  destruct (unradr_ok _ _ _ _ Lr) as [V1 E1]. destruct (unradr_ok _ _ _ _ Lc) as [V2 E2].
  revert Hr Hc. rewrite <- E1, <- E2. rewrite !kept_nth by auto. intros [= <-] [= <-].
  rewrite HK by auto.
  assert (W1 : forall n m, mask_ok n m -> forall a, rvalid n (opt_count n m) (nc X) a ->
     rvalid n n (nc X) (match a with F p => F p | G i p => G i (osel m p) end)).
  { intros n m Hm' [p|i p]; simpl; auto. intros [? ?]; split; auto. apply osel_lt; auto. }
  simpl in HKf. rewrite HKf by (apply W1; auto).
  destruct (unradr (nr X) (opt_count (nr X) b1) r), (unradr (nr Y) (opt_count (nr Y) b2) c); reflexivity.
Qed.
