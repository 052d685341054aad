(** C08 continued: RatQu gradient columns, exactness theorems, partial masks. *)
From Coq Require Import Reals List Arith Bool Lia Lra Psatz.
From Coquelicot Require Import Coquelicot.
From Verif.Base Require Import NpLite NpFacts Deriv.
From Verif.Spec Require Import KernelSpec.
From Verif.Model Require Import KernelSqExp KernelMatern KernelRatQuad KernelDispatch.
From Verif.Proofs Require Import KernTac KernGradBlocks ThetaGradBlocks RadialCalculus RadialFns KernelExact KernelExtra ThetaGrad ThetaGradBase ThetaGradMask HessX.
Import ListNotations.
Local Open Scope R_scope.

Lemma blk_GG i j v i' p j' q : blk (RG i) (RG j) v (G i' p) (G j' q) = if (i =? i')%nat then (if (j =? j')%nat then v p q else 0) else 0.
Proof. unfold blk. cbn [inreg loc]. destruct (i =? i')%nat, (j =? j')%nat; reflexivity. Qed.
Lemma blk_GF i v i' p q : blk (RG i) RF v (G i' p) (F q) = if (i =? i')%nat then v p q else 0.
Proof. unfold blk. cbn [inreg loc]. destruct (i =? i')%nat; reflexivity. Qed.
Lemma blk_GG_F i j v i' p q : blk (RG i) (RG j) v (G i' p) (F q) = 0.
Proof. unfold blk. cbn [inreg loc]. rewrite andb_false_r. reflexivity. Qed.
Lemma blk_GF_G i v i' p j q : blk (RG i) RF v (G i' p) (G j q) = 0.
Proof. unfold blk. cbn [inreg loc]. rewrite andb_false_r. reflexivity. Qed.
Lemma rsum_pick n k v : (k < n)%nat -> rsum n (fun i => if (i =? k)%nat then v i else 0) = v k.
Proof. apply rsum_delta. Qed.

Section rat.
Variables (Rt : ten) (theta : vec) (d n1 n2 : nat) (Rr : nat -> nat -> nat -> R) (th : nat -> R).
Hypothesis (HR : tspec d n1 n2 Rt Rr) (Hth : vspec d theta th).
Local Notation s p q := (rsum d (fun i => th i * Rr i p q ^ 2)).
Variables (b2 : option (list bool)).
Hypothesis M : mok n2 b2.
Hypothesis Hcnt : opt_count n2 b2 = n2.
Local Notation g := (opt_count n2 b2).
Local Notation sl := (osel b2).
Variable alpha : R.
Hypothesis Hal : alpha <> 0.
Lemma rat_grad_x_blocks :
  rok (rat_calc_KernGrad_grad_x Rt theta alpha b2)
    (fun T => tbspec d 0 n1 d n2 g d T (hx th Rr (fun p q => rq1 alpha (s p q)) (fun p q => rq2 alpha (s p q)) (fun p q => rq3 alpha (s p q)) sl)).
Proof.
  unfold rat_calc_KernGrad_grad_x. cbv zeta.
  eapply rok_bind; [eapply pos_sum_ok; eassumption|]. intros nu Hnu; cbv beta in Hnu.
  assert (H := HR); destruct H as (-> & -> & -> & _).
  do 3 ostep.
  set (v := hx th Rr _ _ _ sl).
  set (v0 := fun l p q => 2 * th l * rq1 alpha (s p q)).
  set (vi := fun l i p q => 4 * th i * th l * Rr i p q * Rr l p q * rq2 alpha (s p q)).
  set (vq := fun l i p q => - (4 * th i * th l * Rr l p (sl q) * rq2 alpha (s p (sl q)))).
  set (vr := fun l i p q => - (4 * th i * th l * Rr i p (sl q) * rq2 alpha (s p (sl q)))).
  set (vu := fun l i j p q => - (8 * th i * th j * th l * Rr i p (sl q) * Rr j p (sl q) * Rr l p (sl q) * rq3 alpha (s p (sl q)))).
  set (ci := fun l i (a b : rix) => blk (RG i) RF (vi l i) a b + blk (RG i) (RG i) (vq l i) a b
      + blk (RG i) (RG l) (vr l i) a b + blk (RG l) (RG i) (vr l i) a b
      + rsum d (fun j => if (0 <=? j)%nat then blk (RG i) (RG j) (vu l i j) a b else 0)).
  eapply rok_mono.
  - eapply (acc_loop d 0 n1 d n2 g d _ (fun l k a b => if (k =? l)%nat then
       blk (RG l) RF (v0 l) a b + rsum d (fun i => if (0 <=? i)%nat then ci l i a b else 0) else 0)); [lia| |apply tbspec_const].
    intros l T1 f1 Hl HT1. msteps.
    hsub (RG l) RF (v0 l) ltac:(intros; unfold v0, rq1; field).
    eapply rok_mono.
    + eapply (acc_loop d 0 n1 d n2 g d _ (fun i k a b => if (k =? l)%nat then ci l i a b else 0)); [lia | | eassumption].
      intros i T2 f2 Hi HT2. cbv beta. msteps.
      hadd (RG i) RF (vi l i) ltac:(intros; unfold vi, rq2; field; exact Hal).
      msteps.
      hsub (RG i) (RG i) (vq l i) ltac:(intros; unfold vq, rq2; field; exact Hal).
      msteps.
      hsub (RG i) (RG l) (vr l i) ltac:(intros; unfold vr, rq2; field; exact Hal).
      hsub (RG l) (RG i) (vr l i) ltac:(intros; unfold vr, rq2; field; exact Hal).
      eapply rok_mono.
      * eapply (acc_loop d 0 n1 d n2 g d _ (fun j k a b => if (k =? l)%nat then blk (RG i) (RG j) (vu l i j) a b else 0)); [lia | | eassumption].
        intros j T3 f3 Hj HT3. cbv beta. msteps.
        hadd_last (RG i) (RG j) (vu l i j) ltac:(intros; unfold vu, rq3; field; exact Hal). assumption.
      * intros T3 HT3. eapply tbspec_ext; [exact HT3|]. intros k a b _ _ _. cbv beta. unfold ci.
        destruct (k =? l)%nat; [ring|]. rewrite rsum_0; [ring|]. intros; destruct (_ <=? _)%nat; reflexivity.
    + intros T2 HT2. eapply tbspec_ext; [exact HT2|]. intros k a b _ _ _. cbv beta.
      destruct (k =? l)%nat; [ring|]. rewrite rsum_0; [ring|]. intros; destruct (_ <=? _)%nat; reflexivity.
  - intros T HT. eapply tbspec_ext; [exact HT|]. intros k a b Hk Ha Hb. cbv beta.
    destruct a as [p|i p]; cbn [rvalid] in *; try lia.
    rewrite (rsum_single d k); [|exact Hk|intros l' _ Hne; cbn [Nat.leb]; destruct (Nat.eqb_spec k l'); [congruence|reflexivity]].
    rewrite Nat.eqb_refl. cbn [Nat.leb]. unfold ci. destruct b as [q|j q].
    + rewrite (rsum_single d i); [|tauto|].
      * cbn [Nat.leb]. rewrite (rsum_0 d), !blk_GF, !blk_GG_F, Nat.eqb_refl; [|intros; apply blk_GG_F].
        unfold v, hx, v0, vi, delta. rewrite (Nat.eqb_sym k i). destruct (Nat.eqb_spec i k); [subst|]; ring.
      * intros i' _ Hne. cbn [Nat.leb]. rewrite (rsum_0 d), !blk_GF, !blk_GG_F; [|intros; apply blk_GG_F].
        destruct (Nat.eqb_spec i' i); [congruence|]. ring.
    + cbn [rvalid] in Hb.
      transitivity (rsum d (fun i' => if (i' =? i)%nat then (if (i' =? j)%nat then vq k i' p q else 0) else 0)
        + rsum d (fun i' => if (i' =? i)%nat then (if (k =? j)%nat then vr k i' p q else 0) else 0)
        + rsum d (fun i' => if (i' =? j)%nat then (if (k =? i)%nat then vr k i' p q else 0) else 0)
        + rsum d (fun i' => if (i' =? i)%nat then rsum d (fun j' => if (j' =? j)%nat then vu k i' j' p q else 0) else 0)).
      * rewrite blk_GF_G. rewrite <- !rsum_plus. rewrite Rplus_0_l, Rplus_0_l. apply rsum_ext. intros i' _. cbn [Nat.leb].
        rewrite blk_GF_G, !blk_GG.
        replace (rsum d (fun j0 => blk (RG i') (RG j0) (vu k i' j0) (G i p) (G j q)))
          with (if (i' =? i)%nat then rsum d (fun j' => if (j' =? j)%nat then vu k i' j' p q else 0) else 0).
        { destruct (i' =? i)%nat, (i' =? j)%nat, (k =? i)%nat; ring. }
        { destruct (i' =? i)%nat eqn:E.
          - apply rsum_ext; intros j' _. rewrite blk_GG, E. reflexivity.
          - symmetry; apply rsum_0; intros j' _. rewrite blk_GG, E. reflexivity. }
      * rewrite (rsum_pick d i (fun i' => if (i' =? j)%nat then vq k i' p q else 0)) by tauto.
        rewrite (rsum_pick d i (fun i' => if (k =? j)%nat then vr k i' p q else 0)) by tauto.
        rewrite (rsum_pick d j (fun i' => if (k =? i)%nat then vr k i' p q else 0)) by tauto.
        rewrite (rsum_pick d i (fun i' => rsum d (fun j' => if (j' =? j)%nat then vu k i' j' p q else 0))) by tauto.
        rewrite (rsum_pick d j (fun j' => vu k i j' p q)) by tauto.
        unfold v, hx, vq, vr, vu, delta.
        destruct (Nat.eqb_spec i j), (Nat.eqb_spec k j), (Nat.eqb_spec k i), (Nat.eqb_spec i k), (Nat.eqb_spec j k); try congruence; try subst; ring.
Qed.
End rat.

(** ** the derivatives *)
Lemma sq_times_bounded (a : R) (w : R -> R) B : (forall t, Rabs (w t) <= B) ->
  is_derive (fun t => (t - a) * (t - a) * w t) a 0.
Proof.
  intros HB. apply is_derive_Reals. unfold derivable_pt_lim. intros eps Heps.
  assert (B0 : 0 <= B) by (eapply Rle_trans; [apply Rabs_pos | apply (HB 0)]).
  assert (Hd : 0 < eps / (B + 1)) by (apply Rdiv_lt_0_compat; lra).
  exists (mkposreal _ Hd). intros h Hh Hlt. simpl in Hlt.
  replace (((a + h - a) * (a + h - a) * w (a + h) - (a - a) * (a - a) * w a) / h - 0) with (h * w (a + h)) by (field; exact Hh).
  rewrite Rabs_mult. apply Rle_lt_trans with (Rabs h * (B + 1)).
  - apply Rmult_le_compat_l; [apply Rabs_pos|]. specialize (HB (a + h)). lra.
  - apply Rmult_lt_reg_r with (/ (B + 1)); [apply Rinv_0_lt_compat; lra|].
    rewrite Rmult_assoc, Rinv_r, Rmult_1_r by lra. exact Hlt.
Qed.

Lemma dR_coord (x : pt) l j : is_derive (fun t => upd x l t j) (x l) (delta j l).
Proof. unfold delta, upd. destruct (j =? l)%nat; [apply dR_id | apply dR_const]. Qed.

Section radial3.
Variables (d : nat) (th : nat -> R) (D : R -> Prop) (phi phi1 phi2 phi3 : R -> R).
Hypothesis HD : forall x y, D (sqd d th x y).
Hypothesis H1 : deriv_on D phi phi1.
Hypothesis H2 : deriv_on D phi1 phi2.
Variables (x y : pt) (l i : nat).
Hypothesis Hl : (l < d)%nat.
Hypothesis Hi : (i < d)%nat.
Lemma dsqd f f1 : deriv_on D f f1 ->
  is_derive (fun t => f (sqd d th (upd x l t) y)) (x l) (2 * th l * (x l - y l) * f1 (sqd d th x y)).
Proof.
  intros Hf. eapply dR_val; [apply (deriv_on_comp D f f1 (fun t => sqd d th (upd x l t) y)); auto; apply is_derive_sqd_l; exact Hl|].
  do 2 f_equal. rewrite sqd_upd_l by exact Hl. ring.
Qed.
Lemma upd_id' j : upd x l (x l) j = x j.
Proof. unfold upd. destruct (Nat.eqb_spec j l); subst; reflexivity. Qed.
Lemma sqd_upd_id' : sqd d th (upd x l (x l)) y = sqd d th x y.
Proof. apply rsum_ext. intros j _. rewrite upd_id'. reflexivity. Qed.
Lemma hess_F :
  is_cov_dx (fun x y => phi (sqd d th x y)) l i x (Val y)
    (2 * th i * delta i l * phi1 (sqd d th x y) + 4 * th i * th l * (x i - y i) * (x l - y l) * phi2 (sqd d th x y)).
Proof.
  exists (fun x' => 2 * th i * (x' i - y i) * phi1 (sqd d th x' y)). split.
  - intros x'. apply (radial_d1 d th D phi phi1 HD H1); exact Hi.
  - eapply dR_val; [apply dR_mult; [apply dR_scal, dR_minus; [apply dR_coord | apply dR_const] | apply dsqd, H2]|].
    cbv beta. rewrite upd_id', sqd_upd_id'. ring.
Qed.
Variable j : nat.
Hypothesis Hj : (j < d)%nat.
Hypothesis H3 :
  is_derive (fun t => phi2 (sqd d th (upd x l t) y)) (x l) (2 * th l * (x l - y l) * phi3 (sqd d th x y)) \/
  ((forall k, (k < d)%nat -> x k = y k) /\ exists B, forall t, Rabs (phi2 (sqd d th (upd x l t) y)) <= B).
Lemma hess_G :
  is_cov_dx (fun x y => phi (sqd d th x y)) l i x (Der j y)
    (- (4 * th i * th j * delta i l * (x j - y j) + 4 * th i * th l * (delta i j * (x l - y l) + delta j l * (x i - y i))) * phi2 (sqd d th x y)
      - 8 * th i * th j * th l * (x i - y i) * (x j - y j) * (x l - y l) * phi3 (sqd d th x y)).
Proof.
  exists (fun x' => - (2 * th i * delta i j * phi1 (sqd d th x' y)
        + 4 * th i * th j * (x' i - y i) * (x' j - y j) * phi2 (sqd d th x' y))). split.
  - intros x'. exists (fun x' => - (2 * th j * (x' j - y j) * phi1 (sqd d th x' y))). split.
    + intros x''. apply (radial_d2 d th D phi phi1 HD H1); exact Hj.
    + apply (radial_d12 d th D phi1 phi2 HD H2); assumption.
  - destruct H3 as [E | (E & B & HB)].
    + eapply dR_val.
      * apply dR_opp, dR_plus; [apply dR_scal, dsqd, H2|].
        apply dR_mult; [apply dR_mult; [apply dR_scal, dR_minus; [apply dR_coord | apply dR_const] | apply dR_minus; [apply dR_coord | apply dR_const]] | exact E].
      * cbv beta. rewrite !upd_id', sqd_upd_id'. unfold delta.
        destruct (Nat.eqb_spec i j), (Nat.eqb_spec i l), (Nat.eqb_spec j l); try congruence; try subst; ring.
    + assert (Z : is_derive (fun t => (upd x l t i - y i) * (upd x l t j - y j) * phi2 (sqd d th (upd x l t) y)) (x l) 0).
      { unfold upd at 1 2.
        destruct (Nat.eqb_spec i l) as [Ei|Ei].
        - destruct (Nat.eqb_spec j l) as [Ej|Ej].
          + rewrite Ei, Ej. rewrite <- (E l Hl). apply (sq_times_bounded (x l) (fun t => phi2 (sqd d th (upd x l t) y)) B HB).
          + rewrite (E j Hj). eapply dR_ext; [|apply (dR_const 0)]. intros t. cbv beta. ring.
        - rewrite (E i Hi). eapply dR_ext; [|apply (dR_const 0)]. intros t. cbv beta. ring. }
      eapply dR_val.
      * apply (dR_ext (fun t => - (2 * th i * delta i j * phi1 (sqd d th (upd x l t) y)
          + (4 * th i * th j) * ((upd x l t i - y i) * (upd x l t j - y j) * phi2 (sqd d th (upd x l t) y))))).
        { intros t. ring. }
        apply dR_opp, dR_plus; [apply dR_scal, dsqd, H2 | apply dR_scal, Z].
      * rewrite (E i Hi), (E j Hj), (E l Hl). ring.
Qed.
End radial3.

(** ** the three kernels *)
Lemma is_cov_dx_ext k k' l i x b v : (forall x y, k x y = k' x y) -> is_cov_dx k l i x b v -> is_cov_dx k' l i x b v.
Proof.
  intros E (g & G1 & G2). exists g. split; [|exact G2]. intros x'. specialize (G1 x').
  destruct b as [y|j y]; simpl in *.
  - eapply is_derive_ext; [intros t; apply E | exact G1].
  - destruct G1 as (h & A & B). exists h. split; [|exact B]. intros x''. eapply is_derive_ext; [intros t; apply E | apply A].
Qed.

Lemma base_hess_blocks k Rt theta hp d n1 n2 X Y :
  tspec d n1 n2 Rt (fun i p q => X p i - Y q i) -> vlen theta = d -> hp_ok k hp ->
  rok (calc_KernBase_hess_x k Rt theta hp)
    (fun T => exists p3, tbspec d 0 n1 d n2 0 0 T (hx (vat theta) (fun i p q => X p i - Y q i)
        (fun p q => phi1 k (hp_val hp) (sqd d (vat theta) (X p) (Y q)))
        (fun p q => phi2 k (hp_val hp) (sqd d (vat theta) (X p) (Y q))) p3 (fun q => q))).
Proof.
  intros HR Hd Hhp. assert (Hv : vspec d theta (vat theta)) by (split; [exact Hd | auto]).
  destruct k; simpl in *.
  - unfold sq_exp_calc_KernBase_hess_x.
    eapply (rok_bind _ _ (fun K => mspec n1 n2 K (fun p q => se0 (sqd d (vat theta) (X p) (Y q))))).
    { exact (KernBase_blocks SqExp Rt theta hp d n1 n2 X Y HR Hd I). }
    intros K HK. eapply rok_mono; [exact (sq_exp_hess_blocks Rt theta d n1 n2 _ _ HR Hv K HK)|].
    intros T HT. eexists; exact HT.
  - eapply rok_mono; [exact (matern_hess_blocks Rt theta d n1 n2 _ _ HR Hv)|]. intros T HT. eexists; exact HT.
  - destruct Hhp as (a & -> & Ha). simpl. assert (a <> 0) by lra.
    eapply rok_mono; [exact (rat_hess_blocks Rt theta d n1 n2 _ _ HR Hv a H)|]. intros T HT. eexists; exact HT.
Qed.

Theorem KernBase_hess_exact k X Y theta hp :
  nc X = nc Y -> vlen theta = nc X -> th_ok k (nc X) (vat theta) -> hp_ok k hp ->
  exists Rt T, calc_Rtensor X Y = Ok Rt /\ calc_KernBase_hess_x k Rt theta hp = Ok T /\
    is_hess_tensor (kfun k (nc X) (vat theta) (hp_val hp)) (nc X) (nr X) (rows_of X)
      (map (fun q => Val (rows_of Y q)) (seq 0 (nr Y))) T.
Proof.
  intros E Hd Hth Hhp.
  destruct (rok_ex _ _ (Rtensor_ok X Y E)) as (Rt & ERt & HRt).
  destruct (rok_ex _ _ (base_hess_blocks k Rt theta hp _ _ _ _ _ HRt Hd Hhp)) as (T & ET & p3 & T0 & T1 & T2 & HT).
  exists Rt, T. split; [exact ERt|]. split; [exact ET|]. split; [exact T0|].
  split; [rewrite T1; simpl; lia|]. split; [rewrite map_length, seq_length, T2; lia|].
  intros l i p c b Hl Hi Hp Hb.
  assert (Hc : (c < nr Y)%nat). { assert (Z := nth_error_Some (map (fun q => Val (rows_of Y q)) (seq 0 (nr Y))) c); rewrite Hb, map_length, seq_length in Z; apply Z; discriminate. }
  rewrite nth_error_map, nth_error_seq in Hb by exact Hc. simpl in Hb. injection Hb as <-.
  assert (V := HT l (G i p) (F c) Hl (conj Hi Hp) Hc). cbn [radr Nat.add] in V. rewrite V. unfold hx.
  apply (is_cov_dx_ext (fun x y => phi0 k (hp_val hp) (sqd (nc X) (vat theta) x y))); [intros; apply phi0_kfun|].
  apply (hess_F (nc X) (vat theta) (Dk k)); auto.
  - apply Dk_sqd; exact Hth.
  - apply phi_d01; exact Hhp.
  - apply phi_d12; exact Hhp.
Qed.

Definition nu_ok2 (k : kernel) d th (X Y : nat -> pt) (n1 n2 : nat) : Prop :=
  k = Ma5f2 -> forall p q, (p < n1)%nat -> (q < n2)%nat ->
    sqd d th (X p) (Y q) = 0 \/ nu_floor <= sqrt (sqd d th (X p) (Y q)).

Lemma grad_x_blocks k Rt theta hp d n1 n2 X Y b2 :
  tspec d n1 n2 Rt (fun i p q => X p i - Y q i) -> vlen theta = d -> hp_ok k hp -> full_mask n2 b2 ->
  rok (calc_KernGrad_grad_x k Rt theta hp b2)
    (fun T => tbspec d 0 n1 d n2 (opt_count n2 b2) d T (hx (vat theta) (fun i p q => X p i - Y q i)
        (fun p q => phi1 k (hp_val hp) (sqd d (vat theta) (X p) (Y q)))
        (fun p q => phi2 k (hp_val hp) (sqd d (vat theta) (X p) (Y q)))
        (fun p q => phi3 k (hp_val hp) (sqd d (vat theta) (X p) (Y q))) (osel b2))).
Proof.
  intros HR Hd Hhp Hm. assert (Hv : vspec d theta (vat theta)) by (split; [exact Hd | auto]).
  destruct (full_mask_facts n2 b2 Hm) as (M & C & S).
  destruct k; simpl in *.
  - exact (sq_exp_grad_x_blocks Rt theta d n1 n2 _ _ HR Hv b2 M C).
  - exact (matern_grad_x_blocks Rt theta d n1 n2 _ _ HR Hv b2 M C).
  - destruct Hhp as (a & -> & Ha). simpl. assert (Hn : a <> 0) by lra.
    exact (rat_grad_x_blocks Rt theta d n1 n2 _ _ HR Hv b2 M C a Hn).
Qed.

Theorem KernGrad_hess_exact k X Y theta hp b2 :
  nc X = nc Y -> vlen theta = nc X -> (forall i, (i < nc X)%nat -> 0 < vat theta i) -> hp_ok k hp ->
  full_mask (nr Y) b2 -> nu_ok2 k (nc X) (vat theta) (rows_of X) (rows_of Y) (nr X) (nr Y) ->
  exists Rt T, calc_Rtensor X Y = Ok Rt /\ calc_KernGrad_grad_x k Rt theta hp b2 = Ok T /\
    is_hess_tensor (kfun k (nc X) (vat theta) (hp_val hp)) (nc X) (nr X) (rows_of X)
      (observations (nr Y) (nc X) (rows_of Y) b2) T.
Proof.
  intros E Hd Hpos Hhp Hm Hnu.
  assert (Hth : th_ok k (nc X) (vat theta)) by (apply th_ok_nn; intros; left; auto).
  destruct (full_mask_facts (nr Y) b2 Hm) as (M & C & S).
  destruct (rok_ex _ _ (Rtensor_ok X Y E)) as (Rt & ERt & HRt).
  destruct (rok_ex _ _ (grad_x_blocks k Rt theta hp _ _ _ _ _ b2 HRt Hd Hhp Hm)) as (T & ET & T0 & T1 & T2 & HT).
  exists Rt, T. split; [exact ERt|]. split; [exact ET|]. split; [exact T0|].
  split; [rewrite T1; simpl; lia|].
  split; [rewrite observations_length by exact M; rewrite T2; reflexivity|].
  intros l i p c b Hl Hi Hp Hb.
  destruct (observations_inv _ _ _ _ _ _ M Hb) as (a & Va & Ea & Eo).
  assert (V := HT l (G i p) a Hl (conj Hi Hp) Va). cbn [radr Nat.add] in V. rewrite Ea. rewrite V. subst b.
  apply (is_cov_dx_ext (fun x y => phi0 k (hp_val hp) (sqd (nc X) (vat theta) x y))); [intros; apply phi0_kfun|].
  destruct a as [q|j q]; unfold hx; cbn [obs_at].
  - apply (hess_F (nc X) (vat theta) (Dk k)); auto.
    + apply Dk_sqd; exact Hth.
    + apply phi_d01; exact Hhp.
    + apply phi_d12; exact Hhp.
  - destruct Va as [Hj Hq]. rewrite C in Hq. rewrite (S q Hq) in *.
    apply (hess_G (nc X) (vat theta) (Dk k) (phi0 k (hp_val hp)) (phi1 k (hp_val hp)) (phi2 k (hp_val hp)) (phi3 k (hp_val hp))); auto.
    + apply Dk_sqd; exact Hth.
    + apply phi_d01; exact Hhp.
    + apply phi_d12; exact Hhp.
    + set (th := vat theta) in *. set (x := rows_of X p) in *. set (y := rows_of Y q) in *. set (d := nc X) in *.
      destruct k.
      * left. apply (dsqd d th Dall); [intros; exact I | exact Hl | apply se_d23].
      * destruct (Hnu eq_refl p q Hp Hq) as [Z|Z].
        { right. split; [intros k' Hk'; apply (sqd_pos_nz d th); auto|].
          exists (25 / 12). intros t. unfold phi2, ma2, matern_Abase_entry. rewrite Rabs_mult, (Rabs_pos_eq (25/12)) by lra.
          rewrite <- (Rmult_1_r (25 / 12)) at 2. apply Rmult_le_compat_l; [lra|].
          rewrite Rabs_pos_eq by (left; apply exp_pos).
          rewrite <- exp_0. destruct (Rle_lt_or_eq_dec (- sqrt 5 * sqrt (sqd d th (upd x l t) y)) 0) as [HH|HH]; [|left; apply exp_increasing; exact HH | rewrite HH; right; reflexivity].
          assert (P1 := sqrt_pos 5). assert (P2 := sqrt_pos (sqd d th (upd x l t) y)). nra. }
        { left. assert (Hfl : 0 < nu_floor) by (unfold nu_floor; apply Rinv_0_lt_compat, pow_lt; lra).
          fold x y th d in Z.
          assert (Hs : 0 < sqd d th x y).
          { destruct (Rle_lt_dec (sqd d th x y) 0) as [H|H]; [|exact H]. rewrite (sqrt_neg_0 _ H) in Z. lra. }
          unfold phi3. rewrite (Rmax_left _ _ Z).
          eapply dR_val.
          - apply (deriv_on_comp_loc Dpos ma2 ma3 (fun t => sqd d th (upd x l t) y)).
            + apply ma_d23.
            + unfold Dpos. rewrite sqd_upd_id'. exact Hs.
            + assert (Cn : continuous (fun t => sqd d th (upd x l t) y) (x l)).
              { eapply cont_of_derive. apply is_derive_sqd_l; exact Hl. }
              apply (Cn (fun u => 0 < u)). rewrite sqd_upd_id'. apply open_gt. exact Hs.
            + apply is_derive_sqd_l; exact Hl.
          - rewrite sqd_upd_id'. unfold ma3. unfold Rdiv. ring. }
      * left. destruct Hhp as (al & E' & Hal). rewrite E'. cbn [hp_val phi2 phi3].
        apply (dsqd d th Dnn) with (f := rq2 al) (f1 := rq3 al); [intros; apply sqd_nonneg; intros; left; auto | exact Hl | apply rq_d23, Hal].
Qed.
