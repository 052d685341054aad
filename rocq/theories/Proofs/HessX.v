(** C08: second and third x-derivatives. *)
From Coq Require Import Reals List Arith Bool Lia Lra Psatz.
From Coquelicot Require Import Coquelicot.
From Verif.Base Require Import NpLite NpFacts Deriv.
From Verif.Spec Require Import KernelSpec.
From Verif.Model Require Import KernelSqExp KernelMatern KernelRatQuad KernelDispatch.
From Verif.Proofs Require Import KernTac KernGradBlocks ThetaGradBlocks RadialCalculus RadialFns KernelExact ThetaGrad ThetaGradBase.
Import ListNotations.
Local Open Scope R_scope.

(** loops of assignments whose value is determined by the address *)
Lemma set_loop D n1 g1 d1 n2 g2 d2 body (P : nat -> nat -> rix -> rix -> bool) (v : nat -> rix -> rix -> R) m T f :
  (forall j T f, (j < m)%nat -> tbspec D n1 g1 d1 n2 g2 d2 T f ->
     rok (body j T) (fun T' => tbspec D n1 g1 d1 n2 g2 d2 T' (fun k a b => if P j k a b then v k a b else f k a b))) ->
  tbspec D n1 g1 d1 n2 g2 d2 T f ->
  rok (for_range 0 m body T) (fun T' => tbspec D n1 g1 d1 n2 g2 d2 T'
     (fun k a b => if existsb (fun j => P j k a b) (seq 0 m) then v k a b else f k a b)).
Proof.
  intros Hb HT.
  apply (rok_for_range (fun m T' => tbspec D n1 g1 d1 n2 g2 d2 T'
     (fun k a b => if existsb (fun j => P j k a b) (seq 0 m) then v k a b else f k a b))); [lia | exact HT |].
  intros j T1 Hj HT1. eapply rok_mono; [apply (Hb j T1 _ (proj2 Hj) HT1)|].
  intros T2 HT2. eapply tbspec_ext; [exact HT2|]. intros k a b _ _ _. cbv beta.
  rewrite seq_S, existsb_app. cbn [existsb Nat.add].
  destruct (existsb _ (seq 0 j)), (P j k a b); reflexivity.
Qed.
Lemma existsb_in m (P : nat -> bool) j : (j < m)%nat -> P j = true -> existsb P (seq 0 m) = true.
Proof. intros Hj HP. apply existsb_exists. exists j. split; [apply in_seq; lia | exact HP]. Qed.
Lemma existsb_none m (P : nat -> bool) : (forall j, (j < m)%nat -> P j = false) -> existsb P (seq 0 m) = false.
Proof.
  intros H. destruct (existsb P (seq 0 m)) eqn:E; [|reflexivity].
  apply existsb_exists in E. destruct E as (j & Hj & HP). apply in_seq in Hj. rewrite H in HP by lia. discriminate.
Qed.

(** closed form of the entries *)
Section closed.
Variables (th : nat -> R) (Rr : nat -> nat -> nat -> R) (ph1 ph2 ph3 : nat -> nat -> R) (s2 : nat -> nat).
Definition hx (l : nat) (a b : rix) : R :=
  match a, b with
  | G i p, F q => 2 * th i * delta i l * ph1 p q + 4 * th i * th l * Rr i p q * Rr l p q * ph2 p q
  | G i p, G j q => let r := s2 q in
      - (4 * th i * th j * delta i l * Rr j p r + 4 * th i * th l * (delta i j * Rr l p r + delta j l * Rr i p r)) * ph2 p r
      - 8 * th i * th j * th l * Rr i p r * Rr j p r * Rr l p r * ph3 p r
  | _, _ => 0
  end.
End closed.

Lemma tbspec_const_F D g1 d1 n2 c :
  tbspec D 0 g1 d1 n2 0 0 (tconst D (g1 * d1) n2 c) (fun _ _ _ => c).
Proof. repeat split; simpl; lia. Qed.

Ltac hside := first [exact I | lia | assumption | reflexivity].
Ltac hupd op r1 r2 v tac :=
  eapply (tupd_b op _ _ _ _ _ _ _ _ _ _ r1 r2 _ v);
  [ eassumption | first [lia|assumption] | simpl; hside | simpl; hside
  | simpl; lia | simpl; lia | simpl; lia | simpl; lia
  | eapply mspec_ext; [simpl; mspec_tac | cbv beta; tac] ].
Ltac hadd r1 r2 v tac :=
  cbv beta zeta; eapply rok_bind;
  [ eapply (tadd_acc _ _ _ _ _ _ _ _ _ _ r1 r2 _ v);
    [ eassumption | first [lia|assumption] | simpl; hside | simpl; hside
    | simpl; lia | simpl; lia | simpl; lia | simpl; lia
    | eapply mspec_ext; [simpl; mspec_tac | cbv beta; tac] ]
  | let x := fresh "KG" in let Hx := fresh "H" x in intros x Hx; cbv beta in Hx ].
Ltac hadd_last r1 r2 v tac :=
  cbv beta zeta; eapply rok_mono;
  [ eapply (tadd_acc _ _ _ _ _ _ _ _ _ _ r1 r2 _ v);
    [ eassumption | first [lia|assumption] | simpl; hside | simpl; hside
    | simpl; lia | simpl; lia | simpl; lia | simpl; lia
    | eapply mspec_ext; [simpl; mspec_tac | cbv beta; tac] ]
  | let x := fresh "KG" in let Hx := fresh "H" x in intros x Hx; cbv beta in Hx ].
Ltac hsub r1 r2 v tac :=
  cbv beta zeta; eapply rok_bind;
  [ eapply rok_mono; [eapply (tsub_acc _ _ _ _ _ _ _ _ _ _ r1 r2 _ v);
    [ eassumption | first [lia|assumption] | simpl; hside | simpl; hside
    | simpl; lia | simpl; lia | simpl; lia | simpl; lia
    | eapply mspec_ext; [simpl; mspec_tac | cbv beta; tac] ] | let x := fresh in let Hx := fresh in intros x Hx; exact Hx]
  | let x := fresh "KG" in let Hx := fresh "H" x in intros x Hx; cbv beta in Hx ].

Section three.
Variables (Rt : ten) (theta : vec) (d n1 n2 : nat) (Rr : nat -> nat -> nat -> R) (th : nat -> R).
Hypothesis (HR : tspec d n1 n2 Rt Rr) (Hth : vspec d theta th).
Local Notation s p q := (rsum d (fun i => th i * Rr i p q ^ 2)).

(** *** columns of function values *)
Lemma sq_exp_hess_blocks K :
  mspec n1 n2 K (fun p q => se0 (s p q)) ->
  rok (sq_exp_calc_KernBase_hess_x_jit Rt theta K)
    (fun T => tbspec d 0 n1 d n2 0 0 T (hx th Rr (fun p q => se1 (s p q)) (fun p q => se2 (s p q)) (fun p q => se3 (s p q)) (fun q => q))).
Proof.
  intros HK. unfold sq_exp_calc_KernBase_hess_x_jit.
  assert (H := HR); destruct H as (-> & -> & -> & _). cbv zeta.
  set (v := hx _ _ _ _ _ _).
  eapply rok_mono.
  - eapply (set_loop d 0 n1 d n2 0 0 _ (fun l k a b => existsb (fun i => ((k =? l)%nat && (inreg (RG i) a && inreg RF b))) (seq 0 d)) v);
      [|apply tbspec_const_F].
    intros l T1 f1 Hl HT1.
    eapply (set_loop d 0 n1 d n2 0 0 _ (fun i k a b => ((k =? l)%nat && (inreg (RG i) a && inreg RF b))) v); [|exact HT1].
    intros i T2 f2 Hi HT2. cbv beta zeta. msteps.
    eapply rok_mono; [hupd (fun _ w : R => w) (RG i) RF (fun p q => v l (G i p) (F q)) ltac:(intros; unfold v, hx, delta, se1, se2, se0; destruct (Nat.eqb_spec i l); [subst|]; ring)|].
    intros T3 HT3. eapply tbspec_ext; [exact HT3|]. intros k a b Hk Ha Hb. cbv beta.
    destruct (Nat.eqb_spec k l); cbn [andb]; [subst|reflexivity].
    destruct a as [p|i' p], b as [q|j q]; cbn [inreg andb]; try reflexivity; [|destruct (_ =? _)%nat; reflexivity].
    rewrite andb_true_r. destruct (Nat.eqb_spec i i'); [subst; reflexivity | reflexivity].
  - intros T HT. eapply tbspec_ext; [exact HT|]. intros k a b Hk Ha Hb. cbv beta.
    destruct a as [p|i p], b as [q|j q]; cbn [rvalid] in *; try lia.
    erewrite (existsb_in d _ k Hk); [reflexivity|]. erewrite (existsb_in d _ i); [reflexivity | tauto |].
    cbn [inreg]. rewrite !Nat.eqb_refl. reflexivity.
Qed.

Lemma matern_hess_blocks :
  rok (matern_calc_KernBase_hess_x Rt theta)
    (fun T => tbspec d 0 n1 d n2 0 0 T (hx th Rr (fun p q => ma1 (s p q)) (fun p q => ma2 (s p q)) (fun p q => 0) (fun q => q))).
Proof.
  unfold matern_calc_KernBase_hess_x. cbv zeta.
  eapply rok_bind; [eapply nu_mat_ok; eassumption|]. intros nu Hnu; cbv beta in Hnu.
  assert (H := HR); destruct H as (-> & -> & -> & _).
  set (v := hx _ _ _ _ _ _).
  set (vi := fun l i p q => 4 * th i * th l * Rr i p q * Rr l p q * ma2 (s p q)).
  set (v0 := fun l p q => 2 * th l * ma1 (s p q)).
  eapply rok_mono.
  - eapply (acc_loop d 0 n1 d n2 0 0 _ (fun l k a b => if (k =? l)%nat then
       blk (RG l) RF (v0 l) a b + rsum d (fun i => if (0 <=? i)%nat then blk (RG i) RF (vi l i) a b else 0) else 0)); [lia| |apply tbspec_const_F].
    intros l T1 f1 Hl HT1. msteps.
    hsub (RG l) RF (v0 l) ltac:(intros; unfold v0, ma1; field).
    eapply rok_mono.
    + eapply (acc_loop d 0 n1 d n2 0 0 _ (fun i k a b => if (k =? l)%nat then blk (RG i) RF (vi l i) a b else 0)); [lia | | eassumption].
      intros i T2 f2 Hi HT2. cbv beta. msteps.
      hadd_last (RG i) RF (vi l i) ltac:(intros; unfold vi, ma2; field). assumption.
    + intros T2 HT2. eapply tbspec_ext; [exact HT2|]. intros k a b _ _ _. cbv beta.
      destruct (k =? l)%nat; [ring|]. rewrite rsum_0; [ring|]. intros; destruct (_ <=? _)%nat; reflexivity.
  - intros T HT. eapply tbspec_ext; [exact HT|]. intros k a b Hk Ha Hb. cbv beta.
    destruct a as [p|i p], b as [q|j q]; cbn [rvalid] in *; try lia.
    rewrite (rsum_single d k); [|exact Hk|intros l' _ Hne; cbn [Nat.leb]; destruct (Nat.eqb_spec k l'); [congruence|reflexivity]].
    rewrite Nat.eqb_refl. cbn [Nat.leb]. rewrite (rsum_single d i); [|tauto|].
    + unfold blk. cbn [inreg loc]. rewrite Nat.eqb_refl. cbn [Nat.leb andb]. unfold v, hx, v0, vi, delta.
      rewrite (Nat.eqb_sym k i), andb_true_r. destruct (Nat.eqb_spec i k); [subst|]; ring.
    + intros i' _ Hne. cbn [Nat.leb]. unfold blk. cbn [inreg]. destruct (Nat.eqb_spec i' i); [congruence|]. reflexivity.
Qed.
Lemma rat_hess_blocks alpha : alpha <> 0 ->
  rok (rat_calc_KernBase_hess_x Rt theta alpha)
    (fun T => tbspec d 0 n1 d n2 0 0 T (hx th Rr (fun p q => rq1 alpha (s p q)) (fun p q => rq2 alpha (s p q)) (fun p q => 0) (fun q => q))).
Proof.
  intros Hal. unfold rat_calc_KernBase_hess_x. cbv zeta.
  eapply rok_bind; [eapply pos_sum_ok; eassumption|]. intros nu Hnu; cbv beta in Hnu.
  assert (H := HR); destruct H as (-> & -> & -> & _).
  set (v := hx _ _ _ _ _ _).
  set (vi := fun l i p q => 4 * th i * th l * Rr i p q * Rr l p q * rq2 alpha (s p q)).
  set (v0 := fun l p q => 2 * th l * rq1 alpha (s p q)).
  eapply rok_mono.
  - eapply (acc_loop d 0 n1 d n2 0 0 _ (fun l k a b => if (k =? l)%nat then
       blk (RG l) RF (v0 l) a b + rsum d (fun i => if (0 <=? i)%nat then blk (RG i) RF (vi l i) a b else 0) else 0)); [lia| |apply tbspec_const_F].
    intros l T1 f1 Hl HT1. msteps.
    hsub (RG l) RF (v0 l) ltac:(intros; unfold v0, rq1; field).
    msteps.
    eapply rok_mono.
    + eapply (acc_loop d 0 n1 d n2 0 0 _ (fun i k a b => if (k =? l)%nat then blk (RG i) RF (vi l i) a b else 0)); [lia | | eassumption].
      intros i T2 f2 Hi HT2. cbv beta. msteps.
      hadd_last (RG i) RF (vi l i) ltac:(intros; unfold vi, rq2; field; exact Hal). assumption.
    + intros T2 HT2. eapply tbspec_ext; [exact HT2|]. intros k a b _ _ _. cbv beta.
      destruct (k =? l)%nat; [ring|]. rewrite rsum_0; [ring|]. intros; destruct (_ <=? _)%nat; reflexivity.
  - intros T HT. eapply tbspec_ext; [exact HT|]. intros k a b Hk Ha Hb. cbv beta.
    destruct a as [p|i p], b as [q|j q]; cbn [rvalid] in *; try lia.
    rewrite (rsum_single d k); [|exact Hk|intros l' _ Hne; cbn [Nat.leb]; destruct (Nat.eqb_spec k l'); [congruence|reflexivity]].
    rewrite Nat.eqb_refl. cbn [Nat.leb]. rewrite (rsum_single d i); [|tauto|].
    + unfold blk. cbn [inreg loc]. rewrite Nat.eqb_refl. cbn [Nat.leb andb]. unfold v, hx, v0, vi, delta.
      rewrite (Nat.eqb_sym k i), andb_true_r. destruct (Nat.eqb_spec i k); [subst|]; ring.
    + intros i' _ Hne. cbn [Nat.leb]. unfold blk. cbn [inreg]. destruct (Nat.eqb_spec i' i); [congruence|]. reflexivity.
Qed.

(** *** gradient columns: masks that keep every point *)
Variables (b2 : option (list bool)).
Hypothesis M : mok n2 b2.
Hypothesis Hcnt : opt_count n2 b2 = n2.
Local Notation g := (opt_count n2 b2).
Local Notation sl := (osel b2).

Lemma set3 (v : nat -> rix -> rix -> R) T f body :
  tbspec d 0 n1 d n2 g d T f ->
  (forall l i j T f, (l < d)%nat -> (i < d)%nat -> (j < d)%nat -> tbspec d 0 n1 d n2 g d T f ->
    rok (body l i j T) (fun T' => tbspec d 0 n1 d n2 g d T'
      (fun k a b => if ((k =? l)%nat && (inreg (RG i) a && inreg (RG j) b)) then v l (G i (loc a)) (G j (loc b)) else f k a b))) ->
  rok (for_range 0 d (fun l T => for_range 0 d (fun i T => for_range 0 d (fun j T => body l i j T) T) T) T)
    (fun T' => tbspec d 0 n1 d n2 g d T' (fun k a b => match b with F _ => f k a b | G _ _ => v k a b end)).
Proof.
  intros HT Hb.
  eapply rok_mono.
  - eapply (set_loop d 0 n1 d n2 g d _ (fun l k a b => existsb (fun i => existsb (fun j => ((k =? l)%nat && (inreg (RG i) a && inreg (RG j) b))) (seq 0 d)) (seq 0 d)) v); [|exact HT].
    intros l T1 f1 Hl HT1.
    eapply (set_loop d 0 n1 d n2 g d _ (fun i k a b => existsb (fun j => ((k =? l)%nat && (inreg (RG i) a && inreg (RG j) b))) (seq 0 d)) v); [|exact HT1].
    intros i T2 f2 Hi HT2.
    eapply (set_loop d 0 n1 d n2 g d _ (fun j k a b => ((k =? l)%nat && (inreg (RG i) a && inreg (RG j) b))) v); [|exact HT2].
    intros j T3 f3 Hj HT3. eapply rok_mono; [apply (Hb l i j T3 f3 Hl Hi Hj HT3)|].
    intros T4 HT4. eapply tbspec_ext; [exact HT4|]. intros k a b Hk Ha Hb'. cbv beta.
    destruct (Nat.eqb_spec k l); cbn [andb]; [subst|reflexivity].
    destruct a as [p|i' p], b as [q|j' q]; cbn [inreg andb loc]; try reflexivity; [rewrite andb_false_r; reflexivity|].
    destruct (Nat.eqb_spec i i'); cbn [andb]; [subst|reflexivity].
    destruct (Nat.eqb_spec j j'); [subst; reflexivity|reflexivity].
  - intros T1 HT1. eapply tbspec_ext; [exact HT1|]. intros k a b Hk Ha Hb'. cbv beta.
    destruct a as [p|i p]; cbn [rvalid] in *; [lia|]. destruct b as [q|j q].
    + rewrite existsb_none; [reflexivity|]. intros l _. apply existsb_none. intros i' _. apply existsb_none. intros j' _.
      cbn [inreg]. rewrite !andb_false_r. reflexivity.
    + erewrite (existsb_in d _ k Hk); [reflexivity|]. erewrite (existsb_in d _ i); [reflexivity | tauto |].
      cbn [rvalid] in Hb'. erewrite (existsb_in d _ j); [reflexivity | tauto |].
      cbn [inreg]. rewrite !Nat.eqb_refl. reflexivity.
Qed.

Lemma sq_exp_grad_x_blocks :
  rok (sq_exp_calc_KernGrad_grad_x Rt theta b2)
    (fun T => tbspec d 0 n1 d n2 g d T (hx th Rr (fun p q => se1 (s p q)) (fun p q => se2 (s p q)) (fun p q => se3 (s p q)) sl)).
Proof.
  unfold sq_exp_calc_KernGrad_grad_x. cbv zeta.
  eapply (rok_bind _ _ (fun K => mspec n1 n2 K (fun p q => se0 (s p q)))).
  { unfold sq_exp_calc_KernBase. eapply rok_bind; [eapply sq_exp_sum_ok; eassumption|].
    intros A HA. cbv beta in HA. simpl. eapply mspec_ext; [mspec_tac|]. intros; reflexivity. }
  intros K HK. eapply rok_bind; [apply (sq_exp_hess_blocks K HK)|]. intros Hs HHs; cbv beta in HHs.
  assert (H := HR); destruct H as (-> & -> & -> & _).
  do 2 ostep.
  assert (T0 := tbspec_const d 0 n1 d n2 g d 0).
  eapply rok_bind; [eapply (tset_cols_b d 0 n1 d n2 g d _ _ _ _ T0 HHs)|].
  intros T1 HT1; cbv beta in HT1.
  set (v := hx th Rr (fun p q => se1 (s p q)) (fun p q => se2 (s p q)) (fun p q => se3 (s p q)) sl).
  eapply rok_mono.
  - apply (set3 v T1 _ _ HT1). intros l i j T2 f2 Hl Hi Hj HT2. cbv beta zeta. msteps.
    hupd (fun _ w : R => w) (RG i) (RG j) (fun p q => v l (G i p) (G j q)) ltac:(intros; unfold v, hx, delta, se2, se3, se0;
      destruct (Nat.eqb_spec i l), (Nat.eqb_spec j l), (Nat.eqb_spec i j); try congruence; try subst; ring).
  - intros T HT. eapply tbspec_ext; [exact HT|]. intros k a b Hk Ha Hb. cbv beta.
    destruct a, b; cbn [rvalid] in *; try lia; reflexivity.
Qed.
Lemma matern_grad_x_blocks :
  rok (matern_calc_KernGrad_grad_x Rt theta b2)
    (fun T => tbspec d 0 n1 d n2 g d T (hx th Rr (fun p q => ma1 (s p q)) (fun p q => ma2 (s p q)) (fun p q => phi3 Ma5f2 0 (s p q)) sl)).
Proof.
  unfold matern_calc_KernGrad_grad_x. cbv zeta.
  eapply rok_bind; [apply matern_hess_blocks|]. intros Hs HHs; cbv beta in HHs.
  eapply rok_bind; [eapply nu_mat_ok; eassumption|]. intros nu Hnu; cbv beta in Hnu.
  assert (H := HR); destruct H as (-> & -> & -> & _).
  do 2 ostep.
  assert (T0 := tbspec_const d 0 n1 d n2 g d 0).
  eapply rok_bind; [eapply (tset_cols_b d 0 n1 d n2 g d _ _ _ _ T0 HHs)|].
  intros T1 HT1; cbv beta in HT1.
  set (v := hx th Rr (fun p q => ma1 (s p q)) (fun p q => ma2 (s p q)) (fun p q => phi3 Ma5f2 0 (s p q)) sl).
  eapply rok_mono.
  - apply (set3 v T1 _ _ HT1). intros l i j T2 f2 Hl Hi Hj HT2. cbv beta zeta. msteps.
    hupd (fun _ w : R => w) (RG i) (RG j) (fun p q => v l (G i p) (G j q)) ltac:(intros p q _ _; unfold v, hx, delta, ma2, phi3;
      destruct (Nat.eqb_spec i l), (Nat.eqb_spec j l), (Nat.eqb_spec i j); try congruence; try subst; generalize (/ Rmax (sqrt (rsum d (fun i0 => th i0 * Rr i0 p (sl q) ^ 2))) nu_floor); intros iv; field).
  - intros T HT. eapply tbspec_ext; [exact HT|]. intros k a b Hk Ha Hb. cbv beta.
    destruct a, b; cbn [rvalid] in *; try lia; reflexivity.
Qed.
End three.
