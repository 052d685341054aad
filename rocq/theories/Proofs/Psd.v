(** Kernel matrices are positive semidefinite. *)
From Coq Require Import Reals List Arith Bool Lia Lra Psatz.
From Coquelicot Require Import Coquelicot.
From Verif.Base Require Import NpLite NpFacts.
From Verif.Spec Require Import KernelSpec LinAlgSpec.
From Verif.Model Require Import KernelSqExp KernelMatern KernelRatQuad KernelDispatch.
From Verif.Proofs Require Import KernTac KernGradBlocks RadialCalculus RadialFns KernelExact LinAlg Jets Mixture MixRatQu MixMatern.
Import ListNotations.
Local Open Scope R_scope.

(** jets of the covariance function of [kernel_type] *)
Definition kjet (k : kernel) (a : R) d th : jcov := rjet d th (phi0 k a) (phi1 k a) (phi2 k a).

Lemma rjet_ext d th p0 p1 p2 q0 q1 q2 a b :
  (forall i, 0 <= th i) ->
  (forall s, 0 <= s -> p0 s = q0 s) -> (forall s, 0 <= s -> p1 s = q1 s) -> (forall s, 0 <= s -> p2 s = q2 s) ->
  rjet d th p0 p1 p2 a b = rjet d th q0 q1 q2 a b.
Proof.
  intros Hnn H0 H1 H2.
  destruct a as [x|i x], b as [y|j y]; unfold rjet; assert (S := sqd_nn d th Hnn x y); rewrite ?H0, ?H1, ?H2 by exact S; reflexivity.
Qed.

(** every linear inequality valid for all squared exponentials holds for the three kernels *)
Theorem mixture_all k hp d th f : hp_ok k hp -> (forall i, 0 <= th i) ->
  (forall l, 0 < l -> 0 <= ev f (sejet d th l)) -> 0 <= ev f (kjet k (hp_val hp) d th).
Proof.
  intros Hhp Hnn Hf. unfold kjet. destruct k; simpl in *.
  - assert (Z := Hf 1 Rlt_0_1). erewrite ev_ext; [exact Z|]. intros a b. unfold sejet. apply rjet_ext; auto; intros s _;
      unfold se0, se1, se2; rewrite !Rmult_1_l; ring.
  - assert (Z := mixture_ma d th f Hnn Hf). erewrite ev_ext; [exact Z|]. intros a b. apply rjet_ext; auto; intros s _;
      unfold ma0, ma1, ma2, matern_base_entry, matern_mat1_entry, matern_Abase_entry; try field; ring.
  - destruct Hhp as (a & -> & Ha). simpl. assert (Z := mixture_rq d th a f Ha Hnn Hf).
    erewrite ev_ext; [exact Z|]. intros x y. apply rjet_ext; auto; intros s _;
      unfold rq0, rq1, rq2, rat_pow, rat_B; reflexivity.
Qed.
Theorem psdk_kernel k hp d th : hp_ok k hp -> (forall i, 0 <= th i) -> (forall i, (d <= i)%nat -> th i = 0) ->
  psdk (kjet k (hp_val hp) d th).
Proof.
  intros Hhp Hnn Ho l. rewrite <- ev_qf. apply mixture_all; auto. intros t Ht. rewrite ev_qf.
  apply psdk_sejet; auto. lra.
Qed.

(** theta cut off at dimension d *)
Definition cut (d : nat) (th : nat -> R) (i : nat) : R := if (i <? d)%nat then th i else 0.
Lemma cut_lt d th i : (i < d)%nat -> cut d th i = th i.
Proof. intros H. unfold cut. destruct (Nat.ltb_spec i d); [reflexivity|lia]. Qed.
Lemma cut_nn d th : (forall i, (i < d)%nat -> 0 <= th i) -> forall i, 0 <= cut d th i.
Proof. intros H i. unfold cut. destruct (Nat.ltb_spec i d); [auto|lra]. Qed.
Lemma cut_out d th i : (d <= i)%nat -> cut d th i = 0.
Proof. intros H. unfold cut. destruct (Nat.ltb_spec i d); [lia|reflexivity]. Qed.
Lemma sqd_cut d th x y : sqd d (cut d th) x y = sqd d th x y.
Proof. apply rsum_ext; intros i Hi. rewrite cut_lt by exact Hi. reflexivity. Qed.

(** rows of the matrix as observations *)
Definition rowobs (n g : nat) (X : nat -> pt) sl (r : nat) : obs := obs_at X sl (unradr n g r).
Lemma rkk_kjet k a d th X Y s1 s2 n1 g1 n2 g2 x y : rvalid n1 g1 d x -> rvalid n2 g2 d y ->
  rkk k a d th X Y s1 s2 x y = kjet k a d (cut d th) (obs_at X s1 x) (obs_at Y s2 y).
Proof.
  destruct x as [p|i p], y as [q|j q]; unfold rkk, rk, kjet, rjet, obs_at; simpl; intros H1 H2; rewrite sqd_cut, ?cut_lt by tauto; try ring.
  unfold delta. destruct (Nat.eqb_spec i j); [subst|]; ring.
Qed.
Lemma KernGrad_kjet k X theta hp b Rt K :
  vlen theta = nc X -> th_ok k (nc X) (vat theta) -> hp_ok k hp -> mask_ok (nr X) b ->
  calc_Rtensor X X = Ok Rt -> calc_KernGrad k Rt theta hp b b = Ok K ->
  let n := nr X in let g := opt_count n b in let N := (n + g * nc X)%nat in
  mspec N N K (fun r c => kjet k (hp_val hp) (nc X) (cut (nc X) (vat theta)) (rowobs n g (rows_of X) (osel b) r) (rowobs n g (rows_of X) (osel b) c)).
Proof.
  intros Hd Hth Hhp M ERt EK n g N.
  assert (HRt := rok_inv _ _ _ (Rtensor_ok X X eq_refl) ERt). cbv beta in HRt.
  assert (HK := rok_inv _ _ _ (KernGrad_blocks k Rt theta hp _ _ _ _ _ b b HRt Hd Hth Hhp M M (masks_ok_same k b)) EK).
  destruct HK as (K1 & K2 & HK). split; [exact K1|]. split; [exact K2|].
  intros r c Hr Hc. destruct (unradr_ok n g (nc X) r Hr) as (V1 & E1). destruct (unradr_ok n g (nc X) c Hc) as (V2 & E2).
  fold n g in HK. rewrite <- E1 at 1. rewrite <- E2 at 1. rewrite HK by auto. apply (rkk_kjet k _ _ _ _ _ _ _ n g n g); auto.
Qed.
Lemma KernBase_kjet k X theta hp Rt K :
  vlen theta = nc X -> hp_ok k hp ->
  calc_Rtensor X X = Ok Rt -> calc_KernBase k Rt theta hp = Ok K ->
  mspec (nr X) (nr X) K (fun r c => kjet k (hp_val hp) (nc X) (cut (nc X) (vat theta)) (Val (rows_of X r)) (Val (rows_of X c))).
Proof.
  intros Hd Hhp ERt EK.
  assert (HRt := rok_inv _ _ _ (Rtensor_ok X X eq_refl) ERt). cbv beta in HRt.
  assert (HK := rok_inv _ _ _ (KernBase_blocks k Rt theta hp _ _ _ _ _ HRt Hd Hhp) EK).
  eapply mspec_ext; [exact HK|]. intros p q Hp Hq. unfold kjet, rjet. rewrite sqd_cut. reflexivity.
Qed.

(** quadratic form of a matrix of jets *)
Definition wobs (N : nat) (ob : nat -> obs) (v : nat -> R) : lin := map (fun r => (v r, ob r)) (seq 0 N).
Lemma lsum_wobs N ob v f : lsum (wobs N ob v) f = rsum N (fun r => v r * f (ob r)).
Proof.
  unfold wobs. induction N as [|N IH]; [reflexivity|]. rewrite seq_S, map_app, lsum_app, IH. simpl. ring.
Qed.
Lemma bform_jet N ob (c : jcov) v : bform N (fun r s => c (ob r) (ob s)) v v = qq c (wobs N ob v) (wobs N ob v).
Proof.
  unfold qq. rewrite lsum_wobs. unfold bform. apply rsum_ext; intros i _. rewrite lsum_wobs, <- rsum_scal.
  apply rsum_ext; intros; ring.
Qed.
Lemma kjet_psd k hp d th N ob v : hp_ok k hp -> (forall i, (i < d)%nat -> 0 <= th i) ->
  0 <= bform N (fun r s => kjet k (hp_val hp) d (cut d th) (ob r) (ob s)) v v.
Proof.
  intros Hhp Hnn. rewrite bform_jet. apply psdk_kernel; auto; [apply cut_nn; auto | apply cut_out].
Qed.
Theorem KernGrad_psd k X theta hp b Rt K :
  vlen theta = nc X -> (forall i, (i < nc X)%nat -> 0 <= vat theta i) -> hp_ok k hp -> mask_ok (nr X) b ->
  calc_Rtensor X X = Ok Rt -> calc_KernGrad k Rt theta hp b b = Ok K -> psd K.
Proof.
  intros Hd Hth Hhp M ERt EK.
  assert (HS := KernGrad_sym k X theta hp b Rt K Hd (th_ok_nn k _ _ Hth) Hhp M ERt EK).
  split; [tauto|]. intros v. destruct HS as ((Esq & _) & _). rewrite qform_bform by exact Esq.
  destruct (KernGrad_kjet k X theta hp b Rt K Hd (th_ok_nn k _ _ Hth) Hhp M ERt EK) as (K1 & K2 & HK).
  rewrite K1. rewrite (bform_ext _ _ _ _ _ _ _ HK (fun _ _ => eq_refl) (fun _ _ => eq_refl)). apply kjet_psd; auto.
Qed.
Theorem KernBase_psd k X theta hp Rt K :
  vlen theta = nc X -> (forall i, (i < nc X)%nat -> 0 <= vat theta i) -> hp_ok k hp ->
  calc_Rtensor X X = Ok Rt -> calc_KernBase k Rt theta hp = Ok K -> psd K.
Proof.
  intros Hd Hth Hhp ERt EK.
  assert (HS := KernBase_sym k X theta hp Rt K Hd Hhp ERt EK).
  split; [tauto|]. intros v. destruct HS as ((Esq & _) & _). rewrite qform_bform by exact Esq.
  destruct (KernBase_kjet k X theta hp Rt K Hd Hhp ERt EK) as (K1 & K2 & HK).
  rewrite K1. rewrite (bform_ext _ _ _ _ _ _ _ HK (fun _ _ => eq_refl) (fun _ _ => eq_refl)).
  apply (kjet_psd k hp (nc X) (vat theta) (nr X) (fun r => Val (rows_of X r))); auto.
Qed.
