(** Block structure computed by the mask-free gradient kernels. *)
From Coq Require Import Reals List Arith Bool Lia Lra.
From Coquelicot Require Import Coquelicot.
From Verif.Base Require Import NpLite NpFacts.
From Verif.Model Require Import KernelSqExp KernelMatern KernelRatQuad KernelMaskFree.
From Verif.Spec Require Import KernelSpec.
From Verif.Proofs Require Import KernTac KernGradBlocks ThetaGradBlocks RadialCalculus RadialFns KernelExact ThetaGrad HessX HessX2 AlphaGrad.
Import ListNotations.
Local Open Scope R_scope.

Lemma dim1 n d : (n * (d + 1) = n + n * d)%nat.
Proof. lia. Qed.
Lemma dim2 n d : (n * (1 + d) = n + n * d)%nat.
Proof. lia. Qed.

Ltac kunf ::= cbn [osel]; unfold se0, se1, se2, ma0, ma1, ma2, rq0, rq1, rq2.
Section kg.
Variables (Rt : ten) (theta : vec) (d n1 n2 : nat) (Rr : nat -> nat -> nat -> R) (th : nat -> R).
Hypothesis (HR : tspec d n1 n2 Rt Rr) (Hth : vspec d theta th).
Local Notation s p q := (rsum d (fun i => th i * Rr i p q ^ 2)).
Local Notation kk ph ph1 ph2 := (rk th Rr (fun p q => ph (s p q)) (fun p q => ph1 (s p q)) (fun p q => ph2 (s p q)) (osel None) (osel None)).
Local Notation ko ph ph1 ph2 := (rk_out th Rr (fun p q => ph (s p q)) (fun p q => ph1 (s p q)) (fun p q => ph2 (s p q)) (osel None) (osel None)).
Local Notation ki ph ph1 ph2 := (rk_in th Rr (fun p q => ph (s p q)) (fun p q => ph1 (s p q)) (fun p q => ph2 (s p q)) (osel None) (osel None)).

Lemma sq_exp_free_blocks :
  rok (sq_exp_free_KernGrad Rt theta) (fun K => bspec n1 n1 d n2 n2 d K (kk se0 se1 se2)).
Proof.
  unfold sq_exp_free_KernGrad.
  assert (H := HR); destruct H as (-> & -> & -> & _). cbv zeta. rewrite !dim1.
  eapply rok_bind; [eapply sq_exp_sum_ok; eassumption|]. intros es Hes; cbv beta in Hes.
  assert (HK0 := bspec_const n1 n1 d n2 n2 d 0).
  bupdf RF RF (fun p q => kk se0 se1 se2 (F p) (F q)) ltac:(reflexivity).
  kg_loop d n1 n1 n2 n2 (kk se0 se1 se2) (ko se0 se1 se2) (ki se0 se1 se2).
Qed.
Lemma matern_free_blocks :
  (forall i, (i < d)%nat -> 0 <= th i) ->
  rok (matern_free_KernGrad Rt theta) (fun K => bspec n1 n1 d n2 n2 d K (kk ma0 ma1 ma2)).
Proof.
  intros Hpos. unfold matern_free_KernGrad.
  assert (H := HR); destruct H as (-> & -> & -> & _). cbv zeta. rewrite !dim1.
  eapply rok_bind; [eapply nu_mat_ok; eassumption|]. intros nu Hnu; cbv beta in Hnu.
  assert (HK0 := bspec_const n1 n1 d n2 n2 d 0).
  bupdf RF RF (fun p q => kk ma0 ma1 ma2 (F p) (F q)) ltac:(reflexivity).
  kg_loop d n1 n1 n2 n2 (kk ma0 ma1 ma2) (ko ma0 ma1 ma2) (ki ma0 ma1 ma2).
Qed.
Lemma rat_free_blocks alpha :
  rok (rat_free_KernGrad Rt theta alpha) (fun K => bspec n1 n1 d n2 n2 d K (kk (rq0 alpha) (rq1 alpha) (rq2 alpha))).
Proof.
  unfold rat_free_KernGrad.
  assert (H := HR); destruct H as (-> & -> & -> & _). cbv zeta. rewrite !dim1.
  eapply rok_bind; [eapply pos_sum_ok; eassumption|]. intros tmp Htmp; cbv beta in Htmp.
  assert (HK0 := bspec_const n1 n1 d n2 n2 d 0).
  bupdf RF RF (fun p q => kk (rq0 alpha) (rq1 alpha) (rq2 alpha) (F p) (F q)) ltac:(reflexivity).
  kg_loop d n1 n1 n2 n2 (kk (rq0 alpha) (rq1 alpha) (rq2 alpha))
    (ko (rq0 alpha) (rq1 alpha) (rq2 alpha)) (ki (rq0 alpha) (rq1 alpha) (rq2 alpha)).
Qed.
End kg.

Section th.
Variables (Rt : ten) (theta : vec) (d n : nat) (Rr : nat -> nat -> nat -> R) (th : nat -> R).
Hypothesis (HR : tspec d n n Rt Rr) (Hth : vspec d theta th).
Hypothesis (Hanti : forall i p q, Rr i q p = - Rr i p q).
Local Notation s p q := (rsum d (fun i => th i * Rr i p q ^ 2)).
Local Notation sl := (osel None).
Ltac v0_block p1 HT He H0 tac :=
  eapply rok_mono;
  [ eapply (tupd_b _ _ _ _ _ _ _ _ _ _ _ RF RF _ p1); [exact HT | exact He | exact I | exact I | reflexivity | reflexivity | reflexivity | reflexivity |];
    eapply mspec_ext; [simpl; mspec_tac|]; intros p q _ _; tac
  | let T' := fresh in let HT' := fresh in intros T' HT'; eapply tbspec_ext; [exact HT'|];
    let k := fresh in let x := fresh in let y := fresh in let Hx := fresh in let Hy := fresh in
    intros k x y _ Hx Hy; unfold blk; cbv beta;
    match goal with |- context [(k =? ?e)%nat] => destruct (Nat.eqb_spec k e); cbn [andb]; [subst|ring] end;
    destruct (inreg RF x && inreg RF y); [rewrite H0 by auto|]; ring ].
Ltac close_i := let T3 := fresh in let HT3 := fresh in intros T3 HT3; eapply tbspec_ext; [exact HT3|];
  let k := fresh in intros k ? ? _ _ _; cbv beta; first [progress unfold th_sum | unfold th_i];
  match goal with |- context [(k =? ?e)%nat] => destruct (k =? e)%nat end; [ring|]; rewrite rsum_0; [ring|]; intros l _; destruct (_ <=? _)%nat; reflexivity.
Ltac close_j := eapply tbspec_ext; [eassumption|]; let k := fresh in intros k ? ? _ _ _; cbv beta; unfold th_j;
  match goal with |- context [(k =? ?e)%nat] => destruct (k =? e)%nat end; ring.

Lemma rat_free_th_blocks alpha : alpha <> 0 ->
  let p1 := fun p q => rq1 alpha (s p q) in
  let p2 := fun p q => rq2 alpha (s p q) in
  let p3 := fun p q => - (1 + 1 / alpha) * (1 + 2 / alpha) * rat_pow alpha (- alpha - 3) (s p q) in
  rok (rat_free_KernGrad_grad_th Rt theta alpha)
   (fun T => tbspec d n n d n n d T (rk_th th Rr p1 p2 p3 sl)).
Proof.
  intros Hal p1 p2 p3. unfold rat_free_KernGrad_grad_th.
  assert (H := HR); destruct H as (-> & -> & -> & _). rewrite Nat.eqb_refl. cbn [assert_ bind]. cbv zeta. rewrite !dim1.
  eapply rok_bind; [eapply pos_sum_ok; eassumption|]. intros tmp Htmp; cbv beta in Htmp.
  unfold rk_th. apply th_outer. intros e T f He HT H0.
  msteps.
  eapply (rok_bind _ _ (fun T' => tbspec d n n d n n d T' (fun k a b => f k a b + (if (k =? e)%nat then blk RF RF (cv0 Rr p1 e) a b else 0)))).
  { v0_block (cv0 Rr p1 e) HT He H0 ltac:(unfold cv0, p1, rq1; ring). }
  intros T1 HT1; cbv beta in HT1. msteps.
  tbacc (RG e) RF (ct1 Rr p1 sl e) ltac:(intros; kunf3; unfold p1, rq1; cbn [osel]; ring).
  tbacc RF (RG e) (ct1' Rr p1 sl e) ltac:(intros p q _ _; kunf3; unfold p1, rq1; cbn [osel]; rewrite (Hanti e p), (s_sym d Rr th Hanti p); ring).
  tbacc (RG e) (RG e) (cm p1 sl e) ltac:(intros; kunf3; unfold p1, rq1; cbn [osel]; ring).
  eapply rok_mono.
  - eapply (acc_loop d n n d n n d _ (fun i k a b => if (k =? e)%nat then
       th_i d (ct th Rr p2 sl) (ct' th Rr p2 sl) (ct2 th Rr p2 sl) (ct2 th Rr p2 sl) (cu th Rr p2 p3 sl) (ct4 th Rr p3 sl) e i a b else 0));
      [lia | | eassumption].
    intros i T2 f2 Hi HT2. cbv beta. msteps.
    tbacc (RG i) RF (ct th Rr p2 sl e i) ltac:(intros; kunf3; unfold p2, rq2; cbn [osel]; field; exact Hal).
    tbacc RF (RG i) (ct' th Rr p2 sl e i) ltac:(intros p q _ _; kunf3; unfold p2, rq2; cbn [osel]; rewrite (Hanti e p), (Hanti i p), (s_sym d Rr th Hanti p); field; exact Hal).
    msteps.
    tbacc (RG e) (RG i) (ct2 th Rr p2 sl e i) ltac:(intros; kunf3; unfold p2, rq2; cbn [osel]; field; exact Hal).
    tbacc (RG i) (RG e) (ct2 th Rr p2 sl e i) ltac:(intros; kunf3; unfold p2, rq2; cbn [osel]; field; exact Hal).
    msteps.
    tbacc (RG i) (RG i) (cu th Rr p2 p3 sl e i) ltac:(intros; kunf3; unfold p2, p3, rq2; cbn [osel]; field; exact Hal).
    eapply rok_mono.
    + eapply (acc_loop d n n d n n d _ (fun j k a b => if (k =? e)%nat then th_j (ct4 th Rr p3 sl) e i j a b else 0));
        [lia | | eassumption].
      intros j T3 f3 Hj HT3. cbv beta. msteps.
      tbacc (RG i) (RG j) (ct4 th Rr p3 sl e i j) ltac:(intros; kunf3; unfold p3; cbn [osel]; field; exact Hal).
      tbacc_last (RG j) (RG i) (ct4 th Rr p3 sl e i j) ltac:(intros; kunf3; unfold p3; cbn [osel]; field; exact Hal).
      close_j.
    + close_i.
  - close_i.
Qed.

Lemma sq_exp_free_th_blocks :
  let p1 := fun p q => se1 (s p q) in
  let p2 := fun p q => se2 (s p q) in
  let p3 := fun p q => - exp (- s p q) in
  rok (sq_exp_free_KernGrad_grad_th Rt theta)
   (fun T => tbspec d n n d n n d T (rk_th th Rr p1 p2 p3 sl)).
Proof.
  intros p1 p2 p3. unfold sq_exp_free_KernGrad_grad_th.
  assert (H := HR); destruct H as (-> & -> & -> & _).
  eapply rok_bind; [exact (sq_exp_free_blocks Rt theta d n n Rr th HR Hth)|].
  intros K HK; cbv beta in HK. rewrite Nat.eqb_refl. cbn [assert_ bind].
  assert (HB := mslice_b n n d n n d K _ RF RF 0 n 0 n HK I I eq_refl eq_refl eq_refl eq_refl).
  cbn [rht mkr] in HB. cbv beta zeta. set (KB := mslice K 0 n 0 n) in *. clearbody KB. rewrite !dim1.
  unfold rk_th. apply th_outer. intros e T f He HT H0.
  msteps.
  eapply (rok_bind _ _ (fun T' => tbspec d n n d n n d T' (fun k a b => f k a b + (if (k =? e)%nat then blk RF RF (cv0 Rr p1 e) a b else 0)))).
  { v0_block (cv0 Rr p1 e) HT He H0 ltac:(unfold cv0, p1, se1, rk, se0; ring). }
  intros T1 HT1; cbv beta in HT1. msteps.
  tbsub (RG e) RF (ct1 Rr p1 sl e) ltac:(intros; kunf3; unfold p1, se1, rk, se0; cbn [osel]; ring).
  tbacc RF (RG e) (ct1' Rr p1 sl e) ltac:(intros p q _ _; kunf3; unfold p1, se1, rk, se0; cbn [osel]; ring).
  tbacc (RG e) (RG e) (cm p1 sl e) ltac:(intros; kunf3; unfold p1, se1, rk, se0; cbn [osel]; ring).
  eapply rok_mono.
  - eapply (acc_loop d n n d n n d _ (fun i k a b => if (k =? e)%nat then
       th_i d (ct th Rr p2 sl) (ct' th Rr p2 sl) (ct2 th Rr p2 sl) (ct2 th Rr p2 sl) (cu th Rr p2 p3 sl) (ct4 th Rr p3 sl) e i a b else 0));
      [lia | | eassumption].
    intros i T2 f2 Hi HT2. cbv beta zeta.
    assert (E1 : ((i + 1) * n = n + i * n)%nat) by lia. rewrite !E1.
    assert (HGF := mslice_b n n d n n d K _ (RG i) RF _ _ 0 n HK (proj2 Hi) I eq_refl eq_refl eq_refl eq_refl).
    assert (HFG := mslice_b n n d n n d K _ RF (RG i) 0 n _ _ HK I (proj2 Hi) eq_refl eq_refl eq_refl eq_refl).
    assert (HGG := mslice_b n n d n n d K _ (RG i) (RG i) _ _ _ _ HK (proj2 Hi) (proj2 Hi) eq_refl eq_refl eq_refl eq_refl).
    cbn [rlo rhi rht mkr] in HGF, HFG, HGG.
    set (SGF := mslice K (n + i * n) (n + i * n + n) 0 n) in *. clearbody SGF.
    set (SFG := mslice K 0 n (n + i * n) (n + i * n + n)) in *. clearbody SFG.
    set (SGG := mslice K (n + i * n) (n + i * n + n) (n + i * n) (n + i * n + n)) in *. clearbody SGG.
    msteps.
    tbsub (RG i) RF (ct th Rr p2 sl e i) ltac:(intros; kunf3; unfold p2, se2, rk, se1; cbn [osel]; ring).
    msteps.
    tbsub RF (RG i) (ct' th Rr p2 sl e i) ltac:(intros p q _ _; kunf3; unfold p2, se2, rk, se1; cbn [osel]; ring).
    msteps.
    tbacc (RG e) (RG i) (ct2 th Rr p2 sl e i) ltac:(intros; kunf3; unfold p2, se2, rk, se0; cbn [osel]; ring).
    tbacc (RG i) (RG e) (ct2 th Rr p2 sl e i) ltac:(intros; kunf3; unfold p2, se2, rk, se0; cbn [osel]; ring).
    msteps.
    tbsub (RG i) (RG i) (cu th Rr p2 p3 sl e i) ltac:(intros p q _ _; kunf3; unfold p2, p3, se2, rk, se1, se2, delta; rewrite Nat.eqb_refl; cbn [osel]; ring).
    eapply rok_mono.
    + eapply (acc_loop d n n d n n d _ (fun j k a b => if (k =? e)%nat then th_j (ct4 th Rr p3 sl) e i j a b else 0));
        [lia | | eassumption].
      intros j T3 f3 Hj HT3. cbv beta zeta.
      assert (E2 : ((j + 1) * n = n + j * n)%nat) by lia. rewrite !E2.
      assert (HGJ := mslice_b n n d n n d K _ (RG i) (RG j) _ _ _ _ HK (proj2 Hi) (proj2 Hj) eq_refl eq_refl eq_refl eq_refl).
      cbn [rlo rhi rht mkr] in HGJ.
      set (SGJ := mslice K (n + i * n) (n + i * n + n) (n + j * n) (n + j * n + n)) in *. clearbody SGJ.
      msteps.
      tbacc (RG i) (RG j) (ct4 th Rr p3 sl e i j) ltac:(intros; kunf3; unfold p3, rk, se1, se2, delta; cbn [osel]; destruct (Nat.eqb_spec i j); [lia|]; ring).
      tbacc_last (RG j) (RG i) (ct4 th Rr p3 sl e i j) ltac:(intros; kunf3; unfold p3, rk, se1, se2, delta; cbn [osel]; destruct (Nat.eqb_spec i j); [lia|]; ring).
      close_j.
    + close_i.
  - close_i.
Qed.

Lemma matern_free_th_blocks :
  let p1 := fun p q => ma1 (s p q) in
  let p2 := fun p q => ma2 (s p q) in
  let p3 := fun p q => - (25 * sqrt 5 / 24) * / Rmax (sqrt (s p q)) nu_floor * matern_Abase_entry (sqrt (s p q)) in
  rok (matern_free_KernGrad_grad_th Rt theta)
   (fun T => tbspec d n n d n n d T (rk_th th Rr p1 p2 p3 sl)).
Proof.
  intros p1 p2 p3. unfold matern_free_KernGrad_grad_th.
  assert (H := HR); destruct H as (-> & -> & -> & _). rewrite Nat.eqb_refl. cbn [assert_ bind]. cbv zeta. rewrite !dim1.
  eapply rok_bind; [eapply nu_mat_ok; eassumption|]. intros nu Hnu; cbv beta in Hnu.
  unfold rk_th. apply th_outer. intros e T f He HT H0.
  msteps.
  eapply (rok_bind _ _ (fun T' => tbspec d n n d n n d T' (fun k a b => f k a b + (if (k =? e)%nat then blk RF RF (cv0 Rr p1 e) a b else 0)))).
  { v0_block (cv0 Rr p1 e) HT He H0 ltac:(unfold cv0, p1, ma1; field). }
  intros T1 HT1; cbv beta in HT1. msteps.
  tbsub (RG e) RF (ct1 Rr p1 sl e) ltac:(intros; kunf3; unfold p1, ma1; cbn [osel]; field).
  tbacc RF (RG e) (ct1' Rr p1 sl e) ltac:(intros p q _ _; kunf3; unfold p1, ma1; cbn [osel]; field).
  tbacc (RG e) (RG e) (cm p1 sl e) ltac:(intros; kunf3; unfold p1, ma1; cbn [osel]; field).
  set (w1 := fun i p q => - (25 / 6 * th i) * Rr e p q ^ 2 * matern_Abase_entry (sqrt (s p q))).
  set (w2 := fun i p q => 25 * sqrt 5 / 6 * th i ^ 2 * Rr i p q ^ 2 * Rr e p q ^ 2 * / Rmax (sqrt (s p q)) nu_floor * matern_Abase_entry (sqrt (s p q))).
  assert (Hw : forall i p q, w1 i p q + w2 i p q = cu th Rr p2 p3 sl e i p q).
  { intros i p q. unfold w1, w2, cu, p2, p3, ma2. cbn [osel]. generalize (/ Rmax (sqrt (s p q)) nu_floor). intros; field. }
  eapply rok_mono.
  - eapply (acc_loop d n n d n n d _ (fun i k a b => if (k =? e)%nat then
       th_i d (ct th Rr p2 sl) (ct' th Rr p2 sl) (ct2 th Rr p2 sl) (ct2 th Rr p2 sl) (cu th Rr p2 p3 sl) (ct4 th Rr p3 sl) e i a b else 0));
      [lia | | eassumption].
    intros i T2 f2 Hi HT2. cbv beta. msteps.
    tbsub (RG i) RF (ct th Rr p2 sl e i) ltac:(intros; kunf3; unfold p2, ma2; cbn [osel]; field).
    tbacc RF (RG i) (ct' th Rr p2 sl e i) ltac:(intros p q _ _; kunf3; unfold p2, ma2; cbn [osel]; field).
    msteps.
    tbacc (RG e) (RG i) (ct2 th Rr p2 sl e i) ltac:(intros; kunf3; unfold p2, ma2; cbn [osel]; field).
    tbacc (RG i) (RG e) (ct2 th Rr p2 sl e i) ltac:(intros; kunf3; unfold p2, ma2; cbn [osel]; field).
    msteps.
    tbsub (RG i) (RG i) (w1 i) ltac:(intros; unfold w1; field).
    msteps.
    tbacc (RG i) (RG i) (w2 i) ltac:(intros p q _ _; unfold w2; generalize (/ Rmax (sqrt (s p q)) nu_floor); intros; field).
    eapply rok_mono.
    + eapply (acc_loop d n n d n n d _ (fun j k a b => if (k =? e)%nat then th_j (ct4 th Rr p3 sl) e i j a b else 0));
        [lia | | eassumption].
      intros j T3 f3 Hj HT3. cbv beta. msteps.
      tbacc (RG i) (RG j) (ct4 th Rr p3 sl e i j) ltac:(intros p q _ _; kunf3; unfold p3; cbn [osel]; generalize (/ Rmax (sqrt (s p q)) nu_floor); intros; field).
      tbacc_last (RG j) (RG i) (ct4 th Rr p3 sl e i j) ltac:(intros p q _ _; kunf3; unfold p3; cbn [osel]; generalize (/ Rmax (sqrt (s p q)) nu_floor); intros; field).
      close_j.
    + intros T3 HT3. eapply tbspec_ext; [exact HT3|]. intros k x y _ _ _. cbv beta. unfold th_i.
      destruct (k =? e)%nat; [|rewrite rsum_0; [ring|]; intros l _; destruct (_ <=? _)%nat; reflexivity].
      replace (blk (RG i) (RG i) (cu th Rr p2 p3 sl e i) x y) with (blk (RG i) (RG i) (w1 i) x y + blk (RG i) (RG i) (w2 i) x y); [ring|].
      unfold blk. destruct (_ && _); [apply Hw | ring].
  - close_i.
Qed.

Lemma rat_free_alpha_blocks al :
  rok (rat_free_KernGrad_grad_alpha Rt theta al)
   (fun T => tbspec 1 n n d n n d T (fun _ => rk_al d Rr th None al)).
Proof.
  unfold rat_free_KernGrad_grad_alpha.
  assert (H := HR); destruct H as (-> & -> & -> & _). rewrite Nat.eqb_refl. cbn [assert_ bind]. cbv zeta. rewrite !dim1.
  eapply rok_bind; [eapply pos_sum_ok; eassumption|]. intros tmp Htmp; cbv beta in Htmp.
  assert (HT := tbspec_const 1 n n d n n d 0). assert (He : (0 < 1)%nat) by lia.
  set (z3 := fun _ _ _ : nat => 0). set (z4 := fun _ _ _ _ : nat => 0).
  set (v0 := av0 d Rr th al). set (vt := at_ d Rr th None al). set (vt' := at' d Rr th None al).
  set (vu := au d Rr th None al). set (v4 := at4 d Rr th None al).
  eapply (rok_bind _ _ (fun T' => tbspec 1 n n d n n d T' (fun k a b => blk RF RF (v0 0%nat) a b))).
  { eapply rok_mono.
    - eapply (tupd_b _ _ _ _ _ _ _ _ _ _ _ RF RF _ (v0 0%nat)); [exact HT | exact He | exact I | exact I | reflexivity | reflexivity | reflexivity | reflexivity |].
      eapply mspec_ext; [simpl; mspec_tac|]. intros p q _ _. reflexivity.
    - intros T' HT'. eapply tbspec_ext; [exact HT'|]. intros k x y Hk Hx Hy. unfold blk. cbv beta.
      destruct (Nat.eqb_spec k 0); cbn [andb]; [subst|lia].
      destruct (inreg RF x && inreg RF y); reflexivity. }
  intros T1 HT1; cbv beta in HT1.
  eapply rok_mono.
  - eapply (acc_loop 1 n n d n n d _ (fun i k a b => th_i d vt vt' z4 z4 vu v4 0 i a b)); [lia | | eassumption].
    intros i T2 f2 Hi HT2. cbv beta. msteps.
    tbacc (RG i) RF (vt 0%nat i) ltac:(intros; unfold vt, at_; cbn [osel]; ring).
    tbsub RF (RG i) (vt' 0%nat i) ltac:(intros p q _ _; unfold vt', at'; cbn [osel]; ring).
    msteps.
    tbacc (RG i) (RG i) (vu 0%nat i) ltac:(intros; unfold vu, au; cbn [osel]; ring).
    msteps.
    eapply rok_mono.
    + eapply (acc_loop 1 n n d n n d _ (fun j k a b => th_j v4 0 i j a b)); [lia | | eassumption].
      intros j T3 f3 Hj HT3. cbv beta. msteps.
      tbacc (RG i) (RG j) (v4 0%nat i j) ltac:(intros; unfold v4, at4; cbn [osel]; ring).
      tbacc_last (RG j) (RG i) (v4 0%nat i j) ltac:(intros; unfold v4, at4; cbn [osel]; ring).
      eapply tbspec_ext; [eassumption|]. intros k x y Hk _ _. cbv beta. unfold th_j.
      destruct (Nat.eqb_spec k 0); [ring|lia].
    + intros T3 HT3. eapply tbspec_ext; [exact HT3|]. intros k x y Hk _ _. cbv beta. unfold th_i.
      destruct (Nat.eqb_spec k 0); [|lia].
      assert (Z1 : blk (RG 0) (RG i) (z4 0%nat i) x y = 0) by (unfold blk, z4; destruct (_ && _); reflexivity).
      assert (Z2 : blk (RG i) (RG 0) (z4 0%nat i) x y = 0) by (unfold blk, z4; destruct (_ && _); reflexivity).
      rewrite Z1, Z2. ring.
  - intros T3 HT3. eapply tbspec_ext; [exact HT3|]. intros k x y Hk Hx Hy. cbv beta.
    assert (A := al_sum d n Rr th None al x y Hx Hy). rewrite <- A. unfold th_sum.
    assert (Z : forall r1 r2, blk r1 r2 (fun _ _ : nat => 0) x y = 0) by (intros; unfold blk; destruct (_ && _); reflexivity).
    cbv beta. rewrite !Z. unfold v0, vt, vt', vu, v4, z4. ring.
Qed.
End th.

Section hx.
Variables (Rt : ten) (theta : vec) (d n1 n2 : nat) (Rr : nat -> nat -> nat -> R) (th : nat -> R).
Hypothesis (HR : tspec d n1 n2 Rt Rr) (Hth : vspec d theta th).
Local Notation s p q := (rsum d (fun i => th i * Rr i p q ^ 2)).
Local Notation sl := (osel None).
Local Notation sp := (tbspec d 0 n1 d n2 n2 d).

Ltac three v HT1 body :=
  eapply (set_loop d 0 n1 d n2 n2 d _ (fun l k a b => existsb (fun i => existsb (fun j => ((k =? l)%nat && (inreg (RG i) a && inreg (RG j) b))) (seq 0 d)) (seq 0 d)) v); [|exact HT1];
  let l := fresh "l" in let T1 := fresh "T" in let f1 := fresh "f" in let Hl := fresh "Hl" in let HT := fresh "HT" in
  intros l T1 f1 Hl HT; msteps;
  eapply (set_loop d 0 n1 d n2 n2 d _ (fun i k a b => existsb (fun j => ((k =? l)%nat && (inreg (RG i) a && inreg (RG j) b))) (seq 0 d)) v); [|exact HT];
  let i := fresh "i" in let T2 := fresh "T" in let f2 := fresh "f" in let Hi := fresh "Hi" in let HT2 := fresh "HT" in
  intros i T2 f2 Hi HT2; msteps;
  eapply (set_loop d 0 n1 d n2 n2 d _ (fun j k a b => ((k =? l)%nat && (inreg (RG i) a && inreg (RG j) b))) v); [|exact HT2];
  let j := fresh "j" in let T3 := fresh "T" in let f3 := fresh "f" in let Hj := fresh "Hj" in let HT3 := fresh "HT" in
  intros j T3 f3 Hj HT3; msteps;
  eapply rok_mono; [hupd (fun _ w : R => w) (RG i) (RG j) (fun p q => v l (G i p) (G j q)) ltac:(body l i j)|];
  let T4 := fresh "T" in let HT4 := fresh "HT" in
  intros T4 HT4; eapply tbspec_ext; [exact HT4|]; intros k a b Hk Ha Hb'; cbv beta;
  destruct (Nat.eqb_spec k l); cbn [andb]; [subst|reflexivity];
  destruct a as [p|i' p], b as [q|j' q]; cbn [inreg andb loc]; try reflexivity; [rewrite andb_false_r; reflexivity|];
  destruct (Nat.eqb_spec i i'); cbn [andb]; [subst|reflexivity];
  destruct (Nat.eqb_spec j j'); [subst; reflexivity|reflexivity].
Ltac three_end :=
  let T1 := fresh "T" in let HT1 := fresh "HT" in
  intros T1 HT1; eapply tbspec_ext; [exact HT1|]; intros k a b Hk Ha Hb'; cbv beta;
  destruct a as [p|i p]; cbn [rvalid] in *; [lia|]; destruct b as [q|j q];
  [ rewrite existsb_none; [reflexivity|]; intros l' _; apply existsb_none; intros i' _; apply existsb_none; intros j' _;
    cbn [inreg]; rewrite !andb_false_r; reflexivity
  | erewrite (existsb_in d _ k Hk); [reflexivity|]; erewrite (existsb_in d _ i); [reflexivity | tauto |];
    cbn [rvalid] in Hb'; erewrite (existsb_in d _ j); [reflexivity | tauto |];
    cbn [inreg]; rewrite !Nat.eqb_refl; reflexivity ].

Lemma sq_exp_free_x_blocks :
  rok (sq_exp_free_KernGrad_grad_x Rt theta)
    (fun T => sp T (hx th Rr (fun p q => se1 (s p q)) (fun p q => se2 (s p q)) (fun p q => se3 (s p q)) sl)).
Proof.
  unfold sq_exp_free_KernGrad_grad_x. cbv zeta.
  eapply (rok_bind _ _ (fun K => mspec n1 n2 K (fun p q => se0 (s p q)))).
  { unfold sq_exp_calc_KernBase. eapply rok_bind; [eapply sq_exp_sum_ok; eassumption|].
    intros A HA. cbv beta in HA. simpl. eapply mspec_ext; [mspec_tac|]. intros; reflexivity. }
  intros K HK. eapply rok_bind; [apply (sq_exp_hess_blocks Rt theta d n1 n2 Rr th HR Hth K HK)|]. intros Hs HHs; cbv beta in HHs.
  assert (H := HR); destruct H as (-> & -> & -> & _). rewrite !dim2.
  assert (T0 := tbspec_const d 0 n1 d n2 n2 d 0).
  eapply rok_bind; [eapply (tset_cols_b d 0 n1 d n2 n2 d _ _ _ _ T0 HHs)|].
  intros T1 HT1; cbv beta in HT1.
  set (v := hx th Rr (fun p q => se1 (s p q)) (fun p q => se2 (s p q)) (fun p q => se3 (s p q)) sl).
  eapply rok_mono.
  - three v HT1 ltac:(fun l i j => intros; unfold v, hx, delta, se2, se3, se0; cbn [osel];
      destruct (Nat.eqb_spec i l), (Nat.eqb_spec j l), (Nat.eqb_spec i j); try congruence; try subst; ring).
  - three_end.
Qed.
Lemma matern_free_x_jit_blocks :
  rok (Hx <- matern_calc_KernBase_hess_x Rt theta ;; matern_free_KernGrad_grad_x_jit Rt theta Hx)
    (fun T => sp T (hx th Rr (fun p q => ma1 (s p q)) (fun p q => ma2 (s p q)) (fun p q => phi3 Ma5f2 0 (s p q)) sl)).
Proof.
  eapply rok_bind; [apply (matern_hess_blocks Rt theta d n1 n2 Rr th HR Hth)|]. intros Hs HHs; cbv beta in HHs.
  unfold matern_free_KernGrad_grad_x_jit. cbv zeta.
  eapply rok_bind; [eapply nu_mat_ok; eassumption|]. intros nu Hnu; cbv beta in Hnu.
  assert (H := HR); destruct H as (-> & -> & -> & _). rewrite !dim2.
  assert (T0 := tbspec_const d 0 n1 d n2 n2 d 0).
  eapply rok_bind; [eapply (tset_cols_b d 0 n1 d n2 n2 d _ _ _ _ T0 HHs)|].
  intros T1 HT1; cbv beta in HT1.
  set (v := hx th Rr _ _ _ sl).
  eapply rok_mono.
  - three v HT1 ltac:(fun l i j => intros p q _ _; unfold v, hx, delta, ma2, phi3; cbn [osel];
      destruct (Nat.eqb_spec i l), (Nat.eqb_spec j l), (Nat.eqb_spec i j); try congruence; try subst;
      generalize (/ Rmax (sqrt (s p q)) nu_floor); intros; field).
  - three_end.
Qed.

Lemma rat_free_x_blocks alpha : alpha <> 0 ->
  rok (rat_free_KernGrad_grad_x Rt theta alpha)
    (fun T => sp T (hx th Rr (fun p q => rq1 alpha (s p q)) (fun p q => rq2 alpha (s p q)) (fun p q => rq3 alpha (s p q)) sl)).
Proof.
  intros Hal. unfold rat_free_KernGrad_grad_x. cbv zeta.
  eapply rok_bind; [eapply pos_sum_ok; eassumption|]. intros nu Hnu; cbv beta in Hnu.
  assert (H := HR); destruct H as (-> & -> & -> & _). rewrite !dim2.
  set (v := hx th Rr _ _ _ sl).
  set (v0 := fun l p q => 2 * th l * rq1 alpha (s p q)).
  set (vi := fun l i p q => 4 * th i * th l * Rr i p q * Rr l p q * rq2 alpha (s p q)).
  set (vq := fun l i p q => - (4 * th i * th l * Rr l p q * rq2 alpha (s p q))).
  set (vr := fun l i p q => - (4 * th i * th l * Rr i p q * rq2 alpha (s p q))).
  set (vu := fun l i j p q => - (8 * th i * th j * th l * Rr i p q * Rr j p q * Rr l p q * rq3 alpha (s p q))).
  set (ci := fun l i (a b : rix) => blk (RG i) RF (vi l i) a b + blk (RG i) (RG i) (vq l i) a b
      + blk (RG i) (RG l) (vr l i) a b + blk (RG l) (RG i) (vr l i) a b
      + rsum d (fun j => if (0 <=? j)%nat then blk (RG i) (RG j) (vu l i j) a b else 0)).
  eapply rok_mono.
  - eapply (acc_loop d 0 n1 d n2 n2 d _ (fun l k a b => if (k =? l)%nat then
       blk (RG l) RF (v0 l) a b + rsum d (fun i => if (0 <=? i)%nat then ci l i a b else 0) else 0)); [lia| |apply tbspec_const].
    intros l T1 f1 Hl HT1. msteps.
    hsub (RG l) RF (v0 l) ltac:(intros; unfold v0, rq1; field).
    msteps.
    eapply rok_mono.
    + eapply (acc_loop d 0 n1 d n2 n2 d _ (fun i k a b => if (k =? l)%nat then ci l i a b else 0)); [lia | | eassumption].
      intros i T2 f2 Hi HT2. cbv beta. msteps.
      hadd (RG i) RF (vi l i) ltac:(intros; unfold vi, rq2; field; exact Hal).
      msteps.
      hsub (RG i) (RG i) (vq l i) ltac:(intros; unfold vq, rq2; field; exact Hal).
      msteps.
      hadd (RG i) (RG l) (vr l i) ltac:(intros; unfold vr, rq2; field; exact Hal).
      hadd (RG l) (RG i) (vr l i) ltac:(intros; unfold vr, rq2; field; exact Hal).
      eapply rok_mono.
      * eapply (acc_loop d 0 n1 d n2 n2 d _ (fun j k a b => if (k =? l)%nat then blk (RG i) (RG j) (vu l i j) a b else 0)); [lia | | eassumption].
        intros j T3 f3 Hj HT3. cbv beta. msteps.
        hadd_last (RG i) (RG j) (vu l i j) ltac:(intros; unfold vu, rq3; field; exact Hal). assumption.
      * intros T3 HT3. eapply tbspec_ext; [exact HT3|]. intros k a b _ _ _. cbv beta. unfold ci.
        destruct (k =? l)%nat; [ring|]. rewrite rsum_0; [ring|]. intros; destruct (_ <=? _)%nat; reflexivity.
    + intros T2 HT2. eapply tbspec_ext; [exact HT2|]. intros k a b _ _ _. cbv beta.
      destruct (k =? l)%nat; [ring|]. rewrite rsum_0; [ring|]. intros; destruct (_ <=? _)%nat; reflexivity.
  - intros T HT. eapply tbspec_ext; [exact HT|]. intros k a b Hk Ha Hb. cbv beta.
    destruct a as [p|i p]; cbn [rvalid] in *; try lia.
    rewrite (rsum_single d k); [|exact Hk|intros l' _ Hne; cbn [Nat.leb]; destruct (Nat.eqb_spec k l'); [congruence|reflexivity]].
    rewrite Nat.eqb_refl. cbn [Nat.leb]. unfold ci. destruct b as [q|j q].
    + rewrite (rsum_single d i); [|tauto|].
      * cbn [Nat.leb]. rewrite (rsum_0 d), !blk_GF, !blk_GG_F, Nat.eqb_refl; [|intros; apply blk_GG_F].
        unfold v, hx, v0, vi, delta. rewrite (Nat.eqb_sym k i). destruct (Nat.eqb_spec i k); [subst|]; ring.
      * intros i' _ Hne. cbn [Nat.leb]. rewrite (rsum_0 d), !blk_GF, !blk_GG_F; [|intros; apply blk_GG_F].
        destruct (Nat.eqb_spec i' i); [congruence|]. ring.
    + cbn [rvalid] in Hb.
      transitivity (rsum d (fun i' => if (i' =? i)%nat then (if (i' =? j)%nat then vq k i' p q else 0) else 0)
        + rsum d (fun i' => if (i' =? i)%nat then (if (k =? j)%nat then vr k i' p q else 0) else 0)
        + rsum d (fun i' => if (i' =? j)%nat then (if (k =? i)%nat then vr k i' p q else 0) else 0)
        + rsum d (fun i' => if (i' =? i)%nat then rsum d (fun j' => if (j' =? j)%nat then vu k i' j' p q else 0) else 0)).
      * rewrite blk_GF_G. rewrite <- !rsum_plus. rewrite Rplus_0_l, Rplus_0_l. apply rsum_ext. intros i' _. cbn [Nat.leb].
        rewrite blk_GF_G, !blk_GG.
        replace (rsum d (fun j0 => blk (RG i') (RG j0) (vu k i' j0) (G i p) (G j q)))
          with (if (i' =? i)%nat then rsum d (fun j' => if (j' =? j)%nat then vu k i' j' p q else 0) else 0).
        { destruct (i' =? i)%nat, (i' =? j)%nat, (k =? i)%nat; ring. }
        { destruct (i' =? i)%nat eqn:E.
          - apply rsum_ext; intros j' _. rewrite blk_GG, E. reflexivity.
          - symmetry; apply rsum_0; intros j' _. rewrite blk_GG, E. reflexivity. }
      * rewrite (rsum_pick d i (fun i' => if (i' =? j)%nat then vq k i' p q else 0)) by tauto.
        rewrite (rsum_pick d i (fun i' => if (k =? j)%nat then vr k i' p q else 0)) by tauto.
        rewrite (rsum_pick d j (fun i' => if (k =? i)%nat then vr k i' p q else 0)) by tauto.
        rewrite (rsum_pick d i (fun i' => rsum d (fun j' => if (j' =? j)%nat then vu k i' j' p q else 0))) by tauto.
        rewrite (rsum_pick d j (fun j' => vu k i j' p q)) by tauto.
        unfold v, hx, vq, vr, vu, delta. cbn [osel].
        destruct (Nat.eqb_spec i j), (Nat.eqb_spec k j), (Nat.eqb_spec k i), (Nat.eqb_spec i k), (Nat.eqb_spec j k); try congruence; try subst; ring.
Qed.
End hx.
