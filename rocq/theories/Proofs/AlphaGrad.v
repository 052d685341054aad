(** C07: the alpha-derivative of the rational-quadratic kernel matrices. *)
From Coq Require Import Reals List Arith Bool Lia Lra Psatz.
From Coquelicot Require Import Coquelicot.
From Verif.Base Require Import NpLite NpFacts Deriv.
From Verif.Spec Require Import KernelSpec.
From Verif.Model Require Import KernelSqExp KernelMatern KernelRatQuad KernelDispatch.
From Verif.Proofs Require Import KernTac KernGradBlocks ThetaGradBlocks RadialCalculus RadialFns KernelExact ThetaGrad ThetaGradBase.
Import ListNotations.
Local Open Scope R_scope.

(** ** scalar calculus *)
Lemma rat_pow_shift a p s : 0 < rat_B a s -> rat_pow a p s = rat_pow a (p - 1) s * rat_B a s.
Proof.
  intros HB. unfold rat_pow, Rpower.
  replace (p * ln (rat_B a s)) with ((p - 1) * ln (rat_B a s) + ln (rat_B a s)) by ring.
  rewrite exp_plus, exp_ln by exact HB. reflexivity.
Qed.
Lemma rat_B_dalpha a s : 0 < a -> is_derive (fun t => rat_B t s) a (- s / a ^ 2).
Proof. intros Ha. unfold rat_B. auto_derive; [lra|]. field. lra. Qed.
Lemma rat_pow_dalpha a c s : 0 < a -> 0 <= s ->
  is_derive (fun t => rat_pow t (- t - c) s) a
    (rat_pow a (- a - c - 1) s * ((a + c) / a ^ 2 * s - rat_B a s * ln (rat_B a s))).
Proof.
  intros Ha Hs. assert (HB := rat_B_pos a s Ha Hs).
  eapply dR_val.
  - unfold rat_pow, Rpower.
    apply (dR_comp exp (fun t => (- t - c) * ln (rat_B t s)) a); [|apply dR_exp].
    apply dR_mult; [apply dR_minus; [apply dR_opp, dR_id | apply dR_const]|].
    apply (dR_comp ln (fun t => rat_B t s)); [apply rat_B_dalpha, Ha | apply dR_ln, HB].
  - cbv beta. fold (Rpower (rat_B a s) (- a - c)). change (Rpower (rat_B a s) (- a - c)) with (rat_pow a (- a - c) s).
    rewrite (rat_pow_shift a (- a - c) s HB). field. split; lra.
Qed.
Lemma rq0_dalpha a s : 0 < a -> 0 <= s -> is_derive (fun t => rq0 t s) a (rat_grad_alpha_entry a s).
Proof.
  intros Ha Hs. unfold rq0. apply (dR_ext (fun t => rat_pow t (- t - 0) s)).
  - intros t. f_equal. ring.
  - eapply dR_val; [apply rat_pow_dalpha; assumption|]. unfold rat_grad_alpha_entry.
    replace (- a - 0 - 1) with (- a - 1) by ring. f_equal. field. lra.
Qed.
Lemma rq1_dalpha a s : 0 < a -> 0 <= s -> is_derive (fun t => rq1 t s) a (/ 2 * rat_T0 a s).
Proof.
  intros Ha Hs. unfold rq1. eapply dR_val; [apply dR_opp, rat_pow_dalpha; assumption|]. unfold rat_T0.
  replace (- a - 1 - 1) with (- a - 2) by ring. field. lra.
Qed.
Lemma rat_T1_T0 a s : rat_T1 a s = - rat_T0 a s.
Proof. unfold rat_T1, rat_T0, Rdiv. ring. Qed.
Lemma rq2_dalpha a s : 0 < a -> 0 <= s -> is_derive (fun t => rq2 t s) a (- / 4 * rat_T2 a s).
Proof.
  intros Ha Hs. unfold rq2. assert (HB := rat_B_pos a s Ha Hs).
  eapply dR_val.
  - apply dR_mult; [|apply rat_pow_dalpha; assumption].
    apply dR_plus; [apply dR_const|]. apply dR_mult; [apply dR_const|].
    apply (dR_inv (fun t => t)); [apply dR_id | lra].
  - cbv beta. unfold rat_T2. rewrite (rat_pow_shift a (- a - 2) s HB).
    replace (- a - 2 - 1) with (- a - 3) by ring. field. lra.
Qed.

(** ** what the code stores *)
Section al.
Variables (Rt : ten) (theta : vec) (d n : nat) (Rr : nat -> nat -> nat -> R) (th : nat -> R).
Hypothesis (HR : tspec d n n Rt Rr) (Hth : vspec d theta th).
Hypothesis (Hanti : forall i p q, Rr i q p = - Rr i p q).
Variables (b : option (list bool)).
Hypotheses (M : mok n b).
Local Notation g := (opt_count n b).
Local Notation sl := (osel b).
Local Notation s p q := (rsum d (fun i => th i * Rr i p q ^ 2)).
Variable al : R.
Definition av0 (_ p q : nat) : R := rat_grad_alpha_entry al (s p q).
Definition at_ (_ i p q : nat) : R := th i * Rr i (sl p) q * rat_T0 al (s (sl p) q).
Definition at' (_ i p q : nat) : R := - (th i * Rr i p (sl q) * rat_T0 al (s p (sl q))).
Definition au (_ i p q : nat) : R := th i * rat_T1 al (s (sl p) (sl q)) + th i ^ 2 * Rr i (sl p) (sl q) ^ 2 * rat_T2 al (s (sl p) (sl q)).
Definition at4 (_ i j p q : nat) : R := th i * th j * Rr i (sl p) (sl q) * Rr j (sl p) (sl q) * rat_T2 al (s (sl p) (sl q)).
Definition rk_al (a c : rix) : R :=
  match a, c with
  | F p, F q => av0 0 p q
  | G i p, F q => at_ 0 i p q
  | F p, G j q => at' 0 j p q
  | G i p, G j q => th i * delta i j * rat_T1 al (s (sl p) (sl q))
      + th i * th j * Rr i (sl p) (sl q) * Rr j (sl p) (sl q) * rat_T2 al (s (sl p) (sl q))
  end.
Let z3 (_ _ _ : nat) : R := 0.
Let z4 (_ _ _ _ : nat) : R := 0.
Lemma al_sum a c : rvalid n g d a -> rvalid n g d c ->
  th_sum d av0 z3 z3 z3 at_ at' z4 z4 au at4 0 a c = rk_al a c.
Proof.
  intros Ha Hc. destruct (Nat.eq_dec d 0) as [E|E].
  - destruct a as [p|i p], c as [q|j q]; cbn [rvalid] in *; try lia.
    unfold th_sum, blk. rewrite rsum_0 by lia. cbn [inreg andb loc]. unfold rk_al. ring.
  - rewrite (th_sum_entry d g n) by (assumption || lia).
    destruct a as [p|i p], c as [q|j q]; unfold th_entry, rk_al, z3, z4.
    + reflexivity.
    + destruct (j =? 0)%nat; ring.
    + destruct (i =? 0)%nat; ring.
    + unfold au, at4, delta. destruct (Nat.eqb_spec i j).
      * subst. destruct (j =? 0)%nat; cbn [andb]; ring.
      * destruct (i <? j)%nat, (i =? 0)%nat, (j =? 0)%nat; cbn [andb]; ring.
Qed.
Lemma s_sym' p q : s q p = s p q.
Proof. apply rsum_ext; intros i _. rewrite (Hanti i p q). ring. Qed.

Lemma rat_grad_alpha_blocks :
  rok (rat_calc_KernGrad_grad_alpha Rt theta al b)
   (fun T => tbspec 1 n g d n g d T (fun _ => rk_al)).
Proof.
  unfold rat_calc_KernGrad_grad_alpha.
  assert (H := HR); destruct H as (-> & -> & -> & _). rewrite Nat.eqb_refl. cbn [assert_ bind].
  eapply rok_bind; [eapply pos_sum_ok; eassumption|]. intros tmp Htmp; cbv beta in Htmp.
  do 9 ostep. cbv beta zeta.
  assert (HT := tbspec_const 1 n g d n g d 0). assert (He : (0 < 1)%nat) by lia.
  eapply (rok_bind _ _ (fun T' => tbspec 1 n g d n g d T' (fun k a b => blk RF RF (av0 0) a b))).
  { eapply rok_mono.
    - eapply (tupd_b _ _ _ _ _ _ _ _ _ _ _ RF RF _ (av0 0)); [exact HT | exact He | exact I | exact I | reflexivity | reflexivity | reflexivity | reflexivity |].
      eapply mspec_ext; [simpl; mspec_tac|]. intros p q _ _. reflexivity.
    - intros T' HT'. eapply tbspec_ext; [exact HT'|]. intros k x y Hk Hx Hy. unfold blk. cbv beta.
      destruct (Nat.eqb_spec k 0); cbn [andb]; [subst|lia].
      destruct (inreg RF x && inreg RF y); reflexivity. }
  intros T1 HT1; cbv beta in HT1.
  eapply rok_mono.
  - eapply (acc_loop 1 n g d n g d _ (fun i k a b => th_i d at_ at' z4 z4 au at4 0 i a b)); [lia | | eassumption].
    intros i T2 f2 Hi HT2. cbv beta. msteps.
    tbacc (RG i) RF (at_ 0 i) ltac:(intros; unfold at_; ring).
    tbacc RF (RG i) (at' 0 i) ltac:(intros p q _ _; unfold at'; rewrite (Hanti i p), (s_sym' p); ring).
    msteps.
    tbacc (RG i) (RG i) (au 0 i) ltac:(intros; unfold au; ring).
    msteps.
    eapply rok_mono.
    + eapply (acc_loop 1 n g d n g d _ (fun j k a b => th_j at4 0 i j a b)); [lia | | eassumption].
      intros j T3 f3 Hj HT3. cbv beta. msteps.
      tbacc (RG i) (RG j) (at4 0 i j) ltac:(intros; unfold at4; ring).
      tbacc_last (RG j) (RG i) (at4 0 i j) ltac:(intros; unfold at4; ring).
      eapply tbspec_ext; [eassumption|]. intros k x y Hk _ _. cbv beta. unfold th_j.
      destruct (Nat.eqb_spec k 0); [ring|lia].
    + intros T3 HT3. eapply tbspec_ext; [exact HT3|]. intros k x y Hk _ _. cbv beta. unfold th_i.
      destruct (Nat.eqb_spec k 0); [|lia].
      assert (Z1 : blk (RG 0) (RG i) (z4 0 i) x y = 0) by (unfold blk, z4; destruct (_ && _); reflexivity).
      assert (Z2 : blk (RG i) (RG 0) (z4 0 i) x y = 0) by (unfold blk, z4; destruct (_ && _); reflexivity).
      rewrite Z1, Z2. ring.
  - intros T3 HT3. eapply tbspec_ext; [exact HT3|]. intros k x y Hk Hx Hy. cbv beta.
    rewrite <- (al_sum x y Hx Hy). unfold th_sum.
    assert (Z1 : blk (RG 0) RF (z3 0) x y = 0) by (unfold blk, z3; destruct (_ && _); reflexivity).
    assert (Z2 : blk RF (RG 0) (z3 0) x y = 0) by (unfold blk, z3; destruct (_ && _); reflexivity).
    assert (Z3 : blk (RG 0) (RG 0) (z3 0) x y = 0) by (unfold blk, z3; destruct (_ && _); reflexivity).
    rewrite Z1, Z2, Z3. ring.
Qed.
Lemma rat_base_grad_alpha_blocks :
  rok (rat_calc_KernBase_grad_alpha Rt theta al) (fun T => tspec 1 n n T av0).
Proof.
  unfold rat_calc_KernBase_grad_alpha.
  assert (P := pos_sum_ok Rt theta d n n Rr th HR Hth). unfold rat_temp in P.
  assert (H := HR); destruct H as (E0 & E1 & E2 & _). cbv zeta. rewrite E2, E1 in P. rewrite E1.
  eapply rok_bind; [exact P|]. intros A HA. cbv beta in HA.
  eapply rok_mono; [eapply tset_whole_ok; [apply tconst_spec | lia | mspec_tac]|].
  intros T (B0 & B1 & B2 & B3). repeat split; auto. intros e p q He Hp Hq. rewrite B3 by auto.
  destruct (Nat.eqb_spec e 0); [reflexivity|lia].
Qed.
End al.

Theorem KernGrad_alpha_gradient X theta alpha b Rt :
  vlen theta = nc X -> (forall i, (i < nc X)%nat -> 0 <= vat theta i) -> 0 < alpha ->
  mask_ok (nr X) b -> calc_Rtensor X X = Ok Rt ->
  exists T, calc_KernGrad_grad_alpha RatQu Rt theta (Some alpha) b = Ok T /\ td T = 1%nat /\
    is_mat_derive (fun t => calc_KernGrad RatQu Rt theta (Some t) b b) alpha (tr T) (tc T) (tat T 0).
Proof.
  intros Hd Hpos Hal Hm ERt.
  assert (HRt := rok_inv _ _ _ (Rtensor_ok X X eq_refl) ERt). cbv beta in HRt.
  assert (Hv : vspec (nc X) theta (vat theta)) by (split; [exact Hd | auto]).
  assert (Ha : forall i p q, rows_of X q i - rows_of X p i = - (rows_of X p i - rows_of X q i)) by (intros; ring).
  destruct (rok_ex _ _ (rat_grad_alpha_blocks Rt theta _ _ _ _ HRt Hv Ha b Hm alpha)) as (T & ET & T0 & T1 & T2 & HT).
  exists T. split; [exact ET|]. split; [exact T0|]. rewrite T1, T2.
  set (th := vat theta) in *. set (n := nr X) in *. set (d := nc X) in *. set (g := opt_count n b) in *.
  exists alpha, (fun t => get_mat (calc_KernGrad RatQu Rt theta (Some t) b b)).
  split; [exact Hal|].
  assert (Hnear : forall t, Rabs (t - alpha) < alpha ->
     rok (calc_KernGrad RatQu Rt theta (Some t) b b) (fun K => bspec n g d n g d K
       (rkk RatQu t d th (rows_of X) (rows_of X) (osel b) (osel b)))).
  { intros t Ht. apply Rabs_def2 in Ht.
    apply (KernGrad_blocks RatQu Rt theta (Some t) d n n (rows_of X) (rows_of X) b b HRt); auto.
    - exists t. split; [reflexivity | lra].
    - apply masks_ok_same. }
  split.
  - intros t Ht. destruct (rok_ex _ _ (Hnear t Ht)) as (K & EK & K1 & K2 & _). rewrite EK. simpl. auto.
  - intros r c Hr Hc.
    destruct (unradr_ok n g d r Hr) as [V1 A1]. destruct (unradr_ok n g d c Hc) as [V2 A2].
    set (ra := unradr n g r) in *. set (ca := unradr n g c) in *.
    eapply dR_val; [|rewrite <- A1, <- A2; symmetry; apply (HT 0%nat ra ca); auto].
    eapply (dR_ext_near (fun t => rkk RatQu t d th (rows_of X) (rows_of X) (osel b) (osel b) ra ca) _ _ _ alpha); [exact Hal | | ].
    + intros t Ht. destruct (rok_ex _ _ (Hnear t Ht)) as (K & EK & K1 & K2 & HK). rewrite EK. simpl.
      rewrite <- A1, <- A2. symmetry. apply HK; assumption.
    + unfold rkk, phi0, phi1, phi2.
      assert (NN : forall p q, 0 <= sqd d th (rows_of X p) (rows_of X q)) by (intros; apply sqd_nonneg; exact Hpos).
      destruct ra as [p|i p], ca as [q|j q]; unfold rk, rk_al.
      * apply rq0_dalpha; auto.
      * eapply dR_val; [apply dR_opp, dR_scal, rq1_dalpha; auto|]. unfold at', sqd. field.
      * eapply dR_val; [apply dR_scal, rq1_dalpha; auto|]. unfold at_, sqd. field.
      * eapply dR_val; [apply dR_opp, dR_plus; [apply dR_scal, rq1_dalpha; auto | apply dR_scal, rq2_dalpha; auto]|].
        rewrite rat_T1_T0. unfold sqd. field.
Qed.
Theorem KernBase_alpha_gradient X theta alpha Rt :
  vlen theta = nc X -> (forall i, (i < nc X)%nat -> 0 <= vat theta i) -> 0 < alpha ->
  calc_Rtensor X X = Ok Rt ->
  exists T, calc_KernBase_grad_alpha RatQu Rt theta (Some alpha) = Ok T /\ td T = 1%nat /\
    is_mat_derive (fun t => calc_KernBase RatQu Rt theta (Some t)) alpha (tr T) (tc T) (tat T 0).
Proof.
  intros Hd Hpos Hal ERt.
  assert (HRt := rok_inv _ _ _ (Rtensor_ok X X eq_refl) ERt). cbv beta in HRt.
  assert (Hv : vspec (nc X) theta (vat theta)) by (split; [exact Hd | auto]).
  destruct (rok_ex _ _ (rat_base_grad_alpha_blocks Rt theta _ _ _ _ HRt Hv alpha)) as (T & ET & T0 & T1 & T2 & HT).
  exists T. split; [exact ET|]. split; [exact T0|]. rewrite T1, T2.
  set (th := vat theta) in *. set (n := nr X) in *. set (d := nc X) in *.
  exists alpha, (fun t => get_mat (calc_KernBase RatQu Rt theta (Some t))).
  split; [exact Hal|].
  assert (Hnear : forall t, Rabs (t - alpha) < alpha ->
     rok (calc_KernBase RatQu Rt theta (Some t)) (fun K => mspec n n K
       (fun p q => rq0 t (sqd d th (rows_of X p) (rows_of X q))))).
  { intros t Ht. apply Rabs_def2 in Ht.
    apply (KernBase_blocks RatQu Rt theta (Some t) d n n (rows_of X) (rows_of X) HRt); auto.
    exists t. split; [reflexivity | lra]. }
  split.
  - intros t Ht. destruct (rok_ex _ _ (Hnear t Ht)) as (K & EK & K1 & K2 & _). rewrite EK. simpl. auto.
  - intros p q Hp Hq. rewrite HT by auto.
    eapply (dR_ext_near (fun t => rq0 t (sqd d th (rows_of X p) (rows_of X q))) _ _ _ alpha); [exact Hal | | ].
    + intros t Ht. destruct (rok_ex _ _ (Hnear t Ht)) as (K & EK & K1 & K2 & HK). rewrite EK. simpl.
      symmetry. apply HK; assumption.
    + apply rq0_dalpha; auto. apply sqd_nonneg; exact Hpos.
Qed.
