(** Derivatives of the covariance matrix with respect to the hyperparameters. *)
From Coq Require Import Reals List Arith Bool Lia Lra.
From Coquelicot Require Import Coquelicot.
From Verif.Base Require Import NpLite NpFacts Deriv.
From Verif.Spec Require Import KernelSpec LinAlgSpec GpSpec HpSpec.
From Verif.Model Require Import KernelSqExp KernelMatern KernelRatQuad KernelDispatch CommonFun WellCond Rescaling GpState Chol Cov HpInfo HpGrad.
From Verif.Proofs Require Import KernTac KernelExact ThetaGrad ThetaGradBase ThetaGradMask AlphaGrad LinAlg CholCorrect Psd CovStruct StateFacts RowSum
  NoiseFacts CondBound NuggetCond NuggetMain Precon HpInfoFacts.
Import ListNotations.
Local Open Scope R_scope.

Lemma tset_idx_seq_ok D N T f a n S g : tspec D N N T f -> tspec n N N S g -> (a + n <= D)%nat ->
  rok (tset_idx T (seq a n) S) (fun T' => tspec D N N T' (fun k i j => if ((a <=? k) && (k <? a + n))%nat then g (k - a)%nat i j else f k i j)).
Proof.
  intros HT HS Ha. unfold tset_idx. rewrite seq_length. destruct HS as (S1 & S2). rewrite S1, Nat.eqb_refl. rewrite bind_Ok.
  assert (HS : tspec n N N S g) by (split; auto).
  eapply rok_mono.
  - apply (rok_for_range (fun m T' => tspec D N N T' (fun k i j => if ((a <=? k) && (k <? a + m))%nat then g (k - a)%nat i j else f k i j))).
    + lia.
    + destruct HT as (T1 & T2 & T3 & T4). repeat (split; [assumption|]). intros k i j Hk Hi Hj. rewrite T4 by auto.
      destruct (Nat.leb_spec a k), (Nat.ltb_spec k (a + 0)); simpl; try lia; reflexivity.
    + intros m T' Hm H'. eapply rok_bind; [eapply tget_ok; [exact HS|lia]|]. intros A HA. cbv beta in HA.
      rewrite seq_nth by lia. eapply rok_mono; [eapply tput_ok; [exact H'|lia|exact HA]|].
      intros T2 (X1 & X2 & X3 & X4). split; [exact X1|split; [exact X2|split; [exact X3|]]]. intros k i j Hk Hi Hj. rewrite X4 by auto.
      destruct (Nat.eqb_spec k (a + m)) as [->|].
      * destruct (Nat.leb_spec a (a + m)), (Nat.ltb_spec (a + m) (a + Datatypes.S m)); simpl; try lia. f_equal. lia.
      * destruct (Nat.leb_spec a k), (Nat.ltb_spec k (a + m)), (Nat.ltb_spec k (a + Datatypes.S m)); simpl; try lia; reflexivity.
  - intros T' H'. exact H'.
Qed.

Lemma wmtd_precon (w : wmtd) : {w = Wprecon} + {w <> Wprecon}.
Proof. destruct w; (left; reflexivity) || (right; discriminate). Qed.
(** ** the covariance as an explicit function of the hyperparameters (constant nugget) *)
Definition kcovE (o : gpopt) (d : gpdata) (hp : hpv) (e vK : R) (i j : nat) : R :=
  let X := fst (get_scl_x_w_dist d) in
  vK * ckf o d hp X i j + dl i j (noise_fn d hp None i)
  + dl i j (match o_well o with Wprecon => e * (vK * ckf o d hp X i i + noise_fn d hp None i) | _ => vK * e end).

Section G.
Variables (o : gpopt) (d : gpdata) (condf : mat -> R) (cc cnd : bool).
Hypothesis HR : gp_ready o d.
Hypothesis HE : o_eta_const o = true.
Hypothesis HP : o_well o = Wprecon -> o_use_grad o = true.
Notation N := (cN o d).
Notation X := (fst (get_scl_x_w_dist d)).

Lemma kcov_call hp varK bn vK e : hyper_ok o hp -> noise_arg_ok o d hp None -> eff_varK hp varK bn = Some vK -> 0 < vK -> d_etaK d = Some e ->
  rok (calc_all_K_w_chofac o d condf (d_Rt d) hp None cc cnd varK bn) (fun out =>
    mspec N N (k_Kern out) (ckf o d hp X) /\ mspec N N (k_Kcov out) (kcovE o d hp e vK) /\ pd (k_Kcov out) /\ k_eta out = e /\
    (forall c, k_chofac out = Some c -> chol_of c (k_Kcov out)) /\
    (cc = true -> (o_well o <> Wprecon -> cnd = true -> condf (k_Kcov out) <= o_cond_max_abs o) -> exists c, k_chofac out = Some c /\ chol_of c (k_Kcov out)) /\
    (k_cond out = None <-> cnd = false)).
Proof.
  intros Hh Hn Hv Hp He. destruct (wmtd_precon (o_well o)) as [W|W].
  - eapply rok_mono; [exact (call_precon o d condf hp None cc cnd varK bn vK HR Hh Hn Hv Hp W (HP W))|].
    intros out (e' & Kc & Kp & H1 & H2 & H3 & H4 & H5 & H6 & H7 & H8 & H9 & H10 & H11 & H12 & H13 & H14).
    unfold eta_is in H1. rewrite HE, He in H1. injection H1 as <-.
    split; [exact H4|]. split; [|split; [exact H12|split; [exact H3|split; [exact H14|split; [intros; auto|rewrite H10; destruct cnd; split; congruence]]]]].
    eapply mspec_ext; [exact H9|]. intros i j Hi Hj. cbv beta. unfold kcovE. rewrite W. unfold kn, dl. rewrite Nat.eqb_refl.
    destruct (i =? j)%nat; field; lra.
  - eapply rok_mono; [exact (call_plain o d condf hp None cc cnd varK bn vK HR Hh Hn Hv Hp W)|].
    intros out (e' & H1 & H2 & H3 & H4 & H5 & H6 & H7 & H8 & H9 & H10 & H11).
    unfold eta_is in H1. rewrite HE, He in H1. injection H1 as <-.
    split; [exact H4|]. split; [|split; [exact H9|split; [exact H3|split; [exact H11|split; [intros; auto|rewrite H8; destruct cnd; split; congruence]]]]].
    eapply mspec_ext; [exact H7|]. intros i j Hi Hj. cbv beta. unfold kcovE.
    assert (Z : (match o_well o with Wprecon => e * (vK * ckf o d hp X i i + noise_fn d hp None i) | _ => vK * e end) = vK * e)
      by (destruct (o_well o); congruence).
    rewrite Z. unfold kn, dl. destruct (i =? j)%nat; field; lra.
Qed.
End G.

(** ** derivatives of the kernel entries, from the is_mat_derive statements *)
Section KD.
Variables (o : gpopt) (d : gpdata) (hp : hpv).
Hypothesis HR : gp_ready o d.
Hypothesis Hh : hyper_ok o hp.
Notation N := (cN o d).
Notation X := (fst (get_scl_x_w_dist d)).

Lemma hyper_put_theta e t : 0 < t -> hyper_ok o (hp_put hp (HTheta e) t).
Proof.
  destruct Hh as (L & P & K). intros Ht. split; [exact L|]. split; [|exact K]. intros i Hi. cbn [hp_put hp_theta vset vat]. unfold upd.
  destruct (i =? e)%nat; auto.
Qed.
Lemma hyper_put_kernel t : 0 < t -> hyper_ok o (hp_put hp HKernel t).
Proof.
  destruct Hh as (L & P & K). intros Ht. split; [exact L|]. split; [exact P|]. cbn [hp_put hp_kernel]. unfold hp_ok. destruct (o_kernel o); auto. eauto.
Qed.
Lemma near_pos v t : 0 < v -> Rabs (t - v) < v -> 0 < t.
Proof. intros H1 H2. apply Rabs_def2 in H2. lra. Qed.

Lemma kern_entry_derive (s : hslot) v n m D :
  0 < v -> (forall t, 0 < t -> hyper_ok o (hp_put hp s t)) ->
  is_mat_derive (fun t => calc_Kern (o_use_grad o) (o_kernel o) (d_Rt d) (hp_theta (hp_put hp s t)) (hp_kernel (hp_put hp s t)) (d_bvec d) (d_bvec d)) v n m D ->
  n = N /\ m = N /\ forall i j, (i < N)%nat -> (j < N)%nat -> is_derive (fun t => ckf o d (hp_put hp s t) X i j) v (D i j).
Proof.
  intros Hv Hok (del & Kt & Hdel & H1 & H2).
  assert (A : forall t, Rabs (t - v) < Rmin del v -> nr (Kt t) = n /\ nc (Kt t) = m /\ mspec N N (Kt t) (ckf o d (hp_put hp s t) X)).
  { intros t Ht. destruct (H1 t) as (E1 & E2 & E3); [eapply Rlt_le_trans; [exact Ht|apply Rmin_l]|].
    destruct (kern_ok o d (hp_put hp s t) X (gr_pts _ _ HR)) as (K & E4 & E5).
    - apply Hok. apply (near_pos v); [exact Hv|]. eapply Rlt_le_trans; [exact Ht|apply Rmin_r].
    - rewrite E1 in E4. injection E4 as <-. auto. }
  assert (M : 0 < Rmin del v) by (apply Rmin_pos; auto).
  destruct (A v) as (A1 & A2 & A3 & A4 & _); [rewrite Rminus_eq_0, Rabs_R0; exact M|].
  split; [congruence|]. split; [congruence|]. intros i j Hi Hj.
  eapply (dR_ext_near _ _ _ _ (Rmin del v)); [exact M| |apply H2; congruence].
  intros t Ht. destruct (A t Ht) as (_ & _ & _ & _ & Z). apply Z; auto.
Qed.

Lemma kern_grad_theta_ok : theta_grad_supported o d hp ->
  rok (calc_Kern_grad_theta (o_use_grad o) (o_kernel o) (d_Rt d) (hp_theta hp) (hp_kernel hp) (d_bvec d)) (fun S =>
    tspec (o_dim o) N N S (tat S) /\ forall e i j, (e < o_dim o)%nat -> (i < N)%nat -> (j < N)%nat ->
      is_derive (fun t => ckf o d (hp_put hp (HTheta e) t) X i j) (vat (hp_theta hp) e) (tat S e i j)).
Proof.
  intros HS. destruct (gr_pts _ _ HR) as [W1 W2 W3 W4 W5]. assert (Hh' := Hh). destruct Hh' as (L & P & K).
  assert (P' : forall i, (i < nc X)%nat -> 0 < vat (hp_theta hp) i) by (rewrite W3; exact P).
  assert (G : exists S, calc_Kern_grad_theta (o_use_grad o) (o_kernel o) (d_Rt d) (hp_theta hp) (hp_kernel hp) (d_bvec d) = Ok S /\
     is_theta_gradient (fun th => calc_Kern (o_use_grad o) (o_kernel o) (d_Rt d) th (hp_kernel hp) (d_bvec d) (d_bvec d)) (hp_theta hp) S).
  { unfold calc_Kern_grad_theta, calc_Kern. unfold theta_grad_supported in HS. destruct (o_use_grad o).
    - apply (KernGrad_theta_gradient (o_kernel o) X); auto; try congruence.
      + destruct HS as (HS & _). unfold th_mask_ok. destruct (o_kernel o); try (destruct HS as [->| ->]; [discriminate|exact I|rewrite W2; reflexivity]). rewrite W2; exact W4.
      + destruct HS as (_ & HS). unfold nu_ok. rewrite W2, W3. intros E p q Hp Hq. exact (HS E p q Hp Hq).
    - apply (KernBase_theta_gradient (o_kernel o) X); auto; congruence. }
  destruct G as (S & ES & S1 & S2). rewrite ES. cbn [rok].
  assert (A : forall e, (e < o_dim o)%nat -> tr S = N /\ tc S = N /\ forall i j, (i < N)%nat -> (j < N)%nat ->
     is_derive (fun t => ckf o d (hp_put hp (HTheta e) t) X i j) (vat (hp_theta hp) e) (tat S e i j)).
  { intros e He. apply (kern_entry_derive (HTheta e)); [apply P, He | intros; apply hyper_put_theta; auto | apply S2; congruence]. }
  destruct (A 0%nat (gr_d _ _ HR)) as (A1 & A2 & _).
  split; [split; [congruence|split; [auto|split; auto]]|]. intros e i j He Hi Hj. destruct (A e He) as (_ & _ & B). auto.
Qed.
Lemma kern_grad_alpha_ok a : o_kernel o = RatQu -> hp_kernel hp = Some a ->
  rok (calc_Kern_grad_alpha (o_use_grad o) (o_kernel o) (d_Rt d) (hp_theta hp) (hp_kernel hp) (d_bvec d)) (fun S =>
    tspec 1 N N S (tat S) /\ forall i j, (i < N)%nat -> (j < N)%nat ->
      is_derive (fun t => ckf o d (hp_put hp HKernel t) X i j) a (tat S 0 i j)).
Proof.
  intros EK Ea. destruct (gr_pts _ _ HR) as [W1 W2 W3 W4 W5]. assert (Hh' := Hh). destruct Hh' as (L & P & K).
  rewrite EK in K. destruct K as (a' & E & Ha). rewrite Ea in E. injection E as <-.
  assert (P' : forall i, (i < nc X)%nat -> 0 <= vat (hp_theta hp) i) by (rewrite W3; intros; left; auto).
  assert (G : exists S, calc_Kern_grad_alpha (o_use_grad o) RatQu (d_Rt d) (hp_theta hp) (Some a) (d_bvec d) = Ok S /\ td S = 1%nat /\
     is_mat_derive (fun t => calc_Kern (o_use_grad o) RatQu (d_Rt d) (hp_theta hp) (Some t) (d_bvec d) (d_bvec d)) a (tr S) (tc S) (tat S 0)).
  { unfold calc_Kern_grad_alpha, calc_Kern. destruct (o_use_grad o).
    - apply (KernGrad_alpha_gradient X); auto; congruence.
    - apply (KernBase_alpha_gradient X); auto; congruence. }
  destruct G as (S & ES & S1 & S2). rewrite EK, Ea, ES. cbn [rok].
  destruct (kern_entry_derive HKernel a (tr S) (tc S) (tat S 0)) as (A1 & A2 & A3); auto.
  { intros; apply hyper_put_kernel; auto. }
  { rewrite EK. exact S2. }
  split; [split; [auto|split; [auto|split; auto]]|]. exact A3.
Qed.

(** diagonal of the kernel matrix: only theta enters, through gamma^2 *)
Lemma noise_theta e t i : noise_fn d (hp_put hp (HTheta e) t) None i = noise_fn d hp None i.
Proof. reflexivity. Qed.
End KD.
