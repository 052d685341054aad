(** The nugget rules against the matrices they regularise. *)
From Coq Require Import Reals List Arith Bool Lia Lra Psatz.
From Coquelicot Require Import Coquelicot.
From Verif.Base Require Import NpLite NpFacts.
From Verif.Spec Require Import KernelSpec LinAlgSpec.
From Verif.Model Require Import KernelSqExp KernelMatern KernelRatQuad KernelDispatch CommonFun WellCond Rescaling GpState Chol Cov.
From Verif.Spec Require Import GpSpec.
From Verif.Proofs Require Import KernTac KernGradBlocks RadialCalculus RadialFns KernelExact LinAlg CholCorrect Jets Mixture Psd CovStruct StateFacts RowSum JetGersh PreconBound NoiseFacts CondBound.
Import ListNotations.
Local Open Scope R_scope.


Definition cobs (d : gpdata) (X : mat) : nat -> obs := rowobs (d_n_eval d) (d_n_grad d) (rows_of X) (osel (d_bvec d)).
Definition ckf (o : gpopt) (d : gpdata) (hp : hpv) (X : mat) (r s : nat) : R :=
  kjet (o_kernel o) (hp_val (hp_kernel hp)) (o_dim o) (cut (o_dim o) (vat (hp_theta hp))) (cobs d X r) (cobs d X s).
Definition cN (o : gpopt) (d : gpdata) : nat := (d_n_eval d + d_n_grad d * o_dim o)%nat.

(** the points, mask and counts fit together *)
Record wf_pts (o : gpopt) (d : gpdata) (X : mat) : Prop := mkwp {
  wp_Rt : calc_Rtensor X X = Ok (d_Rt d); wp_nr : nr X = d_n_eval d; wp_nc : nc X = o_dim o;
  wp_mask : if o_use_grad o then mask_ok (d_n_eval d) (d_bvec d) else d_bvec d = None;
  wp_g : d_n_grad d = if o_use_grad o then opt_count (d_n_eval d) (d_bvec d) else 0%nat }.
Lemma set_data_wp o x fval sf G sg b d : nc x = o_dim o -> nr x = vlen fval -> data_after o x fval sf G sg b d ->
  wf_pts o d (fst (get_scl_x_w_dist d)).
Proof.
  intros Hx Hn H. destruct (data_after_inv _ _ _ _ _ _ _ _ H) as (I1 & I2 & I3 & I4 & I5 & _ & I6 & I7 & I8 & (Xs & X1 & X2 & X3 & X4 & _) & _).
  rewrite X4 in *. constructor; try rewrite I1, ?I3; auto; congruence.
Qed.

Lemma kern_ok o d hp X : wf_pts o d X -> hyper_ok o hp ->
  exists K, calc_Kern (o_use_grad o) (o_kernel o) (d_Rt d) (hp_theta hp) (hp_kernel hp) (d_bvec d) (d_bvec d) = Ok K /\
    mspec (cN o d) (cN o d) K (ckf o d hp X).
Proof.
  intros [W1 W2 W3 W4 W5] (L & P & HP). unfold calc_Kern, cN, ckf, cobs. rewrite <- W2, <- W3, W5 in *.
  assert (Nn : forall i, (i < nc X)%nat -> 0 <= vat (hp_theta hp) i) by (intros; left; auto).
  destruct (o_use_grad o).
  - destruct (KernGrad_exact (o_kernel o) X X (hp_theta hp) (hp_kernel hp) (d_bvec d) (d_bvec d) eq_refl L (th_ok_nn _ _ _ Nn) HP W4 W4 (masks_ok_same _ _))
      as (Rt & K & E1 & E2 & _).
    rewrite W1 in E1. injection E1 as <-. exists K. split; [exact E2|]. rewrite W2.
    assert (Z := KernGrad_kjet (o_kernel o) X (hp_theta hp) (hp_kernel hp) (d_bvec d) _ K L (th_ok_nn _ _ _ Nn) HP W4 W1 E2).
    cbv zeta in Z. rewrite W2 in Z. exact Z.
  - destruct (KernBase_exact (o_kernel o) X X (hp_theta hp) (hp_kernel hp) eq_refl L HP) as (Rt & K & E1 & E2 & _).
    rewrite W1 in E1. injection E1 as <-. exists K. split; [exact E2|]. simpl. rewrite Nat.add_0_r.
    eapply mspec_ext; [exact (KernBase_kjet (o_kernel o) X (hp_theta hp) (hp_kernel hp) _ K L HP W1 E2)|].
    intros r s Hr Hs. cbv beta. unfold rowobs, unradr.
    destruct (Nat.ltb_spec r (nr X)); [|lia]. destruct (Nat.ltb_spec s (nr X)); [|lia]. reflexivity.
Qed.

(** the covariance of an observation with itself *)
Lemma phi0_0 k a : phi0 k a 0 = 1.
Proof.
  destruct k; unfold phi0.
  - unfold se0. rewrite Ropp_0, exp_0. reflexivity.
  - unfold ma0, matern_base_entry. rewrite sqrt_0, !Rmult_0_r, exp_0. ring.
  - unfold rq0, rat_pow, rat_B. replace (1 + 0 / a) with 1 by (unfold Rdiv; ring). unfold Rpower. rewrite ln_1, Rmult_0_r, exp_0. reflexivity.
Qed.
Lemma phi1_0 k a : phi1 k a 0 = - match k with Ma5f2 => 5 / 6 | _ => 1 end.
Proof.
  destruct k; unfold phi1.
  - unfold se1. rewrite Ropp_0, exp_0. reflexivity.
  - unfold ma1, matern_mat1_entry. rewrite sqrt_0, !Rmult_0_r, exp_0. field.
  - unfold rq1, rat_pow, rat_B. replace (1 + 0 / a) with 1 by (unfold Rdiv; ring). unfold Rpower. rewrite ln_1, Rmult_0_r, exp_0. reflexivity.
Qed.
Lemma sqd_same d th x : sqd d th x x = 0.
Proof. apply rsum_0. intros. ring. Qed.
Lemma kjet_diag k a d th ob : kjet k a d th ob ob = match ob with Val _ => 1 | Der i _ => gamma2 k (th i) end.
Proof.
  unfold kjet, rjet. destruct ob as [x|i x]; rewrite sqd_same.
  - apply phi0_0.
  - rewrite Nat.eqb_refl, phi1_0. destruct k; unfold gamma2; field.
Qed.
Lemma kjet_sym k a d th x y : kjet k a d th x y = kjet k a d th y x.
Proof. apply rjet_sym. Qed.

Section Rules.
Variables (o : gpopt) (d : gpdata) (hp : hpv) (X : mat).
Hypothesis Hw : wf_pts o d X.
Hypothesis Hh : hyper_ok o hp.
Notation kf := (ckf o d hp X).
Notation N := (cN o d).

Lemma ckf_sym r s : kf r s = kf s r.
Proof. apply kjet_sym. Qed.
Lemma ckf_psd v : 0 <= bform N kf v v.
Proof. apply (kjet_psd (o_kernel o) (hp_kernel hp)); [apply Hh|]. intros i Hi. left. apply Hh, Hi. Qed.
Lemma ckf_diag r : (r < N)%nat -> kf r r = match unradr (d_n_eval d) (d_n_grad d) r with F _ => 1 | G i _ => gamma2 (o_kernel o) (vat (hp_theta hp) i) end.
Proof.
  intros Hr. unfold ckf. rewrite kjet_diag. unfold cobs, rowobs. destruct (unradr_ok _ _ _ _ Hr) as (V & _).
  destruct (unradr _ _ r) as [p|i p]; simpl; [reflexivity|]. rewrite cut_lt by apply V. reflexivity.
Qed.
Lemma ckf_pos r : (r < N)%nat -> 0 < kf r r.
Proof.
  intros Hr. rewrite ckf_diag by exact Hr. destruct (unradr_ok _ _ _ _ Hr) as (V & _).
  destruct (unradr _ _ r) as [p|i p]; simpl; [lra|]. destruct V as (V1 & V2). assert (P := proj1 (proj2 Hh) i V1).
  unfold gamma2. destruct (o_kernel o); lra.
Qed.
Lemma ckf_upper v : o_use_grad o = true -> (0 < o_dim o)%nat -> (0 < d_n_eval d)%nat ->
  bform N kf v v <= (1 + INR (d_n_eval d - 1) * ubM (o_kernel o) (o_dim o)) * rsum N (fun r => kf r r * v r ^ 2).
Proof.
  intros Hu Hd Hn. destruct Hw as [W1 W2 W3 W4 W5]. destruct Hh as (L & P & HP). rewrite Hu in *.
  assert (Z := kjet_upper (o_kernel o) (hp_kernel hp) (o_dim o) (vat (hp_theta hp)) (d_n_eval d) (rows_of X) (d_bvec d) v HP P Hd W4 Hn).
  cbv zeta in Z. rewrite <- W5 in Z. exact Z.
Qed.
Lemma ckf_base_le1 i j : o_use_grad o = false -> (i < N)%nat -> (j < N)%nat -> Rabs (kf i j) <= 1.
Proof.
  intros Hu Hi Hj.
  assert (D1 : forall r, (r < N)%nat -> kf r r = 1).
  { intros r Hr. rewrite ckf_diag by exact Hr. unfold unradr. assert (E := wp_g _ _ _ Hw). rewrite Hu in E. unfold cN in Hr. rewrite E in Hr |- *.
    destruct (Nat.ltb_spec r (d_n_eval d)); [reflexivity|lia]. }
  set (u := fun a k : nat => if (k =? a)%nat then 1 else 0).
  assert (B : forall a b, (a < N)%nat -> (b < N)%nat -> bform N kf (u a) (u b) = kf a b) by (intros; apply bform_unit; auto).
  assert (E : forall t, bform N kf (fun k => u i k + t * u j k) (fun k => u i k + t * u j k) = kf i i + 2 * t * kf i j + t * t * kf j j).
  { intros t. rewrite bform_plus_l, !bform_plus_r, !bform_scal_l, !bform_scal_r, !B by auto. rewrite (ckf_sym j i). ring. }
  assert (Z1 := ckf_psd (fun k => u i k + 1 * u j k)). assert (Z2 := ckf_psd (fun k => u i k + (-1) * u j k)).
  rewrite E, !D1 in Z1, Z2 by auto. apply Rabs_le. lra.
Qed.
End Rules.

Lemma precon_ub_eq k n dm : (0 < n)%nat -> precon_ub k n dm = INR (n - 1) * ubM k dm.
Proof.
  intros Hn. unfold precon_ub, ubM. rewrite minus_INR by lia. change (INR 1) with 1.
  destruct k; unfold seM, maM, ma_alpha; try (set (e := exp _); field; fail).
  cbv zeta. set (e := exp _). ring.
Qed.
