(** * Property C15: the preconditioner, its inverse, its derivative, and the theta/gamma conversions.
    Vocabulary: [Spec/KernelSpec.v] ([gamma2], [is_theta_gradient], [is_mat_derive]). *)
From Coq Require Import Reals List Arith Bool Lia Lra.
From Coquelicot Require Import Coquelicot.
From Verif.Base Require Import NpLite NpFacts Deriv.
From Verif.Spec Require Import KernelSpec.
From Verif.Model Require Import KernelSqExp KernelMatern KernelRatQuad KernelDispatch.
From Verif.Proofs Require Import KernTac KernGradBlocks KernelExact Precon.
Import ListNotations.
Local Open Scope R_scope.

Definition is_identity (A : mat) (n : nat) : Prop :=
  nr A = n /\ nc A = n /\ forall r c, (r < n)%nat -> (c < n)%nat -> mat_at A r c = if (r =? c)%nat then 1 else 0.
(** the first component of the result of a call *)
Definition first_of {A B C} (m : res (A * B * C)) : res A := match m with Ok (a, _, _) => Ok a | Err e => Err e end.

(** Kern_precon (matrix form): for positive theta the call succeeds; the first result is the diagonal
    matrix with 1 on the function rows and gamma_i = sqrt(gamma_i^2) on the rows of the i-th partial
    derivatives, the second is its inverse, the third its exact theta-derivative. *)
Theorem C15_preconditioner : forall (k : kernel) (n g : nat) (theta : vec),
  (forall i, (i < vlen theta)%nat -> 0 < vat theta i) ->
  exists P Pi T I1 I2, calc_Kern_precon k n g theta = Ok (P, Pi, T) /\
    let N := (n + g * vlen theta)%nat in
    nr P = N /\ nc P = N /\
    (forall r c, (r < N)%nat -> (c < N)%nat -> r <> c -> mat_at P r c = 0) /\
    (forall r, (r < n)%nat -> mat_at P r r = 1) /\
    (forall i p, (i < vlen theta)%nat -> (p < g)%nat ->
       mat_at P (n + i * g + p) (n + i * g + p) = sqrt (gamma2 k (vat theta i))) /\
    mdot P Pi = Ok I1 /\ is_identity I1 N /\ mdot Pi P = Ok I2 /\ is_identity I2 N /\
    is_theta_gradient (fun th => first_of (calc_Kern_precon k n g th)) theta T.
Proof.
  intros k n g theta Hth. rewrite precon_unfold.
  destruct (rok_ex _ _ (grad_precon_ok k n g theta)) as (T & ET & HT). rewrite ET. cbn [bind].
  set (N := (n + g * vlen theta)%nat) in *. set (pv := pvec k n g theta).
  assert (LP : vlen pv = N) by apply pvec_len.
  assert (PV : forall r, (r < N)%nat -> 0 < vat pv r).
  { intros r Hr. destruct (unradr_ok n g (vlen theta) r Hr) as (V & E). unfold pv. rewrite <- E, pvec_at by exact V.
    eapply pent_pos; eassumption. }
  assert (HP : mspec N N (mdiag pv) (fun i j => if (i =? j)%nat then vat pv i else 0)) by (rewrite <- LP; apply mdiag_spec, vspec_refl).
  assert (HPi : mspec N N (mdiag (vmap (fun x => / x) pv)) (fun i j => if (i =? j)%nat then / vat pv i else 0)).
  { apply mdiag_spec. split; [exact LP|reflexivity]. }
  destruct (rok_ex _ _ (mdot_ok N N N _ _ _ _ HP HPi)) as (I1 & E1 & H1a & H1b & H1c).
  destruct (rok_ex _ _ (mdot_ok N N N _ _ _ _ HPi HP)) as (I2 & E2 & H2a & H2b & H2c).
  exists (mdiag pv), (mdiag (vmap (fun x => / x) pv)), T, I1, I2. split; [reflexivity|]. cbv zeta.
  destruct HP as (P1 & P2 & P3). fold N.
  split; [exact P1|]. split; [exact P2|].
  split. { intros r c Hr Hc Hn. rewrite P3 by assumption. destruct (Nat.eqb_spec r c); [contradiction|reflexivity]. }
  split. { intros r Hr. rewrite P3 by (unfold N; lia). rewrite Nat.eqb_refl. exact (pvec_at k n g theta (F r) Hr). }
  split.
  { intros i p Hi Hp. assert (n + i * g + p < N)%nat by (apply (radr_lt n g (vlen theta) (G i p)); simpl; auto).
    rewrite P3 by assumption. rewrite Nat.eqb_refl. exact (pvec_at k n g theta (G i p) (conj Hi Hp)). }
  split; [exact E1|]. split.
  { split; [exact H1a|]. split; [exact H1b|]. intros r c Hr Hc. rewrite H1c by assumption. cbv beta.
    rewrite (rsum_single N r); [|exact Hr|intros i Hi Hn; destruct (Nat.eqb_spec r i); [congruence|ring]].
    rewrite Nat.eqb_refl. destruct (r =? c)%nat; [|ring]. assert (Z := PV r Hr). field. lra. }
  split; [exact E2|]. split.
  { split; [exact H2a|]. split; [exact H2b|]. intros r c Hr Hc. rewrite H2c by assumption. cbv beta.
    rewrite (rsum_single N r); [|exact Hr|intros i Hi Hn; destruct (Nat.eqb_spec r i); [congruence|ring]].
    rewrite Nat.eqb_refl. destruct (r =? c)%nat; [|ring]. assert (Z := PV r Hr). field. lra. }
  destruct HT as (T1 & T2 & T3 & T4). split; [exact T1|]. intros e He. rewrite T2, T3.
  exists 1, (fun t => mdiag (pvec k n g (vset theta e t))). split; [lra|]. split.
  { intros t _. rewrite precon_unfold. destruct (rok_ex _ _ (grad_precon_ok k n g (vset theta e t))) as (T' & ET' & _). rewrite ET'.
    cbn [bind first_of]. split; [reflexivity|]. cbn [mdiag nr nc]. rewrite pvec_len. cbn [vset vlen]. split; reflexivity. }
  intros r c Hr Hc. rewrite T4 by assumption. unfold mdiag. cbn [mat_at].
  destruct (Nat.eqb_spec r c) as [->|]; [|apply dR_const].
  destruct (unradr_ok n g (vlen theta) c Hc) as (V & E).
  eapply dR_ext; [|exact (pent_derive k (vat theta) (vlen theta) e n g (unradr n g c) Hth He V)].
  intros t. cbv beta. assert (Z := pvec_at k n g (vset theta e t) (unradr n g c) V). rewrite E in Z. rewrite Z. reflexivity.
Qed.
Print Assumptions C15_preconditioner.

(** vector form (b_return_vec): the diagonals of the matrix form, the derivative one column per theta *)
Theorem C15_preconditioner_vector_form : forall (k : kernel) (n g : nat) (theta : vec) P Pi T,
  calc_Kern_precon k n g theta = Ok (P, Pi, T) ->
  exists pv pvi D, calc_Kern_precon_vec k n g theta = Ok (pv, pvi, D) /\
    vlen pv = nr P /\ vlen pvi = nr Pi /\ nr D = nr P /\ nc D = vlen theta /\
    (forall r, (r < nr P)%nat -> vat pv r = mat_at P r r) /\
    (forall r, (r < nr Pi)%nat -> vat pvi r = mat_at Pi r r) /\
    (forall e r, (e < vlen theta)%nat -> (r < nr P)%nat -> mat_at D r e = tat T e r r).
Proof.
  intros k n g theta P Pi T H. rewrite precon_unfold in H.
  destruct (rok_ex _ _ (grad_precon_ok k n g theta)) as (T' & ET & HT). rewrite ET in H. cbn [bind] in H. injection H as <- <- <-.
  destruct (rok_ex _ _ (grad_precon_vec_ok k n g theta)) as (D & ED & D1 & D2 & D3).
  rewrite precon_vec_unfold, ED. cbn [bind]. do 3 eexists. split; [reflexivity|].
  cbn [mdiag nr vmap vlen]. rewrite pvec_len. do 2 (split; [reflexivity|]). split; [exact D1|]. split; [exact D2|].
  destruct HT as (T1 & T2 & T3 & T4).
  repeat split; intros; unfold mdiag; cbn [mat_at]; rewrite ?Nat.eqb_refl; try reflexivity.
  rewrite D3, T4 by assumption. rewrite Nat.eqb_refl. reflexivity.
Qed.
Print Assumptions C15_preconditioner_vector_form.

(** the preconditioner is the square root of the diagonal of the gradient-enhanced kernel matrix of
    any point set, whatever the mask *)
Theorem C15_preconditioner_is_root_of_diagonal : forall (k : kernel) (X : mat) (theta : vec) (hp : option R) b Rt K P Pi T,
  vlen theta = nc X -> (forall i, (i < nc X)%nat -> 0 < vat theta i) -> hp_ok k hp -> mask_ok (nr X) b ->
  calc_Rtensor X X = Ok Rt -> calc_KernGrad k Rt theta hp b b = Ok K ->
  calc_Kern_precon k (nr X) (length (grad_points (nr X) b)) theta = Ok (P, Pi, T) ->
  nr P = nr K /\ forall r, (r < nr K)%nat -> mat_at P r r * mat_at P r r = mat_at K r r.
Proof.
  intros k X theta hp b Rt K P Pi T L Hth Hhp Hb ER EK EP.
  assert (Hnn : forall i, (i < nc X)%nat -> 0 <= vat theta i) by (intros i Hi; left; apply Hth, Hi).
  destruct (KernGrad_sym k X theta hp b Rt K L (th_ok_nn k _ _ Hnn) Hhp Hb ER EK) as (_ & K1 & K2).
  destruct (KernGrad_exact k X X theta hp b b eq_refl L (th_ok_nn k _ _ Hnn) Hhp Hb Hb) as (Rt' & K' & E1 & E2 & (SH & _)); [destruct k; simpl; auto|].
  rewrite ER in E1. injection E1 as <-. rewrite EK in E2. injection E2 as <-.
  rewrite precon_unfold in EP. destruct (rok_ex _ _ (grad_precon_ok k (nr X) (length (grad_points (nr X) b)) theta)) as (T' & ET & _).
  rewrite ET in EP. cbn [bind] in EP. injection EP as <- <- <-.
  set (g := length (grad_points (nr X) b)) in *.
  assert (LO : length (observations (nr X) (nc X) (rows_of X) b) = (nr X + g * nc X)%nat).
  { unfold observations. rewrite app_length, map_length, seq_length. f_equal. unfold g.
    assert (Z : forall l, length (flat_map (fun i : nat => map (fun p : nat => Der i (rows_of X p)) (grad_points (nr X) b)) l) = (length (grad_points (nr X) b) * length l)%nat).
    { induction l as [|a l IH]; simpl; [lia|]. rewrite app_length, map_length, IH. lia. }
    rewrite Z, seq_length. reflexivity. }
  cbn [mdiag nr]. rewrite pvec_len, SH, LO, L. split; [reflexivity|]. intros r Hr. unfold mdiag. cbn [mat_at]. rewrite Nat.eqb_refl.
  destruct (unradr_ok (nr X) g (nc X) r Hr) as (V & E). rewrite <- E. rewrite pvec_at by (rewrite L; exact V).
  destruct (unradr (nr X) g r) as [p|i p]; simpl in *.
  - rewrite K1 by exact V. ring.
  - destruct V as (V1 & V2). rewrite (K2 i p V1 V2). unfold gam. apply sqrt_sqrt. left. apply gamma2_pos, Hth, V1.
Qed.
Print Assumptions C15_preconditioner_is_root_of_diagonal.

(** theta2gamma and gamma2theta are mutually inverse, and gamma is the prior standard deviation *)
Theorem C15_theta_gamma_roundtrip : forall (k : kernel) (v : vec),
  (forall i, (i < vlen v)%nat -> 0 <= vat v i) ->
  vlen (theta2gamma k v) = vlen v /\ vlen (gamma2theta k v) = vlen v /\
  (forall i, (i < vlen v)%nat -> vat (theta2gamma k v) i = sqrt (gamma2 k (vat v i)) /\
     vat (gamma2theta k (theta2gamma k v)) i = vat v i /\ vat (theta2gamma k (gamma2theta k v)) i = vat v i).
Proof.
  intros k v Hv. split; [apply gamma_len|]. split; [destruct k; reflexivity|]. intros i Hi. specialize (Hv i Hi).
  split; [apply gamma_at|].
  assert (S1 : sqrt (2 * vat v i) ^ 2 = 2 * vat v i) by (simpl; rewrite Rmult_1_r; apply sqrt_sqrt; lra).
  assert (S2 : sqrt (5 / 3 * vat v i) ^ 2 = 5 / 3 * vat v i) by (simpl; rewrite Rmult_1_r; apply sqrt_sqrt; lra).
  assert (S3 : sqrt (vat v i ^ 2) = vat v i) by (apply sqrt_pow2; exact Hv).
  destruct k; unfold theta2gamma, gamma2theta, sq_exp_theta2gamma, sq_exp_gamma2theta, matern_theta2gamma, matern_gamma2theta,
    rat_theta2gamma, rat_gamma2theta; cbn [vmap vat vlen]; rewrite ?S1, ?S2.
  - split; [lra|]. replace (2 * (0.5 * vat v i ^ 2)) with (vat v i ^ 2) by lra. exact S3.
  - split; [lra|]. replace (5 / 3 * (3 / 5 * vat v i ^ 2)) with (vat v i ^ 2) by lra. exact S3.
  - split; [lra|]. replace (2 * (0.5 * vat v i ^ 2)) with (vat v i ^ 2) by lra. exact S3.
Qed.
Print Assumptions C15_theta_gamma_roundtrip.

Example C15_hypotheses_met :
  let theta := mkvec 2 (fun i => 1 / 2 + INR i) in
  (forall i, (i < vlen theta)%nat -> 0 < vat theta i) /\
  exists P Pi T, calc_Kern_precon Ma5f2 3 2 theta = Ok (P, Pi, T) /\ nr P = 7%nat.
Proof.
  assert (Z : forall i, (i < 2)%nat -> 0 < 1 / 2 + INR i) by (intros i _; assert (0 <= INR i) by apply pos_INR; lra).
  split; [exact Z|]. destruct (C15_preconditioner Ma5f2 3 2 (mkvec 2 (fun i => 1 / 2 + INR i)) Z) as (P & Pi & T & _ & _ & E & S & _).
  eauto.
Qed.
