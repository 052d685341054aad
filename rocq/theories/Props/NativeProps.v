(** * Property C77: the standard deviation bounds the error for functions made of the kernel.  Vocabulary: [Spec/NativeSpec.v]. *)
From Coq Require Import Reals List Arith Bool Lia Lra Psatz.
From Coquelicot Require Import Coquelicot.
From Verif.Base Require Import NpLite NpFacts Deriv.
From Verif.Spec Require Import KernelSpec LinAlgSpec GpSpec HpSpec DataSpec LkdSpec RescaleSpec EvalSpec OrderSpec UnitSpec LinearSpec NativeSpec.
From Verif.Model Require Import KernelSqExp KernelMatern KernelRatQuad KernelDispatch CommonFun WellCond Rescaling GpState Chol Cov HpInfo HpGrad MeanFun Lkd EvalModel.
From Verif.Proofs Require Import KernTac KernGradBlocks RadialCalculus KernelExact KernelExtra LinAlg CholCorrect Jets Psd CovStruct StateFacts NoiseFacts DataFacts NuggetCond NuggetMain MinMax RescaleFacts
  LinDeriv LkdCore LkdFacts LkdMain EvalKern EvalFacts EvalMain EvalInterp FlGrad LipFacts.
From Verif.Props Require Import CondProps DataProps LkdProps RescaleProps EvalProps EvalProps2 OrderProps UnitProps UnitProps2 LinearProps LipProps.
Import ListNotations.
Local Open Scope R_scope.

(** a combination of functionals against a combination of kernels *)
Lemma mixed_cs k hp d th N J (ob Z : nat -> obs) a (w c : nat -> R) : hp_ok k hp -> (forall i, (i < d)%nat -> 0 <= th i) ->
  let kj := kjet k (hp_val hp) d (cut d th) in
  let Q := kj a a - 2 * dotp N (fun r => kj (ob r) a) w + bform N (fun r s => kj (ob r) (ob s)) w w in
  let C := rsum J (fun j => c j * kj a (Z j)) - rsum N (fun r => w r * rsum J (fun j => c j * kj (ob r) (Z j))) in
  let M := rsum J (fun i => rsum J (fun j => c i * kj (Z i) (Z j) * c j)) in
  C * C <= Q * M.
Proof.
  intros Hh Hth kj Q C M. apply (form_cs Q C M). intros s t.
  set (ob' := fun r => if (r <? N)%nat then ob r else Z (r - N)%nat). set (v := fun r => if (r <? N)%nat then s * w r else - t * c (r - N)%nat).
  assert (P := joint_psd_obs k hp d th (N + J) ob' a s v Hh Hth). cbv zeta in P. fold kj in P.
  assert (L1 : forall r, (r < N)%nat -> ob' r = ob r /\ v r = s * w r) by (intros r Hr; unfold ob', v; destruct (Nat.ltb_spec r N); [auto|lia]).
  assert (L2 : forall j, ob' (N + j)%nat = Z j /\ v (N + j)%nat = - t * c j).
  { intros j. unfold ob', v. destruct (Nat.ltb_spec (N + j) N); [lia|]. replace (N + j - N)%nat with j by lia. auto. }
  set (X := rsum N (fun r => w r * rsum J (fun j => c j * kj (ob r) (Z j)))).
  assert (ED : dotp (N + J) (fun r => kj (ob' r) a) v = s * dotp N (fun r => kj (ob r) a) w - t * rsum J (fun j => c j * kj a (Z j))).
  { unfold dotp. rewrite rsum_split. rewrite (rsum_ext N _ (fun r => s * (kj (ob r) a * w r))) by (intros r Hr; destruct (L1 r Hr) as (-> & ->); ring).
    rewrite (rsum_ext J _ (fun j => - t * (c j * kj a (Z j)))) by (intros j Hj; destruct (L2 j) as (-> & ->); unfold kj; rewrite (kjet_sym _ _ _ _ a (Z j)); ring). rewrite !rsum_scal. ring. }
  assert (EB : bform (N + J) (fun r s0 => kj (ob' r) (ob' s0)) v v = s * s * bform N (fun r s0 => kj (ob r) (ob s0)) w w - 2 * s * t * X + t * t * M).
  { unfold bform at 1. rewrite rsum_split.
    rewrite (rsum_ext N _ (fun r => s * s * rsum N (fun s0 => w r * kj (ob r) (ob s0) * w s0) - s * t * (w r * rsum J (fun j => c j * kj (ob r) (Z j))))).
    2:{ intros r Hr. rewrite rsum_split. destruct (L1 r Hr) as (-> & ->). rewrite (rsum_ext N _ (fun s0 => s * s * (w r * kj (ob r) (ob s0) * w s0))) by (intros q Hq; destruct (L1 q Hq) as (-> & ->); ring).
        rewrite (rsum_ext J _ (fun j => - (s * t * w r) * (c j * kj (ob r) (Z j)))) by (intros j Hj; destruct (L2 j) as (-> & ->); ring). rewrite !rsum_scal. ring. }
    rewrite (rsum_ext J _ (fun i => - (s * t) * rsum N (fun r => w r * (c i * kj (ob r) (Z i))) + t * t * rsum J (fun j => c i * kj (Z i) (Z j) * c j))).
    2:{ intros i Hi. rewrite rsum_split. destruct (L2 i) as (-> & ->). rewrite (rsum_ext N _ (fun r => - (s * t) * (w r * (c i * kj (ob r) (Z i))))) by (intros q Hq; destruct (L1 q Hq) as (-> & ->); unfold kj; rewrite (kjet_sym _ _ _ _ (Z i) (ob q)); ring).
        rewrite (rsum_ext J _ (fun j => t * t * (c i * kj (Z i) (Z j) * c j))) by (intros j Hj; destruct (L2 j) as (-> & ->); ring). rewrite !rsum_scal. ring. }
    rewrite rsum_minus, rsum_plus, !rsum_scal. rewrite (rsum_swap J N). fold M.
    assert (EX : rsum N (fun j => rsum J (fun i => w j * (c i * kj (ob j) (Z i)))) = X) by (unfold X; apply rsum_ext; intros r Hr; rewrite <- rsum_scal; reflexivity). rewrite EX. unfold X, bform. ring. }
  rewrite ED, EB in P. unfold Q, C. fold X. lra.
Qed.
(** the error of the prediction of [a] for data that are functionals of the combination *)
Lemma native_err o d hp e J (Z : nat -> obs) (c : nat -> R) y a : hp_ok (o_kernel o) (hp_kernel hp) -> (forall i, (i < o_dim o)%nat -> 0 <= vat (hp_theta hp) i) ->
  pdf (cN o d) (smat o d hp e) -> (forall i, (i < cN o d)%nat -> 0 < sdiag o d hp e i) ->
  let kj := kjet (o_kernel o) (hp_val (hp_kernel hp)) (o_dim o) (cut (o_dim o) (vat (hp_theta hp))) in
  (forall r, (r < cN o d)%nat -> y r = rsum J (fun j => c j * kj (cobs d (fst (get_scl_x_w_dist d)) r) (Z j))) ->
  (rsum J (fun j => c j * kj a (Z j)) - dotp (cN o d) (kc o d hp a) (ksol (cN o d) (smat o d hp e) y)) ^ 2 <=
    pc o d hp e a a * rsum J (fun i => rsum J (fun j => c i * kj (Z i) (Z j) * c j)).
Proof.
  intros Hh Hth HA HD kj Hy. set (N := cN o d) in *. set (A := smat o d hp e) in *. set (w := ksol N A (kc o d hp a)).
  assert (H := mixed_cs (o_kernel o) (hp_kernel hp) (o_dim o) (vat (hp_theta hp)) N J (cobs d (fst (get_scl_x_w_dist d))) Z a w c Hh Hth). cbv zeta in H. fold kj in H.
  assert (E1 : dotp N (kc o d hp a) (ksol N A y) = rsum N (fun r => w r * rsum J (fun j => c j * kj (cobs d (fst (get_scl_x_w_dist d)) r) (Z j)))).
  { rewrite <- (ksol_sym N A _ y HA). unfold dotp. apply rsum_ext; intros r Hr. rewrite Hy by exact Hr. reflexivity. }
  rewrite E1. set (C := rsum J (fun j => c j * kj a (Z j)) - rsum N (fun r => w r * rsum J (fun j => c j * kj (cobs d (fst (get_scl_x_w_dist d)) r) (Z j)))) in *.
  assert (NQ := noisy_quad o d hp e HD w). fold N A kj in NQ. assert (KQ := ksol_quad N A (kc o d hp a) HA). fold w in KQ.
  set (M := rsum J (fun i => rsum J (fun j => c i * kj (Z i) (Z j) * c j))) in *.
  assert (M0 : 0 <= M) by (assert (PS := kjet_psd (o_kernel o) (hp_kernel hp) (o_dim o) (vat (hp_theta hp)) J Z c Hh Hth); exact PS).
  assert (QL : kj a a - 2 * dotp N (fun r => kj (cobs d (fst (get_scl_x_w_dist d)) r) a) w + bform N (fun r s => kj (cobs d (fst (get_scl_x_w_dist d)) r) (cobs d (fst (get_scl_x_w_dist d)) s)) w w <= pc o d hp e a a).
  { unfold pc. fold N A kj w. change (fun r => kj (cobs d (fst (get_scl_x_w_dist d)) r) a) with (kc o d hp a). lra. }
  replace (C ^ 2) with (C * C) by ring. eapply Rle_trans; [exact H|]. apply Rmult_le_compat_r; assumption.
Qed.

(** the error of the prediction of the difference of two observations *)
Lemma native_diff o d hp e J (Z : nat -> obs) (c : nat -> R) y a b : hp_ok (o_kernel o) (hp_kernel hp) -> (forall i, (i < o_dim o)%nat -> 0 <= vat (hp_theta hp) i) ->
  pdf (cN o d) (smat o d hp e) -> (forall i, (i < cN o d)%nat -> 0 < sdiag o d hp e i) ->
  let kj := kjet (o_kernel o) (hp_val (hp_kernel hp)) (o_dim o) (cut (o_dim o) (vat (hp_theta hp))) in
  (forall r, (r < cN o d)%nat -> y r = rsum J (fun j => c j * kj (cobs d (fst (get_scl_x_w_dist d)) r) (Z j))) ->
  ((rsum J (fun j => c j * kj a (Z j)) - dotp (cN o d) (kc o d hp a) (ksol (cN o d) (smat o d hp e) y)) -
   (rsum J (fun j => c j * kj b (Z j)) - dotp (cN o d) (kc o d hp b) (ksol (cN o d) (smat o d hp e) y))) ^ 2 <=
    (kj a a - 2 * kj a b + kj b b) * rsum J (fun i => rsum J (fun j => c i * kj (Z i) (Z j) * c j)).
Proof.
  intros Hh Hth HA HD kj Hy. set (N := cN o d) in *. set (A := smat o d hp e) in *. set (u := fun i => kc o d hp a i - kc o d hp b i). set (w := ksol N A u).
  set (X := fst (get_scl_x_w_dist d)) in *.
  set (ob' := fun i => if (i <? N)%nat then cobs d X i else b). set (w' := fun i => if (i <? N)%nat then w i else 1).
  assert (H := mixed_cs (o_kernel o) (hp_kernel hp) (o_dim o) (vat (hp_theta hp)) (S N) J ob' Z a w' c Hh Hth). cbv zeta in H. fold kj in H.
  assert (OB : ob' N = b) by (unfold ob'; rewrite Nat.ltb_irrefl; reflexivity). assert (WN : w' N = 1) by (unfold w'; rewrite Nat.ltb_irrefl; reflexivity).
  assert (L1 : forall r, (r < N)%nat -> ob' r = cobs d X r /\ w' r = w r) by (intros r Hr; unfold ob', w'; destruct (Nat.ltb_spec r N); [auto|lia]).
  rewrite bform_S in H by (intros i Hi; apply kjet_sym). cbv beta in H. rewrite OB, WN in H.
  assert (E1 : bform N (fun r s => kj (ob' r) (ob' s)) w' w' = bform N (fun r s => kj (cobs d X r) (cobs d X s)) w w).
  { unfold bform. apply rsum_ext; intros i Hi. apply rsum_ext; intros j Hj. destruct (L1 i Hi) as (-> & ->), (L1 j Hj) as (-> & ->). reflexivity. }
  assert (E2 : dotp N (fun i => kj (ob' i) b) w' = dotp N (kc o d hp b) w).
  { apply dotp_ext; intros i Hi; destruct (L1 i Hi) as (E & E'); rewrite ?E, ?E'; reflexivity. }
  assert (E3 : dotp (S N) (fun r => kj (ob' r) a) w' = dotp N (kc o d hp a) w + kj a b).
  { unfold dotp. cbn [rsum]. rewrite OB, WN, (kjet_sym _ _ _ _ b a : kj b a = kj a b). rewrite (rsum_ext N _ (fun i => kc o d hp a i * w i)) by (intros i Hi; destruct (L1 i Hi) as (-> & ->); reflexivity). ring. }
  assert (E4 : rsum (S N) (fun r => w' r * rsum J (fun j => c j * kj (ob' r) (Z j))) = dotp N u (ksol N A y) + rsum J (fun j => c j * kj b (Z j))).
  { cbn [rsum]. rewrite OB, WN. rewrite <- (ksol_sym N A u y HA). fold w. unfold dotp. rewrite (rsum_ext N _ (fun r => w r * y r)); [ring|]. intros r Hr. destruct (L1 r Hr) as (-> & ->). rewrite Hy by exact Hr. reflexivity. }
  rewrite E1, E2, E3, E4 in H.
  assert (DU : forall v, dotp N u v = dotp N (kc o d hp a) v - dotp N (kc o d hp b) v).
  { intros v. unfold dotp. rewrite <- rsum_minus. apply rsum_ext; intros i Hi. unfold u. ring. }
  assert (NQ := noisy_quad o d hp e HD w). fold N A kj X in NQ. assert (KQ := ksol_quad N A u HA). fold w in KQ. assert (QN := ksol_quad_nn N A u HA). fold w in QN.
  set (M := rsum J (fun i => rsum J (fun j => c i * kj (Z i) (Z j) * c j))) in *.
  assert (M0 : 0 <= M) by (assert (PS := kjet_psd (o_kernel o) (hp_kernel hp) (o_dim o) (vat (hp_theta hp)) J Z c Hh Hth); exact PS).
  rewrite DU in H, QN, KQ. 
  set (ma := dotp N (kc o d hp a) (ksol N A y)) in *. set (mb := dotp N (kc o d hp b) (ksol N A y)) in *.
  set (sa := rsum J (fun j => c j * kj a (Z j))) in *. set (sb := rsum J (fun j => c j * kj b (Z j))) in *.
  replace ((sa - ma - (sb - mb)) ^ 2) with ((sa - (ma - mb + sb)) * (sa - (ma - mb + sb))) by ring.
  eapply Rle_trans; [exact H|]. apply Rmult_le_compat_r; [exact M0|]. lra.
Qed.

(** the residuals of such data are no larger, in the metric of the covariance matrix, than the function *)
Lemma native_large o d hp e J (Z : nat -> obs) (c : nat -> R) y : hp_ok (o_kernel o) (hp_kernel hp) -> (forall i, (i < o_dim o)%nat -> 0 <= vat (hp_theta hp) i) ->
  pdf (cN o d) (smat o d hp e) -> (forall i, (i < cN o d)%nat -> 0 < sdiag o d hp e i) ->
  let kj := kjet (o_kernel o) (hp_val (hp_kernel hp)) (o_dim o) (cut (o_dim o) (vat (hp_theta hp))) in
  (forall r, (r < cN o d)%nat -> y r = rsum J (fun j => c j * kj (cobs d (fst (get_scl_x_w_dist d)) r) (Z j))) ->
  dotp (cN o d) y (ksol (cN o d) (smat o d hp e) y) <= rsum J (fun i => rsum J (fun j => c i * kj (Z i) (Z j) * c j)).
Proof.
  intros Hh Hth HA HD kj Hy. set (N := cN o d) in *. set (A := smat o d hp e) in *. set (w := ksol N A y). set (X := fst (get_scl_x_w_dist d)) in *.
  set (M := rsum J (fun i => rsum J (fun j => c i * kj (Z i) (Z j) * c j))). set (G := dotp N y w).
  assert (NQ := noisy_quad o d hp e HD w). fold N A kj X in NQ. assert (KQ := ksol_quad N A y HA). fold w G in KQ.
  set (ob' := fun r => if (r <? N)%nat then cobs d X r else Z (r - N)%nat). set (v := fun r => if (r <? N)%nat then w r else - c (r - N)%nat).
  assert (P := kjet_psd (o_kernel o) (hp_kernel hp) (o_dim o) (vat (hp_theta hp)) (N + J) ob' v Hh Hth). fold kj in P.
  assert (L1 : forall r, (r < N)%nat -> ob' r = cobs d X r /\ v r = w r) by (intros r Hr; unfold ob', v; destruct (Nat.ltb_spec r N); [auto|lia]).
  assert (L2 : forall j, ob' (N + j)%nat = Z j /\ v (N + j)%nat = - c j).
  { intros j. unfold ob', v. destruct (Nat.ltb_spec (N + j) N); [lia|]. replace (N + j - N)%nat with j by lia. auto. }
  assert (EG : rsum N (fun r => w r * rsum J (fun j => c j * kj (cobs d X r) (Z j))) = G).
  { unfold G, dotp. apply rsum_ext; intros r Hr. rewrite (Hy r Hr). ring. }
  assert (EB : bform (N + J) (fun r s0 => kj (ob' r) (ob' s0)) v v = bform N (fun r s0 => kj (cobs d X r) (cobs d X s0)) w w - 2 * G + M).
  { unfold bform at 1. rewrite rsum_split.
    rewrite (rsum_ext N _ (fun r => rsum N (fun s0 => w r * kj (cobs d X r) (cobs d X s0) * w s0) - w r * rsum J (fun j => c j * kj (cobs d X r) (Z j)))).
    2:{ intros r Hr. rewrite rsum_split. destruct (L1 r Hr) as (-> & ->). rewrite (rsum_ext N _ (fun s0 => w r * kj (cobs d X r) (cobs d X s0) * w s0)) by (intros q Hq; destruct (L1 q Hq) as (-> & ->); ring).
        rewrite (rsum_ext J _ (fun j => - w r * (c j * kj (cobs d X r) (Z j)))) by (intros j Hj; destruct (L2 j) as (-> & ->); ring). rewrite !rsum_scal. ring. }
    rewrite (rsum_ext J _ (fun i => - 1 * rsum N (fun r => w r * (c i * kj (cobs d X r) (Z i))) + rsum J (fun j => c i * kj (Z i) (Z j) * c j))).
    2:{ intros i Hi. rewrite rsum_split. destruct (L2 i) as (-> & ->). rewrite (rsum_ext N _ (fun r => - 1 * (w r * (c i * kj (cobs d X r) (Z i))))) by (intros q Hq; destruct (L1 q Hq) as (-> & ->); unfold kj; rewrite (kjet_sym _ _ _ _ (Z i) (cobs d X q)); ring).
        rewrite (rsum_ext J _ (fun j => c i * kj (Z i) (Z j) * c j)) by (intros j Hj; destruct (L2 j) as (-> & ->); ring). rewrite !rsum_scal. ring. }
    rewrite rsum_minus, rsum_plus, !rsum_scal. rewrite (rsum_swap J N). fold M. rewrite EG.
    assert (EX : rsum N (fun j => rsum J (fun i => w j * (c i * kj (cobs d X j) (Z i)))) = G) by (rewrite <- EG; apply rsum_ext; intros r Hr; rewrite <- rsum_scal; reflexivity).
    rewrite EX. unfold bform. ring. }
  assert (P' : 0 <= bform (N + J) (fun r s0 => kj (ob' r) (ob' s0)) v v) by exact P. rewrite EB in P'. lra.
Qed.

Section F.
Variables (o : gpopt) (d : gpdata) (hp : hpv) (vK b : R) (J : nat) (c : nat -> R) (z : nat -> pt).
Hypothesis HI : eval_input o d hp vK b.
Notation kj := (kjet (o_kernel o) (hp_val (hp_kernel hp)) (o_dim o) (cut (o_dim o) (vat (hp_theta hp)))).
Notation F := (native_fun d (gp_kernel o hp) (mean_in_units d b) J c z).
Notation Z := (fun j => Val (to_scl d (z j))).
Let Hhp : hp_ok (o_kernel o) (hp_kernel hp). Proof. apply HI. Qed.
Let Hnn : forall i, (i < o_dim o)%nat -> 0 <= vat (hp_theta hp) i. Proof. intros i Hi. left. apply HI, Hi. Qed.
Let OP : 0 < out_scale d. Proof. apply (out_scale_pos o), HI. Qed.
Lemma gpk_kj x y : gp_kernel o hp (model_point d x) (model_point d y) = kj (Val (to_scl d x)) (Val (to_scl d y)).
Proof.
  unfold gp_kernel. rewrite <- (kjet_val (o_kernel o) (hp_kernel hp) (o_dim o) (vat (hp_theta hp)) Hhp (th_ok_nn _ _ _ Hnn)).
  rewrite <- !phi0_kfun. f_equal. apply rsum_ext; intros i Hi. rewrite !to_scl_point. reflexivity.
Qed.
Lemma native_val x : F x = mean_in_units d b + rsum J (fun j => c j * kj (Val (to_scl d x)) (Z j)).
Proof. unfold native_fun. f_equal. apply rsum_ext; intros j Hj. rewrite gpk_kj. reflexivity. Qed.
Lemma native_der x i : (i < o_dim o)%nat -> is_partial F i x (rsum J (fun j => c j * kj (Der i (to_scl d x)) (Z j)) * in_scale d i).
Proof.
  intros Hi. unfold is_partial. apply (dR_ext (fun t => mean_in_units d b + rsum J (fun j => c j * kj (Z j) (Val (upd (to_scl d x) i ((t - in_shift d i) * in_scale d i)))))).
  { intros t. rewrite native_val. f_equal. apply rsum_ext; intros j Hj. f_equal. rewrite kjet_sym. apply kj_diff; cbn [obs_lt obs_kind obs_pt]; auto; try exact I.
    intros k Hk. f_equal. unfold to_scl, upd. destruct (Nat.eqb_spec k i) as [->|]; reflexivity. }
  eapply dR_val; [apply dR_plus; [apply dR_const|apply (dR_rsum J _ (fun j => c j * (kj (Der i (to_scl d x)) (Z j) * in_scale d i)))]|].
  - intros j Hj. apply dR_scal. rewrite kjet_sym.
    apply (dR_val _ _ (in_scale d i * kj (Z j) (Der i (to_scl d x)))); [|ring].
    apply (dR_comp (fun s => kj (Z j) (Val (upd (to_scl d x) i s))) (fun t => (t - in_shift d i) * in_scale d i)).
    + apply (dR_val _ _ ((1 - 0) * in_scale d i + (x i - in_shift d i) * 0)); [|ring]. apply (dR_mult (fun t => t - in_shift d i) (fun _ => in_scale d i) (x i) (1 - 0) 0); [apply (dR_minus (fun t => t) (fun _ => in_shift d i) (x i) 1 0); [apply dR_id|apply dR_const]|apply dR_const].
    + change ((x i - in_shift d i) * in_scale d i) with (to_scl d x i). apply (kjet_dx (o_kernel o) (hp_kernel hp) (o_dim o) (vat (hp_theta hp)) Hhp (th_ok_nn _ _ _ Hnn)); [exact I|exact Hi].
  - rewrite <- rsum_scal_r. rewrite Rplus_0_l. apply rsum_ext; intros; ring.
Qed.
Lemma native_res : data_of o d F -> forall r, (r < cN o d)%nat -> sres d b r = rsum J (fun j => out_scale d * c j * kj (cobs d (fst (get_scl_x_w_dist d)) r) (Z j)).
Proof.
  intros (DV & DG) r Hr. assert (DS : data_set o d) by apply HI. destruct (gp_mask o d DS) as (M & EN & EG & EB).
  assert (PT : forall p i, (p < d_n_eval d)%nat -> (i < o_dim o)%nat -> rows_of (fst (get_scl_x_w_dist d)) p i = to_scl d (rows_of (d_x d) p) i).
  { intros p i Hp Hi. rewrite (scaled_rows o d p i DS Hp Hi). reflexivity. }
  assert (SR : sres d b r = vat (ydata d) r - basis d r * b) by reflexivity. rewrite SR. clear SR.
  unfold cN in Hr. destruct (unradr_ok _ _ _ _ Hr) as (V & ER). destruct (unradr (d_n_eval d) (d_n_grad d) r) as [p|i q]; cbn [rvalid radr] in *.
  - assert (L : nth_error (gp_labels o d) r = Some (LVal p)) by (rewrite <- ER; apply (DataFacts.labels_nth _ _ _ (NpFacts.F p)); exact V).
    destruct (label_row o d hp vK b HI _ _ L) as (_ & CO & YE & _). cbn [label_obs scaled_value] in CO, YE. rewrite YE, CO, (DV p V), native_val. unfold basis. subst r.
    destruct (Nat.ltb_spec p (d_n_eval d)); [|lia]. rewrite (rsum_ext J (fun j => out_scale d * c j * _) (fun j => out_scale d * (c j * kj (Val (to_scl d (rows_of (d_x d) p))) (Z j)))).
    + rewrite rsum_scal. unfold mean_in_units. field. lra.
    + intros j Hj. rewrite Rmult_assoc. do 2 f_equal. apply kj_diff; cbn [obs_lt obs_kind obs_pt]; auto; try exact I. intros k Hk. rewrite PT by assumption. reflexivity.
  - destruct V as (Vi & Vq). assert (U : o_use_grad o = true).
    { destruct (o_use_grad o) eqn:U; [reflexivity|]. unfold gp_dim in EN. rewrite U in EN. exfalso. assert (d_n_grad d * o_dim o = 0)%nat by lia. nia. }
    assert (Hq : (q < n_used (d_n_eval d) (d_bvec d))%nat) by (rewrite n_used_count, <- EG by assumption; exact Vq).
    assert (L : nth_error (gp_labels o d) r = Some (LDer i q)).
    { unfold gp_labels, gp_dim. rewrite U. rewrite n_used_count by assumption. rewrite <- EG by exact U. rewrite <- ER. apply (DataFacts.labels_nth _ _ _ (NpFacts.G i q)). split; assumption. }
    destruct (label_row o d hp vK b HI _ _ L) as (_ & CO & YE & _). cbn [label_obs scaled_value] in CO, YE. destruct (DG U) as (G & E1 & E2).
    set (p := nth q (grad_points (d_n_eval d) (d_bvec d)) 0%nat) in *.
    assert (Hp : (p < d_n_eval d)%nat).
    { assert (In p (grad_points (d_n_eval d) (d_bvec d))) as IP by (apply nth_In, Hq). unfold grad_points in IP. destruct (d_bvec d) as [m|]; [apply filter_In in IP; destruct IP as (IP & _)|]; apply in_seq in IP; lia. }
    assert (GE := dR_unique _ _ _ _ (E2 q i Hq Vi) (native_der (rows_of (d_x d) p) i Vi)).
    assert (IS : 0 < in_scale d i) by (apply HI; exact Vi).
    rewrite YE, E1, GE, CO. unfold basis. subst r. destruct (Nat.ltb_spec (d_n_eval d + i * d_n_grad d + q) (d_n_eval d)); [lia|].
    rewrite (rsum_ext J (fun j => out_scale d * c j * _) (fun j => out_scale d * (c j * kj (Der i (to_scl d (rows_of (d_x d) p))) (Z j)))).
    + rewrite rsum_scal. field. lra.
    + intros j Hj. rewrite Rmult_assoc. do 2 f_equal. apply kj_diff; cbn [obs_lt obs_kind obs_pt]; auto. intros k Hk. rewrite PT by assumption. reflexivity.
Qed.
Lemma native_M : rsum J (fun i => rsum J (fun j => out_scale d * c i * kj (Z i) (Z j) * (out_scale d * c j))) = out_scale d ^ 2 * native_size d (gp_kernel o hp) J c z.
Proof.
  unfold native_size. rewrite <- rsum_scal. apply rsum_ext; intros i Hi. rewrite <- rsum_scal. apply rsum_ext; intros j Hj. rewrite gpk_kj. ring.
Qed.
End F.

(** ** C77: if the data are values, and partial derivatives, of a function F = m + sum c_j k(., z_j) made of the mean and
    the kernel of the model, then at every point the prediction differs from F by no more than its size in the metric of the
    kernel times the returned standard deviation (relative to that of the process), whatever nugget and noise were assumed;
    and the returned gradient differs from that of F by a bounded amount. *)
Theorem C77_standard_deviation_bounds_the_error :
  forall (o : gpopt) (d : gpdata) (condf : mat -> R) (hp : hpv) (vK b : R) (cc : bool) (su : surr) (J : nat) (c : nat -> R) (z : nat -> pt),
  eval_input o d hp vK b -> mask_supported o d -> set_up o d condf hp cc su ->
  let F := native_fun d (gp_kernel o hp) (mean_in_units d b) J c z in let S2 := native_size d (gp_kernel o hp) J c z in
  data_of o d F ->
  0 <= S2 /\
  forall x2 : mat, nc x2 = o_dim o -> (0 < nr x2)%nat ->
  exists ev D, eval_model o d hp su x2 true false = Ok ev /\ e_dmu ev = Some D /\
    forall p, (p < nr x2)%nat ->
      (F (rows_of x2 p) - vat (e_mu ev) p) ^ 2 <= S2 * (vat (e_sig ev) p ^ 2 / var_in_units d vK) /\
      forall i, (i < o_dim o)%nat -> exists g, is_partial F i (rows_of x2 p) g /\
        (g - mat_at D p i) ^ 2 <= S2 * (gamma2 (o_kernel o) (vat (hp_theta hp) i) * in_scale d i ^ 2).
Proof.
  intros o d condf hp vK b cc su J c z HI MS SU F S2 DF.
  destruct (ei_main o d hp vK b HI condf cc su SU) as (e & f & inv & Q1 & Q2 & Q3 & Q4 & Q5 & Q6 & Q7 & Q8 & Q9).
  assert (Hhp : hp_ok (o_kernel o) (hp_kernel hp)) by apply HI. assert (Hnn : forall i, (i < o_dim o)%nat -> 0 <= vat (hp_theta hp) i) by (intros i Hi; left; apply HI, Hi).
  assert (OP : 0 < out_scale d) by (apply (out_scale_pos o), HI). assert (OP2 : 0 < out_scale d ^ 2) by (apply pow_lt, OP). assert (VP : 0 < vK) by apply HI.
  assert (SV2 : sqrt vK * sqrt vK = vK) by (apply sqrt_sqrt; lra).
  assert (RES := native_res o d hp vK b J c z HI DF). assert (ME := native_M o d hp vK b J c z HI).
  assert (ER := fun a => native_err o d hp e J (fun j => Val (to_scl d (z j))) (fun j => out_scale d * c j) (sres d b) a Hhp Hnn Q3 Q5 RES). cbv zeta in ER. fold S2 in ME.
  split.
  { assert (PS := kjet_psd (o_kernel o) (hp_kernel hp) (o_dim o) (vat (hp_theta hp)) J (fun j => Val (to_scl d (z j))) (fun j => out_scale d * c j) Hhp Hnn). unfold bform in PS. rewrite ME in PS.
    apply (Rmult_le_reg_l (out_scale d ^ 2)); [exact OP2|]. rewrite Rmult_0_r. exact PS. }
  assert (S0 : 0 <= out_scale d ^ 2 * S2) by (assert (PS := kjet_psd (o_kernel o) (hp_kernel hp) (o_dim o) (vat (hp_theta hp)) J (fun j => Val (to_scl d (z j))) (fun j => out_scale d * c j) Hhp Hnn); unfold bform in PS; rewrite ME in PS; exact PS).
  intros x2 Hx Hn.
  destruct (ei_eval o d hp vK b HI condf cc su e f inv x2 true false SU MS Q1 Q3 Q4 Q5 Q6 Q7 Q8 Q9 Hx Hn ltac:(discriminate)) as (ev & E1 & (A1 & A2) & (B1 & B2) & (D & S & A3 & (A4 & A5 & A6) & _) & _).
  exists ev, D. split; [exact E1|]. split; [exact A3|]. intros p Hp. set (x := rows_of x2 p).
  assert (OC : forall a, rsum J (fun j => out_scale d * c j * kjet (o_kernel o) (hp_val (hp_kernel hp)) (o_dim o) (cut (o_dim o) (vat (hp_theta hp))) a (Val (to_scl d (z j)))) =
     out_scale d * rsum J (fun j => c j * kjet (o_kernel o) (hp_val (hp_kernel hp)) (o_dim o) (cut (o_dim o) (vat (hp_theta hp))) a (Val (to_scl d (z j))))) by (intros a; rewrite <- rsum_scal; apply rsum_ext; intros; ring).
  split.
  - assert (W := ER (Val (to_scl d x))). rewrite OC, ME in W. set (P := pc o d hp e (Val (to_scl d x)) (Val (to_scl d x))) in *.
    assert (P0 : 0 <= P) by apply (pc_cs o d hp e Hhp Hnn Q3 Q5 (Val (to_scl d x)) (Val (to_scl d x))).
    assert (PE : Pv o d hp e (to_scl d x) = P) by (unfold P, pc; rewrite kjet_diag; reflexivity).
    rewrite A2, B2 by exact Hp. fold x. unfold F. rewrite (native_val o d hp vK b J c z HI). unfold Si, Psig. rewrite PE. unfold Mi, Pmu, pmu, pw, var_in_units, mean_in_units.
    change (dotp (cN o d) (kxf o d hp (to_scl d x)) (ksol (cN o d) (smat o d hp e) (sres d b))) with (dotp (cN o d) (kc o d hp (Val (to_scl d x))) (ksol (cN o d) (smat o d hp e) (sres d b))).
    set (m := dotp (cN o d) (kc o d hp (Val (to_scl d x))) (ksol (cN o d) (smat o d hp e) (sres d b))) in *.
    set (s := rsum J (fun j => c j * _)) in *.
    replace ((sqrt P * sqrt vK / out_scale d) ^ 2 / (vK / out_scale d ^ 2)) with P.
    2:{ replace ((sqrt P * sqrt vK / out_scale d) ^ 2) with (sqrt P * sqrt P * (sqrt vK * sqrt vK) / out_scale d ^ 2) by (field; lra). rewrite SV2, sqrt_sqrt by exact P0. field. lra. }
    apply (Rmult_le_reg_l (out_scale d ^ 2)); [exact OP2|].
    replace (out_scale d ^ 2 * (b / out_scale d + out_shift d + s - ((b + m) / out_scale d + out_shift d)) ^ 2) with ((out_scale d * s - m) ^ 2) by (field; lra).
    eapply Rle_trans; [exact W|]. right. ring.
  - intros i Hi. set (a := Der i (to_scl d x)). eexists; split; [apply (native_der o d hp vK b J c z HI x i Hi)|].
    assert (W := ER a). rewrite OC, ME in W. assert (KG : kjet (o_kernel o) (hp_val (hp_kernel hp)) (o_dim o) (cut (o_dim o) (vat (hp_theta hp))) a a = gamma2 (o_kernel o) (vat (hp_theta hp) i)) by (rewrite kjet_diag; unfold a; rewrite cut_lt by exact Hi; reflexivity).
    set (g := gamma2 (o_kernel o) (vat (hp_theta hp) i)) in *.
    assert (PL : pc o d hp e a a <= g). { assert (QQ := ksol_quad_nn (cN o d) (smat o d hp e) (kc o d hp a) Q3). unfold pc. rewrite KG. lra. }
    rewrite A6 by assumption. fold x. change (Pdmu o d hp b e i (to_scl d x)) with (dotp (cN o d) (kc o d hp a) (ksol (cN o d) (smat o d hp e) (sres d b))).
    set (m := dotp (cN o d) (kc o d hp a) (ksol (cN o d) (smat o d hp e) (sres d b))) in *. fold a. set (s := rsum J (fun j => c j * _)) in *. unfold gscl.
    apply (Rmult_le_reg_l (out_scale d ^ 2)); [exact OP2|].
    replace (out_scale d ^ 2 * (s * in_scale d i - m * (in_scale d i / out_scale d)) ^ 2) with ((out_scale d * s - m) ^ 2 * in_scale d i ^ 2) by (field; lra).
    replace (out_scale d ^ 2 * (S2 * (g * in_scale d i ^ 2))) with (g * (out_scale d ^ 2 * S2) * in_scale d i ^ 2) by ring.
    apply Rmult_le_compat_r; [apply pow2_ge_0|]. eapply Rle_trans; [exact W|]. apply Rmult_le_compat_r; assumption.
Qed.
Print Assumptions C77_standard_deviation_bounds_the_error.

(** and the error changes no faster than the kernel: a bound at one point is a bound around it *)
Theorem C77_error_changes_no_faster_than_the_kernel :
  forall (o : gpopt) (d : gpdata) (condf : mat -> R) (hp : hpv) (vK b : R) (cc : bool) (su : surr) (J : nat) (c : nat -> R) (z : nat -> pt),
  eval_input o d hp vK b -> mask_supported o d -> set_up o d condf hp cc su ->
  let k := gp_kernel o hp in let F := native_fun d k (mean_in_units d b) J c z in let S2 := native_size d k J c z in
  data_of o d F ->
  forall x2 : mat, nc x2 = o_dim o -> (0 < nr x2)%nat ->
  exists ev, eval_model o d hp su x2 true false = Ok ev /\
    forall p p', (p < nr x2)%nat -> (p' < nr x2)%nat ->
      let r2 := 2 - 2 * k (model_point d (rows_of x2 p)) (model_point d (rows_of x2 p')) in
      ((F (rows_of x2 p) - vat (e_mu ev) p) - (F (rows_of x2 p') - vat (e_mu ev) p')) ^ 2 <= S2 * r2 /\
      r2 <= 2 * rsum (o_dim o) (fun i => vat (hp_theta hp) i * in_scale d i ^ 2 * (rows_of x2 p i - rows_of x2 p' i) ^ 2).
Proof.
  intros o d condf hp vK b cc su J c z HI MS SU k F S2 DF x2 Hx Hn.
  destruct (C74_predictions_bounded_and_lipschitz o d condf hp vK b cc su HI MS SU) as (G0 & _ & _ & LP). specialize (LP x2 Hx Hn). destruct LP as (ev0 & D0 & S0 & EQ0 & _ & _ & _ & LP).
  destruct (ei_main o d hp vK b HI condf cc su SU) as (e & f & inv & Q1 & Q2 & Q3 & Q4 & Q5 & Q6 & Q7 & Q8 & Q9).
  assert (Hhp : hp_ok (o_kernel o) (hp_kernel hp)) by apply HI. assert (Hnn : forall i, (i < o_dim o)%nat -> 0 <= vat (hp_theta hp) i) by (intros i Hi; left; apply HI, Hi).
  assert (OP : 0 < out_scale d) by (apply (out_scale_pos o), HI). assert (OP2 : 0 < out_scale d ^ 2) by (apply pow_lt, OP).
  assert (RES := native_res o d hp vK b J c z HI DF). assert (ME := native_M o d hp vK b J c z HI).
  destruct (ei_eval o d hp vK b HI condf cc su e f inv x2 true false SU MS Q1 Q3 Q4 Q5 Q6 Q7 Q8 Q9 Hx Hn ltac:(discriminate)) as (ev & E1 & (A1 & A2) & _).
  exists ev. split; [exact E1|]. intros p p' Hp Hp' r2. split; [|apply (LP p p' Hp Hp')].
  set (x := rows_of x2 p) in *. set (x' := rows_of x2 p') in *.
  assert (W := native_diff o d hp e J (fun j => Val (to_scl d (z j))) (fun j => out_scale d * c j) (sres d b) (Val (to_scl d x)) (Val (to_scl d x')) Hhp Hnn Q3 Q5 RES). cbv zeta in W.
  assert (OC : forall a, rsum J (fun j => out_scale d * c j * kjet (o_kernel o) (hp_val (hp_kernel hp)) (o_dim o) (cut (o_dim o) (vat (hp_theta hp))) a (Val (to_scl d (z j)))) =
     out_scale d * rsum J (fun j => c j * kjet (o_kernel o) (hp_val (hp_kernel hp)) (o_dim o) (cut (o_dim o) (vat (hp_theta hp))) a (Val (to_scl d (z j))))) by (intros a; rewrite <- rsum_scal; apply rsum_ext; intros; ring).
  rewrite !OC, ME in W. fold k S2 in W. rewrite !kjet_diag, <- (gpk_kj o d hp vK b HI) in W. fold k in W.
  rewrite !A2 by assumption. fold x x'. unfold F. rewrite !(native_val o d hp vK b J c z HI). unfold Mi, Pmu, pmu, pw, mean_in_units.
  change (dotp (cN o d) (kxf o d hp (to_scl d x)) (ksol (cN o d) (smat o d hp e) (sres d b))) with (dotp (cN o d) (kc o d hp (Val (to_scl d x))) (ksol (cN o d) (smat o d hp e) (sres d b))).
  change (dotp (cN o d) (kxf o d hp (to_scl d x')) (ksol (cN o d) (smat o d hp e) (sres d b))) with (dotp (cN o d) (kc o d hp (Val (to_scl d x'))) (ksol (cN o d) (smat o d hp e) (sres d b))).
  set (m := dotp (cN o d) (kc o d hp (Val (to_scl d x))) (ksol (cN o d) (smat o d hp e) (sres d b))) in *.
  set (m' := dotp (cN o d) (kc o d hp (Val (to_scl d x'))) (ksol (cN o d) (smat o d hp e) (sres d b))) in *.
  match type of W with (out_scale d * ?s - m - (out_scale d * ?s' - m')) ^ 2 <= _ => set (sa := s) in *; set (sb := s') in * end.
  apply (Rmult_le_reg_l (out_scale d ^ 2)); [exact OP2|].
  match goal with |- ?l <= _ => replace l with ((out_scale d * sa - m - (out_scale d * sb - m')) ^ 2) by (field; lra) end.
  eapply Rle_trans; [exact W|]. right. unfold r2. ring.
Qed.
Print Assumptions C77_error_changes_no_faster_than_the_kernel.

(** so no larger than F can be: the size G of the residuals of such data, which bounds the predicted mean, its slopes and its
    changes (C74), is at most the size of F *)
Theorem C77_residuals_no_larger_than_the_function :
  forall (o : gpopt) (d : gpdata) (condf : mat -> R) (hp : hpv) (vK b : R) (cc : bool) (su : surr) (J : nat) (c : nat -> R) (z : nat -> pt),
  eval_input o d hp vK b -> mask_supported o d -> set_up o d condf hp cc su ->
  let k := gp_kernel o hp in
  data_of o d (native_fun d k (mean_in_units d b) J c z) ->
  forall G, data_size (k_Kcov (su_K su)) (gp_residual o d b) G -> G / out_scale d ^ 2 <= native_size d k J c z.
Proof.
  intros o d condf hp vK b cc su J c z HI MS SU k DF G (w & SW & GE).
  destruct (ei_main o d hp vK b HI condf cc su SU) as (e & f & inv & Q1 & Q2 & Q3 & Q4 & Q5 & Q6 & Q7 & Q8 & Q9).
  assert (Hhp : hp_ok (o_kernel o) (hp_kernel hp)) by apply HI. assert (Hnn : forall i, (i < o_dim o)%nat -> 0 <= vat (hp_theta hp) i) by (intros i Hi; left; apply HI, Hi).
  assert (OP : 0 < out_scale d) by (apply (out_scale_pos o), HI). assert (OP2 : 0 < out_scale d ^ 2) by (apply pow_lt, OP).
  assert (RES := native_res o d hp vK b J c z HI DF). assert (ME := native_M o d hp vK b J c z HI).
  assert (W := native_large o d hp e J (fun j => Val (to_scl d (z j))) (fun j => out_scale d * c j) (sres d b) Hhp Hnn Q3 Q5 RES). cbv beta zeta in W. rewrite ME in W. fold k in W.
  assert (RS : forall i, (i < cN o d)%nat -> gp_residual o d b i = sres d b i) by (intros i Hi; apply (li_res o d hp (ei_lkd o d hp vK b HI) b i Hi)).
  assert (NS : nr (k_Kcov (su_K su)) = cN o d) by apply Q4. rewrite NS in GE.
  assert (WE : forall i, (i < cN o d)%nat -> w i = ksol (cN o d) (smat o d hp e) (sres d b) i).
  { apply ksol_unique; [exact Q3|]. assert (SW' := proj1 (solves_iff o d _ _ _ _ Q4) SW). intros i Hi. rewrite <- RS by exact Hi. apply SW', Hi. }
  assert (GE2 : G = dotp (cN o d) (sres d b) (ksol (cN o d) (smat o d hp e) (sres d b))) by (rewrite GE; apply dotp_ext; [exact RS|exact WE]).
  rewrite <- GE2 in W. apply (Rmult_le_reg_l (out_scale d ^ 2)); [exact OP2|]. replace (out_scale d ^ 2 * (G / out_scale d ^ 2)) with G by (field; lra). exact W.
Qed.
Print Assumptions C77_residuals_no_larger_than_the_function.

(** the hypotheses are met: values at three points and gradients at two of them of 1/3 + 2 k(., 0), which is not constant *)
Definition nt_z (j i : nat) : R := 0.
Definition nt_c (j : nat) : R := 2.
Definition nt_kj : obs -> obs -> R := kjet (o_kernel ex_opt) (hp_val (hp_kernel ev_hp)) (o_dim ex_opt) (cut (o_dim ex_opt) (vat (hp_theta ev_hp))).
Definition nt_f : vec := mkvec 3 (fun p => 1 / 3 / 1 + 0 + rsum 1 (fun j => nt_c j * gp_kernel ex_opt ev_hp (rows_of ex_x p) (nt_z j))).
Definition nt_g : mat := mkmat 2 2 (fun q i => rsum 1 (fun j => nt_c j * nt_kj (Der i (fun k => (rows_of ex_x (nth q [0%nat; 2%nat] 0%nat) k - 0) * 1)) (Val (fun k => (nt_z j k - 0) * 1))) * 1).
Example C77_hypotheses_met : exists d su, eval_input ex_opt d ev_hp 2 (1 / 3) /\ mask_supported ex_opt d /\ set_up ex_opt d (fun _ => 1) ev_hp true su /\
  d_n_eval d = 3%nat /\ n_used (d_n_eval d) (d_bvec d) = 2%nat /\
  data_of ex_opt d (native_fun d (gp_kernel ex_opt ev_hp) (mean_in_units d (1 / 3)) 1 nt_c nt_z) /\ native_size d (gp_kernel ex_opt ev_hp) 1 nt_c nt_z = 4.
Proof.
  assert (E : exists d, set_data ex_opt ex_x nt_f SdNone (Some nt_g) SdNone (Some [true; false; true]) = Ok d /\ d_known_fval d = false /\ d_known_fgrad d = false /\ d_scl d = None /\
     d_bvec d = Some [true; false; true] /\ d_n_eval d = 3%nat /\ d_x d = ex_x /\ d_fval d = nt_f /\ d_grad d = Some nt_g).
  { eexists; (split; [reflexivity|]); repeat split. }
  destruct E as (d & E & L1 & L2 & L3 & L4 & L5 & L6 & L7 & L8).
  assert (I1 : eval_input ex_opt d ev_hp 2 (1 / 3)).
  { split; [split; [simpl; lia|split; simpl; lra]|].
    split. { exists ex_x, nt_f, SdNone, (Some nt_g), SdNone, (Some [true; false; true]). split; [simpl; lia|]. split; [reflexivity|]. split; [reflexivity|]. apply after_set; exact E. }
    split; [reflexivity|]. split.
    { split; [reflexivity|]. split; [intros i _; simpl; assert (0 <= INR i) by apply pos_INR; lra|exact I]. }
    split. { split; [rewrite L1; split; [reflexivity|eexists; reflexivity]|]. intros _. rewrite L2. eexists; reflexivity. }
    split; [split; intros v Ev; injection Ev as <-; lra|]. split; [reflexivity|]. split; [lra|]. split; [exists (vconst 1 (1 / 3)); repeat split|].
    intros i _. unfold in_scale. rewrite L3. lra. }
  destruct (C30_setup_succeeds ex_opt d (fun _ => 1) ev_hp 2 (1 / 3) true I1) as (su & _ & HS).
  assert (MP : forall x, model_point d x = x) by (intros x; unfold model_point; rewrite L3; reflexivity).
  exists d, su. split; [exact I1|]. split; [intros _ C; discriminate|]. split; [apply HS; left; reflexivity|]. split; [exact L5|]. split; [rewrite L4, L5; reflexivity|]. split.
  - split.
    + intros p Hp. rewrite L7, L6. unfold native_fun, mean_in_units, out_scale, out_shift. rewrite L3. cbn [vat nt_f]. f_equal. apply rsum_ext; intros j Hj. rewrite !MP. reflexivity.
    + intros U. exists nt_g. split; [exact L8|]. intros q i Hq Hi.
      assert (W := native_der ex_opt d ev_hp 2 (1 / 3) 1 nt_c nt_z I1 (rows_of (d_x d) (nth q (grad_points (d_n_eval d) (d_bvec d)) 0%nat)) i Hi).
      unfold is_partial in *. eapply dR_val; [exact W|]. unfold in_scale, to_scl, in_shift, in_scale. rewrite L3, L4, L5, L6. reflexivity.
  - unfold native_size. cbn [rsum]. rewrite !MP, (kxx ex_opt d ev_hp 2 (1 / 3) I1). unfold nt_c. lra.
Qed.
Print Assumptions C77_hypotheses_met.
