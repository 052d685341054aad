(** Calculus of radial kernels k(x,y) = phi(sum theta_i (x_i-y_i)^2). *)
From Coq Require Import Reals List Arith Bool Lia Lra.
From Coquelicot Require Import Coquelicot.
From Verif.Base Require Import NpLite NpFacts.
From Verif.Spec Require Import KernelSpec.
From Verif.Model Require Import KernelSqExp KernelMatern KernelRatQuad.
From Verif.Proofs Require Import KernTac KernGradBlocks.
Import ListNotations.
Local Open Scope R_scope.

Lemma upd_same x i t : upd x i t i = t.
Proof. unfold upd; rewrite Nat.eqb_refl; reflexivity. Qed.
Lemma upd_other x i t j : j <> i -> upd x i t j = x j.
Proof. unfold upd; intros H; destruct (Nat.eqb_spec j i); tauto. Qed.

Lemma sqd_upd_l d th x y i t : (i < d)%nat ->
  sqd d th (upd x i t) y = sqd d th x y - th i * (x i - y i) ^ 2 + th i * (t - y i) ^ 2.
Proof.
  intros Hi. unfold sqd.
  rewrite <- (rsum_upd d i (fun k => th k * (x k - y k) ^ 2) (th i * (t - y i) ^ 2) Hi).
  apply rsum_ext; intros k _. unfold upd. destruct (Nat.eqb_spec k i); [subst|]; reflexivity.
Qed.
Lemma sqd_sym d th x y : sqd d th x y = sqd d th y x.
Proof. apply rsum_ext; intros; ring. Qed.
Lemma sqd_upd_r d th x y i t : (i < d)%nat ->
  sqd d th x (upd y i t) = sqd d th x y - th i * (x i - y i) ^ 2 + th i * (x i - t) ^ 2.
Proof.
  intros Hi. rewrite sqd_sym, (sqd_upd_l d th y x i t Hi), (sqd_sym d th y x). ring.
Qed.
Lemma sqd_nonneg d th x y : (forall i, (i < d)%nat -> 0 <= th i) -> 0 <= sqd d th x y.
Proof.
  intros H. apply rsum_nonneg; intros i Hi. apply Rmult_le_pos; [auto|]. apply pow2_ge_0.
Qed.
Lemma sqd_refl d th x : sqd d th x x = 0.
Proof. unfold sqd; apply rsum_0; intros; ring. Qed.

(** derivative of [t |-> sqd (upd x i t) y] at any point [t0] *)
Lemma is_derive_sqd_l d th x y i t0 : (i < d)%nat ->
  is_derive (fun t => sqd d th (upd x i t) y) t0 (2 * th i * (t0 - y i)).
Proof.
  intros Hi. eapply is_derive_ext.
  - intros t; symmetry; apply sqd_upd_l; exact Hi.
  - auto_derive; [exact I | ring].
Qed.
Lemma is_derive_sqd_r d th x y i t0 : (i < d)%nat ->
  is_derive (fun t => sqd d th x (upd y i t)) t0 (- (2 * th i * (x i - t0))).
Proof.
  intros Hi. eapply is_derive_ext.
  - intros t; symmetry; apply sqd_upd_r; exact Hi.
  - auto_derive; [exact I | ring].
Qed.

(** [phi] has derivative [phi1] on the domain [D], possibly after an extension outside [D] *)
Definition deriv_on (D : R -> Prop) (phi phi1 : R -> R) : Prop :=
  exists e : R -> R, (forall s, D s -> e s = phi s) /\ (forall s, D s -> is_derive e s (phi1 s)).

Lemma deriv_on_comp D phi phi1 (u : R -> R) t0 du :
  deriv_on D phi phi1 -> (forall t, D (u t)) -> is_derive u t0 du ->
  is_derive (fun t => phi (u t)) t0 (du * phi1 (u t0)).
Proof.
  intros (e & E1 & E2) HD Hu. eapply is_derive_ext.
  - intros t. apply E1, HD.
  - apply (is_derive_comp e u t0 (phi1 (u t0)) du); [apply E2, HD | exact Hu].
Qed.
Lemma deriv_on_comp_loc D phi phi1 (u : R -> R) t0 du :
  deriv_on D phi phi1 -> D (u t0) -> locally t0 (fun t => D (u t)) -> is_derive u t0 du ->
  is_derive (fun t => phi (u t)) t0 (du * phi1 (u t0)).
Proof.
  intros (e & E1 & E2) HD0 HD Hu. apply (is_derive_ext_loc (fun t => e (u t))).
  - destruct HD as [eps He]. exists eps. intros t Ht. apply E1. apply He. exact Ht.
  - apply (is_derive_comp e u t0 (phi1 (u t0)) du); [apply E2, HD0 | exact Hu].
Qed.

Lemma is_derive_val (f : R -> R) x l l' : is_derive f x l -> l = l' -> is_derive f x l'.
Proof. intros H <-; exact H. Qed.

Ltac rnorm := unfold scal, plus, opp, minus, mult, zero, one; simpl; unfold scal, plus, opp, minus, mult, zero, one; simpl;
  match goal with |- @eq _ ?a ?b => change (@eq R a b) end.

Section radial_cov.
Variables (d : nat) (th : nat -> R) (D : R -> Prop) (phi phi1 phi2 : R -> R).
Hypothesis HD : forall x y, D (sqd d th x y).
Hypothesis H1 : deriv_on D phi phi1.
Hypothesis H2 : deriv_on D phi1 phi2.
Let k (x y : pt) := phi (sqd d th x y).

Lemma radial_d1 x y i : (i < d)%nat ->
  is_derive (fun t => k (upd x i t) y) (x i) (2 * th i * (x i - y i) * phi1 (sqd d th x y)).
Proof.
  intros Hi. unfold k.
  replace (phi1 (sqd d th x y)) with (phi1 (sqd d th (upd x i (x i)) y)).
  2:{ f_equal. rewrite sqd_upd_l by exact Hi. ring. }
  apply (deriv_on_comp D phi phi1 (fun t => sqd d th (upd x i t) y)); auto.
  apply is_derive_sqd_l; exact Hi.
Qed.
Lemma radial_d2 x y j : (j < d)%nat ->
  is_derive (fun t => k x (upd y j t)) (y j) (- (2 * th j * (x j - y j) * phi1 (sqd d th x y))).
Proof.
  intros Hj. unfold k.
  replace (- (2 * th j * (x j - y j) * phi1 (sqd d th x y)))
    with (- (2 * th j * (x j - y j)) * phi1 (sqd d th x (upd y j (y j)))).
  2:{ rewrite sqd_upd_r by exact Hj. replace (sqd d th x y - th j * (x j - y j) ^ 2 + th j * (x j - y j) ^ 2) with (sqd d th x y) by ring. ring. }
  apply (deriv_on_comp D phi phi1 (fun t => sqd d th x (upd y j t))); auto.
  apply is_derive_sqd_r; exact Hj.
Qed.
Lemma is_derive_coord (x : pt) i j : is_derive (fun t => upd x i t j) (x i) (delta i j).
Proof.
  unfold delta, upd. rewrite (Nat.eqb_sym j i). destruct (Nat.eqb_spec i j).
  - apply @is_derive_id.
  - apply @is_derive_const.
Qed.
Lemma radial_d12 x y i j : (i < d)%nat -> (j < d)%nat ->
  is_derive (fun t => - (2 * th j * (upd x i t j - y j) * phi1 (sqd d th (upd x i t) y))) (x i)
    (- (2 * th i * delta i j * phi1 (sqd d th x y)
        + 4 * th i * th j * (x i - y i) * (x j - y j) * phi2 (sqd d th x y))).
Proof.
  intros Hi Hj.
  assert (Hp : is_derive (fun t => phi1 (sqd d th (upd x i t) y)) (x i)
                 (2 * th i * (x i - y i) * phi2 (sqd d th x y))).
  { replace (phi2 (sqd d th x y)) with (phi2 (sqd d th (upd x i (x i)) y)).
    2:{ f_equal. rewrite sqd_upd_l by exact Hi. ring. }
    apply (deriv_on_comp D phi1 phi2 (fun t => sqd d th (upd x i t) y)); auto.
    apply is_derive_sqd_l; exact Hi. }
  assert (Hc := is_derive_coord x i j).
  assert (E0 : upd x i (x i) j = x j). { unfold upd. destruct (Nat.eqb_spec j i); subst; auto. }
  assert (E1 : sqd d th (upd x i (x i)) y = sqd d th x y) by (rewrite sqd_upd_l by exact Hi; ring).
  set (c := fun t => upd x i t j) in *. set (p := fun t => phi1 (sqd d th (upd x i t) y)) in *.
  assert (Hm : is_derive (fun t => (c t - y j) * p t) (x i)
     (delta i j * p (x i) + (c (x i) - y j) * (2 * th i * (x i - y i) * phi2 (sqd d th x y)))).
  { apply (is_derive_mult (fun t => c t - y j) p); [ | exact Hp | intros; apply Rmult_comm].
    replace (delta i j) with (delta i j - 0) by ring.
    apply (is_derive_minus c (fun _ => y j)); [exact Hc | apply @is_derive_const]. }
  apply (is_derive_scal _ _ (- (2 * th j))) in Hm.
  eapply is_derive_val; [eapply is_derive_ext; [ | exact Hm] | ].
  - intros t; unfold c, p, scal; simpl; unfold mult; simpl; ring.
  - unfold c, p. rewrite E0, E1. unfold delta. destruct (Nat.eqb_spec i j); [subst|]; unfold scal; simpl; unfold mult; simpl; ring.
Qed.

(** the entries of the block description are the covariances of the observations *)
Definition obs_at (X : nat -> pt) (sl : nat -> nat) (a : rix) : obs :=
  match a with F p => Val (X p) | G i p => Der i (X (sl p)) end.

Lemma rk_is_cov (X Y : nat -> pt) s1 s2 n1 g1 n2 g2 a b :
  rvalid n1 g1 d a -> rvalid n2 g2 d b ->
  is_cov (fun x y => phi (sqd d th x y)) (obs_at X s1 a) (obs_at Y s2 b)
    (rk th (fun i p q => X p i - Y q i)
        (fun p q => phi (sqd d th (X p) (Y q))) (fun p q => phi1 (sqd d th (X p) (Y q)))
        (fun p q => phi2 (sqd d th (X p) (Y q))) s1 s2 a b).
Proof.
  intros Ha Hb. destruct a as [p|i p], b as [q|j q]; simpl in *.
  - reflexivity.
  - apply radial_d2; tauto.
  - apply radial_d1; tauto.
  - exists (fun x' => - (2 * th j * (x' j - Y (s2 q) j) * phi1 (sqd d th x' (Y (s2 q))))). split.
    + intros x'. apply radial_d2; tauto.
    + apply radial_d12; tauto.
Qed.
End radial_cov.

(** ** layout of the observation list *)
Lemma nth_error_seq a n p : (p < n)%nat -> nth_error (seq a n) p = Some (a + p)%nat.
Proof.
  revert a p; induction n as [|n IH]; intros a p H; [lia|]. destruct p; simpl.
  - f_equal; lia.
  - rewrite IH by lia. f_equal; lia.
Qed.
Lemma true_idx_filter m : forall k,
  true_idx_from k m = filter (fun p => nth (p - k) m false) (seq k (length m)).
Proof.
  induction m as [|x m IH]; intros k; [reflexivity|].
  cbn [length seq filter]. replace (nth (k - k) (x :: m) false) with x by (rewrite Nat.sub_diag; reflexivity).
  assert (E : filter (fun p => nth (p - k) (x :: m) false) (seq (S k) (length m))
              = filter (fun p => nth (p - S k) m false) (seq (S k) (length m))).
  { apply filter_ext_in. intros p Hp. apply in_seq in Hp.
    replace (p - k)%nat with (S (p - S k)) by lia. reflexivity. }
  rewrite E. destruct x; cbn [true_idx_from]; rewrite IH; reflexivity.
Qed.
Lemma grad_points_length n b : mask_ok n b -> length (grad_points n b) = opt_count n b.
Proof.
  destruct b as [m|]; simpl; intros H.
  - rewrite <- H. rewrite <- (true_idx_from_length m 0), true_idx_filter.
    f_equal. apply filter_ext_in; intros p _. rewrite Nat.sub_0_r; reflexivity.
  - apply seq_length.
Qed.
Lemma grad_points_nth n b p : mask_ok n b -> (p < opt_count n b)%nat ->
  nth_error (grad_points n b) p = Some (osel b p).
Proof.
  destruct b as [m|]; simpl; intros H Hp.
  - unfold sel, true_idx. rewrite true_idx_filter, <- H.
    replace (filter (fun p0 => nth p0 m false) (seq 0 (length m)))
      with (filter (fun p0 => nth (p0 - 0) m false) (seq 0 (length m))).
    2:{ apply filter_ext_in; intros q _. rewrite Nat.sub_0_r; reflexivity. }
    rewrite <- true_idx_filter. apply nth_error_nth'. rewrite true_idx_from_length; exact Hp.
  - rewrite nth_error_seq by exact Hp. reflexivity.
Qed.
Lemma flat_map_nth {A} (f : nat -> list A) g d : (forall i, length (f i) = g) ->
  forall a i p, (i < d)%nat -> (p < g)%nat ->
  nth_error (flat_map f (seq a d)) (i * g + p) = nth_error (f (a + i)%nat) p.
Proof.
  intros Hl. induction d as [|d IH]; intros a i p Hi Hp; [lia|]. simpl.
  destruct i as [|i].
  - simpl. rewrite nth_error_app1 by (rewrite Hl; exact Hp). rewrite Nat.add_0_r. reflexivity.
  - rewrite nth_error_app2 by (rewrite Hl; simpl; lia). rewrite Hl.
    replace (S i * g + p - g)%nat with (i * g + p)%nat by (simpl; lia).
    rewrite IH by lia. f_equal. f_equal. lia.
Qed.
Lemma flat_map_len {A} (f : nat -> list A) g d : (forall i, length (f i) = g) ->
  forall a, length (flat_map f (seq a d)) = (g * d)%nat.
Proof.
  intros Hl. induction d as [|d IH]; intros a; simpl; [lia|]. rewrite app_length, IH, Hl. lia.
Qed.
Lemma observations_length n d X b : mask_ok n b ->
  length (observations n d X b) = (n + opt_count n b * d)%nat.
Proof.
  intros H. unfold observations. rewrite app_length, map_length, seq_length.
  rewrite (flat_map_len _ (opt_count n b)); [reflexivity|].
  intros i. rewrite map_length. apply grad_points_length; exact H.
Qed.
Lemma observations_nth n d X b a : mask_ok n b -> rvalid n (opt_count n b) d a ->
  nth_error (observations n d X b) (radr n (opt_count n b) a) = Some (obs_at X (osel b) a).
Proof.
  intros H Ha. unfold observations. destruct a as [p|i p]; simpl in *.
  - rewrite nth_error_app1 by (rewrite map_length, seq_length; exact Ha).
    erewrite map_nth_error; [|apply nth_error_seq; exact Ha]. reflexivity.
  - rewrite nth_error_app2 by (rewrite map_length, seq_length; lia).
    rewrite map_length, seq_length.
    replace (n + i * opt_count n b + p - n)%nat with (i * opt_count n b + p)%nat by lia.
    rewrite (flat_map_nth _ (opt_count n b) d); try tauto.
    + simpl. erewrite map_nth_error; [|apply grad_points_nth; tauto]. reflexivity.
    + intros j. rewrite map_length. apply grad_points_length; exact H.
Qed.
Lemma observations_inv n d X b r o : mask_ok n b ->
  nth_error (observations n d X b) r = Some o ->
  exists a, rvalid n (opt_count n b) d a /\ r = radr n (opt_count n b) a /\ o = obs_at X (osel b) a.
Proof.
  intros H E. assert (L : (r < n + opt_count n b * d)%nat).
  { rewrite <- (observations_length n d X b H). apply nth_error_Some. congruence. }
  destruct (unradr_ok n (opt_count n b) d r L) as [V A].
  exists (unradr n (opt_count n b) r). repeat split; auto.
  rewrite <- A in E. rewrite observations_nth in E by auto. congruence.
Qed.

(** from the block description to the covariance-matrix specification *)
Lemma bspec_is_cov_matrix d th (D : R -> Prop) phi phi1 phi2 X Y n1 n2 b1 b2 K :
  (forall x y, D (sqd d th x y)) -> deriv_on D phi phi1 -> deriv_on D phi1 phi2 ->
  mask_ok n1 b1 -> mask_ok n2 b2 ->
  bspec n1 (opt_count n1 b1) d n2 (opt_count n2 b2) d K
    (rk th (fun i p q => X p i - Y q i)
        (fun p q => phi (sqd d th (X p) (Y q))) (fun p q => phi1 (sqd d th (X p) (Y q)))
        (fun p q => phi2 (sqd d th (X p) (Y q))) (osel b1) (osel b2)) ->
  is_cov_matrix (fun x y => phi (sqd d th x y)) (observations n1 d X b1) (observations n2 d Y b2) K.
Proof.
  intros HD H1 H2 M1 M2 (B1 & B2 & B). repeat split.
  - rewrite observations_length; auto.
  - rewrite observations_length; auto.
  - intros r c oa ob Ea Eb.
    destruct (observations_inv _ _ _ _ _ _ M1 Ea) as (a & Va & -> & ->).
    destruct (observations_inv _ _ _ _ _ _ M2 Eb) as (b & Vb & -> & ->).
    rewrite B by auto. eapply rk_is_cov; eauto.
Qed.
