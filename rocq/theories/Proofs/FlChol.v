(** Rounding errors of the Cholesky factorisation and of the triangular solves. *)
From Coq Require Import Reals List Arith Bool Lia Lra Psatz.
From Verif.Base Require Import NpLite NpFacts.
From Verif.Spec Require Import KernelSpec LinAlgSpec FloatSpec.
From Verif.Model Require Import Chol CholFl.
From Verif.Proofs Require Import LinAlg CholCorrect.
Import ListNotations.
Local Open Scope R_scope.

Ltac rabs := repeat match goal with |- context [Rabs ?x] => unfold Rabs at 1; destruct (Rcase_abs x) end.

Lemma gam_0 u : gam u 0 = 0. Proof. unfold gam. cbn. lra. Qed.
Lemma gam_S u k : gam u (S k) = gam u k * (1 + u) + u.
Proof. unfold gam. cbn [pow]. ring. Qed.
Lemma gam_nonneg u k : 0 <= u -> 0 <= gam u k.
Proof. intros H. induction k; [rewrite gam_0; lra|]. rewrite gam_S. nra. Qed.
Lemma gam_mono u k m : 0 <= u -> (k <= m)%nat -> gam u k <= gam u m.
Proof. intros H. induction 1; [lra|]. rewrite gam_S. assert (X := gam_nonneg u m H). nra. Qed.

Lemma near_le u x y : 0 <= u -> near u x y -> Rabs x <= (1 + u) * Rabs y.
Proof. intros H (_ & N). assert (X := Rabs_triang_inv x y). rewrite Rabs_minus_sym in X. lra. Qed.
Lemma near_le' u x y : 0 <= u -> near u x y -> Rabs y <= (1 + u) * Rabs x.
Proof. intros H (N & _). assert (X := Rabs_triang_inv y x). lra. Qed.

(** one more product is subtracted *)
Lemma step_sub u g c S s T a b p s' : 0 <= u -> 0 <= g -> 0 <= T ->
  Rabs (c - S - s) <= g * (Rabs s + T) -> near u (a * b) p -> near u (s - p) s' ->
  Rabs (c - (S + a * b) - s') <= (g * (1 + u) + u) * (Rabs s' + (T + Rabs (a * b))).
Proof.
  intros Hu Hg HT H N1 N2. assert (M1 := near_le' _ _ _ Hu N1). assert (M2 := near_le _ _ _ Hu N2).
  destruct N1 as (N1 & _). destruct N2 as (_ & N2).
  assert (Ms : Rabs s <= (1 + u) * (Rabs s' + Rabs (a * b))).
  { replace s with ((s - p) + p) by ring. eapply Rle_trans; [apply Rabs_triang|]. lra. }
  replace (c - (S + a * b) - s') with ((c - S - s) + ((p - a * b) + (s - p - s'))) by ring.
  rewrite (Rabs_minus_sym s' (s - p)) in N2.
  eapply Rle_trans; [apply Rabs_triang|]. eapply Rle_trans; [apply Rplus_le_compat; [exact H|apply Rabs_triang]|].
  apply Rle_trans with (g * ((1 + u) * (Rabs s' + Rabs (a * b)) + (1 + u) * T) + (u * Rabs (a * b) + u * Rabs s')).
  - apply Rplus_le_compat; [apply Rmult_le_compat_l; nra | lra].
  - assert (0 <= Rabs s') by apply Rabs_pos. assert (0 <= Rabs (a * b)) by apply Rabs_pos. nra.
Qed.
Lemma step_div u g c S s T b y : 0 <= u -> 0 <= g -> 0 <= T -> b <> 0 ->
  Rabs (c - S - s) <= g * (Rabs s + T) -> near u (s / b) y ->
  Rabs (c - (S + y * b)) <= (g * (1 + u) + u) * (T + Rabs (y * b)).
Proof.
  intros Hu Hg HT Hb H N. assert (M := near_le _ _ _ Hu N). destruct N as (_ & N).
  assert (Hb' : 0 < Rabs b) by (apply Rabs_pos_lt, Hb).
  assert (E1 : Rabs s = Rabs (s / b) * Rabs b). { rewrite <- Rabs_mult. f_equal. field. exact Hb. }
  assert (E2 : Rabs (s - y * b) = Rabs (y - s / b) * Rabs b). { rewrite <- Rabs_mult, <- (Rabs_Ropp (s - y * b)). f_equal. field. exact Hb. }
  rewrite (Rabs_mult y b).
  assert (Ms : Rabs s <= (1 + u) * (Rabs y * Rabs b)) by (rewrite E1, <- Rmult_assoc; apply Rmult_le_compat_r; lra).
  assert (Ns : Rabs (s - y * b) <= u * (Rabs y * Rabs b)) by (rewrite E2, <- Rmult_assoc; apply Rmult_le_compat_r; lra).
  replace (c - (S + y * b)) with ((c - S - s) + (s - y * b)) by ring.
  eapply Rle_trans; [apply Rabs_triang|].
  assert (0 <= Rabs y * Rabs b) by (apply Rmult_le_pos; apply Rabs_pos).
  apply Rle_trans with (g * ((1 + u) * (Rabs y * Rabs b) + T) + u * (Rabs y * Rabs b)).
  2:{ set (q := Rabs y * Rabs b) in *. assert (0 <= u * T) by (apply Rmult_le_pos; lra). assert (0 <= u * (g * T)) by (apply Rmult_le_pos; [lra|apply Rmult_le_pos; lra]). lra. }
  apply Rplus_le_compat; [|exact Ns]. eapply Rle_trans; [exact H|]. apply Rmult_le_compat_l; lra.
Qed.
Lemma step_sqrt u g c S s T r : 0 <= u -> 0 <= g -> 0 <= T -> 0 < s ->
  Rabs (c - S - s) <= g * (Rabs s + T) -> near u (sqrt s) r ->
  Rabs (c - (S + r * r)) <= ((g * (1 + u) + u) * (1 + u) + u) * (T + r * r).
Proof.
  intros Hu Hg HT Hs H N. assert (M := near_le _ _ _ Hu N). destruct N as (_ & N).
  assert (Q : 0 < sqrt s) by (apply sqrt_lt_R0, Hs). assert (SS : sqrt s * sqrt s = s) by (apply sqrt_sqrt; lra).
  rewrite (Rabs_pos_eq (sqrt s)) in M by lra. rewrite (Rabs_pos_eq s) in H by lra.
  assert (RR : Rabs r * Rabs r = r * r) by (rewrite <- Rabs_mult; apply Rabs_pos_eq; nra).
  assert (Pr := Rabs_pos r).
  assert (Ms : s <= (1 + u) ^ 2 * (r * r)). { rewrite <- SS, <- RR. cbn [pow]. assert (sqrt s * sqrt s <= ((1 + u) * Rabs r) * ((1 + u) * Rabs r)) by (apply Rmult_le_compat; lra). nra. }
  assert (Ns : Rabs (s - r * r) <= (2 * u + u ^ 2) * (r * r)).
  { rewrite <- SS. replace (sqrt s * sqrt s - r * r) with ((r - sqrt s) * (r - sqrt s) - 2 * r * (r - sqrt s)) by ring.
    set (e := r - sqrt s) in *. assert (Pe := Rabs_pos e).
    eapply Rle_trans; [apply Rabs_triang|]. rewrite Rabs_Ropp, !Rabs_mult. rewrite (Rabs_pos_eq 2) by lra. rewrite <- RR.
    assert (Rabs e * Rabs e <= (u * Rabs r) * (u * Rabs r)) by (apply Rmult_le_compat; lra).
    assert (Rabs r * Rabs e <= Rabs r * (u * Rabs r)) by (apply Rmult_le_compat_l; lra). nra. }
  replace (c - (S + r * r)) with ((c - S - s) + (s - r * r)) by ring.
  eapply Rle_trans; [apply Rabs_triang|].
  assert (0 <= r * r) by nra.
  apply Rle_trans with (g * ((1 + u) ^ 2 * (r * r) + T) + (2 * u + u ^ 2) * (r * r)).
  - apply Rplus_le_compat; [|exact Ns]. eapply Rle_trans; [exact H|]. apply Rmult_le_compat_l; lra.
  - assert (0 <= g * T) by nra. assert (0 <= u * T) by nra. assert (0 <= u * (u * T)) by nra. assert (0 <= u * (g * T)) by nra. assert (0 <= u * (u * (g * T))) by nra.
    nra.
Qed.

(** ** bilinear forms with small coefficients *)
Lemma bform_small n E d x y e : 0 <= e -> (forall i, (i < n)%nat -> 0 <= d i) ->
  (forall i j, (i < n)%nat -> (j < n)%nat -> Rabs (E i j) <= e * (d i * d j)) ->
  Rabs (bform n E x y) <= e * INR n * (nrm n (fun i => d i * x i) * nrm n (fun i => d i * y i)).
Proof.
  intros He Hd HE.
  assert (B : Rabs (bform n E x y) <= e * (rsum n (fun i => d i * Rabs (x i)) * rsum n (fun j => d j * Rabs (y j)))).
  { rewrite rsum_mult. rewrite <- rsum_scal. unfold bform. eapply Rle_trans; [apply rsum_abs|]. apply rsum_le; intros i Hi.
    rewrite <- rsum_scal. eapply Rle_trans; [apply rsum_abs|]. apply rsum_le; intros j Hj.
    rewrite !Rabs_mult. assert (H := HE i j Hi Hj). assert (0 <= Rabs (x i)) by apply Rabs_pos. assert (0 <= Rabs (y j)) by apply Rabs_pos.
    apply Rle_trans with (Rabs (x i) * (e * (d i * d j)) * Rabs (y j)); [|right; ring].
    apply Rmult_le_compat_r; [assumption|]. apply Rmult_le_compat_l; assumption. }
  assert (S1 : forall z : nat -> R, rsum n (fun i => d i * Rabs (z i)) <= sqrt (INR n) * nrm n (fun i => d i * z i)).
  { intros z. assert (C := cauchy_schwarz_nrm n (fun _ => 1) (fun i => d i * Rabs (z i))).
    assert (E1 : nrm n (fun _ => 1) = sqrt (INR n)). { unfold nrm, dotp. f_equal. rewrite (rsum_const n (1 * 1)). ring. }
    assert (E2 : nrm n (fun i => d i * Rabs (z i)) = nrm n (fun i => d i * z i)).
    { unfold nrm, dotp. f_equal. apply rsum_ext; intros i Hi. replace (d i * Rabs (z i) * (d i * Rabs (z i))) with (d i * d i * (Rabs (z i) * Rabs (z i))) by ring.
      rewrite <- Rabs_mult, Rabs_pos_eq by nra. ring. }
    rewrite E1, E2 in C. eapply Rle_trans; [|exact C]. eapply Rle_trans; [|apply RRle_abs]. right. unfold dotp. apply rsum_ext; intros; ring. }
  eapply Rle_trans; [exact B|]. assert (SN : sqrt (INR n) * sqrt (INR n) = INR n) by (apply sqrt_sqrt, pos_INR).
  rewrite Rmult_assoc. apply Rmult_le_compat_l; [exact He|]. rewrite <- SN.
  replace (sqrt (INR n) * sqrt (INR n) * (nrm n (fun i => d i * x i) * nrm n (fun i => d i * y i)))
    with ((sqrt (INR n) * nrm n (fun i => d i * x i)) * (sqrt (INR n) * nrm n (fun i => d i * y i))) by ring.
  apply Rmult_le_compat; auto; apply rsum_nonneg; intros; apply Rmult_le_pos; auto; apply Rabs_pos.
Qed.

Lemma bform_sum n p F u v : bform n (fun i j => rsum p (fun k => F k i j)) u v = rsum p (fun k => bform n (F k) u v).
Proof.
  induction p; cbn [rsum].
  - unfold bform. apply rsum_0; intros. apply rsum_0; intros. ring.
  - rewrite (bform_madd n (fun i j => rsum p (fun k => F k i j)) (F p)), IHp. reflexivity.
Qed.
Lemma bform_below n m a v : (m <= n)%nat -> (forall i, (m <= i)%nat -> v i = 0) -> bform n a v v = bform m a v v.
Proof.
  intros H Z. unfold bform. replace n with (m + (n - m))%nat at 1 by lia. rewrite rsum_split.
  rewrite (rsum_0 (n - m)), Rplus_0_r.
  - apply rsum_ext; intros i Hi. replace n with (m + (n - m))%nat by lia. rewrite rsum_split, (rsum_0 (n - m)), Rplus_0_r; [reflexivity|].
    intros j Hj. rewrite (Z (m + j)%nat) by lia. ring.
  - intros i Hi. apply rsum_0; intros j Hj. rewrite (Z (m + i)%nat) by lia. ring.
Qed.
Lemma rsum_below n m f : (m <= n)%nat -> (forall i, (m <= i)%nat -> f i = 0) -> rsum n f = rsum m f.
Proof. intros H Z. replace n with (m + (n - m))%nat by lia. rewrite rsum_split, (rsum_0 (n - m)), Rplus_0_r; [reflexivity|]. intros; apply Z; lia. Qed.
(** Cauchy-Schwarz for the products of two rows *)
Lemma abs_products m f g p q : 0 <= p -> 0 <= q -> rsum m (fun k => f k * f k) <= p -> rsum m (fun k => g k * g k) <= q ->
  rsum m (fun k => Rabs (f k * g k)) <= sqrt p * sqrt q.
Proof.
  intros Hp Hq H1 H2. assert (C := cauchy_schwarz_nrm m (fun k => Rabs (f k)) (fun k => Rabs (g k))).
  assert (E : forall h : nat -> R, nrm m (fun k => Rabs (h k)) = sqrt (rsum m (fun k => h k * h k))).
  { intros h. unfold nrm, dotp. f_equal. apply rsum_ext; intros k _. rewrite <- Rabs_mult. apply Rabs_pos_eq. nra. }
  rewrite !E in C. apply Rle_trans with (Rabs (dotp m (fun k => Rabs (f k)) (fun k => Rabs (g k)))).
  - eapply Rle_trans; [|apply RRle_abs]. right. unfold dotp. apply rsum_ext; intros. apply Rabs_mult.
  - eapply Rle_trans; [exact C|]. apply Rmult_le_compat; try apply sqrt_pos; apply sqrt_le_1_alt; assumption.
Qed.

(** what the computed columns c < t of the factor satisfy *)
Definition diag_ok (G : R) (a L : nat -> nat -> R) (j : nat) : Prop :=
  0 < L j j /\ Rabs (a j j - rsum (S j) (fun k => L j k * L j k)) <= G * rsum (S j) (fun k => L j k * L j k).
Definition off_ok (G : R) (a L : nat -> nat -> R) (i j : nat) : Prop :=
  Rabs (a i j - rsum (S j) (fun k => L i k * L j k)) <= G * rsum (S j) (fun k => Rabs (L i k * L j k)).
Definition sqsum (L : nat -> nat -> R) (i m : nat) : R := rsum m (fun k => L i k * L i k).
Lemma sqsum_nonneg L i m : 0 <= sqsum L i m. Proof. apply rsum_nonneg; intros; nra. Qed.
Lemma sqsum_mono L i m m' : (m <= m')%nat -> sqsum L i m <= sqsum L i m'.
Proof. intros H. unfold sqsum. replace m' with (m + (m' - m))%nat by lia. rewrite rsum_split. assert (0 <= rsum (m' - m) (fun j => L i (m + j)%nat * L i (m + j)%nat)) by (apply rsum_nonneg; intros; nra). lra. Qed.
Lemma diag_row G a L j : 0 <= G < 1 -> diag_ok G a L j -> sqsum L j (S j) <= a j j / (1 - G).
Proof.
  intros HG (_ & H). fold (sqsum L j (S j)) in H. apply Rmult_le_reg_r with (1 - G); [lra|]. replace (a j j / (1 - G) * (1 - G)) with (a j j) by (field; lra).
  assert (X := Rle_abs (-(a j j - sqsum L j (S j)))). rewrite Rabs_Ropp in X. lra.
Qed.
Lemma off_err G a L q i j : 0 <= G < 1 -> 0 <= q i -> 0 <= q j -> off_ok G a L i j ->
  sqsum L i (S j) <= q i / (1 - G) -> sqsum L j (S j) <= q j / (1 - G) ->
  Rabs (rsum (S j) (fun k => L i k * L j k) - a i j) <= G / (1 - G) * (sqrt (q i) * sqrt (q j)).
Proof.
  intros HG Hi Hj H H1 H2. rewrite Rabs_minus_sym. eapply Rle_trans; [exact H|].
  assert (D : forall x, 0 <= x -> 0 <= x / (1 - G)). { intros x Hx. apply Rmult_le_pos; [exact Hx|]. left. apply Rinv_0_lt_compat. lra. }
  assert (A := abs_products (S j) (L i) (L j) _ _ (D _ Hi) (D _ Hj) H1 H2).
  rewrite !sqrt_div_alt in A by lra. assert (SS : sqrt (1 - G) * sqrt (1 - G) = 1 - G) by (apply sqrt_sqrt; lra).
  assert (SP : 0 < sqrt (1 - G)) by (apply sqrt_lt_R0; lra).
  apply Rle_trans with (G * (sqrt (q i) / sqrt (1 - G) * (sqrt (q j) / sqrt (1 - G)))); [apply Rmult_le_compat_l; [lra|exact A]|].
  right. set (r := sqrt (1 - G)) in *. rewrite <- SS. field. lra.
Qed.
Lemma low_rows t L i j : (j < t)%nat -> (j <= i)%nat -> rsum t (fun k => low L i k * low L j k) = rsum (S j) (fun k => L i k * L j k).
Proof.
  intros Ht Hij. rewrite (rsum_ext t _ (fun k => low L j k * low L i k)) by (intros; ring). rewrite rsum_low_l by exact Ht.
  apply rsum_ext; intros k Hk. unfold low. destruct (Nat.leb_spec k i); [ring|lia].
Qed.

(** A pivot that is computed from accurate columns is positive, if the matrix is positive definite by a margin. *)
Lemma no_breakdown n G lam a L s t :
  (t < n)%nat -> symf n a -> 0 <= G < 1 -> INR (S t) * (G / (1 - G)) < lam ->
  (forall i, (i < n)%nat -> 0 < a i i) ->
  (forall v, lam * rsum n (fun i => a i i * (v i * v i)) <= bform n a v v) ->
  (forall j, (j < t)%nat -> diag_ok G a L j) -> (forall i j, (j < t)%nat -> (j < i)%nat -> (i < n)%nat -> off_ok G a L i j) ->
  Rabs (a t t - sqsum L t t - s) <= G * (Rabs s + sqsum L t t) -> 0 < s.
Proof.
  intros Ht HS HG HL HP HM HD HO HT. destruct (Rlt_or_le 0 s) as [|Hs]; [assumption|exfalso].
  assert (HG1 : 0 <= G / (1 - G)). { apply Rmult_le_pos; [lra|]. left. apply Rinv_0_lt_compat. lra. }
  assert (HL1 : lam <= 1).
  { assert (X := HM (fun k => if (k =? t)%nat then 1 else 0)). rewrite bform_unit in X by assumption.
    rewrite (rsum_single n t) in X; [|assumption|intros i _ Hi; destruct (Nat.eqb_spec i t); [contradiction|ring]]. rewrite Nat.eqb_refl in X.
    assert (P := HP t Ht). nra. }
  set (w := sqsum L t t) in *. assert (Hw : 0 <= w) by apply sqsum_nonneg.
  set (q := fun i => if (i =? t)%nat then Rmax (a t t) w else a i i).
  assert (Qt : q t = Rmax (a t t) w) by (unfold q; rewrite Nat.eqb_refl; reflexivity).
  assert (Qi : forall i, i <> t -> q i = a i i). { intros i Hi. unfold q. destruct (Nat.eqb_spec i t); [contradiction|reflexivity]. }
  assert (Qa : forall i, (i < n)%nat -> a i i <= q i). { intros i Hi. unfold q. destruct (Nat.eqb_spec i t) as [->|]; [apply Rmax_l|lra]. }
  assert (Qp : forall i, (i < n)%nat -> 0 < q i). { intros i Hi. assert (X := Qa i Hi). assert (Y := HP i Hi). lra. }
  assert (QW : forall x, 0 <= x -> x <= x / (1 - G)).
  { intros x Hx. apply Rmult_le_reg_r with (1 - G); [lra|]. replace (x / (1 - G) * (1 - G)) with x by (field; lra). nra. }
  (* the null vector of the computed rows *)
  set (x := fun i => if (i <? t)%nat then bsub L (fun k => - L t k) t t (fun _ => 0) i else if (i =? t)%nat then 1 else 0).
  assert (Xt : x t = 1). { unfold x. rewrite Nat.ltb_irrefl, Nat.eqb_refl. reflexivity. }
  assert (X0 : forall i, (S t <= i)%nat -> x i = 0). { intros i Hi. unfold x. destruct (Nat.ltb_spec i t); [lia|]. destruct (Nat.eqb_spec i t); [lia|reflexivity]. }
  assert (NUL : forall k, (k < t)%nat -> dotp (S t) (fun i => low L i k) x = 0).
  { intros k Hk. unfold dotp. cbn [rsum]. rewrite Xt. unfold low at 2. destruct (Nat.leb_spec k t); [|lia].
    rewrite (rsum_ext t _ (fun i => low L i k * bsub L (fun k => - L t k) t t (fun _ => 0) i)).
    2:{ intros i Hi. unfold x. destruct (Nat.ltb_spec i t); [reflexivity|lia]. }
    rewrite (rsum_low_t t L k _ Hk), bsub_ok; [ring| |lia|exact Hk]. intros i Hi. destruct (HD i Hi). lra. }
  set (M := fun i j => rsum t (fun k => low L i k * low L j k)).
  assert (MZ : bform (S t) M x x = 0).
  { unfold M. rewrite (bform_sum (S t) t (fun k i j => low L i k * low L j k)). apply rsum_0; intros k Hk. rewrite (bform_rank1 (S t) (fun i => low L i k)), NUL by exact Hk. ring. }
  set (a' := fun i j => a i j + (if ((i =? t) && (j =? t))%nat then q t - a t t else 0)).
  set (E := fun i j => M i j - a' i j).
  assert (MT : M t t = w).
  { unfold M, w, sqsum. apply rsum_ext; intros k Hk. unfold low. destruct (Nat.leb_spec k t); [reflexivity|lia]. }
  assert (ROW : forall i j, (j <= i)%nat -> (i < S t)%nat -> (j < t)%nat -> sqsum L i (S j) <= q i / (1 - G)).
  { intros i j Hij Hi Hj. destruct (Nat.eq_dec i t) as [->|Hne].
    - eapply Rle_trans; [apply (sqsum_mono L t (S j) t); lia|]. fold w. apply Rle_trans with (q t); [rewrite Qt; apply Rmax_r|]. apply QW. left; apply Qp; lia.
    - rewrite Qi by exact Hne. eapply Rle_trans; [apply (sqsum_mono L i (S j) (S i)); lia|]. apply diag_row; [exact HG|]. apply HD; lia. }
  assert (EB1 : forall i j, (j <= i)%nat -> (i < S t)%nat -> Rabs (E i j) <= G / (1 - G) * (sqrt (q i) * sqrt (q j))).
  { intros i j Hij Hi. unfold E, a'. destruct (Nat.eq_dec j t) as [->|Hjt].
    - assert (i = t) by lia. subst i. rewrite MT, !Nat.eqb_refl, sqrt_sqrt by (left; apply Qp; lia). cbn [andb].
      replace (w - (a t t + (q t - a t t))) with (- (q t - w)) by ring. rewrite Rabs_Ropp, Rabs_pos_eq by (rewrite Qt; assert (X := Rmax_r (a t t) w); lra).
      assert (X := Rle_abs (a t t - w - s)). rewrite (Rabs_left1 s) in HT by lra.
      assert (Y : a t t - w <= G * w) by nra.
      apply Rle_trans with (G * q t); [|apply Rmult_le_compat_r; [left; apply Qp; lia|]].
      + rewrite Qt. unfold Rmax. destruct (Rle_dec (a t t) w); nra.
      + apply QW. lra.
    - replace ((i =? t) && (j =? t))%nat with false by (destruct (Nat.eqb_spec j t); [contradiction|rewrite andb_false_r; reflexivity]). rewrite Rplus_0_r.
      unfold M. rewrite low_rows by lia.
      destruct (Nat.eq_dec i j) as [->|Hne].
      + rewrite sqrt_sqrt by (left; apply Qp; lia). rewrite Qi by lia. destruct (HD j) as (_ & X); [lia|]. rewrite Rabs_minus_sym. eapply Rle_trans; [exact X|].
        fold (sqsum L j (S j)). assert (Y := diag_row G a L j HG (HD j ltac:(lia))). replace (G / (1 - G) * a j j) with (G * (a j j / (1 - G))) by (field; lra). apply Rmult_le_compat_l; [lra|exact Y].
      + apply off_err; auto; try (left; apply Qp; lia). apply HO; lia. apply ROW; lia. apply ROW; lia. }
  assert (EB : forall i j, (i < S t)%nat -> (j < S t)%nat -> Rabs (E i j) <= G / (1 - G) * (sqrt (q i) * sqrt (q j))).
  { intros i j Hi Hj. destruct (le_lt_dec j i) as [Hij|Hij]; [apply EB1; lia|].
    replace (E i j) with (E j i); [rewrite (Rmult_comm (sqrt (q i))); apply EB1; lia|]. unfold E, M, a'. rewrite (HS j i), andb_comm by lia.
    f_equal. apply rsum_ext; intros; ring. }
  assert (B := bform_small (S t) E (fun i => sqrt (q i)) x x (G / (1 - G)) HG1 (fun i _ => sqrt_pos _) EB).
  rewrite nrm_sq in B.
  assert (DQ : dotp (S t) (fun i => sqrt (q i) * x i) (fun i => sqrt (q i) * x i) = rsum (S t) (fun i => q i * (x i * x i))).
  { unfold dotp. apply rsum_ext; intros i Hi. assert (X := Qp i ltac:(lia)). replace (sqrt (q i) * x i * (sqrt (q i) * x i)) with (sqrt (q i) * sqrt (q i) * (x i * x i)) by ring. rewrite sqrt_sqrt by lra. reflexivity. }
  rewrite DQ in B. set (Q := rsum (S t) (fun i => q i * (x i * x i))) in *.
  assert (QP : 0 < Q).
  { unfold Q. cbn [rsum]. rewrite Xt. assert (X := Qp t Ht). assert (0 <= rsum t (fun i => q i * (x i * x i))); [|lra].
    apply rsum_nonneg; intros i Hi. assert (Y := Qp i ltac:(lia)). assert (0 <= x i * x i) by nra. nra. }
  assert (FE : bform (S t) E x x = - bform (S t) a' x x).
  { unfold E. rewrite (bform_ext (S t) _ (fun i j => M i j + (-1) * a' i j) x x x x) by (intros; auto; ring). rewrite bform_madd, bform_mscal, MZ. ring. }
  assert (FA : lam * Q <= bform (S t) a' x x).
  { unfold a'. rewrite bform_madd. rewrite <- (bform_below n (S t) a x) by (assumption || lia).
    assert (X := HM x). rewrite (rsum_below n (S t)) in X by (try lia; intros i Hi; rewrite X0 by exact Hi; ring).
    rewrite (bform_ext (S t) (fun i j => if ((i =? t) && (j =? t))%nat then q t - a t t else 0) (fun i j => if (i =? j)%nat then (if (i =? t)%nat then q t - a t t else 0) else 0) x x x x).
    2:{ intros i j Hi Hj. destruct (Nat.eqb_spec i j) as [->|]; [destruct (j =? t)%nat; reflexivity|]. destruct (Nat.eqb_spec i t), (Nat.eqb_spec j t); try reflexivity. lia. }
    2, 3: reflexivity.
    rewrite bform_diag. rewrite (rsum_single (S t) t); [|lia|intros i Hi Hne; destruct (Nat.eqb_spec i t); [contradiction|ring]]. rewrite Nat.eqb_refl, Xt.
    unfold Q. cbn [rsum]. cbn [rsum] in X. rewrite Xt in *.
    rewrite (rsum_ext t (fun i => q i * (x i * x i)) (fun i => a i i * (x i * x i))) by (intros i Hi; rewrite Qi by lia; reflexivity).
    assert (Y := Qa t Ht). nra. }
  rewrite FE, Rabs_Ropp in B. assert (X := Rle_abs (bform (S t) a' x x)). nra.
Qed.

(** ** the factorisation *)
Lemma diag_ok_ext G a L L' j : (forall k, (k <= j)%nat -> L' j k = L j k) -> diag_ok G a L j -> diag_ok G a L' j.
Proof.
  intros H (P & Q). unfold diag_ok. rewrite H by lia. split; [exact P|].
  rewrite (rsum_ext (S j) (fun k => L' j k * L' j k) (fun k => L j k * L j k)) by (intros; rewrite H by lia; reflexivity). exact Q.
Qed.
Lemma off_ok_ext G a L L' i j : (forall k, (k <= j)%nat -> L' i k = L i k /\ L' j k = L j k) -> off_ok G a L i j -> off_ok G a L' i j.
Proof.
  intros H Q. unfold off_ok.
  rewrite (rsum_ext (S j) (fun k => L' i k * L' j k) (fun k => L i k * L j k)) by (intros k Hk; destruct (H k) as (-> & ->); [lia|reflexivity]).
  rewrite (rsum_ext (S j) (fun k => Rabs (L' i k * L' j k)) (fun k => Rabs (L i k * L j k))) by (intros k Hk; destruct (H k) as (-> & ->); [lia|reflexivity]). exact Q.
Qed.
Lemma sq_abs (L : nat -> nat -> R) i m : rsum m (fun k => Rabs (L i k * L i k)) = rsum m (fun k => L i k * L i k).
Proof. apply rsum_ext; intros. apply Rabs_pos_eq. nra. Qed.
Lemma near_sqrt_pos u p r : 0 <= u < 1 -> 0 < p -> near u (sqrt p) r -> 0 < r.
Proof.
  intros Hu Hp (N & _). assert (Q : 0 < sqrt p) by (apply sqrt_lt_R0, Hp). rewrite (Rabs_pos_eq (sqrt p)) in N by lra.
  assert (X := Rle_abs (- (r - sqrt p))). rewrite Rabs_Ropp in X. nra.
Qed.

(** sums over lists *)
Lemma total_app l1 l2 : total (l1 ++ l2) = total l1 + total l2.
Proof. unfold total. induction l1 as [|x l1 IH]; cbn [app fold_right]; [ring|]. rewrite IH. ring. Qed.
Lemma total_seq (f : nat -> R) n : total (map f (seq 0 n)) = rsum n f.
Proof. induction n as [|n IH]; [reflexivity|]. rewrite seq_S, map_app, total_app, IH. cbn [map total fold_right rsum Nat.add]. unfold total. cbn [fold_right]. ring. Qed.
Lemma pairs_length f g m : length (pairs f g m) = m. Proof. unfold pairs. rewrite map_length, seq_length. reflexivity. Qed.
Lemma pairs_sum f g m : sum_products (pairs f g m) = rsum m (fun k => f k * g k).
Proof. unfold sum_products, pairs. rewrite map_map. apply total_seq. Qed.
Lemma pairs_abs f g m : sum_abs_products (pairs f g m) = rsum m (fun k => Rabs (f k * g k)).
Proof. unfold sum_abs_products, pairs. rewrite map_map. apply total_seq. Qed.
Lemma pairs_ext f g f' g' m : (forall j, (j < m)%nat -> f j = f' j /\ g j = g' j) -> pairs f g m = pairs f' g' m.
Proof. intros H. unfold pairs. apply map_ext_in. intros k Hk. apply in_seq in Hk. destruct (H k ltac:(lia)) as (-> & ->). reflexivity. Qed.
Lemma res_err u ar i j c f g m : rounds u ar ->
  Rabs (c - rsum m (fun k => f k * g k) - f_res ar i j c (pairs f g m)) <= gam u m * (Rabs (f_res ar i j c (pairs f g m)) + rsum m (fun k => Rabs (f k * g k))).
Proof. intros RO. assert (X := ro_res _ _ RO i j c (pairs f g m)). rewrite pairs_length, pairs_sum, pairs_abs in X. exact X. Qed.
Lemma gam_SS u k : gam u (S (S k)) = gam u k * (1 + gam u 2) + gam u 2.
Proof. unfold gam. cbn [pow]. ring. Qed.

Lemma chol_steps_fl_ok u ar n lam A a m : forall k L,
  rounds u ar -> (k + m = n)%nat -> symf n A -> (forall i j, (i < n)%nat -> (j < n)%nat -> a i j = A i j) -> gam u (n + 1) < 1 -> INR n * chol_err u n < lam ->
  (forall i, (i < n)%nat -> 0 < A i i) -> (forall v, lam * rsum n (fun i => A i i * (v i * v i)) <= bform n A v v) ->
  (forall j, (j < k)%nat -> diag_ok (gam u (n + 1)) A L j) ->
  (forall i j, (j < k)%nat -> (j < i)%nat -> (i < n)%nat -> off_ok (gam u (n + 1)) A L i j) ->
  exists L', chol_steps_fl ar m k a L = Ok L' /\ (forall j, (j < n)%nat -> diag_ok (gam u (n + 1)) A L' j) /\
    (forall i j, (j < i)%nat -> (i < n)%nat -> off_ok (gam u (n + 1)) A L' i j).
Proof.
  induction m as [|m IH]; intros k L RO E HS EA HG HL HP HM HD HO; set (G := gam u (n + 1)) in *.
  - assert (k = n) by lia. subst k. exists L. split; [reflexivity|]. split; [exact HD|]. intros i j H1 H2. apply HO; lia.
  - assert (Hk : (k < n)%nat) by lia. assert (Hu := ro_u _ _ RO).
    assert (HG0 : 0 <= G) by (apply gam_nonneg, Hu).
    assert (HU : u < 1). { assert (X := gam_mono u 1 (n + 1) Hu ltac:(lia)). rewrite gam_S, gam_0 in X. fold G in X. lra. }
    assert (GE : 0 <= G / (1 - G)). { apply Rmult_le_pos; [lra|]. left. apply Rinv_0_lt_compat. lra. }
    assert (HGk : gam u k <= G) by (apply gam_mono; [exact Hu|lia]). assert (Hgk : 0 <= gam u k) by (apply gam_nonneg, Hu).
    set (p := f_res ar k k (a k k) (pairs (L k) (L k) k)).
    assert (X := res_err u ar k k (a k k) (L k) (L k) k RO). fold p in X. rewrite EA in X by exact Hk.
    assert (Pp : 0 < p).
    { apply (no_breakdown n G lam A L p k Hk HS (conj HG0 HG)); auto.
      - eapply Rle_lt_trans; [|exact HL]. unfold chol_err. fold G. apply Rmult_le_compat_r; [exact GE|]. apply le_INR. lia.
      - rewrite sq_abs in X. fold (sqsum L k k) in X. eapply Rle_trans; [exact X|].
        apply Rmult_le_compat_r; [|exact HGk]. assert (Y := sqsum_nonneg L k k). assert (Z := Rabs_pos p). lra. }
    cbn [chol_steps_fl]. cbv zeta. fold p. destruct (Rlt_dec 0 p) as [_|N]; [|contradiction].
    set (r := f_sqrt ar p). assert (Nr : near u (sqrt p) r) by (apply (ro_sqrt _ _ RO); lra).
    assert (Pr : 0 < r) by (apply (near_sqrt_pos u p); auto).
    set (l := fun i => if (i =? k)%nat then r else f_quo ar (f_res ar i k (a i k) (pairs (L i) (L k) k)) r).
    set (L1 := fun i j => if (j =? k)%nat then l i else L i j).
    assert (lk : l k = r) by (unfold l; rewrite Nat.eqb_refl; reflexivity).
    assert (LO : forall i c, (c < k)%nat -> L1 i c = L i c). { intros i c Hc. unfold L1. destruct (Nat.eqb_spec c k); [lia|reflexivity]. }
    assert (LN : forall i, L1 i k = l i). { intros i. unfold L1. rewrite Nat.eqb_refl. reflexivity. }
    assert (SL : forall (f : R -> R) i j, rsum (S k) (fun c => f (L1 i c * L1 j c)) = rsum k (fun c => f (L i c * L j c)) + f (l i * l j)).
    { intros f i j. cbn [rsum]. rewrite !LN. f_equal. apply rsum_ext; intros c Hc. rewrite !LO by exact Hc. reflexivity. }
    assert (TN : forall i j, 0 <= rsum k (fun c => Rabs (L i c * L j c))) by (intros; apply rsum_nonneg; intros; apply Rabs_pos).
    assert (GSS : gam u (S (S k)) <= G) by (apply gam_mono; [exact Hu|lia]).
    apply (IH (S k) L1 RO); auto; try lia.
    + intros j Hj. destruct (Nat.eq_dec j k) as [->|Hne].
      * split; [rewrite LN, lk; exact Pr|]. rewrite (SL (fun t => t) k k), lk.
        assert (Y := step_sqrt u (gam u k) _ _ _ _ r Hu Hgk (TN k k) Pp X Nr).
        rewrite sq_abs in Y. rewrite <- !gam_S in Y. eapply Rle_trans; [exact Y|]. apply Rmult_le_compat_r; [|exact GSS].
        assert (Z := sqsum_nonneg L k k). unfold sqsum in Z. nra.
      * apply (diag_ok_ext G A L); [|apply HD; lia]. intros c Hc. apply LO. lia.
    + intros i j Hj Hji Hi. destruct (Nat.eq_dec j k) as [->|Hne].
      * unfold off_ok. rewrite (SL (fun t => t) i k), (SL Rabs i k), lk.
        assert (W := res_err u ar i k (a i k) (L i) (L k) k RO). set (q := f_res ar i k (a i k) (pairs (L i) (L k) k)) in *. rewrite EA in W by assumption.
        assert (Ny : near (gam u 2) (q / r) (l i)). { unfold l. destruct (Nat.eqb_spec i k); [lia|]. apply (ro_quo _ _ RO). lra. }
        assert (Y := step_div (gam u 2) (gam u k) _ _ _ _ r (l i) (gam_nonneg u 2 Hu) Hgk (TN i k) ltac:(lra) W Ny). rewrite <- gam_SS in Y.
        eapply Rle_trans; [exact Y|]. apply Rmult_le_compat_r; [|exact GSS]. assert (Z := TN i k). assert (Z' := Rabs_pos (l i * r)). lra.
      * apply (off_ok_ext G A L); [|apply HO; lia]. intros c Hc. split; apply LO; lia.
Qed.

(** all entries of L L^T *)
Lemma product_err n G A L : symf n A -> 0 <= G < 1 -> (forall i, (i < n)%nat -> 0 < A i i) ->
  (forall j, (j < n)%nat -> diag_ok G A L j) -> (forall i j, (j < i)%nat -> (i < n)%nat -> off_ok G A L i j) ->
  forall i j, (i < n)%nat -> (j < n)%nat ->
  Rabs (rsum n (fun k => low L i k * low L j k) - A i j) <= G / (1 - G) * (sqrt (A i i) * sqrt (A j j)).
Proof.
  intros HS HG HP HD HO.
  assert (H : forall i j, (j <= i)%nat -> (i < n)%nat -> Rabs (rsum n (fun k => low L i k * low L j k) - A i j) <= G / (1 - G) * (sqrt (A i i) * sqrt (A j j))).
  { intros i j Hij Hi. rewrite low_rows by lia. destruct (Nat.eq_dec i j) as [->|Hne].
    - rewrite sqrt_sqrt by (left; apply HP; lia). destruct (HD j) as (_ & X); [lia|]. rewrite Rabs_minus_sym. eapply Rle_trans; [exact X|].
      fold (sqsum L j (S j)). assert (Y := diag_row G A L j HG (HD j ltac:(lia))). replace (G / (1 - G) * A j j) with (G * (A j j / (1 - G))) by (field; lra). apply Rmult_le_compat_l; [lra|exact Y].
    - apply (off_err G A L (fun i => A i i)); auto; try (left; apply HP; lia). apply HO; lia.
      + eapply Rle_trans; [apply (sqsum_mono L i (S j) (S i)); lia|]. apply diag_row; auto.
      + apply diag_row; auto. apply HD; lia. }
  intros i j Hi Hj. destruct (le_lt_dec j i) as [Hij|Hij]; [apply H; lia|].
  rewrite (HS i j), (Rmult_comm (sqrt (A i i))) by lia. rewrite (rsum_ext n _ (fun k => low L j k * low L i k)) by (intros; ring). apply H; lia.
Qed.

(** ** the triangular solves *)
Lemma fsub_fl_lt ar L b n : forall m i, (i < n)%nat -> (n <= m)%nat -> fsub_fl ar L b m i = fsub_fl ar L b n i.
Proof.
  intros m i Hi Hm. induction m as [|m IH]; [lia|]. destruct (Nat.eq_dec n (S m)) as [->|Hne]; [reflexivity|].
  cbn [fsub_fl]. unfold fupd at 1. destruct (Nat.eqb_spec i m); [lia|]. apply IH. lia.
Qed.
Lemma fsub_fl_err u ar L b n : rounds u ar -> (forall i, (i < n)%nat -> L i i <> 0) ->
  forall i, (i < n)%nat -> Rabs (b i - rsum n (fun j => low L i j * fsub_fl ar L b n j)) <= gam u (n + 1) * rsum n (fun j => Rabs (low L i j) * Rabs (fsub_fl ar L b n j)).
Proof.
  intros RO HD i Hi. assert (Hu := ro_u _ _ RO). set (y := fsub_fl ar L b n).
  rewrite (rsum_low_l n L i y Hi). rewrite (rsum_ext n _ (fun j => low (fun i j => Rabs (L i j)) i j * Rabs (y j))).
  2:{ intros j Hj. f_equal. unfold low. destruct (j <=? i)%nat; [reflexivity|apply Rabs_R0]. }
  rewrite (rsum_low_l n (fun i j => Rabs (L i j)) i _ Hi).
  assert (E : forall j, (j < S i)%nat -> y j = fsub_fl ar L b (S i) j) by (intros; unfold y; apply fsub_fl_lt; lia).
  assert (Ei : y i = f_quo ar (f_res ar i 0 (b i) (pairs (L i) y i)) (L i i)).
  { rewrite E by lia. cbn [fsub_fl]. unfold fupd at 1. rewrite Nat.eqb_refl. f_equal. apply f_equal. apply pairs_ext. intros j Hj. split; [reflexivity|].
    rewrite E by lia. rewrite (fsub_fl_lt ar L b i (S i) j) by lia. reflexivity. }
  cbn [rsum].
  assert (N : near (gam u 2) (f_res ar i 0 (b i) (pairs (L i) y i) / L i i) (y i)) by (rewrite Ei; apply (ro_quo _ _ RO), HD, Hi).
  assert (Y := step_div (gam u 2) (gam u i) (b i) _ _ _ (L i i) (y i) (gam_nonneg u 2 Hu) (gam_nonneg u i Hu) (rsum_nonneg i _ (fun j _ => Rabs_pos _)) (HD i Hi) (res_err u ar i 0 (b i) (L i) y i RO) N).
  rewrite <- gam_SS in Y. rewrite (Rmult_comm (L i i)), (Rmult_comm (Rabs (L i i))), <- (Rabs_mult (y i)). eapply Rle_trans; [exact Y|].
  rewrite (rsum_ext i (fun j => Rabs (L i j) * Rabs (y j)) (fun j => Rabs (L i j * y j))) by (intros; symmetry; apply Rabs_mult).
  apply Rmult_le_compat_r; [|apply gam_mono; [exact Hu|lia]].
  assert (0 <= rsum i (fun j => Rabs (L i j * y j))) by (apply rsum_nonneg; intros; apply Rabs_pos). assert (Z := Rabs_pos (y i * L i i)). lra.
Qed.
Lemma bsub_fl_ge ar L y n : forall m x i, (m <= i)%nat -> bsub_fl ar L y n m x i = x i.
Proof.
  induction m as [|m IH]; intros x i Hi; [reflexivity|]. cbn [bsub_fl]. rewrite IH by lia.
  unfold fupd. destruct (Nat.eqb_spec i m); [lia|reflexivity].
Qed.
Lemma bsub_fl_step u ar L y n : rounds u ar -> (forall i, (i < n)%nat -> L i i <> 0) ->
  forall m x, (m <= n)%nat -> forall k, (k < m)%nat ->
  Rabs (y k - rsum (n - k) (fun j => L (k + j)%nat k * bsub_fl ar L y n m x (k + j)%nat)) <=
  gam u (n - k + 1) * rsum (n - k) (fun j => Rabs (L (k + j)%nat k * bsub_fl ar L y n m x (k + j)%nat)).
Proof.
  intros RO HD. assert (Hu := ro_u _ _ RO). induction m as [|m IH]; intros x Hm k Hk; [lia|]. cbn [bsub_fl].
  set (s := f_res ar m 1 (y m) (pairs (fun j => L (S m + j)%nat m) (fun j => x (S m + j)%nat) (n - S m))).
  set (x' := fupd x m (f_quo ar s (L m m))).
  destruct (Nat.eq_dec k m) as [->|Hne]; [|apply IH; lia].
  replace (n - m)%nat with (1 + (n - S m))%nat by lia. rewrite !rsum_split. cbn [rsum]. rewrite Nat.add_0_r.
  rewrite bsub_fl_ge by lia.
  assert (X : forall j, bsub_fl ar L y n m x' (m + (1 + j))%nat = x (S m + j)%nat).
  { intros j. replace (m + (1 + j))%nat with (S m + j)%nat by lia. rewrite bsub_fl_ge by lia. unfold x', fupd. destruct (Nat.eqb_spec (S m + j) m); [lia|reflexivity]. }
  rewrite (rsum_ext (n - S m) _ (fun j => L (S m + j)%nat m * x (S m + j)%nat)) by (intros j _; rewrite X; do 2 f_equal; lia).
  rewrite (rsum_ext (n - S m) (fun j => Rabs _) (fun j => Rabs (L (S m + j)%nat m * x (S m + j)%nat))) by (intros j _; rewrite X; do 3 f_equal; lia).
  unfold x' at 1 2, fupd at 1 2. rewrite Nat.eqb_refl. set (t := f_quo ar s (L m m)).
  assert (N : near (gam u 2) (s / L m m) t) by (apply (ro_quo _ _ RO), HD; lia).
  assert (Y := step_div (gam u 2) (gam u (n - S m)) (y m) _ _ _ (L m m) t (gam_nonneg u 2 Hu) (gam_nonneg u _ Hu) (rsum_nonneg (n - S m) _ (fun j _ => Rabs_pos _)) (HD m ltac:(lia))
    (res_err u ar m 1 (y m) (fun j => L (S m + j)%nat m) (fun j => x (S m + j)%nat) (n - S m) RO) N).
  rewrite <- gam_SS in Y. replace (1 + (n - S m) + 1)%nat with (S (S (n - S m))) by lia. rewrite (Rmult_comm (L m m) t), !Rplus_0_l.
  replace (t * L m m + rsum (n - S m) (fun j => L (S m + j)%nat m * x (S m + j)%nat)) with (rsum (n - S m) (fun j => L (S m + j)%nat m * x (S m + j)%nat) + t * L m m) by ring.
  rewrite (Rplus_comm (Rabs (t * L m m))). exact Y.
Qed.
Lemma bsub_fl_err u ar L y n : rounds u ar -> (forall i, (i < n)%nat -> L i i <> 0) ->
  forall k, (k < n)%nat -> let x := bsub_fl ar L y n n (fun _ => 0) in
  Rabs (y k - rsum n (fun i => low L i k * x i)) <= gam u (n + 1) * rsum n (fun i => Rabs (low L i k) * Rabs (x i)).
Proof.
  intros RO HD k Hk x. assert (Hu := ro_u _ _ RO). rewrite (rsum_low_t n L k x Hk).
  rewrite (rsum_ext n _ (fun i => low (fun i j => Rabs (L i j)) i k * Rabs (x i))).
  2:{ intros j Hj. f_equal. unfold low. destruct (k <=? j)%nat; [reflexivity|apply Rabs_R0]. }
  rewrite (rsum_low_t n (fun i j => Rabs (L i j)) k _ Hk).
  assert (Y := bsub_fl_step u ar L y n RO HD n (fun _ => 0) (le_n _) k Hk). fold x in Y. eapply Rle_trans; [exact Y|].
  rewrite (rsum_ext (n - k) (fun j => Rabs (L (k + j)%nat k) * Rabs (x (k + j)%nat)) (fun j => Rabs (L (k + j)%nat k * x (k + j)%nat))) by (intros; symmetry; apply Rabs_mult).
  apply Rmult_le_compat_r; [apply rsum_nonneg; intros; apply Rabs_pos|]. apply gam_mono; [exact Hu|lia].
Qed.
