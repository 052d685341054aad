(** Elementary linear algebra used by the proofs. *)
From Coq Require Import Reals List Arith Bool Lia Lra Psatz.
From Verif.Base Require Import NpLite NpFacts.
From Verif.Spec Require Import KernelSpec LinAlgSpec.
Import ListNotations.
Local Open Scope R_scope.

Lemma dotp_sym n u v : dotp n u v = dotp n v u.
Proof. apply rsum_ext; intros; ring. Qed.
Lemma dotp_nonneg n v : 0 <= dotp n v v.
Proof. apply rsum_nonneg; intros; nra. Qed.
Lemma dotp_ext n u v u' v' : (forall i, (i < n)%nat -> u i = u' i) -> (forall i, (i < n)%nat -> v i = v' i) ->
  dotp n u v = dotp n u' v'.
Proof. intros H1 H2. apply rsum_ext; intros. rewrite H1, H2; auto. Qed.
Lemma dotp_plus_l n u v w : dotp n (fun i => u i + v i) w = dotp n u w + dotp n v w.
Proof. unfold dotp. rewrite <- rsum_plus. apply rsum_ext; intros; ring. Qed.
Lemma dotp_scal_l n c v w : dotp n (fun i => c * v i) w = c * dotp n v w.
Proof. unfold dotp. rewrite <- rsum_scal. apply rsum_ext; intros; ring. Qed.
Lemma dotp_plus_r n u v w : dotp n w (fun i => u i + v i) = dotp n w u + dotp n w v.
Proof. rewrite dotp_sym, dotp_plus_l, !(dotp_sym _ _ w). reflexivity. Qed.
Lemma dotp_scal_r n c v w : dotp n w (fun i => c * v i) = c * dotp n w v.
Proof. rewrite dotp_sym, dotp_scal_l, (dotp_sym _ w). reflexivity. Qed.
Lemma dotp_0 n v : dotp n v v = 0 -> forall i, (i < n)%nat -> v i = 0.
Proof.
  intros H i Hi. assert (Z := rsum_nonneg_eq0 n (fun i => v i * v i) (fun i _ => Rle_0_sqr (v i)) H i Hi).
  cbv beta in Z. nra.
Qed.
Lemma dotp_pos n v : nonzero n v -> 0 < dotp n v v.
Proof.
  intros (i & Hi & Hv). destruct (Rle_lt_or_eq_dec _ _ (dotp_nonneg n v)) as [|E]; [assumption|].
  exfalso. apply Hv. apply (dotp_0 n v (eq_sym E) i Hi).
Qed.
Lemma nonzero_dec n v : nonzero n v \/ forall i, (i < n)%nat -> v i = 0.
Proof.
  destruct (Rle_lt_or_eq_dec _ _ (dotp_nonneg n v)) as [H|H].
  - left. induction n; simpl in H; [unfold dotp in H; simpl in H; lra|].
    unfold dotp in H. simpl in H. destruct (Req_dec (v n) 0) as [E|E].
    + rewrite E in H. destruct IHn as (i & Hi & Hv); [unfold dotp; lra|]. exists i; split; [lia|auto].
    + exists n; split; [lia|auto].
  - right. apply dotp_0. auto.
Qed.
Lemma nrm_nonneg n v : 0 <= nrm n v. Proof. apply sqrt_pos. Qed.
Lemma nrm_sq n v : nrm n v * nrm n v = dotp n v v.
Proof. apply sqrt_sqrt, dotp_nonneg. Qed.
Lemma nrm_pos n v : nonzero n v -> 0 < nrm n v.
Proof. intros H. apply sqrt_lt_R0, dotp_pos, H. Qed.
Lemma nrm_zero n v : (forall i, (i < n)%nat -> v i = 0) -> nrm n v = 0.
Proof. intros H. unfold nrm, dotp. rewrite rsum_0; [apply sqrt_0 | intros; rewrite H; auto; ring]. Qed.
(** a quadratic that is non-negative everywhere *)
Lemma disc_le (a b c : R) : (forall t, 0 <= a * t ^ 2 + 2 * b * t + c) -> b ^ 2 <= a * c.
Proof.
  intros H. destruct (Req_dec a 0) as [->|Ha].
  - destruct (Req_dec b 0) as [->|Hb]; [lra|].
    assert (Z := H (- (c + 1) / (2 * b))). replace (0 * _ + 2 * b * _ + c) with (- 1) in Z by (field; auto). lra.
  - assert (Hpos : 0 < a).
    { destruct (Rlt_le_dec 0 a); [assumption|]. exfalso. assert (a < 0) by lra.
      assert (Z := H ((1 + Rabs b + Rabs c) / - a + 1)). set (t := (1 + Rabs b + Rabs c) / - a + 1) in *.
      assert (T : - a * t = 1 + Rabs b + Rabs c - a) by (unfold t; field; auto).
      assert (B1 := Rle_abs b). assert (B2 := Rle_abs (- b)). rewrite Rabs_Ropp in B2.
      assert (C1 := Rle_abs c). assert (C2 := Rle_abs (-c)). rewrite Rabs_Ropp in C2.
      assert (Pb := Rabs_pos b). assert (Pc := Rabs_pos c).
      assert (T1 : 1 <= t). { unfold t. assert (0 <= (1 + Rabs b + Rabs c) / - a) by (apply Rle_mult_inv_pos; lra). lra. }
      (* a t^2 = -t (1+|b|+|c| - a) *)
      assert (E : a * t ^ 2 = - t * (1 + Rabs b + Rabs c - a)) by (rewrite <- T; ring).
      rewrite E in Z.
      (* a finer choice is needed: scale t *)
      assert (Z2 := H (2 * t)).
      assert (E2 : a * (2 * t) ^ 2 = - (4 * t * (1 + Rabs b + Rabs c - a))) by (rewrite <- T; ring).
      rewrite E2 in Z2. nra. }
    assert (Z := H (- b / a)). replace (a * (- b / a) ^ 2 + 2 * b * (- b / a) + c) with (c - b ^ 2 / a) in Z by (field; auto).
    assert (b ^ 2 / a <= c) by lra. apply (Rmult_le_compat_l a) in H0; [|lra].
    replace (a * (b ^ 2 / a)) with (b ^ 2) in H0 by (field; auto). exact H0.
Qed.
Lemma cauchy_schwarz n u v : dotp n u v ^ 2 <= dotp n u u * dotp n v v.
Proof.
  apply disc_le. intros t.
  replace (dotp n u u * t ^ 2 + 2 * dotp n u v * t + dotp n v v)
    with (dotp n (fun i => t * u i + v i) (fun i => t * u i + v i)); [apply dotp_nonneg|].
  rewrite dotp_plus_l, !dotp_plus_r, !dotp_scal_l, !dotp_scal_r, (dotp_sym n v u). ring.
Qed.
Lemma cauchy_schwarz_nrm n u v : Rabs (dotp n u v) <= nrm n u * nrm n v.
Proof.
  apply Rsqr_incr_0_var; [|apply Rmult_le_pos; apply nrm_nonneg].
  rewrite <- Rsqr_abs. unfold Rsqr. assert (H := cauchy_schwarz n u v).
  replace (nrm n u * nrm n v * (nrm n u * nrm n v)) with ((nrm n u * nrm n u) * (nrm n v * nrm n v)) by ring.
  rewrite !nrm_sq. simpl in H. rewrite Rmult_1_r in H. exact H.
Qed.

(** ** bilinear form of a matrix *)
Definition bform (n : nat) (A : nat -> nat -> R) (u v : nat -> R) : R :=
  rsum n (fun i => rsum n (fun j => u i * A i j * v j)).
Lemma qform_bform A v : nr A = nc A -> qform A v = bform (nr A) (mat_at A) v v.
Proof. intros E. unfold qform, bform. rewrite <- E. reflexivity. Qed.
Lemma bform_ext n A B u v u' v' :
  (forall i j, (i < n)%nat -> (j < n)%nat -> A i j = B i j) ->
  (forall i, (i < n)%nat -> u i = u' i) -> (forall i, (i < n)%nat -> v i = v' i) ->
  bform n A u v = bform n B u' v'.
Proof. intros H1 H2 H3. apply rsum_ext; intros i Hi. apply rsum_ext; intros j Hj. rewrite H1, H2, H3; auto. Qed.
Lemma bform_dotp n A u v : bform n A u v = dotp n u (fun i => rsum n (fun j => A i j * v j)).
Proof. apply rsum_ext; intros i _. rewrite <- rsum_scal. apply rsum_ext; intros; ring. Qed.
Lemma bform_plus_l n A u w v : bform n A (fun i => u i + w i) v = bform n A u v + bform n A w v.
Proof. rewrite !bform_dotp. apply dotp_plus_l. Qed.
Lemma bform_scal_l n A c u v : bform n A (fun i => c * u i) v = c * bform n A u v.
Proof. rewrite !bform_dotp. apply dotp_scal_l. Qed.
Lemma bform_sym n A u v : (forall i j, (i < n)%nat -> (j < n)%nat -> A i j = A j i) -> bform n A u v = bform n A v u.
Proof.
  intros H. unfold bform. rewrite rsum_swap. apply rsum_ext; intros i Hi. apply rsum_ext; intros j Hj.
  rewrite (H j i) by auto. ring.
Qed.
Lemma bform_plus_r n A u w v : bform n A v (fun i => u i + w i) = bform n A v u + bform n A v w.
Proof. unfold bform. rewrite <- rsum_plus. apply rsum_ext; intros. rewrite <- rsum_plus. apply rsum_ext; intros; ring. Qed.
Lemma bform_scal_r n A c u v : bform n A v (fun i => c * u i) = c * bform n A v u.
Proof. unfold bform. rewrite <- rsum_scal. apply rsum_ext; intros. rewrite <- rsum_scal. apply rsum_ext; intros; ring. Qed.
Lemma bform_madd n A B u v : bform n (fun i j => A i j + B i j) u v = bform n A u v + bform n B u v.
Proof. unfold bform. rewrite <- rsum_plus. apply rsum_ext; intros. rewrite <- rsum_plus. apply rsum_ext; intros; ring. Qed.
Lemma bform_mscal n c A u v : bform n (fun i j => c * A i j) u v = c * bform n A u v.
Proof. unfold bform. rewrite <- rsum_scal. apply rsum_ext; intros. rewrite <- rsum_scal. apply rsum_ext; intros; ring. Qed.
Lemma bform_diag n d u v : bform n (fun i j => if (i =? j)%nat then d i else 0) u v = rsum n (fun i => d i * u i * v i).
Proof.
  apply rsum_ext; intros i Hi. rewrite (rsum_single n i); [rewrite Nat.eqb_refl; ring | exact Hi|].
  intros j Hj Hn. destruct (Nat.eqb_spec i j); [congruence|ring].
Qed.
(** congruence by a diagonal matrix *)
Lemma bform_cong n A p u v : bform n (fun i j => p i * A i j * p j) u v = bform n A (fun i => p i * u i) (fun i => p i * v i).
Proof. apply rsum_ext; intros; apply rsum_ext; intros; ring. Qed.
Lemma bform_rank1 n l u v : bform n (fun i j => l i * l j) u v = dotp n l u * dotp n l v.
Proof.
  unfold bform, dotp. rewrite <- rsum_scal_r. apply rsum_ext; intros i _. rewrite <- rsum_scal. apply rsum_ext; intros; ring.
Qed.
Lemma bform_unit n A i j : (i < n)%nat -> (j < n)%nat ->
  bform n A (fun k => if (k =? i)%nat then 1 else 0) (fun k => if (k =? j)%nat then 1 else 0) = A i j.
Proof.
  intros Hi Hj. unfold bform. rewrite (rsum_single n i); [|exact Hi|].
  - rewrite (rsum_single n j); [rewrite !Nat.eqb_refl; ring | exact Hj|]. intros k _ Hk.
    destruct (Nat.eqb_spec k j); [congruence|ring].
  - intros k _ Hk. apply rsum_0. intros. destruct (Nat.eqb_spec k i); [congruence|ring].
Qed.

(** ** Gershgorin: |v^T A v| <= (max absolute row sum) |v|^2 for symmetric A *)
Lemma gershgorin n A c v :
  (forall i j, (i < n)%nat -> (j < n)%nat -> A i j = A j i) ->
  (forall i, (i < n)%nat -> rsum n (fun j => Rabs (A i j)) <= c) ->
  bform n A v v <= c * dotp n v v.
Proof.
  intros HS HR.
  assert (H1 : bform n A v v <= rsum n (fun i => rsum n (fun j => Rabs (A i j) * (v i ^ 2 / 2) + Rabs (A i j) * (v j ^ 2 / 2)))).
  { apply rsum_le; intros i Hi. apply rsum_le; intros j Hj.
    apply (Rle_trans _ (Rabs (A i j) * (Rabs (v i) * Rabs (v j)))).
    - rewrite <- !Rabs_mult. replace (v i * A i j * v j) with (A i j * (v i * v j)) by ring. apply Rle_abs.
    - rewrite <- Rmult_plus_distr_l. apply Rmult_le_compat_l; [apply Rabs_pos|].
      rewrite <- (pow2_abs (v i)), <- (pow2_abs (v j)). assert (Z := pow2_ge_0 (Rabs (v i) - Rabs (v j))). nra. }
  eapply Rle_trans; [exact H1|].
  assert (E : rsum n (fun i => rsum n (fun j => Rabs (A i j) * (v i ^ 2 / 2) + Rabs (A i j) * (v j ^ 2 / 2)))
            = rsum n (fun i => rsum n (fun j => Rabs (A i j)) * v i ^ 2)).
  { rewrite (rsum_ext n _ (fun i => rsum n (fun j => Rabs (A i j) * (v i ^ 2 / 2)) + rsum n (fun j => Rabs (A i j) * (v j ^ 2 / 2))))
      by (intros; apply rsum_plus).
    rewrite rsum_plus. rewrite (rsum_swap n n (fun i j => Rabs (A i j) * (v j ^ 2 / 2))). rewrite <- rsum_plus.
    apply rsum_ext; intros i Hi. rewrite !rsum_scal_r.
    rewrite (rsum_ext n (fun j => Rabs (A j i)) (fun j => Rabs (A i j))) by (intros; rewrite HS; auto). field. }
  rewrite E. unfold dotp. rewrite <- rsum_scal. apply rsum_le; intros i Hi.
  replace (c * (v i * v i)) with (c * v i ^ 2) by ring. apply Rmult_le_compat_r; [apply pow2_ge_0 | auto].
Qed.

(** ** condition number from bounds on the quadratic form *)
Lemma rayleigh_cond A lo hi k :
  symmetric A -> 0 < lo -> hi <= k * lo ->
  (forall v, lo * dotp (nr A) v v <= qform A v) -> (forall v, qform A v <= hi * dotp (nr A) v v) ->
  cond2_le A k.
Proof.
  intros (Esq & HS) Hlo Hk HL HU. set (n := nr A) in *.
  assert (QB : forall v, qform A v = bform n (mat_at A) v v) by (intros; apply qform_bform; auto).
  assert (MV : forall v, bform n (mat_at A) v v = dotp n v (mv A v)).
  { intros v. rewrite bform_dotp. apply dotp_ext; auto. intros i _. unfold mv. rewrite <- Esq. reflexivity. }
  assert (SYM : forall i j, (i < n)%nat -> (j < n)%nat -> mat_at A i j = mat_at A j i) by exact HS.
  (* |Ay| >= lo |y| *)
  assert (L1 : forall y, lo * nrm n y <= nrm n (mv A y)).
  { intros y. destruct (nonzero_dec n y) as [Hy|Hy].
    - assert (P := nrm_pos n y Hy). apply (Rmult_le_reg_r (nrm n y)); [exact P|].
      rewrite Rmult_assoc, nrm_sq. eapply Rle_trans; [apply HL|]. rewrite QB, MV.
      eapply Rle_trans; [apply Rle_abs|]. rewrite Rmult_comm. apply cauchy_schwarz_nrm.
    - rewrite (nrm_zero n y Hy), Rmult_0_r. apply nrm_nonneg. }
  (* |Ax| <= hi |x| *)
  assert (PSD : forall v, 0 <= bform n (mat_at A) v v).
  { intros v. rewrite <- QB. eapply Rle_trans; [|apply HL]. apply Rmult_le_pos; [lra | apply dotp_nonneg]. }
  assert (CS : forall x y, bform n (mat_at A) x y ^ 2 <= bform n (mat_at A) x x * bform n (mat_at A) y y).
  { intros x y. apply disc_le. intros t.
    assert (Z := PSD (fun i => t * x i + y i)).
    rewrite bform_plus_l, !bform_plus_r, !bform_scal_l, !bform_scal_r in Z.
    rewrite (bform_sym n (mat_at A) y x SYM) in Z. eapply Rle_trans; [exact Z|]. right. ring. }
  assert (U1 : forall x, nrm n (mv A x) <= hi * nrm n x).
  { intros x. assert (Z := CS (mv A x) x).
    assert (E : bform n (mat_at A) (mv A x) x = dotp n (mv A x) (mv A x)).
    { rewrite bform_dotp. apply dotp_ext; auto. intros i _. unfold mv. rewrite <- Esq. reflexivity. }
    rewrite E in Z.
    assert (Z1 := HU (mv A x)). assert (Z2 := HU x). rewrite QB in Z1, Z2.
    set (a := dotp n (mv A x) (mv A x)) in *. set (b := dotp n x x) in *.
    assert (Ha : 0 <= a) by apply dotp_nonneg. assert (Hb : 0 <= b) by apply dotp_nonneg.
    assert (P1 := PSD x). assert (P2 := PSD (mv A x)).
    destruct (nonzero_dec n x) as [Hx|Hx].
    - assert (Pb : 0 < b) by (apply dotp_pos, Hx).
      assert (Hhi : 0 < hi). { assert (W := HL x). rewrite QB in W. fold b in W. nra. }
      apply Rsqr_incr_0_var; [|apply Rmult_le_pos; [lra | apply nrm_nonneg]].
      unfold Rsqr. rewrite nrm_sq. replace (hi * nrm n x * (hi * nrm n x)) with (hi * hi * (nrm n x * nrm n x)) by ring.
      rewrite nrm_sq. fold a b.
      destruct (Req_dec a 0) as [Ea|Ea]; [rewrite Ea; apply Rmult_le_pos; nra|].
      assert (Pa : 0 < a) by lra. apply (Rmult_le_reg_l a); [exact Pa|].
      replace (a * a) with (a ^ 2) by ring. eapply Rle_trans; [exact Z|].
      eapply Rle_trans; [apply Rmult_le_compat; [exact P2 | exact P1 | exact Z1 | exact Z2]|]. right. ring.
    - rewrite (nrm_zero n x Hx), Rmult_0_r. right. apply nrm_zero. intros i Hi. unfold mv.
      rewrite <- Esq. apply rsum_0. intros j Hj. rewrite Hx by auto. ring. }
  split; [exact Esq|]. split.
  - intros y Hy. fold n. eapply Rlt_le_trans; [|apply L1]. apply Rmult_lt_0_compat; [exact Hlo | apply nrm_pos, Hy].
  - intros x y. fold n. assert (A1 := U1 x). assert (A2 := L1 y).
    assert (N1 := nrm_nonneg n x). assert (N2 := nrm_nonneg n y). assert (N3 := nrm_nonneg n (mv A y)).
    apply (Rle_trans _ (hi * nrm n x * nrm n y)); [apply Rmult_le_compat_r; auto|].
    apply (Rle_trans _ (k * lo * nrm n x * nrm n y)).
    { apply Rmult_le_compat_r; [auto|]. apply Rmult_le_compat_r; auto. }
    destruct (Rle_lt_dec 0 k) as [Hk0|Hk0].
    + replace (k * lo * nrm n x * nrm n y) with (k * (lo * nrm n y * nrm n x)) by ring.
      apply Rmult_le_compat_l; [exact Hk0|]. apply Rmult_le_compat_r; auto.
    + (* k < 0 forces n = 0 *)
      assert (Z : nrm n x = 0).
      { destruct (nonzero_dec n x) as [Hx|Hx]; [|apply nrm_zero, Hx].
        exfalso. assert (P := dotp_pos n x Hx). assert (W1 := HL x). assert (W2 := HU x).
        fold n in W1, W2. assert (hi < 0) by nra. assert (0 < lo * dotp n x x) by (apply Rmult_lt_0_compat; auto).
        assert (0 < - hi * dotp n x x) by (apply Rmult_lt_0_compat; lra). lra. }
      rewrite Z, !Rmult_0_r, Rmult_0_l. lra.
Qed.
