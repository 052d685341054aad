(** The error of the solution of a linear system in an arithmetic with rounding errors. *)
From Coq Require Import Reals List Arith Bool Lia Lra Psatz.
From Verif.Base Require Import NpLite NpFacts.
From Verif.Spec Require Import KernelSpec LinAlgSpec FloatSpec.
From Verif.Model Require Import Chol CholFl.
From Verif.Proofs Require Import LinAlg CholCorrect Det FlChol FlMargin FlSolve.
Import ListNotations.
Local Open Scope R_scope.

Lemma solve_err_nonneg u n : 0 <= u -> gam u (n + 7) < 1 -> 0 <= solve_err u n.
Proof.
  intros H1 H2. unfold solve_err. assert (G := gam_nonneg u (n + 7) H1). apply Rmult_le_pos; [nra|]. left. apply Rinv_0_lt_compat. lra.
Qed.
Lemma nrm_abs n d x : nrm n (fun i => d i * Rabs (x i)) = nrm n (fun i => d i * x i).
Proof.
  unfold nrm, dotp. f_equal. apply rsum_ext; intros i Hi. replace (d i * Rabs (x i) * (d i * Rabs (x i))) with (d i * d i * (Rabs (x i) * Rabs (x i))) by ring.
  rewrite <- Rabs_mult, Rabs_pos_eq by nra. ring.
Qed.
Lemma res_small n d r z x t : 0 <= t -> (forall i, (i < n)%nat -> 0 <= d i) ->
  (forall i, (i < n)%nat -> Rabs (r i) <= t * (d i * rsum n (fun j => d j * Rabs (x j)))) ->
  Rabs (rsum n (fun i => z i * r i)) <= t * INR n * (nrm n (fun i => d i * z i) * nrm n (fun i => d i * x i)).
Proof.
  intros Ht Hd HR. rewrite <- (nrm_abs n d z), <- (nrm_abs n d x).
  eapply Rle_trans; [|apply (bform_small n (fun i j => t * (d i * d j)) d (fun i => Rabs (z i)) (fun i => Rabs (x i)) t Ht Hd)].
  - eapply Rle_trans; [|apply RRle_abs]. unfold bform. eapply Rle_trans; [apply rsum_abs|]. apply rsum_le; intros i Hi. rewrite Rabs_mult.
    apply Rle_trans with (Rabs (z i) * (t * (d i * rsum n (fun j => d j * Rabs (x j))))); [apply Rmult_le_compat_l; [apply Rabs_pos|auto]|].
    right. rewrite <- !Rmult_assoc, <- rsum_scal. apply rsum_ext; intros j Hj. ring.
  - intros i j Hi Hj. rewrite Rabs_pos_eq; [lra|]. apply Rmult_le_pos; [exact Ht|]. apply Rmult_le_pos; auto.
Qed.
(** the residual of the exact system *)
Lemma residual_exact e s A Ah xh b : 0 <= e -> 0 <= s -> nr A = nc A -> (forall i, (i < nr A)%nat -> 0 < mat_at A i i) -> computed e A Ah ->
  (forall i, (i < nr A)%nat -> Rabs (b i - rsum (nr A) (fun j => mat_at Ah i j * xh j)) <= s * (sqrt (mat_at Ah i i) * rsum (nr A) (fun j => sqrt (mat_at Ah j j) * Rabs (xh j)))) ->
  forall i, (i < nr A)%nat -> Rabs (b i - mv A xh i) <= (e + (1 + e) * s) * (sqrt (mat_at A i i) * rsum (nr A) (fun j => sqrt (mat_at A j j) * Rabs (xh j))).
Proof.
  intros He Hs Hsq HP (E1 & E2 & _ & EE) HR i Hi. set (n := nr A) in *. unfold mv. rewrite <- Hsq.
  set (S := rsum n (fun j => sqrt (mat_at A j j) * Rabs (xh j))).
  assert (S0 : 0 <= S) by (apply rsum_nonneg; intros; apply Rmult_le_pos; [apply sqrt_pos|apply Rabs_pos]).
  assert (DG : forall j, (j < n)%nat -> sqrt (mat_at Ah j j) <= sqrt (1 + e) * sqrt (mat_at A j j)).
  { intros j Hj. assert (X := EE j j Hj Hj). unfold size_ij in X. assert (P := HP j Hj). rewrite sqrt_sqrt in X by lra. assert (Y := Rle_abs (mat_at Ah j j - mat_at A j j)).
    rewrite <- sqrt_mult_alt by lra. apply sqrt_le_1_alt. lra. }
  assert (SQ : sqrt (1 + e) * sqrt (1 + e) = 1 + e) by (apply sqrt_sqrt; lra). assert (SQ0 := sqrt_pos (1 + e)).
  replace (b i - rsum n (fun j => mat_at A i j * xh j)) with ((b i - rsum n (fun j => mat_at Ah i j * xh j)) + rsum n (fun j => (mat_at Ah i j - mat_at A i j) * xh j)).
  2:{ rewrite (rsum_ext n (fun j => (mat_at Ah i j - mat_at A i j) * xh j) (fun j => mat_at Ah i j * xh j - mat_at A i j * xh j)) by (intros; ring). rewrite rsum_minus. ring. }
  eapply Rle_trans; [apply Rabs_triang|].
  assert (B1 : Rabs (rsum n (fun j => (mat_at Ah i j - mat_at A i j) * xh j)) <= e * (sqrt (mat_at A i i) * S)).
  { eapply Rle_trans; [apply rsum_abs|]. unfold S. rewrite <- !rsum_scal. apply rsum_le; intros j Hj. rewrite Rabs_mult.
    apply Rle_trans with (e * size_ij A i j * Rabs (xh j)); [apply Rmult_le_compat_r; [apply Rabs_pos|auto]|]. unfold size_ij. right; ring. }
  assert (B2 : s * (sqrt (mat_at Ah i i) * rsum n (fun j => sqrt (mat_at Ah j j) * Rabs (xh j))) <= (1 + e) * s * (sqrt (mat_at A i i) * S)).
  { assert (X : rsum n (fun j => sqrt (mat_at Ah j j) * Rabs (xh j)) <= sqrt (1 + e) * S).
    { unfold S. rewrite <- rsum_scal. apply rsum_le; intros j Hj. rewrite <- Rmult_assoc. apply Rmult_le_compat_r; [apply Rabs_pos|auto]. }
    apply Rle_trans with (s * (sqrt (1 + e) * sqrt (mat_at A i i) * (sqrt (1 + e) * S))).
    - apply Rmult_le_compat_l; [exact Hs|]. apply Rmult_le_compat; auto; [apply sqrt_pos|]. apply rsum_nonneg; intros; apply Rmult_le_pos; [apply sqrt_pos|apply Rabs_pos].
    - right. replace (s * (sqrt (1 + e) * sqrt (mat_at A i i) * (sqrt (1 + e) * S))) with (sqrt (1 + e) * sqrt (1 + e) * s * (sqrt (mat_at A i i) * S)) by ring. rewrite SQ. reflexivity. }
  assert (X := HR i Hi). lra.
Qed.
Lemma len_sq A x : (forall i, (i < nr A)%nat -> 0 < mat_at A i i) -> len A x * len A x = rsum (nr A) (fun i => mat_at A i i * (x i * x i)).
Proof.
  intros HP. unfold len. rewrite nrm_sq. unfold dotp. apply rsum_ext; intros i Hi. assert (P := HP i Hi).
  replace (sqrt (mat_at A i i) * x i * (sqrt (mat_at A i i) * x i)) with (sqrt (mat_at A i i) * sqrt (mat_at A i i) * (x i * x i)) by ring. rewrite sqrt_sqrt by lra. reflexivity.
Qed.
Lemma cond2_scaled A k : pd A -> cond2_le A k -> scaled_cond_le A k.
Proof. intros HP HC v. rewrite len_sq by (intros; apply pd_diag; assumption). rewrite qform_bform by (apply pd_square; exact HP). apply cond_margin; assumption. Qed.
Lemma scaled_ge1 A k : (0 < nr A)%nat -> pd A -> scaled_cond_le A k -> 1 <= k.
Proof.
  intros Hn HP HC. assert (X := HC (unitv 0)). assert (P := pd_diag A 0 HP Hn). rewrite len_sq in X by (intros; apply pd_diag; assumption).
  rewrite qform_bform in X by (apply pd_square; exact HP). unfold unitv in X. rewrite bform_unit in X by exact Hn.
  rewrite (rsum_single (nr A) 0) in X; [|exact Hn|intros j _ Hj; destruct (Nat.eqb_spec j 0); [contradiction|ring]]. cbn [Nat.eqb] in X. nra.
Qed.
(** it does not depend on the scaling *)
Lemma scaled_cond_diag A B p k : pd A -> nr A = nr B -> nc A = nc B -> nr B = nc B -> (forall i, (i < nr A)%nat -> 0 < p i) ->
  (forall i j, (i < nr A)%nat -> (j < nr A)%nat -> mat_at A i j = p i * p j * mat_at B i j) -> scaled_cond_le B k -> scaled_cond_le A k.
Proof.
  intros HP E1 E2 E3 Hp E HC v. assert (X := HC (fun i => p i * v i)). rewrite qform_bform in * by congruence.
  replace (len A v) with (len B (fun i => p i * v i)).
  - eapply Rle_trans; [exact X|]. right. f_equal. rewrite E1. unfold bform. apply rsum_ext; intros i Hi. apply rsum_ext; intros j Hj. rewrite E by (rewrite E1; assumption). ring.
  - unfold len. rewrite <- E1. unfold nrm. f_equal. apply dotp_ext; intros i Hi; rewrite (E i i Hi Hi), sqrt_mult_alt by (assert (X1 := Hp i Hi); nra); rewrite sqrt_square by (assert (X1 := Hp i Hi); lra); ring.
Qed.
(** from the residual to the error *)
Lemma forward_error A k t x xh b : pd A -> scaled_cond_le A k -> 0 <= t -> solves A x b ->
  (forall i, (i < nr A)%nat -> Rabs (b i - mv A xh i) <= t * (sqrt (mat_at A i i) * rsum (nr A) (fun j => sqrt (mat_at A j j) * Rabs (xh j)))) ->
  len A (fun i => xh i - x i) <= k * (INR (nr A) * t) * len A xh.
Proof.
  intros HP HC Ht SO HR. assert (DP : forall i, (i < nr A)%nat -> 0 < mat_at A i i) by (intros; apply pd_diag; assumption).
  assert (Esq := pd_square A HP). set (z := fun i => xh i - x i).
  assert (M := HC z). rewrite qform_bform in M by exact Esq.
  assert (R := res_small (nr A) (fun i => sqrt (mat_at A i i)) (fun i => b i - mv A xh i) z xh t Ht (fun i _ => sqrt_pos _) HR). fold (len A z) (len A xh) in R.
  assert (Q : bform (nr A) (mat_at A) z z = - rsum (nr A) (fun i => z i * (b i - mv A xh i))).
  { rewrite bform_dotp. unfold dotp. rewrite <- rsum_opp. apply rsum_ext; intros i Hi. rewrite <- (SO i Hi). unfold z, mv. rewrite <- Esq.
    rewrite (rsum_ext (nr A) (fun j => mat_at A i j * (xh j - x j)) (fun j => mat_at A i j * xh j - mat_at A i j * x j)) by (intros; ring). rewrite rsum_minus. ring. }
  assert (LZ : 0 <= len A z) by apply nrm_nonneg. assert (LX : 0 <= len A xh) by apply nrm_nonneg. assert (IN := pos_INR (nr A)).
  destruct (Nat.eq_dec (nr A) 0) as [Z|NZ].
  { unfold len. rewrite Z. unfold nrm, dotp. cbn [rsum]. rewrite sqrt_0. lra. }
  assert (K1 : 1 <= k) by (apply (scaled_ge1 A); [lia|exact HP|exact HC]).
  destruct (Rle_lt_or_eq_dec 0 (len A z) LZ) as [PZ|EZ].
  2:{ rewrite <- EZ. apply Rmult_le_pos; [|exact LX]. apply Rmult_le_pos; [lra|]. apply Rmult_le_pos; assumption. }
  apply Rmult_le_reg_r with (len A z); [exact PZ|]. eapply Rle_trans; [exact M|]. rewrite Q.
  assert (Y := Rle_abs (- rsum (nr A) (fun i => z i * (b i - mv A xh i)))). rewrite Rabs_Ropp in Y.
  apply Rle_trans with (k * (t * INR (nr A) * (len A z * len A xh))); [apply Rmult_le_compat_l; [apply Rle_trans with 1; [apply Rle_0_1|exact K1] | exact (Rle_trans _ _ _ Y R)] | right; ring].
Qed.
Lemma psd_of A : pd A -> forall w, 0 <= bform (nr A) (mat_at A) w w.
Proof.
  intros HP w. assert (E := pd_square A HP). destruct (nonzero_dec (nr A) w) as [N|Z].
  - left. destruct HP as (_ & HP). assert (X := HP w N). rewrite qform_bform in X by exact E. exact X.
  - right. symmetry. unfold bform. apply rsum_0; intros i Hi. apply rsum_0; intros j Hj. rewrite (Z i Hi). ring.
Qed.
Lemma symf_of A : pd A -> symf (nr A) (mat_at A).
Proof. intros HP. assert (E := pd_square A HP). destruct HP as ((_ & S) & _). intros i j Hi Hj. apply S; assumption || (rewrite <- E; assumption). Qed.
Lemma energy_sq A x : pd A -> energy A x * energy A x = bform (nr A) (mat_at A) x x.
Proof. intros HP. unfold energy. rewrite qform_bform by (apply pd_square; exact HP). apply sqrt_sqrt, psd_of, HP. Qed.
Lemma energy_nonneg A x : 0 <= energy A x. Proof. apply sqrt_pos. Qed.
Lemma energy_cs A x y : pd A -> Rabs (bform (nr A) (mat_at A) x y) <= energy A x * energy A y.
Proof.
  intros HP. assert (C := bform_cs (nr A) (mat_at A) x y (symf_of A HP) (psd_of A HP)). rewrite <- !energy_sq in C by exact HP.
  apply Rsqr_incr_0_var; [|apply Rmult_le_pos; apply energy_nonneg]. rewrite <- Rsqr_abs. unfold Rsqr. nra.
Qed.
Lemma energy_triangle A a b : pd A -> energy A (fun i => a i + b i) <= energy A a + energy A b.
Proof.
  intros HP. assert (P1 := energy_nonneg A a). assert (P2 := energy_nonneg A b). apply Rsqr_incr_0_var; [|lra]. unfold Rsqr. rewrite energy_sq by exact HP.
  rewrite bform_plus_l, !bform_plus_r. rewrite (bform_sym (nr A) (mat_at A) b a (symf_of A HP)). rewrite <- !energy_sq by exact HP.
  assert (C := energy_cs A a b HP). assert (D := Rle_abs (bform (nr A) (mat_at A) a b)). nra.
Qed.
Lemma len_energy A k x : pd A -> scaled_cond_le A k -> 0 <= k -> len A x <= sqrt k * energy A x.
Proof.
  intros HP HC K0. unfold energy. rewrite <- sqrt_mult_alt by exact K0. unfold len. rewrite <- (sqrt_square (nrm _ _)) by apply nrm_nonneg.
  apply sqrt_le_1_alt. apply HC.
Qed.
(** the error in the inner product of the matrix *)
Lemma energy_error A k t x xh b : pd A -> scaled_cond_le A k -> 0 <= t -> solves A x b ->
  (forall i, (i < nr A)%nat -> Rabs (b i - mv A xh i) <= t * (sqrt (mat_at A i i) * rsum (nr A) (fun j => sqrt (mat_at A j j) * Rabs (xh j)))) ->
  energy A (fun i => xh i - x i) <= k * (INR (nr A) * t) * energy A xh.
Proof.
  intros HP HC Ht SO HR. assert (Esq := pd_square A HP). set (z := fun i => xh i - x i).
  assert (R := res_small (nr A) (fun i => sqrt (mat_at A i i)) (fun i => b i - mv A xh i) z xh t Ht (fun i _ => sqrt_pos _) HR). fold (len A z) (len A xh) in R.
  assert (Q : bform (nr A) (mat_at A) z z = - rsum (nr A) (fun i => z i * (b i - mv A xh i))).
  { rewrite bform_dotp. unfold dotp. rewrite <- rsum_opp. apply rsum_ext; intros i Hi. rewrite <- (SO i Hi). unfold z, mv. rewrite <- Esq.
    rewrite (rsum_ext (nr A) (fun j => mat_at A i j * (xh j - x j)) (fun j => mat_at A i j * xh j - mat_at A i j * x j)) by (intros; ring). rewrite rsum_minus. ring. }
  assert (EZ := energy_nonneg A z). assert (EX := energy_nonneg A xh). assert (IN := pos_INR (nr A)). assert (LZ : 0 <= len A z) by apply nrm_nonneg. assert (LX : 0 <= len A xh) by apply nrm_nonneg.
  destruct (Nat.eq_dec (nr A) 0) as [Z|NZ].
  { unfold energy, qform. rewrite Z. cbn [rsum]. rewrite sqrt_0. lra. }
  assert (K1 : 1 <= k) by (apply (scaled_ge1 A); [lia|exact HP|exact HC]).
  assert (L1 := len_energy A k z HP HC ltac:(lra)). assert (L2 := len_energy A k xh HP HC ltac:(lra)). assert (SK : sqrt k * sqrt k = k) by (apply sqrt_sqrt; lra).
  destruct (Rle_lt_or_eq_dec 0 (energy A z) EZ) as [PZ|E0].
  2:{ rewrite <- E0. apply Rmult_le_pos; [|exact EX]. apply Rmult_le_pos; [lra|]. apply Rmult_le_pos; assumption. }
  apply Rmult_le_reg_r with (energy A z); [exact PZ|]. rewrite energy_sq by exact HP. rewrite Q.
  assert (Y := Rle_abs (- rsum (nr A) (fun i => z i * (b i - mv A xh i)))). rewrite Rabs_Ropp in Y.
  eapply Rle_trans; [exact Y|]. eapply Rle_trans; [exact R|].
  apply Rle_trans with (t * INR (nr A) * (sqrt k * energy A z * (sqrt k * energy A xh))).
  - apply Rmult_le_compat_l; [apply Rmult_le_pos; assumption|]. apply Rmult_le_compat; assumption.
  - right. replace (t * INR (nr A) * (sqrt k * energy A z * (sqrt k * energy A xh))) with (sqrt k * sqrt k * (INR (nr A) * t) * energy A xh * energy A z) by ring. rewrite SK. reflexivity.
Qed.
(** ** the diagonal of the factor *)
Lemma chol_form n L M v : is_chol n L M -> bform n (mat_at M) v v = rsum n (fun k => rsum n (fun i => low L i k * v i) * rsum n (fun i => low L i k * v i)).
Proof.
  intros (_ & _ & _ & H). unfold bform.
  rewrite (rsum_ext n _ (fun i => rsum n (fun j => rsum n (fun k => (low L i k * v i) * (low L j k * v j))))).
  2:{ intros i Hi. apply rsum_ext; intros j Hj. rewrite H by assumption. rewrite <- rsum_scal, <- rsum_scal_r. apply rsum_ext; intros; ring. }
  rewrite (rsum_ext n _ (fun i => rsum n (fun k => rsum n (fun j => low L i k * v i * (low L j k * v j))))) by (intros; apply rsum_swap).
  rewrite rsum_swap. apply rsum_ext; intros k Hk. rewrite rsum_mult. reflexivity.
Qed.
(** a vector that singles out the pivot k *)
Lemma pivot_vector n L k : (forall i, (i < n)%nat -> 0 < L i i) -> (k < n)%nat ->
  exists v, v k = 1 /\ (forall i, (k < i)%nat -> v i = 0) /\ forall m, (m < n)%nat -> rsum n (fun i => low L i m * v i) = if (m =? k)%nat then L k k else 0.
Proof.
  intros HD Hk. set (y := fun m => if (m =? k)%nat then L k k else 0). set (v := bsub L y (S k) (S k) (fun _ => 0)).
  assert (HD' : forall i, (i < S k)%nat -> L i i <> 0) by (intros i Hi; assert (X := HD i ltac:(lia)); lra).
  assert (VZ : forall i, (k < i)%nat -> v i = 0) by (intros i Hi; unfold v; rewrite bsub_ge by lia; reflexivity).
  exists v. split; [|split; [exact VZ|]].
  - assert (X := bsub_ok L y (S k) HD' (S k) (fun _ => 0) (Nat.le_refl _) k ltac:(lia)). fold v in X. replace (S k - k)%nat with 1%nat in X by lia. cbn [rsum] in X. rewrite Nat.add_0_r in X.
    unfold y in X. rewrite Nat.eqb_refl in X. assert (P := HD k Hk). apply Rmult_eq_reg_l with (L k k); lra.
  - intros m Hm. rewrite (rsum_below n (S k)) by (try lia; intros i Hi; rewrite VZ by lia; ring).
    destruct (Nat.le_gt_cases m k) as [M|M].
    + rewrite (rsum_low_t (S k) L m v) by lia. apply (bsub_ok L y (S k) HD' (S k) (fun _ => 0) (Nat.le_refl _) m). lia.
    + rewrite rsum_0. { destruct (Nat.eqb_spec m k); [lia|reflexivity]. } intros i Hi. unfold low. destruct (Nat.leb_spec m i); [lia|ring].
Qed.
Lemma pivot_le n L1 L2 A B c k : is_chol n L1 A -> is_chol n L2 B -> (k < n)%nat -> (forall v, bform n (mat_at A) v v <= c * bform n (mat_at B) v v) ->
  L1 k k * L1 k k <= c * (L2 k k * L2 k k).
Proof.
  intros H1 H2 Hk H. destruct (pivot_vector n L2 k) as (v & V1 & V2 & V3); [apply H2|exact Hk|].
  assert (X := H v). rewrite (chol_form n L1 A v H1), (chol_form n L2 B v H2) in X.
  assert (E2 : rsum n (fun k0 => rsum n (fun i => low L2 i k0 * v i) * rsum n (fun i => low L2 i k0 * v i)) = L2 k k * L2 k k).
  { rewrite (rsum_single n k); [rewrite V3, Nat.eqb_refl by exact Hk; reflexivity|exact Hk|]. intros j Hj Hn. rewrite V3 by exact Hj. destruct (Nat.eqb_spec j k); [contradiction|ring]. }
  rewrite E2 in X. eapply Rle_trans; [|exact X].
  assert (E1 : rsum n (fun i => low L1 i k * v i) = L1 k k).
  { rewrite (rsum_single n k); [rewrite V1; unfold low; rewrite Nat.leb_refl; ring|exact Hk|]. intros j Hj Hn. unfold low. destruct (Nat.leb_spec k j); [|ring]. rewrite V2 by lia. ring. }
  rewrite <- E1 at 1 2. apply (rsum_le_term n (fun k0 => rsum n (fun i => low L1 i k0 * v i) * rsum n (fun i => low L1 i k0 * v i))); [intros; apply Rle_0_sqr|exact Hk].
Qed.
Lemma nrm_triangle n a b : nrm n (fun i => a i + b i) <= nrm n a + nrm n b.
Proof.
  assert (A := nrm_nonneg n a). assert (B := nrm_nonneg n b). assert (C := cauchy_schwarz_nrm n a b). assert (D := Rle_abs (dotp n a b)).
  apply Rsqr_incr_0_var; [|lra]. unfold Rsqr. rewrite nrm_sq.
  replace (dotp n (fun i => a i + b i) (fun i => a i + b i)) with (dotp n a a + 2 * dotp n a b + dotp n b b).
  - rewrite <- !nrm_sq. nra.
  - unfold dotp. rewrite <- rsum_scal, <- !rsum_plus. apply rsum_ext; intros i Hi. ring.
Qed.
Lemma len_sub A x y : len A x <= len A (fun i => x i - y i) + len A y.
Proof.
  unfold len. eapply Rle_trans; [|apply nrm_triangle]. right. unfold nrm. f_equal. apply dotp_ext; intros i Hi; ring.
Qed.

(** the rows of a factor multiplied by numbers with errors *)
Lemma scale_err v G (A L L' : nat -> nat -> R) (p : nat -> R) i j m : 0 <= v -> 0 <= G -> 0 < p i -> 0 < p j ->
  (forall k, (k < m)%nat -> Rabs (p i * L i k - L' i k) <= v * Rabs (L' i k)) -> (forall k, (k < m)%nat -> Rabs (p j * L j k - L' j k) <= v * Rabs (L' j k)) ->
  Rabs (A i j - rsum m (fun k => L i k * L j k)) <= G * rsum m (fun k => Rabs (L i k * L j k)) ->
  Rabs (p i * p j * A i j - rsum m (fun k => L' i k * L' j k)) <= ((1 + v) ^ 2 * (1 + G) - 1) * rsum m (fun k => Rabs (L' i k * L' j k)).
Proof.
  intros Hv HG Pi Pj Hi Hj H.
  assert (T : forall (x y : R), Rabs (x - y) <= v * Rabs y -> Rabs x <= (1 + v) * Rabs y).
  { intros x y Hxy. assert (X := Rabs_triang_inv x y). lra. }
  assert (B : rsum m (fun k => Rabs (p i * L i k * (p j * L j k))) <= (1 + v) ^ 2 * rsum m (fun k => Rabs (L' i k * L' j k))).
  { rewrite <- rsum_scal. apply rsum_le; intros k Hk. rewrite !(Rabs_mult (L' i k)), (Rabs_mult (p i * L i k)).
    apply Rle_trans with ((1 + v) * Rabs (L' i k) * ((1 + v) * Rabs (L' j k))); [|right; ring]. apply Rmult_le_compat; try apply Rabs_pos; apply T; auto. }
  assert (D : Rabs (rsum m (fun k => p i * L i k * (p j * L j k)) - rsum m (fun k => L' i k * L' j k)) <= ((1 + v) ^ 2 - 1) * rsum m (fun k => Rabs (L' i k * L' j k))).
  { rewrite <- rsum_minus, <- rsum_scal. eapply Rle_trans; [apply rsum_abs|]. apply rsum_le; intros k Hk.
    replace (p i * L i k * (p j * L j k) - L' i k * L' j k) with ((p i * L i k - L' i k) * (p j * L j k) + L' i k * (p j * L j k - L' j k)) by ring.
    eapply Rle_trans; [apply Rabs_triang|]. rewrite !Rabs_mult.
    assert (X1 := Hi k Hk). assert (X2 := Hj k Hk). assert (X3 := T _ _ X2). rewrite (Rabs_mult (p j)) in X3. assert (0 <= Rabs (L' i k)) by apply Rabs_pos. assert (0 <= Rabs (L' j k)) by apply Rabs_pos.
    apply Rle_trans with (v * Rabs (L' i k) * ((1 + v) * Rabs (L' j k)) + Rabs (L' i k) * (v * Rabs (L' j k))); [|right; ring].
    apply Rplus_le_compat; [apply Rmult_le_compat; try apply Rabs_pos; auto; apply Rmult_le_pos; apply Rabs_pos|apply Rmult_le_compat_l; auto]. }
  assert (C : Rabs (p i * p j * A i j - rsum m (fun k => p i * L i k * (p j * L j k))) <= G * rsum m (fun k => Rabs (p i * L i k * (p j * L j k)))).
  { replace (rsum m (fun k => p i * L i k * (p j * L j k))) with (p i * p j * rsum m (fun k => L i k * L j k)) by (rewrite <- rsum_scal; apply rsum_ext; intros; ring).
    replace (rsum m (fun k => Rabs (p i * L i k * (p j * L j k)))) with (p i * p j * rsum m (fun k => Rabs (L i k * L j k))).
    2:{ rewrite <- rsum_scal. apply rsum_ext; intros k Hk. rewrite !Rabs_mult. rewrite (Rabs_pos_eq (p i)), (Rabs_pos_eq (p j)) by lra. ring. }
    rewrite <- Rmult_minus_distr_l, Rabs_mult, (Rabs_pos_eq (p i * p j)) by nra. replace (G * (p i * p j * rsum m (fun k => Rabs (L i k * L j k)))) with (p i * p j * (G * rsum m (fun k => Rabs (L i k * L j k)))) by ring.
    apply Rmult_le_compat_l; [nra|exact H]. }
  replace (p i * p j * A i j - rsum m (fun k => L' i k * L' j k)) with
    ((p i * p j * A i j - rsum m (fun k => p i * L i k * (p j * L j k))) + (rsum m (fun k => p i * L i k * (p j * L j k)) - rsum m (fun k => L' i k * L' j k))) by ring.
  eapply Rle_trans; [apply Rabs_triang|]. set (Z := rsum m (fun k => Rabs (L' i k * L' j k))) in *.
  assert (E : G * rsum m (fun k => Rabs (p i * L i k * (p j * L j k))) <= G * ((1 + v) ^ 2 * Z)) by (apply Rmult_le_compat_l; assumption).
  replace (((1 + v) ^ 2 * (1 + G) - 1) * Z) with (G * ((1 + v) ^ 2 * Z) + ((1 + v) ^ 2 - 1) * Z) by ring. lra.
Qed.
Lemma gam_scale u k : (1 + gam u 3) ^ 2 * (1 + gam u k) - 1 = gam u (k + 6).
Proof. unfold gam. rewrite (pow_add _ k 6). cbn [pow]. ring. Qed.
(** with [p] right up to two roundings, and one more rounding *)
Lemma scale_entry u ar p ph l : rounds u ar -> near (gam u 2) p ph -> Rabs (p * l - f_mul ar ph l) <= gam u 3 * Rabs (f_mul ar ph l).
Proof.
  intros RO (_ & N). assert (Hu := ro_u _ _ RO). destruct (ro_mul _ _ RO ph l) as (_ & M). assert (W := near_le u _ _ Hu (ro_mul _ _ RO ph l)).
  set (y := f_mul ar ph l) in *. replace (p * l - y) with ((p - ph) * l + (ph * l - y)) by ring. eapply Rle_trans; [apply Rabs_triang|].
  rewrite (Rabs_mult (p - ph)), (Rabs_minus_sym p ph), (Rabs_minus_sym (ph * l)). rewrite gam_S. rewrite Rabs_mult in W.
  assert (G := gam_nonneg u 2 Hu). assert (0 <= Rabs l) by apply Rabs_pos.
  apply Rle_trans with (gam u 2 * (Rabs ph * Rabs l) + u * Rabs y); [|nra].
  apply Rplus_le_compat; [|exact M]. rewrite <- Rmult_assoc. apply Rmult_le_compat_r; assumption.
Qed.
Lemma diag_ok_mono G G' a L j : G <= G' -> diag_ok G a L j -> diag_ok G' a L j.
Proof. intros H (P & Q). split; [exact P|]. eapply Rle_trans; [exact Q|]. apply Rmult_le_compat_r; [|exact H]. apply (sqsum_nonneg L j (S j)). Qed.
Lemma off_ok_mono G G' a L i j : G <= G' -> off_ok G a L i j -> off_ok G' a L i j.
Proof. intros H Q. eapply Rle_trans; [exact Q|]. apply Rmult_le_compat_r; [|exact H]. apply rsum_nonneg; intros; apply Rabs_pos. Qed.
Lemma rel_error_intro (N : (nat -> R) -> R) r xh x : (forall x, 0 <= N x) -> N xh <= N (fun i => xh i - x i) + N x -> 0 <= r -> N (fun i => xh i - x i) <= r * N xh -> rel_error N r xh x.
Proof.
  intros NN NT R0 H. split; [exact H|]. intros R1. set (z := N (fun i => xh i - x i)) in *. assert (L := NN x).
  apply Rmult_le_reg_r with (1 - r); [lra|]. replace (r / (1 - r) * N x * (1 - r)) with (r * N x) by (field; lra). nra.
Qed.
Lemma energy_sub A x y : pd A -> energy A x <= energy A (fun i => x i - y i) + energy A y.
Proof.
  intros HP. eapply Rle_trans; [|apply energy_triangle; exact HP]. right. unfold energy. f_equal. rewrite !qform_bform by (apply pd_square; exact HP). apply bform_ext; intros; ring.
Qed.
Lemma ln_le_mono x y : 0 < x -> x <= y -> ln x <= ln y.
Proof. intros Hx [H| ->]; [left; apply ln_increasing; assumption|apply Rle_refl]. Qed.
Lemma ln_sq x : 0 < x -> ln (x * x) = 2 * ln x. Proof. intros H. rewrite ln_mult by exact H. ring. Qed.

(** everything about the use of a computed factor *)
Lemma use_factor u e k ar A Ah c : rounds u ar -> pd A -> scaled_cond_le A k -> computed e A Ah -> 0 <= e -> gam u (nr A + 7) < 1 ->
  (forall i, (i < nr A)%nat -> 0 < mat_at Ah i i) -> nr (fst c) = nr A ->
  (forall j, (j < nr A)%nat -> diag_ok (gam u (nr A + 7)) (mat_at Ah) (chol_read c) j) ->
  (forall i j, (j < i)%nat -> (i < nr A)%nat -> off_ok (gam u (nr A + 7)) (mat_at Ah) (chol_read c) i j) ->
  (forall b x, solves A x b -> accurate A (sol_err u e k (nr A)) (cho_solve_fl ar c b) x) /\
  (sol_err u e k (nr A) < 1 -> Rabs (log_det (nr A) c - ln (det (nr A) (mat_at A))) <= - (INR (nr A) * ln (1 - sol_err u e k (nr A)))) /\
  (forall b i, (i < nr A)%nat -> Rabs (b i - mv A (cho_solve_fl ar c b) i) <= sys_err u e (nr A) * (sqrt (mat_at A i i) * rsum (nr A) (fun j => sqrt (mat_at A j j) * Rabs (cho_solve_fl ar c b j)))) /\
  (sol_err u e k (nr A) < 1 -> exists L0, is_chol (nr A) L0 A /\ forall i, (i < nr A)%nat -> 0 < mat_at (fst c) i i /\
     Rabs (2 * ln (mat_at (fst c) i i) - 2 * ln (L0 i i)) <= - ln (1 - sol_err u e k (nr A))).
Proof.
  intros RO HP HC HE He HG DP NC D1 O1. assert (Hu := ro_u _ _ RO). assert (Esq := pd_square A HP). set (n := nr A) in *.
  assert (IN := pos_INR n). assert (S0 := solve_err_nonneg u n Hu HG). assert (HE' := HE). destruct HE' as (_ & _ & ES & EE). fold n in EE.
  assert (SY : symf n (mat_at Ah)) by (intros i j _ _; apply ES).
  set (t := e + (1 + e) * solve_err u n). assert (T0 : 0 <= t) by (unfold t; nra). set (r := sol_err u e k n). assert (ER : r = k * (INR n * t)) by reflexivity.
  assert (RESb : forall b i, (i < n)%nat -> Rabs (b i - mv A (cho_solve_fl ar c b) i) <= t * (sqrt (mat_at A i i) * rsum n (fun j => sqrt (mat_at A j j) * Rabs (cho_solve_fl ar c b j)))).
  { intros b. apply (residual_exact e (solve_err u n) A Ah (cho_solve_fl ar c b) b He S0 Esq (fun i Hi => pd_diag A i HP Hi) HE). intros i Hi. unfold cho_solve_fl. cbv zeta. rewrite NC.
    apply (residual u ar n (n + 7) (mat_at Ah) (chol_read c) b RO SY); auto. lia. }
  match goal with |- ?P1 /\ ?P2 /\ ?P3 /\ ?P4 => cut (P1 /\ P4); [intros (Q1 & Q4); split; [exact Q1|]; split; [|split; [exact RESb|exact Q4]]|] end.
  { intros R1. destruct (Q4 R1) as (L0 & CA & HL). destruct (logdet_chol n L0 A CA) as (_ & ED). rewrite ED.
    unfold log_det. rewrite <- !rsum_scal, <- rsum_minus. eapply Rle_trans; [apply rsum_abs|].
    replace (- (INR n * ln (1 - r))) with (rsum n (fun _ => - ln (1 - r))) by (rewrite rsum_const; ring).
    apply rsum_le; intros i Hi. apply HL, Hi. }
  split.
  - intros b x SO. set (xh := cho_solve_fl ar c b). assert (RES := RESb b). fold xh in RES.
    assert (F1 := forward_error A k t x xh b HP HC T0 SO RES). assert (F2 := energy_error A k t x xh b HP HC T0 SO RES). fold n in F1, F2. rewrite <- ER in F1, F2.
    assert (R0 : 0 <= r \/ n = 0%nat).
    { destruct (Nat.eq_dec n 0) as [Z|NZ]; [right; exact Z|left]. assert (K1 : 1 <= k) by (apply (scaled_ge1 A); [unfold n in NZ; lia|exact HP|exact HC]). rewrite ER. apply Rmult_le_pos; [lra|]. apply Rmult_le_pos; assumption. }
    destruct R0 as [R0|Z].
    + split; apply rel_error_intro; auto; try (intros; apply nrm_nonneg); try (intros; apply energy_nonneg); [apply len_sub|apply energy_sub; exact HP].
    + assert (L0 : forall y, len A y = 0). { intros y. unfold len. fold n. rewrite Z. unfold nrm, dotp. cbn [rsum]. apply sqrt_0. }
      assert (N0 : forall y, energy A y = 0). { intros y. unfold energy, qform. fold n. rewrite Z. cbn [rsum]. apply sqrt_0. }
      split; (split; [|intros _]); rewrite ?L0, ?N0; lra.
  - intros R1.
    set (L := chol_read c) in *. set (M := mkmat n n (fun i j => rsum n (fun k => low L i k * low L j k))).
    assert (CM : is_chol n L M) by (split; [reflexivity|]; split; [reflexivity|]; split; [intros i Hi; apply (D1 i Hi)|intros; reflexivity]).
    destruct (cho_factor_pd A true HP) as (c0 & _ & _ & (_ & _ & CA)). fold n in CA. set (L0 := chol_read c0) in *.
    exists L0. split; [exact CA|].
    destruct (Nat.eq_dec n 0) as [Z|NZ]. { intros i Hi. lia. }
    assert (K1 : 1 <= k) by (apply (scaled_ge1 A); [unfold n in NZ; lia|exact HP|exact HC]).
    assert (R0 : 0 <= r). { rewrite ER. apply Rmult_le_pos; [lra|]. apply Rmult_le_pos; assumption. }
    assert (G0 := gam_nonneg u (n + 7) Hu).
    assert (DE : forall i j, (i < n)%nat -> (j < n)%nat -> Rabs (mat_at M i j - mat_at A i j) <= t * (sqrt (mat_at A i i) * sqrt (mat_at A j j))).
    { intros i j Hi Hj. assert (X := product_err n (gam u (n + 7)) (mat_at Ah) L SY (conj G0 HG) DP D1 O1 i j Hi Hj). assert (Y := EE i j Hi Hj).
      assert (DG : forall j, (j < n)%nat -> sqrt (mat_at Ah j j) <= sqrt (1 + e) * sqrt (mat_at A j j)).
      { intros q Hq. assert (V := EE q q Hq Hq). unfold size_ij in V. assert (P := pd_diag A q HP Hq). rewrite sqrt_sqrt in V by lra. assert (V2 := Rle_abs (mat_at Ah q q - mat_at A q q)).
        rewrite <- sqrt_mult_alt by lra. apply sqrt_le_1_alt. lra. }
      assert (SQ : sqrt (1 + e) * sqrt (1 + e) = 1 + e) by (apply sqrt_sqrt; lra).
      assert (W : sqrt (mat_at Ah i i) * sqrt (mat_at Ah j j) <= (1 + e) * size_ij A i j).
      { rewrite <- SQ. unfold size_ij. replace (sqrt (1 + e) * sqrt (1 + e) * (sqrt (mat_at A i i) * sqrt (mat_at A j j))) with (sqrt (1 + e) * sqrt (mat_at A i i) * (sqrt (1 + e) * sqrt (mat_at A j j))) by ring.
        apply Rmult_le_compat; auto using sqrt_pos. }
      assert (CE : 0 <= gam u (n + 7) / (1 - gam u (n + 7)) <= solve_err u n).
      { unfold solve_err. set (g := gam u (n + 7)) in *. assert (I1 : 0 < / (1 - g)) by (apply Rinv_0_lt_compat; lra). unfold Rdiv. split; [apply Rmult_le_pos; lra|]. apply Rmult_le_compat_r; [lra|nra]. }
      assert (SZ : 0 <= size_ij A i j) by (unfold size_ij; apply Rmult_le_pos; apply sqrt_pos).
      assert (X2 : gam u (n + 7) / (1 - gam u (n + 7)) * (sqrt (mat_at Ah i i) * sqrt (mat_at Ah j j)) <= solve_err u n * ((1 + e) * size_ij A i j)).
      { apply Rmult_le_compat; try lra. apply Rmult_le_pos; apply sqrt_pos. }
      cbn [mat_at M]. replace (rsum n (fun k => low L i k * low L j k) - mat_at A i j) with ((rsum n (fun k => low L i k * low L j k) - mat_at Ah i j) + (mat_at Ah i j - mat_at A i j)) by ring.
      eapply Rle_trans; [apply Rabs_triang|]. fold (size_ij A i j). unfold t. lra. }
    assert (FB : forall v, Rabs (bform n (mat_at M) v v - bform n (mat_at A) v v) <= r * bform n (mat_at A) v v).
    { intros v. assert (B := bform_small n (fun i j => mat_at M i j - mat_at A i j) (fun i => sqrt (mat_at A i i)) v v t T0 (fun i _ => sqrt_pos _) DE).
      fold n in B. change (nrm n (fun i => sqrt (mat_at A i i) * v i)) with (len A v) in B.
      rewrite (bform_ext n (fun i j => mat_at M i j - mat_at A i j) (fun i j => mat_at M i j + (-1) * mat_at A i j) v v v v) in B by (intros; auto; ring). rewrite bform_madd, bform_mscal in B.
      replace (bform n (mat_at M) v v - bform n (mat_at A) v v) with (bform n (mat_at M) v v + -1 * bform n (mat_at A) v v) by ring.
      eapply Rle_trans; [exact B|]. assert (X := HC v). rewrite qform_bform in X by exact Esq. fold n in X. rewrite ER.
      apply Rle_trans with (t * INR n * (k * bform n (mat_at A) v v)); [apply Rmult_le_compat_l; [apply Rmult_le_pos; assumption|exact X]|right; ring]. }
    assert (UP : forall v, bform n (mat_at M) v v <= (1 + r) * bform n (mat_at A) v v) by (intros v; assert (X := FB v); assert (Y := Rle_abs (bform n (mat_at M) v v - bform n (mat_at A) v v)); lra).
    assert (LO : forall v, bform n (mat_at A) v v <= / (1 - r) * bform n (mat_at M) v v).
    { intros v. assert (X := FB v). assert (Y := Rle_abs (- (bform n (mat_at M) v v - bform n (mat_at A) v v))). rewrite Rabs_Ropp in Y.
      apply Rmult_le_reg_l with (1 - r); [lra|]. rewrite <- Rmult_assoc, Rinv_r by lra. lra. }
    assert (RDIAG : forall i, mat_at (fst c) i i = L i i) by (intros i; unfold L, chol_read; destruct (snd c); reflexivity).
    intros i Hi. rewrite RDIAG. split; [apply (D1 i Hi)|]. assert (P1 : 0 < L i i) by apply (D1 i Hi). assert (P0 : 0 < L0 i i) by (apply CA; exact Hi).
    assert (U1 := pivot_le n L L0 M A (1 + r) i CM CA Hi UP). assert (U2 := pivot_le n L0 L A M (/ (1 - r)) i CA CM Hi LO).
    assert (IR : 0 < / (1 - r)) by (apply Rinv_0_lt_compat; lra).
    apply ln_le_mono in U1; [|apply Rmult_lt_0_compat; assumption]. apply ln_le_mono in U2; [|apply Rmult_lt_0_compat; assumption].
    assert (PP1 : 0 < L i i * L i i) by (apply Rmult_lt_0_compat; assumption). assert (PP0 : 0 < L0 i i * L0 i i) by (apply Rmult_lt_0_compat; assumption).
    rewrite (ln_mult (1 + r)) in U1 by lra. rewrite (ln_mult (/ (1 - r))) in U2 by lra. rewrite !ln_sq in U1, U2 by assumption. rewrite ln_Rinv in U2 by lra.
    assert (LL : ln (1 + r) <= - ln (1 - r)). { rewrite <- ln_Rinv by lra. apply ln_le_mono; [lra|]. apply Rmult_le_reg_r with (1 - r); [lra|]. rewrite Rinv_l by lra. nra. }
    apply Rabs_le. lra.
Qed.
