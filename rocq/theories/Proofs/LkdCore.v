(** Generalised least squares and the Gaussian log-likelihood, at the level of entry functions. *)
From Coq Require Import Reals List Arith Bool Lia Lra Psatz.
From Coquelicot Require Import Coquelicot.
From Verif.Base Require Import NpLite NpFacts Deriv.
From Verif.Spec Require Import KernelSpec LinAlgSpec.
From Verif.Model Require Import Chol.
From Verif.Proofs Require Import LinAlg CholCorrect Det LinDeriv.
Local Open Scope R_scope.

(** the solution of K x = b, by Cholesky *)
Definition ksol (n : nat) (K : nat -> nat -> R) (b : nat -> R) : nat -> R :=
  let L := match chol_steps n 0 K (fun _ _ => 0) with Ok L => L | Err _ => fun _ _ => 0 end in
  bsub L (fsub L b n) n n (fun _ => 0).
Lemma ksol_ok n K b : pdf n K -> fsolves n K (ksol n K b) b.
Proof.
  intros H. destruct (pdf_chol n K H) as (L & E & P & Z & F). unfold ksol. rewrite E. cbv zeta.
  set (c := (mkmat n n L, true)).
  assert (C : chol_of c (mkmat n n K)).
  { split; [reflexivity|]. split; [reflexivity|]. split; [reflexivity|]. split; [reflexivity|]. split; [exact P|].
    intros i' j' Hi' Hj'. cbn [nr mat_at]. cbn [nr] in Hi', Hj'. rewrite (rsum_low n (chol_read c) i' j'); [apply F; assumption|].
    intros i1 c1 H1 H2. apply Z; assumption. }
  apply fsolves_solves. apply (cho_solve_solves c _ b C).
Qed.
Lemma ksol_unique n K x b : pdf n K -> fsolves n K x b -> forall i, (i < n)%nat -> x i = ksol n K b i.
Proof. intros H A. apply (pdf_unique n K _ _ b H A), ksol_ok, H. Qed.
Definition kinv (n : nat) (K : nat -> nat -> R) (i j : nat) : R := ksol n K (fun k => if (k =? j)%nat then 1 else 0) i.

Lemma fsolves_ext n K K' x b b' : (forall i j, (i < n)%nat -> (j < n)%nat -> K i j = K' i j) -> (forall i, (i < n)%nat -> b i = b' i) ->
  fsolves n K x b -> fsolves n K' x b'.
Proof. intros E Eb H i Hi. rewrite <- Eb by exact Hi. rewrite <- (H i Hi). apply rsum_ext. intros j Hj. rewrite E by assumption. reflexivity. Qed.
Lemma pdf_ext n K K' : (forall i j, (i < n)%nat -> (j < n)%nat -> K i j = K' i j) -> pdf n K -> pdf n K'.
Proof.
  intros E (S & P). split.
  - intros i j Hi Hj. rewrite <- !E by assumption. apply S; assumption.
  - intros v Hv. rewrite <- (bform_ext n K K' v v v v); auto.
Qed.
Lemma ksol_ext n K K' b b' : pdf n K -> (forall i j, (i < n)%nat -> (j < n)%nat -> K i j = K' i j) -> (forall i, (i < n)%nat -> b i = b' i) ->
  forall i, (i < n)%nat -> ksol n K b i = ksol n K' b' i.
Proof.
  intros H E Eb. apply (ksol_unique n K' _ b'); [apply (pdf_ext n K); assumption|].
  apply (fsolves_ext n K K' _ b b' E Eb), ksol_ok, H.
Qed.
Lemma ksol_sym n K a b : pdf n K -> dotp n (ksol n K a) b = dotp n a (ksol n K b).
Proof.
  intros H. assert (A := ksol_ok n K a H). assert (B := ksol_ok n K b H). destruct H as (S & _).
  rewrite (dotp_ext n (ksol n K a) b (ksol n K a) (fun i => rsum n (fun j => K i j * ksol n K b j))) by (intros; auto; symmetry; apply B; assumption).
  rewrite (dotp_ext n a (ksol n K b) (fun i => rsum n (fun j => K i j * ksol n K a j)) (ksol n K b)) by (intros; auto; symmetry; apply A; assumption).
  rewrite <- bform_dotp. rewrite bform_sym by exact S. rewrite bform_dotp. apply dotp_sym.
Qed.
Lemma ksol_quad n K a : pdf n K -> dotp n a (ksol n K a) = bform n K (ksol n K a) (ksol n K a).
Proof.
  intros H. assert (A := ksol_ok n K a H). rewrite bform_dotp. rewrite dotp_sym. apply dotp_ext; [auto|]. intros; symmetry; apply A; assumption.
Qed.
Lemma ksol_quad_nn n K a : pdf n K -> 0 <= dotp n a (ksol n K a).
Proof.
  intros H. rewrite ksol_quad by exact H. destruct (nonzero_dec n (ksol n K a)) as [N|N].
  - left. apply H, N.
  - right. symmetry. unfold bform. apply rsum_0. intros i Hi. apply rsum_0. intros j Hj. rewrite N by assumption. ring.
Qed.
Lemma ksol_quad_pos n K a : pdf n K -> nonzero n a -> 0 < dotp n a (ksol n K a).
Proof.
  intros H (i & Hi & Ni). rewrite ksol_quad by exact H. apply H. destruct (nonzero_dec n (ksol n K a)) as [N|N]; [exact N|].
  exfalso. apply Ni. rewrite <- (ksol_ok n K a H i Hi). apply rsum_0. intros j Hj. rewrite N by assumption. ring.
Qed.
Lemma ksol_lin n K a b c : pdf n K -> forall i, (i < n)%nat -> ksol n K (fun i => a i + c * b i) i = ksol n K a i + c * ksol n K b i.
Proof.
  intros H i Hi. symmetry. revert i Hi. apply (ksol_unique n K (fun i => ksol n K a i + c * ksol n K b i)); [exact H|].
  intros i Hi. rewrite (rsum_ext n _ (fun j => K i j * ksol n K a j + c * (K i j * ksol n K b j))) by (intros; ring).
  rewrite rsum_plus, rsum_scal. rewrite (ksol_ok n K a H i Hi), (ksol_ok n K b H i Hi). ring.
Qed.
Lemma kinv_apply n K b : pdf n K -> forall i, (i < n)%nat -> ksol n K b i = rsum n (fun j => kinv n K i j * b j).
Proof.
  intros H i Hi. symmetry. revert i Hi. apply (ksol_unique n K (fun i => rsum n (fun j => kinv n K i j * b j))); [exact H|].
  intros i Hi. rewrite (rsum_ext n _ (fun l => rsum n (fun j => K i l * kinv n K l j * b j))).
  2:{ intros l Hl. rewrite <- rsum_scal. apply rsum_ext; intros; ring. }
  rewrite rsum_swap. rewrite (rsum_ext n _ (fun j => if (j =? i)%nat then b j else 0)).
  - apply (rsum_delta n i b Hi).
  - intros j Hj. rewrite rsum_scal_r. unfold kinv. rewrite (ksol_ok n K (fun k => if (k =? j)%nat then 1 else 0) H i Hi). rewrite (Nat.eqb_sym i j). destruct (j =? i)%nat; ring.
Qed.
Lemma kinv_sym n K : pdf n K -> symf n (kinv n K).
Proof.
  intros H i j Hi Hj. unfold kinv.
  assert (Z := ksol_sym n K (fun k => if (k =? j)%nat then 1 else 0) (fun k => if (k =? i)%nat then 1 else 0) H). unfold dotp in Z.
  rewrite (rsum_single n i), Nat.eqb_refl in Z; [|exact Hi|intros k _ Hk; destruct (Nat.eqb_spec k i); [contradiction|ring]].
  rewrite (rsum_single n j), Nat.eqb_refl in Z; [|exact Hj|intros k _ Hk; destruct (Nat.eqb_spec k j); [contradiction|ring]]. lra.
Qed.

Section GLS.
Variables (n : nat) (v y : nat -> R).
(** coefficient, residual, weights and quadratic form of the least squares fit of y by b v *)
Definition gw (K : nat -> nat -> R) : nat -> R := ksol n K v.
Definition gb (K : nat -> nat -> R) : R := dotp n (gw K) y / dotp n v (gw K).
Definition gres (b : R) : nat -> R := fun i => y i - v i * b.
Definition gs (K : nat -> nat -> R) : nat -> R := ksol n K (gres (gb K)).
Definition gq (K : nat -> nat -> R) : R := dotp n (gres (gb K)) (gs K).

Hypothesis Hv : nonzero n v.
Lemma gw_pos K : pdf n K -> 0 < dotp n v (gw K).
Proof. intros H. apply ksol_quad_pos; assumption. Qed.
Lemma gs_orth K : pdf n K -> dotp n (gs K) v = 0.
Proof.
  intros H. unfold gs. rewrite ksol_sym by exact H. fold (gw K). unfold gres.
  rewrite (dotp_ext n _ (gw K) (fun i => y i + (- gb K) * v i) (gw K)) by (intros; auto; ring).
  rewrite dotp_plus_l, dotp_scal_l. unfold gb. rewrite (dotp_sym n y). assert (Z := gw_pos K H). field. lra.
Qed.
Lemma gq_nn K : pdf n K -> 0 <= gq K.
Proof. intros H. apply ksol_quad_nn, H. Qed.
(** every other coefficient gives a larger quadratic form *)
Lemma gls_min K b : pdf n K -> dotp n (gres b) (ksol n K (gres b)) = gq K + (b - gb K) ^ 2 * dotp n v (gw K).
Proof.
  intros H. set (c := b - gb K).
  assert (E : forall i, gres b i = gres (gb K) i + (- c) * v i) by (intros; unfold gres, c; ring).
  assert (S : forall i, (i < n)%nat -> ksol n K (gres b) i = gs K i + (- c) * gw K i).
  { intros i Hi. rewrite (ksol_ext n K K (gres b) (fun i => gres (gb K) i + (- c) * v i) H (fun _ _ _ _ => eq_refl) (fun i _ => E i) i Hi).
    apply ksol_lin; assumption. }
  rewrite (dotp_ext n (gres b) (ksol n K (gres b)) (fun i => gres (gb K) i + (- c) * v i) (fun i => gs K i + (- c) * gw K i)) by auto.
  rewrite dotp_plus_l, !dotp_plus_r, !dotp_scal_l, !dotp_scal_r.
  assert (O := gs_orth K H). assert (O2 : dotp n (gres (gb K)) (gw K) = 0).
  { unfold gw. rewrite <- ksol_sym by exact H. exact O. }
  rewrite O2, (dotp_sym n v (gs K)), O. unfold gq. ring.
Qed.

Variable t0 : R.
Variable K : R -> nat -> nat -> R.
Variable D : nat -> nat -> R.
Hypothesis HK : locally t0 (fun t => pdf n (K t)).
Hypothesis DK : forall i j, (i < n)%nat -> (j < n)%nat -> is_derive (fun t => K t i j) t0 (D i j).

Lemma gw_derive : exists dw, (forall i, (i < n)%nat -> is_derive (fun t => gw (K t) i) t0 (dw i)) /\
  fsolves n (K t0) dw (fun i => 0 - rsum n (fun j => D i j * gw (K t0) j)).
Proof.
  apply (sol_derive n t0 K D (fun t => gw (K t)) (fun _ => v) (fun _ => 0) HK DK).
  - revert HK. apply filter_imp. intros t Ht. apply ksol_ok, Ht.
  - intros i _. apply dR_const.
Qed.
Lemma dR_dotp (f : R -> nat -> R) df (g : R -> nat -> R) dg : (forall i, (i < n)%nat -> is_derive (fun t => f t i) t0 (df i)) ->
  (forall i, (i < n)%nat -> is_derive (fun t => g t i) t0 (dg i)) -> is_derive (fun t => dotp n (f t) (g t)) t0 (dotp n df (g t0) + dotp n (f t0) dg).
Proof.
  intros A B. unfold dotp. refine (dR_val _ _ _ _ (dR_rsum_ex n (fun t i => f t i * g t i) (fun i => df i * g t0 i + f t0 i * dg i) t0 _) _).
  - intros i Hi. apply dR_mult; auto.
  - apply rsum_plus.
Qed.
(** the coefficient: b' = w K' (b w - K^-1 y) / (v.w) *)
Lemma gb_derive : is_derive (fun t => gb (K t)) t0
  (rsum n (fun j => rsum n (fun l => gw (K t0) j / dotp n v (gw (K t0)) * D j l * (gb (K t0) * gw (K t0) l - ksol n (K t0) y l)))).
Proof.
  assert (H := locally_singleton _ _ HK). cbv beta in H.
  destruct gw_derive as (dw & D1 & D2). assert (P := gw_pos (K t0) H).
  assert (A : is_derive (fun t => dotp n (gw (K t)) y) t0 (dotp n dw y + dotp n (gw (K t0)) (fun _ => 0))) by (apply (dR_dotp (fun t => gw (K t)) dw (fun _ => y) (fun _ => 0)); [exact D1|intros; apply dR_const]).
  assert (B : is_derive (fun t => dotp n v (gw (K t))) t0 (dotp n (fun _ => 0) (gw (K t0)) + dotp n v dw)) by (apply (dR_dotp (fun _ => v) (fun _ => 0) (fun t => gw (K t)) dw); [intros; apply dR_const|exact D1]).
  assert (Z0 : forall u, dotp n (fun _ => 0) u = 0) by (intros; unfold dotp; apply rsum_0; intros; ring).
  rewrite (dotp_sym n (gw (K t0)) (fun _ => 0)), !Z0 in A. rewrite Z0 in B.
  unfold gb, Rdiv. refine (dR_val _ _ _ _ (dR_mult _ _ _ _ _ A (dR_inv _ _ _ B _)) _); [lra|].
  set (w := gw (K t0)) in *. set (vw := dotp n v w) in *. set (z := ksol n (K t0) y).
  assert (Dy : forall u, dotp n dw u = - rsum n (fun j => rsum n (fun l => D j l * w l * ksol n (K t0) u j))).
  { intros u. rewrite (dotp_ext n dw u (ksol n (K t0) (fun i => 0 - rsum n (fun j => D i j * w j))) u); auto.
    2:{ apply ksol_unique; assumption. }
    rewrite ksol_sym by exact H. unfold dotp. rewrite <- rsum_opp. apply rsum_ext. intros j Hj. rewrite rsum_scal_r. ring. }
  assert (Sy : rsum n (fun j => rsum n (fun l => D j l * w l * z j)) = rsum n (fun j => rsum n (fun l => w j * D j l * z l))).
  { rewrite rsum_swap. apply rsum_ext; intros l Hl. apply rsum_ext; intros j Hj.
    assert (E : D j l = D l j).
    { apply (dR_unique (fun t => K t j l) t0); [apply DK; assumption|]. apply (is_derive_ext_loc (fun t => K t l j)); [|apply DK; assumption].
      revert HK. apply filter_imp. intros t (S & _). apply S; assumption. }
    rewrite E. ring. }
  assert (Ey : dotp n dw y = - rsum n (fun j => rsum n (fun l => w j * D j l * z l))) by (rewrite Dy; fold z; rewrite Sy; reflexivity).
  assert (Ev : dotp n v dw = - rsum n (fun j => rsum n (fun l => w j * D j l * w l))).
  { rewrite dotp_sym, Dy. fold (gw (K t0)). fold w. f_equal. apply rsum_ext; intros j Hj. apply rsum_ext; intros l Hl. ring. }
  rewrite Ey, Ev.
  rewrite (rsum_ext n (fun j => rsum n (fun l => w j * / vw * D j l * (dotp n w y * / vw * w l - z l)))
             (fun j => rsum n (fun l => w j * D j l * w l) * (dotp n w y / vw ^ 2) + rsum n (fun l => w j * D j l * z l) * (- / vw))).
  2:{ intros j Hj. rewrite <- !rsum_scal_r, <- rsum_plus. apply rsum_ext. intros l Hl. field. lra. }
  rewrite rsum_plus, !rsum_scal_r. fold vw. field. lra.
Qed.

Lemma gs_derive : exists dr ds, (forall i, (i < n)%nat -> is_derive (fun t => gres (gb (K t)) i) t0 (dr i)) /\
  (forall i, (i < n)%nat -> is_derive (fun t => gs (K t) i) t0 (ds i)) /\
  fsolves n (K t0) ds (fun i => dr i - rsum n (fun j => D i j * gs (K t0) j)) /\ exists c, forall i, dr i = c * v i.
Proof.
  assert (B := gb_derive). set (b' := rsum n _) in B.
  assert (R : forall i, (i < n)%nat -> is_derive (fun t => gres (gb (K t)) i) t0 (0 - v i * b')).
  { intros i Hi. unfold gres. apply dR_minus; [apply dR_const|apply dR_scal, B]. }
  destruct (sol_derive n t0 K D (fun t => gs (K t)) (fun t => gres (gb (K t))) (fun i => 0 - v i * b') HK DK) as (ds & D1 & D2).
  - revert HK. apply filter_imp. intros t Ht. apply ksol_ok, Ht.
  - exact R.
  - exists (fun i => 0 - v i * b'), ds. split; [exact R|]. split; [exact D1|]. split; [exact D2|]. exists (- b'). intros i. cbv beta. generalize b'. intros q. change ((0 - v i * q)%R = ((- q) * v i)%R). ring.
Qed.
Lemma gq_derive : is_derive (fun t => gq (K t)) t0 (- bform n D (gs (K t0)) (gs (K t0))).
Proof.
  assert (H := locally_singleton _ _ HK). cbv beta in H.
  destruct gs_derive as (dr & ds & R1 & S1 & S2 & c & Hc). unfold gq.
  refine (dR_val _ _ _ _ (dR_dotp (fun t => gres (gb (K t))) dr (fun t => gs (K t)) ds R1 S1) _).
  assert (O := gs_orth (K t0) H).
  assert (E1 : dotp n dr (gs (K t0)) = 0).
  { rewrite (dotp_ext n dr (gs (K t0)) (fun i => c * v i) (gs (K t0))) by auto. rewrite dotp_scal_l, dotp_sym, O. ring. }
  assert (E2 : dotp n (gres (gb (K t0))) ds = - bform n D (gs (K t0)) (gs (K t0))).
  { rewrite (dotp_ext n _ ds (gres (gb (K t0))) (ksol n (K t0) (fun i => dr i - rsum n (fun j => D i j * gs (K t0) j)))); auto.
    2:{ apply ksol_unique; assumption. }
    rewrite <- ksol_sym by exact H. fold (gs (K t0)).
    rewrite (dotp_ext n (gs (K t0)) (fun i => dr i - rsum n (fun j => D i j * gs (K t0) j)) (gs (K t0)) (fun i => c * v i + (-1) * rsum n (fun j => D i j * gs (K t0) j)) (fun _ _ => eq_refl)) by (intros; rewrite Hc; ring).
    rewrite dotp_plus_r, !dotp_scal_r, O, bform_dotp. ring. }
  rewrite E1, E2. ring.
Qed.
Lemma lndet_derive : is_derive (fun t => ln (det n (K t))) t0 (rsum n (fun i => rsum n (fun j => D i j * kinv n (K t0) i j))).
Proof.
  assert (H := locally_singleton _ _ HK). apply (logdet_derive n t0 K D (kinv n (K t0)) HK DK).
  intros l Hl. unfold kinv. apply (ksol_ok n (K t0) (fun k => if (k =? l)%nat then 1 else 0)). exact H.
Qed.
End GLS.

Lemma gls_ext n v y K K' : pdf n K -> (forall i j, (i < n)%nat -> (j < n)%nat -> K i j = K' i j) ->
  gb n v y K = gb n v y K' /\ (forall i, (i < n)%nat -> gw n v K i = gw n v K' i) /\ (forall i, (i < n)%nat -> gs n v y K i = gs n v y K' i) /\ gq n v y K = gq n v y K'.
Proof.
  intros H E. assert (W : forall i, (i < n)%nat -> gw n v K i = gw n v K' i) by (apply ksol_ext; auto).
  assert (B : gb n v y K = gb n v y K').
  { unfold gb. rewrite (dotp_ext n (gw n v K) y (gw n v K') y) by auto. rewrite (dotp_ext n v (gw n v K) v (gw n v K')) by auto. reflexivity. }
  assert (S : forall i, (i < n)%nat -> gs n v y K i = gs n v y K' i) by (unfold gs; rewrite B; apply ksol_ext; auto).
  split; [exact B|]. split; [exact W|]. split; [exact S|]. unfold gq. rewrite B. apply dotp_ext; auto.
Qed.
Lemma det_scal n : forall c A, det n (fun i j => c * A i j) = c ^ n * det n A.
Proof.
  induction n as [|m IH]; intros c A; [simpl; ring|]. rewrite !det_S. rewrite <- rsum_scal. apply rsum_ext. intros j Hj.
  assert (E : det m (minor (fun i j => c * A i j) j) = c ^ m * det m (minor A j)).
  { rewrite <- IH. apply det_ext. intros i k _ _. unfold minor. reflexivity. }
  rewrite E. simpl. ring.
Qed.
