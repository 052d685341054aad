(** Linear systems whose rows are renumbered, or contained in a larger system. *)
From Coq Require Import Reals List Arith Bool Lia Lra Psatz.
From Coquelicot Require Import Coquelicot.
From Verif.Base Require Import NpLite NpFacts Deriv.
From Verif.Spec Require Import LinAlgSpec.
From Verif.Proofs Require Import LinAlg CholCorrect Det LinDeriv LkdCore.
Local Open Scope R_scope.

(** ** a system contained in a larger one *)
Section E.
Variables (n1 n2 : nat) (sg : nat -> nat).
Hypothesis Hlt : forall r, (r < n1)%nat -> (sg r < n2)%nat.
Hypothesis Hinj : forall r s, (r < n1)%nat -> (s < n1)%nat -> sg r = sg s -> r = s.
Definition emb (z : nat -> R) (s : nat) : R := rsum n1 (fun r => if (s =? sg r)%nat then z r else 0).
Lemma emb_sum f z : rsum n2 (fun s => f s * emb z s) = rsum n1 (fun r => f (sg r) * z r).
Proof.
  unfold emb. rewrite (rsum_ext n2 _ (fun s => rsum n1 (fun r => if (s =? sg r)%nat then f s * z r else 0))).
  - rewrite rsum_swap. apply rsum_ext; intros r Hr. apply (rsum_delta n2 (sg r) (fun s => f s * z r)). apply Hlt, Hr.
  - intros s Hs. rewrite <- rsum_scal. apply rsum_ext; intros r Hr. destruct (s =? sg r)%nat; ring.
Qed.
Lemma emb_bform A z : bform n2 A (emb z) (emb z) = bform n1 (fun r s => A (sg r) (sg s)) z z.
Proof.
  unfold bform.
  rewrite (rsum_ext n2 _ (fun i => rsum n1 (fun s => A i (sg s) * z s) * emb z i)).
  - rewrite (emb_sum (fun i => rsum n1 (fun s => A i (sg s) * z s)) z). apply rsum_ext; intros r Hr. rewrite <- rsum_scal_r. apply rsum_ext; intros; ring.
  - intros i Hi. rewrite <- (emb_sum (A i) z). rewrite <- rsum_scal_r. apply rsum_ext; intros; ring.
Qed.
(** the best linear predictor has the least error variance *)
Lemma ksol_best n A b w : pdf n A -> - dotp n b (ksol n A b) <= - 2 * dotp n b w + bform n A w w.
Proof.
  intros HA. assert (Q := ksol_quad n A b HA). set (z := ksol n A b) in *.
  assert (P : 0 <= bform n A (fun i => w i - z i) (fun i => w i - z i)).
  { destruct (nonzero_dec n (fun i => w i - z i)) as [Z|Z]; [left; apply HA, Z|].
    right. unfold bform. symmetry. apply rsum_0; intros i Hi. apply rsum_0; intros j Hj. rewrite Z by exact Hi. ring. }
  assert (X : bform n A (fun i => w i - z i) (fun i => w i - z i) = bform n A w w - 2 * dotp n b w + bform n A z z).
  { assert (S1 : bform n A w z = dotp n b w).
    { unfold bform, dotp. apply rsum_ext; intros i Hi. rewrite (rsum_ext n _ (fun j => w i * (A i j * z j))) by (intros; ring). rewrite rsum_scal.
      assert (KO := ksol_ok n A b HA i Hi). fold z in KO. rewrite KO. ring. }
    assert (S2 : bform n A z w = dotp n b w).
    { rewrite <- S1. unfold bform. rewrite rsum_swap. apply rsum_ext; intros i Hi. apply rsum_ext; intros j Hj. rewrite (proj1 HA j i Hj Hi). ring. }
    transitivity (bform n A w w - bform n A w z - bform n A z w + bform n A z z); [|rewrite S1, S2; ring].
    unfold bform. rewrite <- !rsum_minus, <- rsum_plus. apply rsum_ext; intros i Hi. rewrite <- !rsum_minus, <- rsum_plus. apply rsum_ext; intros; ring. }
  lra.
Qed.
Lemma bform_diag n A A' z : (forall r s, (r < n)%nat -> (s < n)%nat -> r <> s -> A r s = A' r s) -> (forall r, (r < n)%nat -> A r r <= A' r r) ->
  bform n A z z <= bform n A' z z.
Proof.
  intros H1 H2. unfold bform. apply rsum_le; intros i Hi. apply rsum_le; intros j Hj. destruct (Nat.eq_dec i j) as [<-|D].
  - assert (Z := H2 i Hi). assert (0 <= z i * z i) by nra. nra.
  - rewrite H1 by assumption. lra.
Qed.
(** adding rows, and not increasing the diagonal, does not increase the error variance *)
Lemma var_mono A1 A2 k1 k2 : pdf n1 A1 -> pdf n2 A2 ->
  (forall r, (r < n1)%nat -> k2 (sg r) = k1 r) ->
  (forall r s, (r < n1)%nat -> (s < n1)%nat -> r <> s -> A2 (sg r) (sg s) = A1 r s) -> (forall r, (r < n1)%nat -> A2 (sg r) (sg r) <= A1 r r) ->
  1 - dotp n2 k2 (ksol n2 A2 k2) <= 1 - dotp n1 k1 (ksol n1 A1 k1).
Proof.
  intros P1 P2 Hk Ho Hd. assert (B := ksol_best n2 A2 k2 (emb (ksol n1 A1 k1)) P2). rewrite emb_bform in B.
  assert (Q := ksol_quad n1 A1 k1 P1). set (z := ksol n1 A1 k1) in *.
  assert (M : bform n1 (fun r s => A2 (sg r) (sg s)) z z <= bform n1 A1 z z) by (apply bform_diag; auto).
  assert (D : dotp n2 k2 (emb z) = dotp n1 k1 z) by (unfold dotp; rewrite emb_sum; apply rsum_ext; intros r Hr; rewrite Hk by exact Hr; reflexivity).
  rewrite D in B. lra.
Qed.
End E.

(** ** a system with its rows in another order *)
Section B.
Variables (n : nat) (sg tau : nat -> nat).
Hypothesis Hs : forall r, (r < n)%nat -> (sg r < n)%nat /\ tau (sg r) = r.
Hypothesis Ht : forall s, (s < n)%nat -> (tau s < n)%nat /\ sg (tau s) = s.
Lemma rsum_reidx f : rsum n f = rsum n (fun r => f (sg r)).
Proof.
  transitivity (rsum n (fun s => f s * emb n sg (fun _ => 1) s)).
  - apply rsum_ext; intros s Hs'. unfold emb. destruct (Ht s Hs') as (T1 & T2).
    rewrite (rsum_ext n _ (fun r => if (r =? tau s)%nat then 1 else 0)).
    + rewrite (rsum_delta n (tau s) (fun _ => 1)) by exact T1. ring.
    + intros r Hr. destruct (Hs r Hr) as (S1 & S2). destruct (Nat.eqb_spec s (sg r)), (Nat.eqb_spec r (tau s)); congruence.
  - rewrite emb_sum by (intros; apply Hs; assumption). apply rsum_ext; intros; ring.
Qed.
Lemma dotp_reidx u v : dotp n u v = dotp n (fun r => u (sg r)) (fun r => v (sg r)).
Proof. unfold dotp. apply (rsum_reidx (fun r => u r * v r)). Qed.
Variables (A1 A2 : nat -> nat -> R).
Hypothesis HA : forall r s, (r < n)%nat -> (s < n)%nat -> A2 (sg r) (sg s) = A1 r s.
Hypothesis P2 : pdf n A2.
Lemma pdf_reidx : pdf n A1.
Proof.
  split.
  - intros i j Hi Hj. rewrite <- !HA by assumption. apply P2; apply Hs; assumption.
  - intros v (k & Hk & Hv). assert (Z : 0 < bform n A2 (emb n sg v) (emb n sg v)).
    { apply P2. exists (sg k). split; [apply Hs, Hk|]. unfold emb. rewrite (rsum_ext n _ (fun r => if (r =? k)%nat then v r else 0)).
      - rewrite rsum_delta by exact Hk. exact Hv.
      - intros r Hr. destruct (Nat.eqb_spec (sg k) (sg r)) as [E|E], (Nat.eqb_spec r k) as [E'|E']; subst; try congruence; try reflexivity.
        exfalso. apply E'. rewrite <- (proj2 (Hs r Hr)), <- E. apply Hs, Hk. }
    rewrite emb_bform in Z by (intros; apply Hs; assumption).
    replace (bform n A1 v v) with (bform n (fun r s => A2 (sg r) (sg s)) v v); [exact Z|].
    unfold bform. apply rsum_ext; intros i Hi. apply rsum_ext; intros j Hj. rewrite HA by assumption. reflexivity.
Qed.
Lemma ksol_reidx b1 b2 : (forall r, (r < n)%nat -> b2 (sg r) = b1 r) -> forall r, (r < n)%nat -> ksol n A2 b2 (sg r) = ksol n A1 b1 r.
Proof.
  intros Hb r Hr. apply (ksol_unique n A1 (fun r => ksol n A2 b2 (sg r)) b1 pdf_reidx); [|exact Hr].
  intros i Hi. rewrite <- (Hb i Hi), <- (ksol_ok n A2 b2 P2 (sg i) (proj1 (Hs i Hi))).
  rewrite (rsum_reidx (fun j => A2 (sg i) j * ksol n A2 b2 j)). apply rsum_ext; intros j Hj. rewrite HA by assumption. reflexivity.
Qed.
Lemma dotp_ksol_reidx f1 f2 b1 b2 : (forall r, (r < n)%nat -> f2 (sg r) = f1 r) -> (forall r, (r < n)%nat -> b2 (sg r) = b1 r) ->
  dotp n f2 (ksol n A2 b2) = dotp n f1 (ksol n A1 b1).
Proof. intros Hf Hb. rewrite dotp_reidx. apply dotp_ext; [exact Hf|]. apply ksol_reidx, Hb. Qed.
Lemma gls_reidx v1 v2 y1 y2 : (forall r, (r < n)%nat -> v2 (sg r) = v1 r) -> (forall r, (r < n)%nat -> y2 (sg r) = y1 r) ->
  gb n v2 y2 A2 = gb n v1 y1 A1 /\ gq n v2 y2 A2 = gq n v1 y1 A1.
Proof.
  intros Hv Hy. assert (B : gb n v2 y2 A2 = gb n v1 y1 A1).
  { unfold gb. apply (f_equal2 Rdiv).
    - rewrite (dotp_sym n _ y2), (dotp_sym n _ y1). unfold gw. apply dotp_ksol_reidx; assumption.
    - unfold gw. apply dotp_ksol_reidx; assumption. }
  split; [exact B|]. unfold gq, gs. rewrite B. apply dotp_ksol_reidx; intros r Hr; unfold gres; rewrite Hv, Hy by exact Hr; reflexivity.
Qed.
End B.

(** ** the determinant *)
Lemma ex_derive_det n : forall (A : R -> nat -> nat -> R) t0, (forall i j, ex_derive (fun t => A t i j) t0) -> ex_derive (fun t => det n (A t)) t0.
Proof.
  induction n as [|m IH]; intros A t0 H; [cbn [det]; apply (exR_const 1 t0)|].
  assert (G : forall k, ex_derive (fun t => rsum k (fun j => (-1) ^ j * A t 0%nat j * det m (minor (A t) j))) t0).
  { induction k as [|k IHk]; cbn [rsum]; [apply (exR_const 0 t0)|]. apply exR_plus; [exact IHk|].
    apply exR_mult; [apply exR_mult; [apply exR_const|apply H]|]. apply IH. intros i j. unfold minor. apply H. }
  apply (ex_derive_ext (fun t => rsum (S m) (fun j => (-1) ^ j * A t 0%nat j * det m (minor (A t) j)))); [intros t; rewrite det_S; reflexivity|apply G].
Qed.
Lemma pdf_det_pos n A : pdf n A -> 0 < det n A.
Proof.
  intros H. destruct (pdf_chol n A H) as (L & _ & P & Z & E).
  rewrite (det_chol n L A P).
  - apply rprod_pos. intros i Hi. apply pow_lt, P, Hi.
  - intros i j Hi Hj. rewrite (rsum_low n L i j Z). apply E; assumption.
Qed.
Definition mix (n : nat) (A : nat -> nat -> R) (t : R) (i j : nat) : R := (if (i =? j)%nat then 1 - t else 0) + t * A i j.
Lemma mix_pdf n A t : 0 <= t <= 1 -> pdf n A -> pdf n (mix n A t).
Proof.
  intros Ht (S & P). split.
  - intros i j Hi Hj. unfold mix. rewrite (S i j Hi Hj), (Nat.eqb_sym j i). reflexivity.
  - intros v Hv. assert (E : bform n (mix n A t) v v = (1 - t) * dotp n v v + t * bform n A v v).
    { unfold bform, dotp. rewrite <- !rsum_scal, <- rsum_plus. apply rsum_ext; intros i Hi.
      rewrite (rsum_ext n _ (fun j => (if (j =? i)%nat then (1 - t) * (v i * v i) else 0) + t * (v i * A i j * v j))).
      - rewrite rsum_plus, (rsum_delta n i (fun _ => (1 - t) * (v i * v i))) by exact Hi. rewrite rsum_scal. reflexivity.
      - intros j Hj. unfold mix. rewrite (Nat.eqb_sym j i). destruct (Nat.eqb_spec i j) as [->|]; ring. }
    rewrite E. assert (Z1 := P v Hv). assert (Z2 := dotp_pos n v Hv). nra.
Qed.
Lemma lndet_reidx n sg tau A1 A2 : (forall r, (r < n)%nat -> (sg r < n)%nat /\ tau (sg r) = r) -> (forall s, (s < n)%nat -> (tau s < n)%nat /\ sg (tau s) = s) ->
  (forall r s, (r < n)%nat -> (s < n)%nat -> A2 (sg r) (sg s) = A1 r s) -> pdf n A2 -> ln (det n A2) = ln (det n A1).
Proof.
  intros Hs Ht HA P2. assert (P1 := pdf_reidx n sg tau Hs A1 A2 HA P2).
  assert (HM : forall t r s, (r < n)%nat -> (s < n)%nat -> mix n A2 t (sg r) (sg s) = mix n A1 t r s).
  { intros t r s Hr Hs'. unfold mix. rewrite HA by assumption.
    destruct (Nat.eqb_spec (sg r) (sg s)) as [E|E], (Nat.eqb_spec r s) as [E'|E']; subst; try congruence; try reflexivity.
    exfalso. apply E'. rewrite <- (proj2 (Hs r Hr)), E. apply Hs, Hs'. }
  set (f := fun t => ln (det n (mix n A2 t)) - ln (det n (mix n A1 t))).
  assert (EX : forall A t, pdf n A -> 0 <= t <= 1 -> ex_derive (fun t => ln (det n (mix n A t))) t).
  { intros A t PA I. assert (ED : ex_derive (fun t => det n (mix n A t)) t).
    { apply ex_derive_det. intros i j. unfold mix. destruct (i =? j)%nat; auto_derive; exact Logic.I. }
    apply (ex_derive_comp ln (fun t => det n (mix n A t))); [|exact ED].
    eexists. apply is_derive_Reals, derivable_pt_lim_ln, pdf_det_pos, mix_pdf; assumption. }
  assert (DD : forall A t, pdf n A -> 0 < t < 1 -> is_derive (fun t => ln (det n (mix n A t))) t (rsum n (fun i => rsum n (fun j => (A i j - (if (i =? j)%nat then 1 else 0)) * kinv n (mix n A t) i j)))).
  { intros A t PA I. apply (lndet_derive n t (mix n A)).
    - assert (D0 : 0 < Rmin t (1 - t)) by (apply Rmin_pos; lra). exists (mkposreal _ D0). intros s Hb. apply mix_pdf; [|exact PA].
      change (Rabs (s - t) < Rmin t (1 - t)) in Hb. apply Rabs_def2 in Hb. assert (M1 := Rmin_l t (1 - t)). assert (M2 := Rmin_r t (1 - t)). lra.
    - intros i j Hi Hj. unfold mix. destruct (i =? j)%nat; auto_derive; try exact Logic.I; ring. }
  assert (DZ : forall t, 0 < t < 1 -> is_derive f t 0).
  { intros t I. unfold f. refine (dR_val _ _ _ _ (dR_minus _ _ _ _ _ (DD A2 t P2 I) (DD A1 t P1 I)) _).
    rewrite (rsum_reidx n sg tau Hs Ht). apply Rminus_diag_eq. apply rsum_ext; intros i Hi. rewrite (rsum_reidx n sg tau Hs Ht). apply rsum_ext; intros j Hj. f_equal.
    - rewrite HA by assumption. f_equal. destruct (Nat.eqb_spec (sg i) (sg j)) as [E|E], (Nat.eqb_spec i j) as [E'|E']; subst; try congruence; try reflexivity.
      exfalso. apply E'. rewrite <- (proj2 (Hs i Hi)), E. apply Hs, Hj.
    - unfold kinv. apply (ksol_reidx n sg tau Hs Ht (mix n A1 t) (mix n A2 t) (HM t) (mix_pdf n A2 t ltac:(lra) P2)); [|exact Hi].
      intros r Hr. destruct (Nat.eqb_spec (sg r) (sg j)) as [E|E], (Nat.eqb_spec r j) as [E'|E']; subst; try congruence; try reflexivity.
      exfalso. apply E'. rewrite <- (proj2 (Hs r Hr)), E. apply Hs, Hj. }
  assert (CF : forall t, 0 <= t <= 1 -> continuity_pt f t).
  { intros t I. apply derivable_continuous_pt. apply ex_derive_Reals_0. unfold f. apply (ex_derive_minus (V := R_NormedModule)); apply EX; assumption. }
  destruct (MVT_gen f 0 1 (fun _ => 0)) as (c & _ & Hc).
  - intros x Hx. rewrite Rmin_left, Rmax_right in Hx by lra. apply DZ. lra.
  - intros x Hx. rewrite Rmin_left, Rmax_right in Hx by lra. apply CF. lra.
  - assert (F0 : f 0 = 0).
    { unfold f. apply Rminus_diag_eq. f_equal.
      transitivity (det n (fun i j => if (i =? j)%nat then 1 else 0)); [|symmetry]; apply det_ext; intros i k _ _; unfold mix; destruct (i =? k)%nat; ring. }
    assert (F1 : f 1 = ln (det n A2) - ln (det n A1)).
    { unfold f. apply (f_equal2 Rminus); f_equal; apply det_ext; intros i k _ _; unfold mix; destruct (i =? k)%nat; ring. }
    rewrite F0, F1 in Hc. lra.
Qed.
