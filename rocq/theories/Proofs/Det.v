(** The determinant of a matrix from its Cholesky factor. *)
From Coq Require Import Reals List Arith Bool Lia Lra Psatz.
From Verif.Base Require Import NpLite NpFacts.
From Verif.Spec Require Import KernelSpec LinAlgSpec.
Local Open Scope R_scope.

Definition minor (A : nat -> nat -> R) (j : nat) : nat -> nat -> R := fun i k => A (S i) (if (k <? j)%nat then k else S k).
Lemma det_S m A : det (S m) A = rsum (S m) (fun j => (-1) ^ j * A 0%nat j * det m (minor A j)). Proof. reflexivity. Qed.
Lemma det_ext n : forall A B, (forall i k, (i < n)%nat -> (k < n)%nat -> A i k = B i k) -> det n A = det n B.
Proof.
  induction n as [|n IH]; intros A B H; [reflexivity|]. rewrite !det_S. apply rsum_ext; intros j Hj. rewrite H by lia. f_equal.
  apply IH. intros i k Hi Hk. unfold minor. apply H; [lia|]. destruct (k <? j)%nat; lia.
Qed.
Definition setc (A : nat -> nat -> R) (c : nat) (u : nat -> R) : nat -> nat -> R := fun i k => if (k =? c)%nat then u i else A i k.
(** position of column c after deleting column j *)
Definition cpos (j c : nat) : nat := if (c <? j)%nat then c else (c - 1)%nat.
Lemma minor_setc_ne A c u j i k : j <> c -> minor (setc A c u) j i k = setc (minor A j) (cpos j c) (fun i => u (S i)) i k.
Proof.
  intros H. unfold minor, setc, cpos. destruct (Nat.ltb_spec k j), (Nat.ltb_spec c j).
  - destruct (Nat.eqb_spec k c); reflexivity.
  - destruct (Nat.eqb_spec k c), (Nat.eqb_spec k (c - 1)); try reflexivity; lia.
  - destruct (Nat.eqb_spec (S k) c), (Nat.eqb_spec k c); try reflexivity; lia.
  - destruct (Nat.eqb_spec (S k) c), (Nat.eqb_spec k (c - 1)); try reflexivity; lia.
Qed.
Lemma minor_setc_eq A c u i k : minor (setc A c u) c i k = minor A c i k.
Proof.
  unfold minor, setc. destruct (Nat.ltb_spec k c).
  - destruct (Nat.eqb_spec k c); [lia|reflexivity].
  - destruct (Nat.eqb_spec (S k) c); [lia|reflexivity].
Qed.
Lemma cpos_lt n j c : (c < S n)%nat -> (j < S n)%nat -> j <> c -> (cpos j c < n)%nat.
Proof. unfold cpos. destruct (Nat.ltb_spec c j); lia. Qed.

Lemma det_lin n : forall A c u w a b, (c < n)%nat ->
  det n (setc A c (fun i => a * u i + b * w i)) = a * det n (setc A c u) + b * det n (setc A c w).
Proof.
  induction n as [|n IH]; intros A c u w a b Hc; [lia|]. rewrite !det_S. rewrite <- !rsum_scal, <- rsum_plus.
  apply rsum_ext; intros j Hj. destruct (Nat.eq_dec j c) as [->|Hn].
  - rewrite (det_ext n _ (minor A c)) by (intros; apply minor_setc_eq).
    rewrite (det_ext n (minor (setc A c u) c) (minor A c)) by (intros; apply minor_setc_eq).
    rewrite (det_ext n (minor (setc A c w) c) (minor A c)) by (intros; apply minor_setc_eq).
    unfold setc. rewrite !Nat.eqb_refl. ring.
  - rewrite (det_ext n (minor (setc A c _) j) _ (fun i k _ _ => minor_setc_ne A c (fun i => a * u i + b * w i) j i k Hn)).
    rewrite (det_ext n (minor (setc A c u) j) _ (fun i k _ _ => minor_setc_ne A c u j i k Hn)).
    rewrite (det_ext n (minor (setc A c w) j) _ (fun i k _ _ => minor_setc_ne A c w j i k Hn)).
    rewrite (IH (minor A j) (cpos j c) (fun i => u (S i)) (fun i => w (S i)) a b) by (apply cpos_lt; assumption).
    assert (F0 : forall v, setc A c v 0%nat j = A 0%nat j) by (intros; unfold setc; destruct (Nat.eqb_spec j c); [contradiction|reflexivity]).
    rewrite !F0. ring.
Qed.

Lemma det_adj n : forall A c, (S c < n)%nat -> (forall i, (i < n)%nat -> A i c = A i (S c)) -> det n A = 0.
Proof.
  induction n as [|n IH]; intros A c Hc H; [lia|]. rewrite det_S.
  assert (Z : forall j, (j < S n)%nat -> j <> c -> j <> S c -> det n (minor A j) = 0).
  { intros j Hj H1 H2. apply (IH (minor A j) (cpos j c)).
    - unfold cpos. destruct (Nat.ltb_spec c j); lia.
    - intros i Hi. unfold minor, cpos. destruct (Nat.ltb_spec c j).
      + destruct (Nat.ltb_spec c j); [|lia]. destruct (Nat.ltb_spec (S c) j); [|lia]. apply H. lia.
      + destruct (Nat.ltb_spec (c - 1) j); [lia|]. destruct (Nat.ltb_spec (S (c - 1)) j); [lia|].
        replace (S (c - 1)) with c by lia. apply H. lia. }
  replace (S n) with (c + (2 + (n - S c)))%nat by lia. rewrite rsum_split, (rsum_split 2).
  rewrite (rsum_0 c) by (intros j Hj; rewrite Z by lia; ring).
  rewrite (rsum_0 (n - S c)) by (intros j Hj; rewrite Z by lia; ring).
  cbn [rsum]. replace (c + 0)%nat with c by lia. replace (c + 1)%nat with (S c) by lia.
  rewrite <- (H 0%nat) by lia.
  rewrite (det_ext n (minor A (S c)) (minor A c)).
  - cbn [pow]. ring.
  - intros i k Hi Hk. unfold minor. destruct (Nat.ltb_spec k (S c)), (Nat.ltb_spec k c); try reflexivity; try lia.
    replace k with c by lia. apply H. lia.
Qed.

Definition setc2 A c1 c2 u w := setc (setc A c1 u) c2 w.
(** swapping two adjacent columns changes the sign *)
Lemma det_swap n A c u w : (S c < n)%nat -> det n (setc2 A c (S c) u w) = - det n (setc2 A c (S c) w u).
Proof.
  intros Hc. set (D := fun x y => det n (setc2 A c (S c) x y)).
  assert (C : forall x y, (forall i k, setc2 A c (S c) x y i k = setc (setc A (S c) y) c x i k)).
  { intros x y i k. unfold setc2, setc. destruct (Nat.eqb_spec k (S c)), (Nat.eqb_spec k c); try reflexivity; lia. }
  assert (L2 : forall x y z, D x (fun i => 1 * y i + 1 * z i) = 1 * D x y + 1 * D x z).
  { intros x y z. unfold D, setc2. apply det_lin. exact Hc. }
  assert (L1 : forall x y z, D (fun i => 1 * x i + 1 * y i) z = 1 * D x z + 1 * D y z).
  { intros x y z. unfold D. rewrite !(det_ext n _ _ (fun i k _ _ => C _ z i k)). apply det_lin. lia. }
  assert (E : forall x, D x x = 0).
  { intros x. unfold D. apply (det_adj n _ c Hc). intros i Hi. unfold setc2, setc.
    rewrite !Nat.eqb_refl. destruct (Nat.eqb_spec c (S c)); [lia|reflexivity]. }
  assert (Z := E (fun i => 1 * u i + 1 * w i)). rewrite L2, !L1, !E in Z. fold (D u w) (D w u). lra.
Qed.
Lemma setc_self n A c u : (forall i, (i < n)%nat -> A i c = u i) -> forall i k, (i < n)%nat -> setc A c u i k = A i k.
Proof. intros H i k Hi. unfold setc. destruct (Nat.eqb_spec k c) as [->|]; [rewrite H by exact Hi; reflexivity|reflexivity]. Qed.
Lemma det_eqcol n : forall c A, (0 < c < n)%nat -> (forall i, (i < n)%nat -> A i c = A i 0%nat) -> det n A = 0.
Proof.
  induction c as [|c IH]; intros A Hc H; [lia|]. destruct (Nat.eq_dec c 0) as [->|Hc0].
  - apply (det_adj n A 0); [lia|]. intros i Hi. symmetry. auto.
  - rewrite (det_ext n A (setc2 A c (S c) (fun i => A i c) (fun i => A i (S c)))).
    + rewrite det_swap by lia. rewrite (IH (setc2 A c (S c) (fun i => A i (S c)) (fun i => A i c))); [ring | lia|].
      intros i Hi. unfold setc2, setc. destruct (Nat.eqb_spec c (S c)); [lia|]. rewrite Nat.eqb_refl.
      destruct (Nat.eqb_spec 0 (S c)); [lia|]. destruct (Nat.eqb_spec 0 c); [lia|]. apply H, Hi.
    + intros i k Hi Hk. unfold setc2, setc. destruct (Nat.eqb_spec k (S c)) as [->|]; [reflexivity|]. destruct (Nat.eqb_spec k c) as [->|]; reflexivity.
Qed.
(** adding a multiple of column 0 to another column *)
Lemma det_colop n A c t : (0 < c < n)%nat -> det n (setc A c (fun i => A i c - t * A i 0%nat)) = det n A.
Proof.
  intros Hc. rewrite (det_ext n _ (setc A c (fun i => 1 * A i c + (- t) * A i 0%nat))).
  2:{ intros i k Hi Hk. unfold setc. destruct (k =? c)%nat; [ring|reflexivity]. }
  rewrite det_lin by lia. rewrite (det_eqcol n c (setc A c (fun i => A i 0%nat))); [|exact Hc|].
  - rewrite (det_ext n (setc A c (fun i => A i c)) A); [ring|]. intros i k Hi Hk. apply (setc_self n); auto.
  - intros i Hi. unfold setc. rewrite Nat.eqb_refl. destruct (Nat.eqb_spec 0 c); [lia|reflexivity].
Qed.
Lemma det_colops n A t m : (m <= n)%nat ->
  det n (fun i k => if (0 <? k)%nat && (k <? m)%nat then A i k - t k * A i 0%nat else A i k) = det n A.
Proof.
  induction m as [|m IH]; intros Hm.
  - apply det_ext. intros i k Hi Hk. destruct (0 <? k)%nat; simpl; [destruct (Nat.ltb_spec k 0); [lia|]|]; reflexivity.
  - rewrite <- IH by lia. destruct (Nat.eq_dec m 0) as [->|Hm0].
    + apply det_ext. intros i k Hi Hk. destruct (Nat.ltb_spec 0 k); simpl; [|reflexivity].
      destruct (Nat.ltb_spec k 1); [lia|]. destruct (Nat.ltb_spec k 0); [lia|reflexivity].
    + set (B := fun i k => if (0 <? k)%nat && (k <? m)%nat then A i k - t k * A i 0%nat else A i k).
      rewrite <- (det_colop n B m (t m)) by lia. apply det_ext. intros i k Hi Hk. unfold setc, B. cbn [andb].
      replace ((0 <? 0)%nat) with false by reflexivity. cbn [andb].
      destruct (Nat.eqb_spec k m) as [->|Hne].
      * destruct (Nat.ltb_spec 0 m); [|lia]. destruct (Nat.ltb_spec m (S m)); [|lia]. destruct (Nat.ltb_spec m m); [lia|]. reflexivity.
      * destruct (Nat.ltb_spec 0 k); simpl; [|reflexivity]. destruct (Nat.ltb_spec k (S m)), (Nat.ltb_spec k m); try reflexivity; lia.
Qed.
(** Schur complement *)
Lemma det_schur m A : A 0%nat 0%nat <> 0 ->
  det (S m) A = A 0%nat 0%nat * det m (fun i k => A (S i) (S k) - A 0%nat (S k) / A 0%nat 0%nat * A (S i) 0%nat).
Proof.
  intros Hp. rewrite <- (det_colops (S m) A (fun k => A 0%nat k / A 0%nat 0%nat) (S m) (Nat.le_refl _)).
  rewrite det_S. rewrite (rsum_single (S m) 0); [|lia|].
  - cbn [pow]. rewrite Rmult_1_l. cbn [Nat.ltb Nat.leb andb]. f_equal. apply det_ext. intros i k Hi Hk. unfold minor.
    replace ((k <? 0)%nat) with false by reflexivity.
    replace ((0 <? S k)%nat) with true by reflexivity. destruct (Nat.leb_spec (S k) m) as [Hkm|Hkm]; [|lia]. cbn [andb]. reflexivity.
  - intros j Hj Hn. destruct (Nat.ltb_spec 0 j); [|lia]. destruct (Nat.ltb_spec j (S m)); [|lia]. cbn [andb]. 
    replace (A 0%nat j - A 0%nat j / A 0%nat 0%nat * A 0%nat 0%nat) with 0 by (field; exact Hp). ring.
Qed.
Fixpoint rprod (n : nat) (f : nat -> R) : R := match n with O => 1 | S k => rprod k f * f k end.
Lemma rprod_S n f : rprod (S n) f = f 0%nat * rprod n (fun i => f (S i)).
Proof. induction n as [|n IH]; [simpl; ring|]. change (rprod (S (S n)) f) with (rprod (S n) f * f (S n)). rewrite IH. simpl. ring. Qed.
Theorem det_chol n : forall L A, (forall i, (i < n)%nat -> 0 < L i i) ->
  (forall i j, (i < n)%nat -> (j < n)%nat -> A i j = rsum n (fun k => low L i k * low L j k)) ->
  det n A = rprod n (fun i => L i i ^ 2).
Proof.
  induction n as [|n IH]; intros L A HL HA; [reflexivity|].
  assert (L0 := HL 0%nat ltac:(lia)).
  assert (R0 : forall i, (i < S n)%nat -> A i 0%nat = L i 0%nat * L 0%nat 0%nat).
  { intros i Hi. rewrite HA by lia. rewrite (rsum_single (S n) 0); [unfold low; simpl; reflexivity|lia|].
    intros k Hk Hne. unfold low at 2. destruct (Nat.leb_spec k 0); [lia|ring]. }
  assert (C0 : forall i, (i < S n)%nat -> A 0%nat i = L i 0%nat * L 0%nat 0%nat).
  { intros i Hi. rewrite HA by lia. rewrite (rsum_single (S n) 0); [unfold low; simpl; ring|lia|].
    intros k Hk Hne. unfold low at 1. destruct (Nat.leb_spec k 0); [lia|ring]. }
  rewrite det_schur by (rewrite R0 by lia; nra). rewrite (R0 0%nat) by lia.
  rewrite (IH (fun i k => L (S i) (S k))).
  - rewrite rprod_S. simpl. ring.
  - intros i Hi. apply HL. lia.
  - intros i j Hi Hj. rewrite C0, R0, HA by lia. change (S n) with (1 + n)%nat. rewrite rsum_split. cbn [rsum].
    rewrite (rsum_ext n (fun i0 => low L (S i) (1 + i0) * low L (S j) (1 + i0)) (fun k => low (fun i k => L (S i) (S k)) i k * low (fun i k => L (S i) (S k)) j k)) by (intros; reflexivity).
    unfold low at 1 2. simpl. field. lra.
Qed.
Lemma rprod_pos n f : (forall i, (i < n)%nat -> 0 < f i) -> 0 < rprod n f.
Proof. induction n as [|n IH]; intros H; simpl; [lra|]. apply Rmult_lt_0_compat; auto. Qed.
Lemma ln_rprod n f : (forall i, (i < n)%nat -> 0 < f i) -> ln (rprod n f) = rsum n (fun i => ln (f i)).
Proof.
  induction n as [|n IH]; intros H; simpl; [apply ln_1|]. rewrite ln_mult; [rewrite IH; auto| |]; auto. apply rprod_pos; auto.
Qed.
Theorem logdet_chol n L A : is_chol n L A -> 0 < det n (mat_at A) /\ ln (det n (mat_at A)) = 2 * rsum n (fun i => ln (L i i)).
Proof.
  intros (E1 & E2 & HL & HA). rewrite (det_chol n L _ HL HA).
  assert (P : forall i, (i < n)%nat -> 0 < L i i ^ 2) by (intros; apply pow_lt; auto).
  split; [apply rprod_pos; exact P|]. rewrite ln_rprod by exact P. rewrite <- rsum_scal. apply rsum_ext; intros i Hi.
  assert (Q := HL i Hi). replace (L i i ^ 2) with (L i i * L i i) by ring. rewrite ln_mult by auto. ring.
Qed.
