(** Minimum / maximum of lists, pairwise distances. *)
From Coq Require Import Reals List Arith Bool Lia Lra Psatz.
From Verif.Base Require Import NpLite NpFacts.
From Verif.Spec Require Import KernelSpec DataSpec.
From Verif.Model Require Import CommonFun.
Import ListNotations.
Local Open Scope R_scope.

Lemma fold_max t : forall a, (In (fold_left Rmax t a) (a :: t)) /\ forall x, In x (a :: t) -> x <= fold_left Rmax t a.
Proof.
  induction t as [|b t IH]; intros a; simpl.
  - split; [auto|]. intros x [->|[]]; lra.
  - destruct (IH (Rmax a b)) as (I1 & I2). split.
    + destruct I1 as [I1|I1]; [|auto]. rewrite <- I1. unfold Rmax. destruct (Rle_dec a b); auto.
    + assert (M := I2 _ (or_introl eq_refl)). assert (a <= Rmax a b) by apply Rmax_l. assert (b <= Rmax a b) by apply Rmax_r.
      intros x [->|[->|H']]; try lra. apply I2. right; exact H'.
Qed.
Lemma fold_min t : forall a, (In (fold_left Rmin t a) (a :: t)) /\ forall x, In x (a :: t) -> fold_left Rmin t a <= x.
Proof.
  induction t as [|b t IH]; intros a; simpl.
  - split; [auto|]. intros x [->|[]]; lra.
  - destruct (IH (Rmin a b)) as (I1 & I2). split.
    + destruct I1 as [I1|I1]; [|auto]. rewrite <- I1. unfold Rmin. destruct (Rle_dec a b); auto.
    + assert (M := I2 _ (or_introl eq_refl)). assert (Rmin a b <= a) by apply Rmin_l. assert (Rmin a b <= b) by apply Rmin_r.
      intros x [->|[->|H']]; try lra. apply I2. right; exact H'.
Qed.
Lemma lmax_ok l : l <> [] -> rok (lmax l) (fun m => In m l /\ forall x, In x l -> x <= m).
Proof. destruct l as [|a t]; [contradiction|]. intros _. apply fold_max. Qed.
Lemma lmin_ok l : l <> [] -> rok (lmin l) (fun m => In m l /\ forall x, In x l -> m <= x).
Proof. destruct l as [|a t]; [contradiction|]. intros _. apply fold_min. Qed.
Lemma lmax_inv l m : lmax l = Ok m -> l <> [] /\ In m l /\ forall x, In x l -> x <= m.
Proof. destruct l as [|a t]; [discriminate|]. intros E. split; [discriminate|]. exact (rok_inv _ _ _ (lmax_ok (a :: t) ltac:(discriminate)) E). Qed.
Lemma lmin_inv l m : lmin l = Ok m -> l <> [] /\ In m l /\ forall x, In x l -> m <= x.
Proof. destruct l as [|a t]; [discriminate|]. intros E. split; [discriminate|]. exact (rok_inv _ _ _ (lmin_ok (a :: t) ltac:(discriminate)) E). Qed.

Lemma offdiag_in n p q : In (p, q) (offdiag n) <-> (p < n /\ q < n /\ p <> q)%nat.
Proof.
  unfold offdiag. rewrite in_flat_map. split.
  - intros (p' & H1 & H2). apply in_map_iff in H2. destruct H2 as (q' & E & H2). injection E as -> ->.
    apply filter_In in H2. destruct H2 as (H2 & H3). apply in_seq in H1, H2. apply negb_true_iff, Nat.eqb_neq in H3. lia.
  - intros (H1 & H2 & H3). exists p. split; [apply in_seq; lia|]. apply in_map_iff. exists q. split; [reflexivity|].
    apply filter_In. split; [apply in_seq; lia|]. apply negb_true_iff, Nat.eqb_neq. exact H3.
Qed.
Lemma allpairs_in n p q : In (p, q) (allpairs n) <-> (p < n /\ q < n)%nat.
Proof.
  unfold allpairs. rewrite in_flat_map. split.
  - intros (p' & H1 & H2). apply in_map_iff in H2. destruct H2 as (q' & E & H2). injection E as -> ->. apply in_seq in H1, H2. lia.
  - intros (H1 & H2). exists p. split; [apply in_seq; lia|]. apply in_map_iff. exists q. split; [reflexivity|]. apply in_seq; lia.
Qed.
Lemma map_nonnil {A B} (f : A -> B) l a : In a l -> map f l <> [].
Proof. destruct l; [intros []|discriminate]. Qed.
Lemma dist_min_ok X : (2 <= nr X)%nat -> exists m, calc_dist_min X = Ok (Some m) /\ is_dist_min X m.
Proof.
  intros H. unfold calc_dist_min. destruct (Nat.eqb_spec (nr X) 1); [lia|].
  destruct (rok_ex _ _ (lmin_ok (map (fun pq => cdist X (fst pq) (snd pq)) (offdiag (nr X)))
    ltac:(apply (map_nonnil _ _ (0, 1)%nat); apply offdiag_in; lia))) as (m & -> & I1 & I2).
  exists m. split; [reflexivity|]. split.
  - apply in_map_iff in I1. destruct I1 as ((p, q) & E & I). apply offdiag_in in I. exists p, q. simpl in E. intuition auto.
  - intros p q Hp Hq Hn. apply I2. apply in_map_iff. exists (p, q). split; [reflexivity|]. apply offdiag_in; auto.
Qed.
Lemma dist_max_ok X : (2 <= nr X)%nat -> exists m, calc_dist_max X = Ok (Some m) /\ is_dist_max X m.
Proof.
  intros H. unfold calc_dist_max. destruct (Nat.eqb_spec (nr X) 1); [lia|].
  destruct (rok_ex _ _ (lmax_ok (map (fun pq => cdist X (fst pq) (snd pq)) (allpairs (nr X)))
    ltac:(apply (map_nonnil _ _ (0, 1)%nat); apply allpairs_in; lia))) as (m & -> & I1 & I2).
  exists m. split; [reflexivity|]. split.
  - apply in_map_iff in I1. destruct I1 as ((p, q) & E & I). apply allpairs_in in I. exists p, q. simpl in E. intuition auto.
  - intros p q Hp Hq. apply I2. apply in_map_iff. exists (p, q). split; [reflexivity|]. apply allpairs_in; auto.
Qed.
Lemma dist_min_total X : (1 <= nr X)%nat -> exists m, calc_dist_min X = Ok m.
Proof.
  intros H. destruct (Nat.eq_dec (nr X) 1) as [E|E]; [unfold calc_dist_min; rewrite E; simpl; eauto|].
  destruct (dist_min_ok X ltac:(lia)) as (m & Em & _). eauto.
Qed.
Lemma is_dist_min_unique X m m' : is_dist_min X m -> is_dist_min X m' -> m = m'.
Proof.
  intros ((p & q & A1 & A2 & A3 & ->) & B) ((p' & q' & A1' & A2' & A3' & ->) & B').
  apply Rle_antisym; auto.
Qed.
Lemma is_dist_max_unique X m m' : is_dist_max X m -> is_dist_max X m' -> m = m'.
Proof.
  intros ((p & q & A1 & A2 & ->) & B) ((p' & q' & A1' & A2' & ->) & B').
  apply Rle_antisym; auto.
Qed.
Lemma cdist_nonneg X p q : 0 <= cdist X p q. Proof. apply sqrt_pos. Qed.
(** scaling all coordinate differences by the same non-negative factor scales distances *)
Lemma cdist_scale X Y c p q : nc Y = nc X -> 0 <= c ->
  (forall i, (i < nc X)%nat -> mat_at Y p i - mat_at Y q i = c * (mat_at X p i - mat_at X q i)) -> cdist Y p q = c * cdist X p q.
Proof.
  intros E Hc H. unfold cdist. rewrite E.
  replace (rsum (nc X) (fun i => (mat_at Y p i - mat_at Y q i) ^ 2)) with (c ^ 2 * rsum (nc X) (fun i => (mat_at X p i - mat_at X q i) ^ 2)).
  - rewrite sqrt_mult_alt by apply pow2_ge_0. rewrite sqrt_pow2 by exact Hc. reflexivity.
  - rewrite <- rsum_scal. apply rsum_ext. intros i Hi. rewrite H by exact Hi. ring.
Qed.
Lemma dist_min_scale X Y c m : nr Y = nr X -> 0 <= c ->
  (forall p q, (p < nr X)%nat -> (q < nr X)%nat -> cdist Y p q = c * cdist X p q) -> is_dist_min X m -> is_dist_min Y (c * m).
Proof.
  intros E Hc H ((p & q & A1 & A2 & A3 & ->) & B). split.
  - exists p, q. rewrite E. repeat split; auto. symmetry; apply H; auto.
  - rewrite E. intros p' q' Hp Hq Hn. change (c * cdist X p q <= cdist Y p' q'). rewrite H by auto. apply Rmult_le_compat_l; [exact Hc | apply B; auto].
Qed.
Lemma dist_max_scale X Y c m : nr Y = nr X -> 0 <= c ->
  (forall p q, (p < nr X)%nat -> (q < nr X)%nat -> cdist Y p q = c * cdist X p q) -> is_dist_max X m -> is_dist_max Y (c * m).
Proof.
  intros E Hc H ((p & q & A1 & A2 & ->) & B). split.
  - exists p, q. rewrite E. repeat split; auto. symmetry; apply H; auto.
  - rewrite E. intros p' q' Hp Hq. change (cdist Y p' q' <= c * cdist X p q). rewrite H by auto. apply Rmult_le_compat_l; [exact Hc | apply B; auto].
Qed.
