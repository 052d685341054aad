(** Reasoning rules for NpLite: a program logic for [res] and entrywise specifications. *)
From Coq Require Import Reals List Arith Bool Lia Lra.
From Verif.Base Require Import NpLite.
Import ListNotations.
Local Open Scope R_scope.

Definition rok {A} (m : res A) (P : A -> Prop) : Prop :=
  match m with Ok a => P a | Err _ => False end.

Lemma rok_Ok {A} (a : A) (P : A -> Prop) : P a -> rok (Ok a) P.
Proof. exact (fun H => H). Qed.
Lemma rok_bind {A B} (m : res A) (k : A -> res B) P Q :
  rok m P -> (forall a, P a -> rok (k a) Q) -> rok (bind m k) Q.
Proof. destruct m; simpl; [intros H1 H2; apply H2; exact H1 | tauto]. Qed.
Lemma rok_mono {A} (m : res A) (P Q : A -> Prop) :
  rok m P -> (forall a, P a -> Q a) -> rok m Q.
Proof. destruct m; simpl; auto. Qed.
Lemma rok_ex {A} (m : res A) (P : A -> Prop) : rok m P -> exists a, m = Ok a /\ P a.
Proof. destruct m; simpl; [eauto | tauto]. Qed.
Lemma rok_inv {A} (m : res A) (P : A -> Prop) a : rok m P -> m = Ok a -> P a.
Proof. intros H E; subst; exact H. Qed.

Lemma rok_for_steps {S} (I : nat -> S -> Prop) body k : forall a s,
  I a s -> (forall j s, (a <= j < a + k)%nat -> I j s -> rok (body j s) (I (Datatypes.S j))) ->
  rok (for_steps k a body s) (I (a + k)%nat).
Proof.
  induction k as [|k IH]; intros a s H0 Hs; simpl.
  - rewrite Nat.add_0_r; exact H0.
  - eapply rok_bind; [apply Hs; [lia | exact H0]|].
    intros s' Hs'. replace (a + Datatypes.S k)%nat with (Datatypes.S a + k)%nat by lia.
    apply IH; [exact Hs'|]. intros j s2 Hj; apply Hs; lia.
Qed.
Lemma rok_for_range {S} (I : nat -> S -> Prop) body a b s :
  (a <= b)%nat -> I a s ->
  (forall j s, (a <= j < b)%nat -> I j s -> rok (body j s) (I (Datatypes.S j))) ->
  rok (for_range a b body s) (I b).
Proof.
  intros Hab H0 Hs. unfold for_range.
  replace b with (a + (b - a))%nat at 2 by lia.
  apply rok_for_steps; [exact H0|]. intros j s2 Hj; apply Hs; lia.
Qed.

(** ** finite sums *)
Lemma rsum_ext n f g : (forall i, (i < n)%nat -> f i = g i) -> rsum n f = rsum n g.
Proof. induction n as [|n IH]; simpl; intros H; [reflexivity|]. rewrite IH, H by auto with arith. reflexivity. Qed.
Lemma rsum_plus n f g : rsum n (fun i => f i + g i) = rsum n f + rsum n g.
Proof. induction n as [|n IH]; simpl; [lra|]. rewrite IH; lra. Qed.
Lemma rsum_minus n f g : rsum n (fun i => f i - g i) = rsum n f - rsum n g.
Proof. induction n as [|n IH]; simpl; [lra|]. rewrite IH; lra. Qed.
Lemma rsum_scal n c f : rsum n (fun i => c * f i) = c * rsum n f.
Proof. induction n as [|n IH]; simpl; [lra|]. rewrite IH; lra. Qed.
Lemma rsum_scal_r n c f : rsum n (fun i => f i * c) = rsum n f * c.
Proof. induction n as [|n IH]; simpl; [lra|]. rewrite IH; lra. Qed.
Lemma rsum_opp n f : rsum n (fun i => - f i) = - rsum n f.
Proof. induction n as [|n IH]; simpl; [lra|]. rewrite IH; lra. Qed.
Lemma rsum_0 n f : (forall i, (i < n)%nat -> f i = 0) -> rsum n f = 0.
Proof. induction n as [|n IH]; simpl; intros H; [reflexivity|]. rewrite IH, H by auto with arith. lra. Qed.
Lemma rsum_const n c : rsum n (fun _ => c) = INR n * c.
Proof. induction n as [|n IH]; [simpl; lra|]. rewrite S_INR. simpl rsum. rewrite IH; lra. Qed.
Lemma rsum_le n f g : (forall i, (i < n)%nat -> f i <= g i) -> rsum n f <= rsum n g.
Proof.
  induction n as [|n IH]; simpl; intros H; [lra|].
  assert (f n <= g n) by (apply H; lia). assert (rsum n f <= rsum n g) by (apply IH; intros; apply H; lia). lra.
Qed.
Lemma rsum_nonneg n f : (forall i, (i < n)%nat -> 0 <= f i) -> 0 <= rsum n f.
Proof. intros H. rewrite <- (rsum_0 n (fun _ => 0)) by auto. apply rsum_le; exact H. Qed.
Lemma rsum_le_term n f k : (forall i, (i < n)%nat -> 0 <= f i) -> (k < n)%nat -> f k <= rsum n f.
Proof.
  induction n as [|n IH]; intros H Hk; [lia|]. simpl.
  assert (Hn : 0 <= f n) by (apply H; lia).
  assert (Hs : 0 <= rsum n f) by (apply rsum_nonneg; intros; apply H; lia).
  destruct (Nat.eq_dec k n) as [->|Hne]; [lra|].
  assert (f k <= rsum n f) by (apply IH; [intros; apply H; lia | lia]). lra.
Qed.
Lemma rsum_nonneg_eq0 n f : (forall i, (i < n)%nat -> 0 <= f i) -> rsum n f = 0 ->
  forall i, (i < n)%nat -> f i = 0.
Proof.
  intros H H0 i Hi. assert (f i <= 0) by (rewrite <- H0; apply rsum_le_term; auto).
  assert (0 <= f i) by auto. lra.
Qed.
Lemma rsum_abs n f : Rabs (rsum n f) <= rsum n (fun i => Rabs (f i)).
Proof.
  induction n as [|n IH]; simpl; [rewrite Rabs_R0; lra|].
  eapply Rle_trans; [apply Rabs_triang|]. lra.
Qed.
Lemma rsum_split a b f : rsum (a + b) f = rsum a f + rsum b (fun i => f (a + i)%nat).
Proof.
  induction b as [|b IH]; simpl; [rewrite Nat.add_0_r; lra|].
  rewrite <- plus_n_Sm. simpl. rewrite IH. lra.
Qed.
Lemma rsum_swap n m f :
  rsum n (fun i => rsum m (fun j => f i j)) = rsum m (fun j => rsum n (fun i => f i j)).
Proof.
  induction n as [|n IH]; simpl.
  - symmetry. apply rsum_0; auto.
  - rewrite IH. rewrite <- rsum_plus. reflexivity.
Qed.
Lemma rsum_single n k f : (k < n)%nat -> (forall i, (i < n)%nat -> i <> k -> f i = 0) -> rsum n f = f k.
Proof.
  induction n as [|n IH]; intros Hk H; [lia|]. simpl.
  destruct (Nat.eq_dec k n) as [->|Hne].
  - rewrite rsum_0 by (intros; apply H; lia). lra.
  - rewrite IH by (try lia; intros; apply H; lia). rewrite (H n) by lia. lra.
Qed.
Lemma rsum_delta n k f : (k < n)%nat -> rsum n (fun i => if (i =? k)%nat then f i else 0) = f k.
Proof.
  intros Hk. rewrite (rsum_single n k).
  - rewrite Nat.eqb_refl; reflexivity.
  - exact Hk.
  - intros i _ Hi. apply Nat.eqb_neq in Hi. rewrite Hi. reflexivity.
Qed.
Lemma rsum_upd n k f v : (k < n)%nat ->
  rsum n (fun i => if (i =? k)%nat then v else f i) = rsum n f - f k + v.
Proof.
  intros Hk. transitivity (rsum n (fun i => f i + (if (i =? k)%nat then v - f k else 0))).
  - apply rsum_ext; intros i _. destruct (Nat.eqb_spec i k); [subst|]; lra.
  - rewrite rsum_plus. rewrite (rsum_delta n k (fun _ => v - f k) Hk). lra.
Qed.
(** sums over blocks: n = a*b *)
Lemma rsum_prod a b f :
  rsum (a * b) f = rsum a (fun i => rsum b (fun j => f (i * b + j)%nat)).
Proof.
  induction a as [|a IH]; [reflexivity|].
  simpl. rewrite Nat.add_comm. rewrite rsum_split. rewrite IH. reflexivity.
Qed.
Lemma rsum_mult n m f g :
  rsum n f * rsum m g = rsum n (fun i => rsum m (fun j => f i * g j)).
Proof.
  rewrite <- rsum_scal_r. apply rsum_ext; intros i _. rewrite rsum_scal. reflexivity.
Qed.

(** ** entrywise specifications *)
Definition vspec (n : nat) (v : vec) (f : nat -> R) : Prop :=
  vlen v = n /\ forall i, (i < n)%nat -> vat v i = f i.
Definition mspec (n m : nat) (A : mat) (f : nat -> nat -> R) : Prop :=
  nr A = n /\ nc A = m /\ forall i j, (i < n)%nat -> (j < m)%nat -> mat_at A i j = f i j.
Definition tspec (d n m : nat) (T : ten) (f : nat -> nat -> nat -> R) : Prop :=
  td T = d /\ tr T = n /\ tc T = m /\
  forall k i j, (k < d)%nat -> (i < n)%nat -> (j < m)%nat -> tat T k i j = f k i j.

Lemma bix_lt n i : (i < n)%nat -> bix n i = i.
Proof. unfold bix; intros H; destruct (Nat.eqb_spec n 1); lia. Qed.
Lemma bdim_same n : bdim n n = Ok n.
Proof. unfold bdim; rewrite Nat.eqb_refl; reflexivity. Qed.

Lemma mspec_refl A : mspec (nr A) (nc A) A (mat_at A).
Proof. repeat split; auto. Qed.
Lemma tspec_refl T : tspec (td T) (tr T) (tc T) T (tat T).
Proof. repeat split; auto. Qed.
Lemma vspec_refl v : vspec (vlen v) v (vat v).
Proof. split; auto. Qed.
Lemma mspec_ext n m A f g : mspec n m A f ->
  (forall i j, (i < n)%nat -> (j < m)%nat -> f i j = g i j) -> mspec n m A g.
Proof. intros (H1 & H2 & H3) H; repeat split; auto. intros; rewrite H3 by auto; auto. Qed.

Lemma vget_ok v n f i : vspec n v f -> (i < n)%nat -> rok (vget v i) (fun x => x = f i).
Proof.
  intros [Hn H] Hi. unfold vget. rewrite Hn. destruct (Nat.ltb_spec i n); [simpl; auto | lia].
Qed.
Lemma tget_ok T d n m f k : tspec d n m T f -> (k < d)%nat ->
  rok (tget T k) (fun A => mspec n m A (f k)).
Proof.
  intros (H1 & H2 & H3 & H) Hk. unfold tget. rewrite H1. destruct (Nat.ltb_spec k d); [simpl|lia].
  repeat split; simpl; auto.
Qed.
Lemma mmap_spec n m A f g : mspec n m A f -> mspec n m (mmap g A) (fun i j => g (f i j)).
Proof. intros (H1 & H2 & H); repeat split; simpl; auto. intros; rewrite H; auto. Qed.
Lemma tmap_spec d n m T f g : tspec d n m T f -> tspec d n m (tmap g T) (fun k i j => g (f k i j)).
Proof. intros (H1 & H2 & H3 & H); repeat split; simpl; auto. intros; rewrite H; auto. Qed.
Lemma mscal_spec n m A f c : mspec n m A f -> mspec n m (mscal c A) (fun i j => c * f i j).
Proof. apply mmap_spec. Qed.
Lemma mtrans_spec n m A f : mspec n m A f -> mspec m n (mtrans A) (fun i j => f j i).
Proof. intros (H1 & H2 & H); repeat split; simpl; auto. Qed.
Lemma mconst_spec n m c : mspec n m (mconst n m c) (fun _ _ => c).
Proof. repeat split; auto. Qed.
Lemma mzip_ok h n m A B f g : mspec n m A f -> mspec n m B g ->
  rok (mzip h A B) (fun C => mspec n m C (fun i j => h (f i j) (g i j))).
Proof.
  intros (H1 & H2 & H) (G1 & G2 & G). unfold mzip.
  rewrite H1, H2, G1, G2, !bdim_same. simpl. repeat split; auto.
  simpl; intros i j Hi Hj. rewrite !bix_lt by auto. rewrite H, G by auto. reflexivity.
Qed.
Lemma vmap_spec n v f g : vspec n v f -> vspec n (vmap g v) (fun i => g (f i)).
Proof. intros [H1 H]; split; simpl; auto. intros; rewrite H; auto. Qed.
Lemma vzip_ok h n u v f g : vspec n u f -> vspec n v g ->
  rok (vzip h u v) (fun w => vspec n w (fun i => h (f i) (g i))).
Proof.
  intros (H1 & H) (G1 & G). unfold vzip. rewrite H1, G1, bdim_same. simpl. split; auto.
  simpl; intros i Hi. rewrite !bix_lt by auto. rewrite H, G by auto. reflexivity.
Qed.
Lemma mupd_whole_ok op n m A f V v : mspec n m A f -> mspec n m V v ->
  rok (mupd op A 0 n 0 m V) (fun C => mspec n m C (fun i j => op (f i j) (v i j))).
Proof.
  intros (H1 & H2 & H) (G1 & G2 & G). unfold mupd, bcast_to.
  rewrite H1, H2, G1, G2, !Nat.min_id, !Nat.sub_0_r, !Nat.eqb_refl. simpl.
  repeat split; simpl; auto. intros i j Hi Hj.
  destruct (Nat.ltb_spec i n); [|lia]. destruct (Nat.ltb_spec j m); [|lia]. simpl.
  rewrite !Nat.sub_0_r, !bix_lt by auto. rewrite H, G by auto. reflexivity.
Qed.
Lemma miadd_ok n m A f V v : mspec n m A f -> mspec n m V v ->
  rok (miadd A V) (fun C => mspec n m C (fun i j => f i j + v i j)).
Proof.
  intros HA HV. unfold miadd, madd_at. destruct HA as (H1 & H2 & H). rewrite H1, H2.
  apply mupd_whole_ok; [repeat split; auto | auto].
Qed.
Lemma misub_ok n m A f V v : mspec n m A f -> mspec n m V v ->
  rok (misub A V) (fun C => mspec n m C (fun i j => f i j - v i j)).
Proof.
  intros HA HV. unfold misub, msub_at. destruct HA as (H1 & H2 & H). rewrite H1, H2.
  apply mupd_whole_ok; [repeat split; auto | auto].
Qed.
Lemma mdot_ok n k m A B f g : mspec n k A f -> mspec k m B g ->
  rok (mdot A B) (fun C => mspec n m C (fun i j => rsum k (fun l => f i l * g l j))).
Proof.
  intros (H1 & H2 & H) (G1 & G2 & G). unfold mdot. rewrite H2, G1, Nat.eqb_refl.
  repeat split; simpl; auto. intros i j Hi Hj. apply rsum_ext; intros l Hl. rewrite H, G by auto; reflexivity.
Qed.
Lemma mdotv_ok n k A v f g : mspec n k A f -> vspec k v g ->
  rok (mdotv A v) (fun w => vspec n w (fun i => rsum k (fun l => f i l * g l))).
Proof.
  intros (H1 & H2 & H) (G1 & G). unfold mdotv. rewrite H2, G1, Nat.eqb_refl.
  split; simpl; auto. intros i Hi. apply rsum_ext; intros l Hl. rewrite H, G by auto; reflexivity.
Qed.
Lemma mdiag_spec n v f : vspec n v f -> mspec n n (mdiag v) (fun i j => if (i =? j)%nat then f i else 0).
Proof.
  intros [H1 H]; repeat split; simpl; auto. intros i j Hi Hj. rewrite H by auto. reflexivity.
Qed.
Lemma meye_spec n : mspec n n (meye n) (fun i j => if (i =? j)%nat then 1 else 0).
Proof. repeat split; auto. Qed.
Lemma diagv_spec n A f : mspec n n A f -> vspec n (diagv A) (fun i => f i i).
Proof.
  intros (H1 & H2 & H); split; simpl; [rewrite H1, H2; apply Nat.min_id|]. auto.
Qed.
Lemma vdot_ok n u v f g : vspec n u f -> vspec n v g ->
  rok (vdot u v) (fun x => x = rsum n (fun i => f i * g i)).
Proof.
  intros [H1 H] [G1 G]. unfold vdot. rewrite H1, G1, Nat.eqb_refl. simpl.
  apply rsum_ext; intros i Hi; rewrite H, G by auto; reflexivity.
Qed.
Lemma tput_ok d n m T f k A g : tspec d n m T f -> (k < d)%nat -> mspec n m A g ->
  rok (tput T k A) (fun T' => tspec d n m T' (fun k' i j => if (k' =? k)%nat then g i j else f k' i j)).
Proof.
  intros (H1 & H2 & H3 & H) Hk (G1 & G2 & G). unfold tput.
  rewrite H1, H2, H3, G1, G2, !Nat.eqb_refl. destruct (Nat.ltb_spec k d); [|lia]. simpl.
  repeat split; simpl; auto. intros k' i j Hk' Hi Hj.
  destruct (Nat.eqb_spec k' k); [apply G | apply H]; auto.
Qed.
Lemma tconst_spec d n m c : tspec d n m (tconst d n m c) (fun _ _ _ => c).
Proof. repeat split; auto. Qed.

(** ** masks *)
Lemma true_idx_from_length b k : length (true_idx_from k b) = count_true b.
Proof. revert k; induction b as [|[|] b IH]; intros k; simpl; auto. Qed.
Lemma true_idx_from_bound b : forall k i, (i < count_true b)%nat ->
  (k <= nth i (true_idx_from k b) 0 < k + length b)%nat.
Proof.
  induction b as [|[|] b IH]; intros k i Hi; simpl in *; try lia.
  - destruct i; [lia|]. specialize (IH (S k) i). lia.
  - specialize (IH (S k) i). lia.
Qed.
Lemma sel_lt b i : (i < count_true b)%nat -> (sel b i < length b)%nat.
Proof. intros H; apply (true_idx_from_bound b 0 i) in H; unfold sel, true_idx; lia. Qed.
Lemma true_idx_from_mono b : forall k i j, (i < j < count_true b)%nat ->
  (nth i (true_idx_from k b) 0 < nth j (true_idx_from k b) 0)%nat.
Proof.
  induction b as [|[|] b IH]; intros k i j Hij; simpl in *; try lia.
  - destruct j; [lia|]. destruct i.
    + assert (H := true_idx_from_bound b (S k) j). lia.
    + apply IH; lia.
  - apply IH; lia.
Qed.
Lemma sel_mono b i j : (i < j < count_true b)%nat -> (sel b i < sel b j)%nat.
Proof. apply true_idx_from_mono. Qed.
Lemma sel_inj b i j : (i < count_true b)%nat -> (j < count_true b)%nat -> sel b i = sel b j -> i = j.
Proof.
  intros Hi Hj E. destruct (Nat.lt_trichotomy i j) as [H|[H|H]]; auto;
    [assert (sel b i < sel b j)%nat by (apply sel_mono; lia) | assert (sel b j < sel b i)%nat by (apply sel_mono; lia)]; lia.
Qed.
Lemma true_idx_from_true b : forall k i, (i < count_true b)%nat ->
  nth (nth i (true_idx_from k b) 0 - k)%nat b false = true.
Proof.
  induction b as [|[|] b IH]; intros k i Hi; simpl in *; try lia.
  - destruct i; [rewrite Nat.sub_diag; reflexivity|].
    assert (H := true_idx_from_bound b (S k) i ltac:(lia)). specialize (IH (S k) i ltac:(lia)).
    replace (nth i (true_idx_from (S k) b) 0 - k)%nat with (S (nth i (true_idx_from (S k) b) 0 - S k))%nat by lia.
    exact IH.
  - assert (H := true_idx_from_bound b (S k) i ltac:(lia)). specialize (IH (S k) i ltac:(lia)).
    replace (nth i (true_idx_from (S k) b) 0 - k)%nat with (S (nth i (true_idx_from (S k) b) 0 - S k))%nat by lia.
    exact IH.
Qed.
Lemma sel_true b i : (i < count_true b)%nat -> nth (sel b i) b false = true.
Proof.
  intros H. assert (E := true_idx_from_true b 0 i H). rewrite Nat.sub_0_r in E. exact E.
Qed.
Lemma mrows_ok n m A f b : mspec n m A f -> length b = n ->
  rok (mrows A b) (fun C => mspec (count_true b) m C (fun i j => f (sel b i) j)).
Proof.
  intros (H1 & H2 & H) Hb. unfold mrows. rewrite H1, Hb, Nat.eqb_refl. simpl.
  repeat split; simpl; auto. intros i j Hi Hj. apply H; auto. rewrite <- Hb; apply sel_lt; auto.
Qed.
Lemma mcols_ok n m A f b : mspec n m A f -> length b = m ->
  rok (mcols A b) (fun C => mspec n (count_true b) C (fun i j => f i (sel b j))).
Proof.
  intros (H1 & H2 & H) Hb. unfold mcols. rewrite H2, Hb, Nat.eqb_refl. simpl.
  repeat split; simpl; auto. intros i j Hi Hj. apply H; auto. rewrite <- Hb; apply sel_lt; auto.
Qed.
Lemma trows_ok d n m T f b : tspec d n m T f -> length b = n ->
  rok (trows T b) (fun C => tspec d (count_true b) m C (fun k i j => f k (sel b i) j)).
Proof.
  intros (H1 & H2 & H3 & H) Hb. unfold trows. rewrite H2, Hb, Nat.eqb_refl. simpl.
  repeat split; simpl; auto. intros k i j Hk Hi Hj. apply H; auto. rewrite <- Hb; apply sel_lt; auto.
Qed.
Lemma tcols_ok d n m T f b : tspec d n m T f -> length b = m ->
  rok (tcols T b) (fun C => tspec d n (count_true b) C (fun k i j => f k i (sel b j))).
Proof.
  intros (H1 & H2 & H3 & H) Hb. unfold tcols. rewrite H3, Hb, Nat.eqb_refl. simpl.
  repeat split; simpl; auto. intros k i j Hk Hi Hj. apply H; auto. rewrite <- Hb; apply sel_lt; auto.
Qed.

(** ** block-structured matrices: [n] function rows followed by [d] blocks of [g] gradient rows *)
Inductive rix := F (p : nat) | G (i p : nat).
Definition radr (n g : nat) (a : rix) : nat :=
  match a with F p => p | G i p => n + i * g + p end.
Definition rvalid (n g d : nat) (a : rix) : Prop :=
  match a with F p => (p < n)%nat | G i p => (i < d)%nat /\ (p < g)%nat end.
Definition loc (a : rix) : nat := match a with F p => p | G _ p => p end.

Lemma radr_lt n g d a : rvalid n g d a -> (radr n g a < n + g * d)%nat.
Proof.
  destruct a as [p|i p]; simpl; [lia|]. intros [H1 H2].
  assert (i * g + g <= d * g)%nat by (replace (i * g + g)%nat with ((S i) * g)%nat by (simpl; lia); apply Nat.mul_le_mono_r; lia).
  rewrite (Nat.mul_comm g d). lia.
Qed.
Lemma radr_inj n g d a b : rvalid n g d a -> rvalid n g d b -> radr n g a = radr n g b -> a = b.
Proof.
  destruct a as [p|i p], b as [q|j q]; simpl; intros Ha Hb E.
  - congruence.
  - lia.
  - lia.
  - destruct Ha, Hb. destruct (Nat.lt_trichotomy i j) as [Hij|[->|Hij]].
    + assert (i * g + g <= j * g)%nat by (replace (i * g + g)%nat with ((S i) * g)%nat by (simpl; lia); apply Nat.mul_le_mono_r; lia). lia.
    + f_equal; lia.
    + assert (j * g + g <= i * g)%nat by (replace (j * g + g)%nat with ((S j) * g)%nat by (simpl; lia); apply Nat.mul_le_mono_r; lia). lia.
Qed.
Definition unradr (n g : nat) (r : nat) : rix :=
  if (r <? n)%nat then F r else G ((r - n) / g) ((r - n) mod g).
Lemma unradr_ok n g d r : (r < n + g * d)%nat ->
  rvalid n g d (unradr n g r) /\ radr n g (unradr n g r) = r.
Proof.
  intros H. unfold unradr. destruct (Nat.ltb_spec r n); simpl; [auto|].
  assert (g <> 0)%nat by (intros ->; lia).
  assert (E := Nat.div_mod (r - n) g ltac:(auto)).
  assert (B := Nat.mod_upper_bound (r - n) g ltac:(auto)).
  repeat split; auto.
  - apply Nat.div_lt_upper_bound; auto. lia.
  - rewrite (Nat.mul_comm g) in E. lia.
Qed.

Definition bspec (n1 g1 d1 n2 g2 d2 : nat) (M : mat) (f : rix -> rix -> R) : Prop :=
  nr M = (n1 + g1 * d1)%nat /\ nc M = (n2 + g2 * d2)%nat /\
  forall a b, rvalid n1 g1 d1 a -> rvalid n2 g2 d2 b -> mat_at M (radr n1 g1 a) (radr n2 g2 b) = f a b.

Inductive reg := RF | RG (i : nat).
Definition rlo (n g : nat) (r : reg) : nat := match r with RF => 0 | RG i => n + i * g end.
Definition rht (n g : nat) (r : reg) : nat := match r with RF => n | RG _ => g end.
Definition rhi (n g : nat) (r : reg) : nat := match r with RF => n | RG i => n + i * g + g end.
Definition rgv (d : nat) (r : reg) : Prop := match r with RF => True | RG i => (i < d)%nat end.
Definition inreg (r : reg) (a : rix) : bool :=
  match r, a with RF, F _ => true | RG i, G i' _ => (i =? i')%nat | _, _ => false end.
Definition mkr (r : reg) (p : nat) : rix := match r with RF => F p | RG i => G i p end.

Lemma rhi_lo n g r : rhi n g r = (rlo n g r + rht n g r)%nat.
Proof. destruct r; simpl; lia. Qed.
Lemma rhi_le n g d r : rgv d r -> (rhi n g r <= n + g * d)%nat.
Proof.
  destruct r as [|i]; simpl; [lia|]. intros H.
  assert (i * g + g <= d * g)%nat by (replace (i * g + g)%nat with ((S i) * g)%nat by (simpl; lia); apply Nat.mul_le_mono_r; lia).
  rewrite (Nat.mul_comm g d). lia.
Qed.
Lemma in_reg n g d r a : rvalid n g d a -> rgv d r ->
  ((rlo n g r <=? radr n g a) && (radr n g a <? rhi n g r))%nat = inreg r a.
Proof.
  destruct r as [|i], a as [p|j p]; simpl; intros Ha Hr.
  - destruct (Nat.ltb_spec p n); auto; lia.
  - destruct (Nat.ltb_spec (n + j * g + p) n); auto; lia.
  - destruct (Nat.leb_spec (n + i * g) p); auto; lia.
  - destruct Ha as [Hj Hp].
    destruct (Nat.lt_trichotomy i j) as [Hij|[->|Hij]].
    + assert (i * g + g <= j * g)%nat by (replace (i * g + g)%nat with ((S i) * g)%nat by (simpl; lia); apply Nat.mul_le_mono_r; lia).
      destruct (Nat.ltb_spec (n + j * g + p) (n + i * g + g)); [lia|].
      rewrite andb_false_r. destruct (Nat.eqb_spec i j); auto; lia.
    + rewrite Nat.eqb_refl. destruct (Nat.leb_spec (n + j * g) (n + j * g + p)); [|lia].
      destruct (Nat.ltb_spec (n + j * g + p) (n + j * g + g)); auto; lia.
    + assert (j * g + g <= i * g)%nat by (replace (j * g + g)%nat with ((S j) * g)%nat by (simpl; lia); apply Nat.mul_le_mono_r; lia).
      destruct (Nat.leb_spec (n + i * g) (n + j * g + p)); [lia|].
      destruct (Nat.eqb_spec i j); auto; lia.
Qed.
Lemma in_reg_loc n g d r a : rvalid n g d a -> inreg r a = true ->
  (radr n g a - rlo n g r = loc a)%nat /\ (loc a < rht n g r)%nat.
Proof.
  destruct r as [|i], a as [p|j p]; simpl; intros Ha Hr; try discriminate; [lia|].
  apply Nat.eqb_eq in Hr; subst. lia.
Qed.

Lemma mupd_b op n1 g1 d1 n2 g2 d2 M f r1 r2 V v lo1 hi1 lo2 hi2 :
  bspec n1 g1 d1 n2 g2 d2 M f -> rgv d1 r1 -> rgv d2 r2 ->
  lo1 = rlo n1 g1 r1 -> hi1 = rhi n1 g1 r1 -> lo2 = rlo n2 g2 r2 -> hi2 = rhi n2 g2 r2 ->
  mspec (rht n1 g1 r1) (rht n2 g2 r2) V v ->
  rok (mupd op M lo1 hi1 lo2 hi2 V) (fun M' => bspec n1 g1 d1 n2 g2 d2 M'
    (fun a b => if inreg r1 a && inreg r2 b then op (f a b) (v (loc a) (loc b)) else f a b)).
Proof.
  intros (H1 & H2 & H) Hr1 Hr2 -> -> -> -> (V1 & V2 & HV). unfold mupd.
  rewrite H1, H2. assert (L1 := rhi_le n1 g1 d1 r1 Hr1). assert (L2 := rhi_le n2 g2 d2 r2 Hr2).
  rewrite (Nat.min_l _ _ L1), (Nat.min_l _ _ L2).
  assert (E : bcast_to (rhi n1 g1 r1 - rlo n1 g1 r1) (rhi n2 g2 r2 - rlo n2 g2 r2) V = true).
  { unfold bcast_to. rewrite V1, V2, !rhi_lo.
    replace (rlo n1 g1 r1 + rht n1 g1 r1 - rlo n1 g1 r1)%nat with (rht n1 g1 r1) by lia.
    replace (rlo n2 g2 r2 + rht n2 g2 r2 - rlo n2 g2 r2)%nat with (rht n2 g2 r2) by lia.
    rewrite !Nat.eqb_refl. reflexivity. }
  rewrite E. simpl. repeat split; simpl; auto. intros a b Ha Hb.
  assert (I1 := in_reg n1 g1 d1 r1 a Ha Hr1). assert (I2 := in_reg n2 g2 d2 r2 b Hb Hr2).
  rewrite <- andb_assoc. rewrite I1, I2.
  destruct (inreg r1 a) eqn:E1; simpl; [|auto].
  destruct (inreg r2 b) eqn:E2; simpl; [|auto].
  destruct (in_reg_loc n1 g1 d1 r1 a Ha E1) as [F1 F2].
  destruct (in_reg_loc n2 g2 d2 r2 b Hb E2) as [F3 F4].
  rewrite F1, F3, V1, V2, !bix_lt by auto. rewrite H, HV by auto. reflexivity.
Qed.

Lemma mslice_b n1 g1 d1 n2 g2 d2 M f r1 r2 lo1 hi1 lo2 hi2 :
  bspec n1 g1 d1 n2 g2 d2 M f -> rgv d1 r1 -> rgv d2 r2 ->
  lo1 = rlo n1 g1 r1 -> hi1 = rhi n1 g1 r1 -> lo2 = rlo n2 g2 r2 -> hi2 = rhi n2 g2 r2 ->
  mspec (rht n1 g1 r1) (rht n2 g2 r2) (mslice M lo1 hi1 lo2 hi2)
        (fun p q => f (mkr r1 p) (mkr r2 q)).
Proof.
  intros (H1 & H2 & H) Hr1 Hr2 -> -> -> ->. unfold mslice. rewrite H1, H2.
  assert (L1 := rhi_le n1 g1 d1 r1 Hr1). assert (L2 := rhi_le n2 g2 d2 r2 Hr2).
  rewrite (Nat.min_l _ _ L1), (Nat.min_l _ _ L2), !rhi_lo.
  repeat split; simpl; try lia. intros i j Hi Hj.
  rewrite <- H.
  - f_equal; destruct r1, r2; simpl; auto.
  - destruct r1; simpl in *; auto.
  - destruct r2; simpl in *; auto.
Qed.

Definition tbspec (D n1 g1 d1 n2 g2 d2 : nat) (T : ten) (f : nat -> rix -> rix -> R) : Prop :=
  td T = D /\ tr T = (n1 + g1 * d1)%nat /\ tc T = (n2 + g2 * d2)%nat /\
  forall k a b, (k < D)%nat -> rvalid n1 g1 d1 a -> rvalid n2 g2 d2 b ->
    tat T k (radr n1 g1 a) (radr n2 g2 b) = f k a b.

Lemma tupd_b op D n1 g1 d1 n2 g2 d2 T f k r1 r2 V v lo1 hi1 lo2 hi2 :
  tbspec D n1 g1 d1 n2 g2 d2 T f -> (k < D)%nat -> rgv d1 r1 -> rgv d2 r2 ->
  lo1 = rlo n1 g1 r1 -> hi1 = rhi n1 g1 r1 -> lo2 = rlo n2 g2 r2 -> hi2 = rhi n2 g2 r2 ->
  mspec (rht n1 g1 r1) (rht n2 g2 r2) V v ->
  rok (tupd op T k lo1 hi1 lo2 hi2 V) (fun T' => tbspec D n1 g1 d1 n2 g2 d2 T'
    (fun k' a b => if (k' =? k)%nat && (inreg r1 a && inreg r2 b)
                   then op (f k' a b) (v (loc a) (loc b)) else f k' a b)).
Proof.
  intros (H0 & H1 & H2 & H) Hk Hr1 Hr2 E1 E2 E3 E4 HV. unfold tupd, tget. rewrite H0.
  destruct (Nat.ltb_spec k D); [simpl|lia].
  eapply rok_bind.
  - eapply (mupd_b op n1 g1 d1 n2 g2 d2 _ (f k)); eauto.
    repeat split; simpl; auto.
  - intros A (A1 & A2 & A3). unfold tput. rewrite H0, H1, H2, A1, A2, !Nat.eqb_refl.
    destruct (Nat.ltb_spec k D); [simpl|lia].
    repeat split; simpl; auto. intros k' a b Hk' Ha Hb.
    destruct (Nat.eqb_spec k' k); simpl; [subst; apply A3; auto | auto].
Qed.
Lemma bspec_ext n1 g1 d1 n2 g2 d2 M f g :
  bspec n1 g1 d1 n2 g2 d2 M f ->
  (forall a b, rvalid n1 g1 d1 a -> rvalid n2 g2 d2 b -> f a b = g a b) ->
  bspec n1 g1 d1 n2 g2 d2 M g.
Proof. intros (H1 & H2 & H) E; repeat split; auto. intros; rewrite H by auto; auto. Qed.
Lemma tbspec_ext D n1 g1 d1 n2 g2 d2 M f g :
  tbspec D n1 g1 d1 n2 g2 d2 M f ->
  (forall k a b, (k < D)%nat -> rvalid n1 g1 d1 a -> rvalid n2 g2 d2 b -> f k a b = g k a b) ->
  tbspec D n1 g1 d1 n2 g2 d2 M g.
Proof. intros (H0 & H1 & H2 & H) E; repeat split; auto. intros; rewrite H by auto; auto. Qed.
Lemma bspec_const n1 g1 d1 n2 g2 d2 c :
  bspec n1 g1 d1 n2 g2 d2 (mconst (n1 + g1 * d1) (n2 + g2 * d2) c) (fun _ _ => c).
Proof. repeat split; auto. Qed.
Lemma tbspec_const D n1 g1 d1 n2 g2 d2 c :
  tbspec D n1 g1 d1 n2 g2 d2 (tconst D (n1 + g1 * d1) (n2 + g2 * d2) c) (fun _ _ _ => c).
Proof. repeat split; auto. Qed.

(** [T[:,:,:n2] = S], where S has the rows of T *)
Lemma tset_cols_b D n1 g1 d1 n2 g2 d2 T f S s :
  tbspec D n1 g1 d1 n2 g2 d2 T f -> tbspec D n1 g1 d1 n2 0 0 S s ->
  rok (tset_cols T n2 S) (fun T' => tbspec D n1 g1 d1 n2 g2 d2 T'
     (fun k a b => match b with F q => s k a (F q) | G _ _ => f k a b end)).
Proof.
  intros (H0 & H1 & H2 & H) (S0 & S1 & S2 & HS). unfold tset_cols.
  rewrite H0, H1, H2, S0, S1, S2. rewrite (Nat.min_l n2) by lia.
  replace (n2 + 0 * 0)%nat with n2 by lia. rewrite !Nat.eqb_refl. simpl.
  repeat split; simpl; auto. intros k a b Hk Ha Hb. destruct b as [q|j q]; simpl in *.
  - destruct (Nat.ltb_spec q n2); [|lia]. apply (HS k a (F q)); auto.
  - destruct (Nat.ltb_spec (n2 + j * g2 + q) n2); [lia|]. apply (H k a (G j q)); auto.
Qed.
