(** Correctness of the Cholesky factorisation and of the triangular solves. *)
From Coq Require Import Reals List Arith Bool Lia Lra Psatz.
From Verif.Base Require Import NpLite NpFacts.
From Verif.Spec Require Import KernelSpec LinAlgSpec.
From Verif.Model Require Import Chol.
From Verif.Proofs Require Import LinAlg.
Import ListNotations.
Local Open Scope R_scope.

Definition symf (n : nat) (a : nat -> nat -> R) : Prop :=
  forall i j, (i < n)%nat -> (j < n)%nat -> a i j = a j i.

Lemma chol_step_facts n k a l :
  (k < n)%nat -> symf n a -> 0 < a k k ->
  (forall i j, (i < n)%nat -> (j < n)%nat -> (i < k)%nat -> a i j = 0) ->
  (forall i, l i = a i k / sqrt (a k k)) ->
  symf n (fun i j => a i j - l i * l j) /\
  (forall i j, (i < n)%nat -> (j < n)%nat -> (i < S k)%nat -> a i j - l i * l j = 0) /\
  l k = sqrt (a k k) /\ (forall i, (i < k)%nat -> l i = 0).
Proof.
  intros Hk HS Hp HZ Hl.
  assert (Sq : 0 < sqrt (a k k)) by (apply sqrt_lt_R0, Hp).
  assert (SS : sqrt (a k k) * sqrt (a k k) = a k k) by (apply sqrt_sqrt; lra).
  assert (Lk : l k = sqrt (a k k)). { rewrite Hl. rewrite <- SS at 1. field. lra. }
  assert (L0 : forall i, (i < k)%nat -> l i = 0). { intros i Hi. rewrite Hl. rewrite HZ by lia. field. lra. }
  split; [|split; [|split; assumption]].
  - intros i j Hi Hj. rewrite (HS i j) by auto. ring.
  - intros i j Hi Hj Hik. destruct (Nat.eq_dec i k) as [->|Hne].
    + rewrite Lk. rewrite Hl. rewrite (HS k j) by auto. field. lra.
    + rewrite HZ, L0 by lia. ring.
Qed.

Lemma chol_steps_ok n m : forall k a L A,
  (k + m = n)%nat -> symf n a ->
  (forall i j, (i < n)%nat -> (j < n)%nat -> (i < k)%nat -> a i j = 0) ->
  (forall v, (forall i, (i < k)%nat -> v i = 0) -> nonzero n v -> 0 < bform n a v v) ->
  (forall i j, (i < n)%nat -> (j < n)%nat -> A i j = a i j + rsum k (fun c => L i c * L j c)) ->
  (forall c, (c < k)%nat -> 0 < L c c) -> (forall i c, (i < c)%nat -> (c < k)%nat -> L i c = 0) ->
  exists L', chol_steps m k a L = Ok L' /\
    (forall c, (c < n)%nat -> 0 < L' c c) /\ (forall i c, (i < c)%nat -> (c < n)%nat -> L' i c = 0) /\
    forall i j, (i < n)%nat -> (j < n)%nat -> A i j = rsum n (fun c => L' i c * L' j c).
Proof.
  induction m as [|m IH]; intros k a L A E HS HZ HP HA HLp HLz.
  - assert (k = n) by lia. subst k. exists L. split; [reflexivity|]. split; [exact HLp|]. split; [exact HLz|].
    intros i j Hi Hj. rewrite HA, HZ by lia. ring.
  - assert (Hk : (k < n)%nat) by lia.
    assert (Hp : 0 < a k k).
    { rewrite <- (bform_unit n a k k Hk Hk). apply HP.
      - intros i Hi. destruct (Nat.eqb_spec i k); [lia|reflexivity].
      - exists k. split; [exact Hk|]. rewrite Nat.eqb_refl. lra. }
    cbn [chol_steps]. cbv zeta. destruct (Rlt_dec 0 (a k k)) as [_|N]; [|contradiction].
    set (l := fun i => a i k / sqrt (a k k)) in *.
    destruct (chol_step_facts n k a l Hk HS Hp HZ (fun i => eq_refl)) as (HS' & HZ' & Lk & L0).
    assert (Sq : 0 < sqrt (a k k)) by (apply sqrt_lt_R0, Hp).
    apply (IH (S k) (fun i j => a i j - l i * l j) (fun i j => if (j =? k)%nat then l i else L i j) A); auto; try lia.
    + (* positive definite on the trailing block *)
      intros v Hv Hnz.
      set (t := - dotp n l v / l k).
      set (w := fun i => v i + t * (if (i =? k)%nat then 1 else 0)).
      assert (Dl : dotp n l (fun i => if (i =? k)%nat then 1 else 0) = l k).
      { unfold dotp. rewrite (rsum_single n k); [rewrite Nat.eqb_refl; ring | exact Hk|].
        intros i _ Hi. destruct (Nat.eqb_spec i k); [congruence|ring]. }
      assert (D0 : dotp n l w = 0).
      { unfold w. rewrite dotp_plus_r, dotp_scal_r, Dl. unfold t. field. rewrite Lk. lra. }
      assert (Ew : bform n (fun i j => a i j - l i * l j) v v = bform n (fun i j => a i j - l i * l j) w w).
      { unfold bform. apply rsum_ext; intros i Hi. apply rsum_ext; intros j Hj. unfold w.
        destruct (Nat.eqb_spec i k) as [->|Hik].
        - rewrite (HZ' k j) by lia. ring.
        - destruct (Nat.eqb_spec j k) as [->|Hjk]; [|ring].
          assert (Z := HS' i k Hi Hk). cbv beta in Z. rewrite Z. rewrite (HZ' k i) by lia. ring. }
      change (0 < bform n (fun i j => a i j - l i * l j) v v). rewrite Ew.
      assert (Es : bform n (fun i j => a i j - l i * l j) w w = bform n a w w).
      { rewrite (bform_ext n _ (fun i j => a i j + (-1) * (l i * l j)) w w w w) by (intros; auto; ring).
        rewrite bform_madd, bform_mscal, bform_rank1, D0. ring. }
      rewrite Es. apply HP.
      * intros i Hi. unfold w. rewrite Hv by lia. destruct (Nat.eqb_spec i k); [lia|ring].
      * destruct Hnz as (i & Hi & Hvi). exists i. split; [exact Hi|]. unfold w.
        destruct (Nat.eqb_spec i k) as [->|_]; [rewrite Hv in Hvi by lia; lra | lra].
    + intros i j Hi Hj. rewrite HA by auto. cbn [rsum]. rewrite Nat.eqb_refl.
      rewrite (rsum_ext k (fun c => (if (c =? k)%nat then l i else L i c) * (if (c =? k)%nat then l j else L j c)) (fun c => L i c * L j c)).
      * ring.
      * intros c Hc. destruct (Nat.eqb_spec c k); [lia|reflexivity].
    + intros c Hc. destruct (Nat.eqb_spec c k) as [->|Hne]; [rewrite Lk; exact Sq | apply HLp; lia].
    + intros i c Hic Hc. destruct (Nat.eqb_spec c k) as [->|Hne]; [apply L0; lia | apply HLz; lia].
Qed.

Lemma rsum_low n L i j : (forall i c, (i < c)%nat -> (c < n)%nat -> L i c = 0) ->
  rsum n (fun k => low L i k * low L j k) = rsum n (fun c => L i c * L j c).
Proof.
  intros HZ. apply rsum_ext; intros c Hc. unfold low.
  destruct (Nat.leb_spec c i), (Nat.leb_spec c j); try reflexivity.
  - rewrite (HZ j c) by lia. ring.
  - rewrite (HZ i c) by lia. ring.
  - rewrite (HZ i c) by lia. ring.
Qed.

(** [chol_of c A]: [c] is a valid result of factoring [A] *)
Definition chol_of (c : mat * bool) (A : mat) : Prop :=
  nr (fst c) = nr A /\ nc (fst c) = nr A /\ is_chol (nr A) (chol_read c) A.

Theorem cho_factor_pd A lower : pd A -> exists c, cho_factor A lower = Ok c /\ snd c = lower /\ chol_of c A.
Proof.
  intros ((Esq & HS) & HP). unfold cho_factor. rewrite Esq, Nat.eqb_refl. rewrite <- Esq. cbv zeta.
  set (n := nr A) in *.
  set (a := fun i j => if lower then (if (j <=? i)%nat then mat_at A i j else mat_at A j i)
                        else (if (i <=? j)%nat then mat_at A i j else mat_at A j i)).
  assert (Ea : forall i j, (i < n)%nat -> (j < n)%nat -> a i j = mat_at A i j).
  { intros i j Hi Hj. unfold a. destruct lower.
    - destruct (j <=? i)%nat; [reflexivity | symmetry; apply HS; auto].
    - destruct (i <=? j)%nat; [reflexivity | symmetry; apply HS; auto]. }
  destruct (chol_steps_ok n n 0 a (fun _ _ => 0) (mat_at A)) as (L & EL & P1 & P2 & P3); auto; try lia.
  - intros i j Hi Hj. rewrite !Ea; auto.
  - intros v _ Hv. assert (Z := HP v Hv). rewrite qform_bform in Z by auto.
    rewrite (bform_ext n a (mat_at A) v v v v); auto.
  - intros i j Hi Hj. simpl. rewrite Ea by auto. ring.
  - rewrite EL. cbn [bind]. eexists. split; [reflexivity|]. split; [reflexivity|].
    split; [reflexivity|]. split; [reflexivity|].
    assert (RD : forall i j, (j <= i)%nat -> chol_read
      (mkmat n n (fun i j => if lower then (if (j <=? i)%nat then L i j else mat_at A i j)
          else (if (i <=? j)%nat then L j i else mat_at A i j)), lower) i j = L i j).
    { intros i j Hij. unfold chol_read. simpl. destruct lower; apply Nat.leb_le in Hij; rewrite Hij; reflexivity. }
    split; [reflexivity|]. split; [auto|]. split.
    + intros i Hi. rewrite RD by lia. apply P1; auto.
    + intros i j Hi Hj. rewrite P3 by auto. rewrite <- (rsum_low n L i j P2).
      apply rsum_ext; intros c Hc. unfold low.
      destruct (Nat.leb_spec c i), (Nat.leb_spec c j); rewrite ?RD by lia; reflexivity.
Qed.

(** a matrix with a Cholesky factor is positive definite *)
Lemma is_chol_bform n L A u v : is_chol n L A ->
  bform n (mat_at A) u v = rsum n (fun k => dotp n (fun i => low L i k) u * dotp n (fun i => low L i k) v).
Proof.
  intros (_ & _ & _ & HA). unfold bform.
  rewrite (rsum_ext n _ (fun i => rsum n (fun k => low L i k * u i * dotp n (fun i => low L i k) v))).
  - rewrite rsum_swap. apply rsum_ext; intros k Hk. rewrite rsum_scal_r. reflexivity.
  - intros i Hi. rewrite (rsum_ext n _ (fun j => rsum n (fun k => u i * (low L i k * low L j k) * v j))).
    + rewrite rsum_swap. apply rsum_ext; intros k Hk. unfold dotp. rewrite <- rsum_scal. apply rsum_ext; intros; ring.
    + intros j Hj. rewrite HA by auto. rewrite rsum_scal_r, rsum_scal. reflexivity.
Qed.
Lemma is_chol_pd n L A : is_chol n L A -> pd A.
Proof.
  intros H. assert (H' := H). destruct H' as (E1 & E2 & HD & HA).
  assert (Esq : nr A = nc A) by congruence. split; [split; [exact Esq|]|].
  - intros i j Hi Hj. rewrite E1 in *. rewrite !HA by auto. apply rsum_ext; intros; ring.
  - intros v Hv. rewrite qform_bform by exact Esq. rewrite E1 in *.
    rewrite (is_chol_bform n L A v v H).
    assert (NN : forall k, (k < n)%nat -> 0 <= dotp n (fun i => low L i k) v * dotp n (fun i => low L i k) v) by (intros; nra).
    destruct (Rle_lt_or_eq_dec _ _ (rsum_nonneg n _ NN)) as [|E]; [assumption|]. exfalso.
    assert (Z := rsum_nonneg_eq0 n _ NN (eq_sym E)).
    (* v = 0 by downward induction *)
    assert (V : forall m k, (k < n)%nat -> (n - m <= k)%nat -> v k = 0).
    { induction m as [|m IHm]; intros k Hk Hm; [lia|].
      destruct (Nat.eq_dec k (n - S m)) as [Ek|Ek]; [|apply IHm; lia].
      assert (Zk := Z k Hk). cbv beta in Zk. assert (D0 : dotp n (fun i => low L i k) v = 0) by nra.
      unfold dotp in D0. rewrite (rsum_single n k) in D0; [|exact Hk|].
      - unfold low in D0. rewrite Nat.leb_refl in D0. assert (P := HD k Hk). nra.
      - intros i Hi Hne. unfold low. destruct (Nat.leb_spec k i); [|ring]. rewrite (IHm i) by lia. ring. }
    destruct Hv as (i & Hi & Hvi). apply Hvi. apply (V n); lia.
Qed.

(** ** triangular solves *)
Lemma fsub_lt L b n : forall m i, (i < n)%nat -> (n <= m)%nat -> fsub L b m i = fsub L b n i.
Proof.
  intros m i Hi Hm. induction m as [|m IH]; [lia|]. destruct (Nat.eq_dec n (S m)) as [->|Hne]; [reflexivity|].
  cbn [fsub]. unfold fupd at 1. destruct (Nat.eqb_spec i m); [lia|]. apply IH. lia.
Qed.
Lemma fsub_ok L b n : (forall i, (i < n)%nat -> L i i <> 0) ->
  forall i, (i < n)%nat -> rsum (S i) (fun j => L i j * fsub L b n j) = b i.
Proof.
  intros HD i Hi.
  assert (E : forall j, (j < S i)%nat -> fsub L b n j = fsub L b (S i) j) by (intros; apply fsub_lt; lia).
  cbn [rsum]. rewrite (E i) by lia. rewrite (rsum_ext i _ (fun j => L i j * fsub L b i j)).
  - cbn [fsub]. unfold fupd. rewrite Nat.eqb_refl. field. auto.
  - intros j Hj. rewrite (E j) by lia. rewrite (fsub_lt L b i (S i) j) by lia. reflexivity.
Qed.
Lemma bsub_ge L y n : forall m x i, (m <= i)%nat -> bsub L y n m x i = x i.
Proof.
  induction m as [|m IH]; intros x i Hi; [reflexivity|]. cbn [bsub]. rewrite IH by lia.
  unfold fupd. destruct (Nat.eqb_spec i m); [lia|reflexivity].
Qed.
Lemma bsub_ok L y n : (forall i, (i < n)%nat -> L i i <> 0) ->
  forall m x, (m <= n)%nat -> forall k, (k < m)%nat ->
  rsum (n - k) (fun j => L (k + j)%nat k * bsub L y n m x (k + j)%nat) = y k.
Proof.
  intros HD. induction m as [|m IH]; intros x Hm k Hk; [lia|]. cbn [bsub].
  set (x' := fupd x m ((y m - rsum (n - S m) (fun j => L (S m + j)%nat m * x (S m + j)%nat)) / L m m)).
  destruct (Nat.eq_dec k m) as [->|Hne]; [|apply IH; lia].
  replace (n - m)%nat with (1 + (n - S m))%nat by lia. rewrite rsum_split. cbn [rsum]. rewrite Nat.add_0_r.
  rewrite bsub_ge by lia. rewrite (rsum_ext (n - S m) _ (fun j => L (S m + j)%nat m * x (S m + j)%nat)).
  - unfold x', fupd at 1. rewrite Nat.eqb_refl. field. apply HD; lia.
  - intros j Hj. replace (m + (1 + j))%nat with (S m + j)%nat by lia. rewrite bsub_ge by lia. unfold x', fupd.
    destruct (Nat.eqb_spec (S m + j) m); [lia|reflexivity].
Qed.

Lemma rsum_low_l n L i f : (i < n)%nat -> rsum n (fun j => low L i j * f j) = rsum (S i) (fun j => L i j * f j).
Proof.
  intros Hi. replace n with (S i + (n - S i))%nat by lia. rewrite rsum_split.
  rewrite (rsum_0 (n - S i)); [rewrite Rplus_0_r|].
  - apply rsum_ext; intros j Hj. unfold low. destruct (Nat.leb_spec j i); [reflexivity|lia].
  - intros j Hj. unfold low. destruct (Nat.leb_spec (S i + j) i); [lia|ring].
Qed.
Lemma rsum_low_t n L k f : (k < n)%nat -> rsum n (fun j => low L j k * f j) = rsum (n - k) (fun j => L (k + j)%nat k * f (k + j)%nat).
Proof.
  intros Hk. replace n with (k + (n - k))%nat at 1 by lia. rewrite rsum_split.
  rewrite (rsum_0 k); [rewrite Rplus_0_l|].
  - apply rsum_ext; intros j Hj. unfold low. destruct (Nat.leb_spec k (k + j)); [reflexivity|lia].
  - intros j Hj. unfold low. destruct (Nat.leb_spec k j); [lia|ring].
Qed.

Theorem cho_solve_solves c A b : chol_of c A -> solves A (cho_solve_fn c b) b.
Proof.
  intros (E1 & E2 & (E3 & E4 & HD & HA)). set (n := nr A) in *. intros i Hi. unfold mv. rewrite E4.
  unfold cho_solve_fn. rewrite E1. cbv zeta. set (L := chol_read c) in *.
  set (y := fsub L b n). set (x := bsub L y n n (fun _ => 0)).
  assert (HD' : forall i, (i < n)%nat -> L i i <> 0) by (intros j Hj; assert (Z := HD j Hj); lra).
  rewrite (rsum_ext n _ (fun j => rsum n (fun k => low L i k * (low L j k * x j)))).
  2:{ intros j Hj. rewrite HA by auto. rewrite <- rsum_scal_r. apply rsum_ext; intros; ring. }
  rewrite rsum_swap.
  rewrite (rsum_ext n _ (fun k => low L i k * y k)).
  2:{ intros k Hk. rewrite rsum_scal. f_equal. rewrite (rsum_low_t n L k x Hk). unfold x. apply bsub_ok; auto. }
  rewrite (rsum_low_l n L i y Hi). unfold y. apply fsub_ok; auto.
Qed.

(** solutions of a positive definite system are unique *)
Lemma pd_unique A x x' b : pd A -> solves A x b -> solves A x' b -> forall i, (i < nr A)%nat -> x i = x' i.
Proof.
  intros ((Esq & HS) & HP) H1 H2 i Hi.
  destruct (nonzero_dec (nr A) (fun i => x i - x' i)) as [Hn|Hz]; [|assert (Z := Hz i Hi); cbv beta in Z; lra].
  exfalso. assert (Z := HP _ Hn). rewrite qform_bform, bform_dotp in Z by exact Esq.
  unfold dotp in Z. rewrite rsum_0 in Z; [lra|]. intros k Hk.
  assert (A1 := H1 k Hk). assert (A2 := H2 k Hk). unfold mv in A1, A2. rewrite <- Esq in A1, A2.
  rewrite (rsum_ext (nr A) _ (fun j => mat_at A k j * x j - mat_at A k j * x' j)) by (intros; ring).
  rewrite rsum_minus, A1, A2. ring.
Qed.
Lemma cho_solve_ok c A b : chol_of c A -> vlen b = nr A ->
  rok (cho_solve c b) (fun x => vlen x = nr A /\ solves A (vat x) (vat b)).
Proof.
  intros H E. unfold cho_solve. assert (E1 : nr (fst c) = nr A) by (destruct H; auto).
  rewrite E1, E, Nat.eqb_refl. simpl. split; [reflexivity|]. apply (cho_solve_solves c A _ H).
Qed.
Lemma cho_solve_mat_ok c A B : chol_of c A -> nr B = nr A ->
  rok (cho_solve_mat c B) (fun X => nr X = nr A /\ nc X = nc B /\
    forall j, (j < nc B)%nat -> solves A (fun i => mat_at X i j) (fun i => mat_at B i j)).
Proof.
  intros H E. unfold cho_solve_mat. assert (E1 : nr (fst c) = nr A) by (destruct H; auto).
  rewrite E1, E, Nat.eqb_refl. simpl. split; [reflexivity|]. split; [reflexivity|].
  intros j _. apply (cho_solve_solves c A _ H).
Qed.
(** the factor scaled by a positive diagonal matrix factors the congruent matrix *)
Lemma chol_scaled c A p B : chol_of c A -> snd c = true -> (forall i, (i < nr A)%nat -> 0 < p i) ->
  nr B = nr A -> nc B = nr A -> (forall i j, (i < nr A)%nat -> (j < nr A)%nat -> mat_at B i j = p i * mat_at A i j * p j) ->
  forall c', nr c' = nr A -> nc c' = nr A -> (forall i j, (i < nr A)%nat -> (j < nr A)%nat -> mat_at c' i j = p i * mat_at (fst c) i j) ->
  chol_of (c', true) B.
Proof.
  intros (E1 & E2 & (E3 & E4 & HD & HA)) Hl Hp B1 B2 HB c' C1 C2 HC.
  unfold chol_of. simpl. rewrite B1. split; [exact C1|]. split; [exact C2|].
  assert (RD : forall i j, (i < nr A)%nat -> (j < nr A)%nat -> chol_read (c', true) i j = p i * chol_read c i j).
  { intros i j Hi Hj. unfold chol_read. rewrite Hl. simpl. apply HC; auto. }
  split; [exact B1|]. split; [exact B2|]. split.
  - intros i Hi. rewrite RD by auto. apply Rmult_lt_0_compat; auto.
  - intros i j Hi Hj. rewrite HB, HA by auto. rewrite <- rsum_scal, <- rsum_scal_r.
    apply rsum_ext; intros k Hk. unfold low.
    destruct (Nat.leb_spec k i), (Nat.leb_spec k j); rewrite ?RD by auto; ring.
Qed.
(** cho_factor never returns for a matrix whose triangle is not positive definite *)
Lemma chol_steps_pivot m : forall k a L L', chol_steps m k a L = Ok L' ->
  forall i c, (c < k)%nat -> L' i c = L i c.
Proof.
  induction m as [|m IH]; intros k a L L' H i c Hc; cbn [chol_steps] in H; cbv zeta in H.
  - injection H as <-. reflexivity.
  - destruct (Rlt_dec 0 (a k k)); [|discriminate].
    rewrite (IH _ _ _ _ H i c) by lia. destruct (Nat.eqb_spec c k); [lia|reflexivity].
Qed.
Lemma chol_steps_sound n m : forall k a L A L',
  (k + m = n)%nat -> symf n a ->
  (forall i j, (i < n)%nat -> (j < n)%nat -> (i < k)%nat -> a i j = 0) ->
  (forall i j, (i < n)%nat -> (j < n)%nat -> A i j = a i j + rsum k (fun c => L i c * L j c)) ->
  (forall c, (c < k)%nat -> 0 < L c c) -> (forall i c, (i < c)%nat -> (c < k)%nat -> L i c = 0) ->
  chol_steps m k a L = Ok L' ->
    (forall c, (c < n)%nat -> 0 < L' c c) /\ (forall i c, (i < c)%nat -> (c < n)%nat -> L' i c = 0) /\
    forall i j, (i < n)%nat -> (j < n)%nat -> A i j = rsum n (fun c => L' i c * L' j c).
Proof.
  induction m as [|m IH]; intros k a L A L' E HS HZ HA HLp HLz H.
  - assert (k = n) by lia. subst k. injection H as <-. split; [exact HLp|]. split; [exact HLz|].
    intros i j Hi Hj. rewrite HA, HZ by lia. ring.
  - assert (Hk : (k < n)%nat) by lia. cbn [chol_steps] in H. cbv zeta in H.
    destruct (Rlt_dec 0 (a k k)) as [Hp|N]; [|discriminate].
    set (l := fun i => a i k / sqrt (a k k)) in *.
    destruct (chol_step_facts n k a l Hk HS Hp HZ (fun i => eq_refl)) as (HS' & HZ' & Lk & L0).
    assert (Sq : 0 < sqrt (a k k)) by (apply sqrt_lt_R0, Hp).
    eapply (IH (S k) (fun i j => a i j - l i * l j) (fun i j => if (j =? k)%nat then l i else L i j) A); [lia | exact HS' | exact HZ' | | | | exact H].
    + intros i j Hi Hj. rewrite HA by auto. cbn [rsum]. rewrite Nat.eqb_refl.
      rewrite (rsum_ext k (fun c => (if (c =? k)%nat then l i else L i c) * (if (c =? k)%nat then l j else L j c)) (fun c => L i c * L j c)).
      * ring.
      * intros c Hc. destruct (Nat.eqb_spec c k); [lia|reflexivity].
    + intros c Hc. destruct (Nat.eqb_spec c k) as [->|Hne]; [rewrite Lk; exact Sq | apply HLp; lia].
    + intros i c Hic Hc. destruct (Nat.eqb_spec c k) as [->|Hne]; [apply L0; lia | apply HLz; lia].
Qed.
Theorem cho_factor_sound A lower c : symmetric A -> cho_factor A lower = Ok c -> snd c = lower /\ chol_of c A.
Proof.
  intros (Esq & HS) H. unfold cho_factor in H. rewrite Esq, Nat.eqb_refl in H. rewrite <- Esq in H. cbv zeta in H.
  set (n := nr A) in *.
  set (a := fun i j => if lower then (if (j <=? i)%nat then mat_at A i j else mat_at A j i)
                        else (if (i <=? j)%nat then mat_at A i j else mat_at A j i)) in *.
  assert (Ea : forall i j, (i < n)%nat -> (j < n)%nat -> a i j = mat_at A i j).
  { intros i j Hi Hj. unfold a. destruct lower.
    - destruct (j <=? i)%nat; [reflexivity | symmetry; apply HS; auto].
    - destruct (i <=? j)%nat; [reflexivity | symmetry; apply HS; auto]. }
  destruct (chol_steps n 0 a (fun _ _ => 0)) as [L|e] eqn:EL; [|discriminate]. cbn [bind] in H. injection H as <-.
  destruct (chol_steps_sound n n 0 a (fun _ _ => 0) (mat_at A) L) as (P1 & P2 & P3); auto; try lia.
  - intros i j Hi Hj. rewrite !Ea; auto.
  - intros i j Hi Hj. simpl. rewrite Ea by auto. ring.
  - split; [reflexivity|]. split; [reflexivity|]. split; [reflexivity|].
    assert (RD : forall i j, (j <= i)%nat -> chol_read
      (mkmat n n (fun i j => if lower then (if (j <=? i)%nat then L i j else mat_at A i j)
          else (if (i <=? j)%nat then L j i else mat_at A i j)), lower) i j = L i j).
    { intros i j Hij. unfold chol_read. simpl. destruct lower; apply Nat.leb_le in Hij; rewrite Hij; reflexivity. }
    split; [reflexivity|]. split; [auto|]. split.
    + intros i Hi. rewrite RD by lia. apply P1; auto.
    + intros i j Hi Hj. rewrite P3 by auto. rewrite <- (rsum_low n L i j P2).
      apply rsum_ext; intros k Hk. unfold low.
      destruct (Nat.leb_spec k i), (Nat.leb_spec k j); rewrite ?RD by lia; reflexivity.
Qed.
