(** Differentiability of Cholesky factors, of solutions of positive definite systems and of ln det. *)
From Coq Require Import Reals List Arith Bool Lia Lra Psatz.
From Coquelicot Require Import Coquelicot.
From Verif.Base Require Import NpLite NpFacts Deriv.
From Verif.Spec Require Import KernelSpec LinAlgSpec.
From Verif.Model Require Import Chol.
From Verif.Proofs Require Import LinAlg CholCorrect Det.
Local Open Scope R_scope.

Definition fsolves (n : nat) (K : nat -> nat -> R) (x b : nat -> R) : Prop :=
  forall i, (i < n)%nat -> rsum n (fun j => K i j * x j) = b i.
Definition pdf (n : nat) (K : nat -> nat -> R) : Prop := symf n K /\ forall v, nonzero n v -> 0 < bform n K v v.

Lemma pdf_pd n K : pdf n K -> pd (mkmat n n K).
Proof. intros (A & B). split; [split; [reflexivity|exact A]|]. intros v Hv. rewrite qform_bform by reflexivity. apply B, Hv. Qed.
Lemma fsolves_solves n K x b : fsolves n K x b <-> solves (mkmat n n K) x b.
Proof. split; intros H i Hi; exact (H i Hi). Qed.
Lemma pdf_ex n K b : pdf n K -> exists x, fsolves n K x b.
Proof.
  intros H. destruct (cho_factor_pd (mkmat n n K) true (pdf_pd _ _ H)) as (c & _ & _ & C). eexists. apply fsolves_solves.
  apply (cho_solve_solves _ _ b C).
Qed.
Lemma pdf_unique n K x x' b : pdf n K -> fsolves n K x b -> fsolves n K x' b -> forall i, (i < n)%nat -> x i = x' i.
Proof. intros H A B. apply (pd_unique (mkmat n n K) x x' b (pdf_pd _ _ H)); apply fsolves_solves; assumption. Qed.
Lemma pdf_chol n K : pdf n K -> exists L, chol_steps n 0 K (fun _ _ => 0) = Ok L /\ (forall c, (c < n)%nat -> 0 < L c c) /\
  (forall i c, (i < c)%nat -> (c < n)%nat -> L i c = 0) /\ forall i j, (i < n)%nat -> (j < n)%nat -> K i j = rsum n (fun c => L i c * L j c).
Proof.
  intros (A & B). apply (chol_steps_ok n n 0 K (fun _ _ => 0) K); auto; try (intros; lia).
  intros i j Hi Hj. cbn [rsum]. ring.
Qed.

Lemma ex_derive_rsum n (f : R -> nat -> R) t0 : (forall i, (i < n)%nat -> ex_derive (fun t => f t i) t0) -> ex_derive (fun t => rsum n (f t)) t0.
Proof.
  induction n as [|n IH]; intros H; cbn [rsum]; [apply ex_derive_const|].
  apply (ex_derive_plus (V := R_NormedModule)); [apply IH; intros; apply H; lia|apply H; lia].
Qed.
Lemma exR_minus (f g : R -> R) t0 : ex_derive f t0 -> ex_derive g t0 -> ex_derive (fun t => f t - g t) t0.
Proof. intros (a & A) (b & B). exists (a - b). apply dR_minus; assumption. Qed.
Lemma exR_plus (f g : R -> R) t0 : ex_derive f t0 -> ex_derive g t0 -> ex_derive (fun t => f t + g t) t0.
Proof. intros (a & A) (b & B). exists (a + b). apply dR_plus; assumption. Qed.
Lemma exR_mult (f g : R -> R) t0 : ex_derive f t0 -> ex_derive g t0 -> ex_derive (fun t => f t * g t) t0.
Proof. intros (a & A) (b & B). eexists. apply dR_mult; eassumption. Qed.
Lemma exR_div (f g : R -> R) t0 : ex_derive f t0 -> ex_derive g t0 -> g t0 <> 0 -> ex_derive (fun t => f t / g t) t0.
Proof. intros (a & A) (b & B) N. eexists. unfold Rdiv. apply dR_mult; [exact A|]. apply dR_inv; eassumption. Qed.
Lemma exR_sqrt (f : R -> R) t0 : ex_derive f t0 -> 0 < f t0 -> ex_derive (fun t => sqrt (f t)) t0.
Proof. intros (a & A) P. exists (a * / (2 * sqrt (f t0))). exact (dR_comp sqrt f t0 _ _ A (dR_sqrt _ P)). Qed.
Lemma exR_const (c t0 : R) : ex_derive (fun _ : R => c) t0. Proof. exists 0. apply dR_const. Qed.
Lemma exR_ext_loc (f g : R -> R) t0 : locally t0 (fun t => f t = g t) -> ex_derive f t0 -> ex_derive g t0.
Proof. intros H (a & A). exists a. apply (is_derive_ext_loc f); assumption. Qed.

Lemma chol_steps_exd n t0 : forall m k (a L0 : R -> nat -> nat -> R), (k + m <= n)%nat ->
  locally t0 (fun t => exists L, chol_steps m k (a t) (L0 t) = Ok L) ->
  (forall i j, (i < n)%nat -> (j < n)%nat -> ex_derive (fun t => a t i j) t0) ->
  (forall i j, (i < n)%nat -> (j < n)%nat -> ex_derive (fun t => L0 t i j) t0) ->
  forall i j, (i < n)%nat -> (j < n)%nat ->
    ex_derive (fun t => match chol_steps m k (a t) (L0 t) with Ok L => L i j | Err _ => 0 end) t0.
Proof.
  induction m as [|m IH]; intros k a L0 Hkm HL Ha HL0 i j Hi Hj; cbn [chol_steps]; [apply HL0; assumption|].
  assert (Hp : locally t0 (fun t => 0 < a t k k)).
  { revert HL. apply filter_imp. intros t (L & E). cbn [chol_steps] in E. destruct (Rlt_dec 0 (a t k k)); [assumption|discriminate]. }
  set (a' := fun t i j => a t i j - a t i k / sqrt (a t k k) * (a t j k / sqrt (a t k k))).
  set (L' := fun t i j => if (j =? k)%nat then a t i k / sqrt (a t k k) else L0 t i j).
  assert (P0 : 0 < a t0 k k) by (apply (locally_singleton _ _ Hp)).
  assert (Hl : forall i, (i < n)%nat -> ex_derive (fun t => a t i k / sqrt (a t k k)) t0).
  { intros i' Hi'. apply exR_div; [apply Ha; lia|apply exR_sqrt; [apply Ha; lia|exact P0]|]. apply Rgt_not_eq, sqrt_lt_R0, P0. }
  apply (exR_ext_loc (fun t => match chol_steps m (S k) (a' t) (L' t) with Ok L => L i j | Err _ => 0 end)).
  { revert Hp. apply filter_imp. intros t Pt. destruct (Rlt_dec 0 (a t k k)); [reflexivity|contradiction]. }
  apply IH; auto; [lia| | |].
  - revert HL. apply filter_imp. intros t (L & E). cbn [chol_steps] in E. cbv zeta in E.
    destruct (Rlt_dec 0 (a t k k)); [|discriminate]. exists L. exact E.
  - intros i' j' Hi' Hj'. unfold a'. apply exR_minus; [auto|]. apply exR_mult; auto.
  - intros i' j' Hi' Hj'. unfold L'. destruct (j' =? k)%nat; auto.
Qed.

Section D.
Variable n : nat.
Variable t0 : R.
Variable K : R -> nat -> nat -> R.
Hypothesis HK : locally t0 (fun t => pdf n (K t)).
Hypothesis DK : forall i j, (i < n)%nat -> (j < n)%nat -> ex_derive (fun t => K t i j) t0.

Definition Lof (t : R) : nat -> nat -> R := match chol_steps n 0 (K t) (fun _ _ => 0) with Ok L => L | Err _ => fun _ _ => 0 end.
Definition low_chol (L A : nat -> nat -> R) : Prop := (forall c, (c < n)%nat -> 0 < L c c) /\
  (forall i c, (i < c)%nat -> (c < n)%nat -> L i c = 0) /\ forall i j, (i < n)%nat -> (j < n)%nat -> A i j = rsum n (fun c => L i c * L j c).
Lemma Lof_ok : locally t0 (fun t => low_chol (Lof t) (K t)).
Proof. revert HK. apply filter_imp. intros t Ht. destruct (pdf_chol _ _ Ht) as (L & E & F). unfold Lof. rewrite E. exact F. Qed.
Lemma Lof_derive i j : (i < n)%nat -> (j < n)%nat -> ex_derive (fun t => Lof t i j) t0.
Proof.
  intros Hi Hj.
  assert (Z := chol_steps_exd n t0 n 0 K (fun _ _ _ => 0) ltac:(lia)).
  refine (exR_ext_loc _ _ _ _ (Z _ DK (fun i j _ _ => exR_const 0 t0) i j Hi Hj)).
  - apply filter_forall. intros t. unfold Lof. destruct (chol_steps n 0 (K t) (fun _ _ => 0)); reflexivity.
  - revert HK. apply filter_imp. intros t Ht. destruct (pdf_chol _ _ Ht) as (L & E & _). eauto.
Qed.

Lemma fsub_derive (L : R -> nat -> nat -> R) (b : R -> nat -> R) :
  (forall i j, (i < n)%nat -> (j < n)%nat -> ex_derive (fun t => L t i j) t0) -> (forall i, (i < n)%nat -> L t0 i i <> 0) ->
  (forall i, (i < n)%nat -> ex_derive (fun t => b t i) t0) ->
  forall m i, (m <= n)%nat -> ex_derive (fun t => fsub (L t) (b t) m i) t0.
Proof.
  intros HL HN Hb. induction m as [|m IH]; intros i Hm; cbn [fsub]; [apply exR_const|]. unfold fupd.
  destruct (i =? m)%nat eqn:E; [|apply IH; lia].
  apply exR_div; [|apply HL; lia|apply HN; lia]. apply exR_minus; [apply Hb; lia|].
  apply (ex_derive_rsum m (fun t j => L t m j * fsub (L t) (b t) m j)). intros j Hj. apply exR_mult; [apply HL; lia|apply IH; lia].
Qed.
Lemma bsub_derive (L : R -> nat -> nat -> R) (y : R -> nat -> R) :
  (forall i j, (i < n)%nat -> (j < n)%nat -> ex_derive (fun t => L t i j) t0) -> (forall i, (i < n)%nat -> L t0 i i <> 0) ->
  (forall i, (i < n)%nat -> ex_derive (fun t => y t i) t0) ->
  forall m (x : R -> nat -> R) i, (m <= n)%nat -> (forall i, ex_derive (fun t => x t i) t0) ->
  ex_derive (fun t => bsub (L t) (y t) n m (x t) i) t0.
Proof.
  intros HL HN Hy. induction m as [|m IH]; intros x i Hm Hx; cbn [bsub]; [apply Hx|].
  apply (IH (fun t => fupd (x t) m ((y t m - rsum (n - S m) (fun j => L t (S m + j)%nat m * x t (S m + j)%nat)) / L t m m))); [lia|].
  intros i'. unfold fupd. destruct (i' =? m)%nat; [|apply Hx].
  apply exR_div; [|apply HL; lia|apply HN; lia]. apply exR_minus; [apply Hy; lia|].
  apply (ex_derive_rsum (n - S m) (fun t j => L t (S m + j)%nat m * x t (S m + j)%nat)). intros j Hj. apply exR_mult; [apply HL; lia|apply Hx].
Qed.

(** solutions of K(t) x(t) = b(t) are differentiable *)
Lemma sol_exd (x b : R -> nat -> R) : locally t0 (fun t => fsolves n (K t) (x t) (b t)) ->
  (forall i, (i < n)%nat -> ex_derive (fun t => b t i) t0) -> forall i, (i < n)%nat -> ex_derive (fun t => x t i) t0.
Proof.
  intros Hx Hb i Hi.
  assert (N0 : forall i, (i < n)%nat -> Lof t0 i i <> 0).
  { intros j Hj. destruct (locally_singleton _ _ Lof_ok) as (P & _). specialize (P j Hj). lra. }
  apply (exR_ext_loc (fun t => bsub (Lof t) (fsub (Lof t) (b t) n) n n (fun _ => 0) i)).
  - generalize (filter_and _ _ HK (filter_and _ _ Lof_ok Hx)). apply filter_imp. intros t (Ht & (P & Z & E) & Ex).
    apply (pdf_unique n (K t) _ _ (b t) Ht); [|exact Ex|exact Hi].
    set (c := (mkmat n n (Lof t), true)).
    assert (C : chol_of c (mkmat n n (K t))).
    { split; [reflexivity|]. split; [reflexivity|]. split; [reflexivity|]. split; [reflexivity|]. split; [exact P|].
      intros i' j' Hi' Hj'. cbn [nr mat_at]. cbn [nr] in Hi', Hj'. rewrite (rsum_low n (chol_read c) i' j'); [apply E; assumption|].
      intros i1 c1 H1 H2. apply Z; assumption. }
    apply fsolves_solves. apply (cho_solve_solves c _ (b t) C).
  - apply (bsub_derive Lof (fun t => fsub (Lof t) (b t) n)); auto.
    + intros; apply Lof_derive; assumption.
    + intros i' Hi'. apply fsub_derive; auto. intros; apply Lof_derive; assumption.
    + intros. apply exR_const.
Qed.
End D.

Lemma low_inverse n L K W : low_chol n L K -> symf n K ->
  (forall i l, (i < n)%nat -> (l < n)%nat -> rsum n (fun j => W i j * K j l) = if (i =? l)%nat then 1 else 0) ->
  forall i l, (i < n)%nat -> (l <= i)%nat -> rsum n (fun j => W i j * L j l) = if (i =? l)%nat then / L i i else 0.
Proof.
  intros (P & Z & E) HS HW i l Hi. revert l.
  assert (M : forall l, (l < n)%nat -> rsum n (fun k => rsum n (fun j => W i j * L j k) * L l k) = if (i =? l)%nat then 1 else 0).
  { intros l Hl. rewrite <- (HW i l Hi Hl). rewrite (rsum_ext n (fun j => W i j * K j l) (fun j => rsum n (fun k => W i j * L j k * L l k))).
    2:{ intros j Hj. rewrite E by assumption. rewrite <- rsum_scal. apply rsum_ext; intros; ring. }
    rewrite rsum_swap. apply rsum_ext; intros k Hk. rewrite <- rsum_scal_r. reflexivity. }
  intros l. induction l as [l IH] using (well_founded_induction lt_wf). intros Hli.
  assert (Hl : (l < n)%nat) by lia. assert (Q := M l Hl).
  rewrite (rsum_single n l) in Q; [|exact Hl|].
  2:{ intros k Hk Hne. destruct (Nat.lt_ge_cases k l) as [H|H].
      - rewrite IH by lia. destruct (Nat.eqb_spec i k); [lia|ring].
      - rewrite (Z l k) by lia. ring. }
  assert (Pl := P l Hl). destruct (Nat.eqb_spec i l) as [->|N].
  - apply (Rmult_eq_reg_r (L l l)); [|lra]. rewrite Q. field. lra.
  - apply (Rmult_eq_reg_r (L l l)); [|lra]. rewrite Q. ring.
Qed.

Lemma dR_rsum_ex n (f : R -> nat -> R) (df : nat -> R) t0 : (forall i, (i < n)%nat -> is_derive (fun t => f t i) t0 (df i)) -> is_derive (fun t => rsum n (f t)) t0 (rsum n df).
Proof. intros H. apply (dR_rsum n (fun i t => f t i)). exact H. Qed.

(** derivative of ln det: tr(K^-1 K'), with W = K^-1 *)
Lemma logdet_derive n t0 (K : R -> nat -> nat -> R) (D W : nat -> nat -> R) :
  locally t0 (fun t => pdf n (K t)) ->
  (forall i j, (i < n)%nat -> (j < n)%nat -> is_derive (fun t => K t i j) t0 (D i j)) ->
  (forall l, (l < n)%nat -> fsolves n (K t0) (fun i => W i l) (fun i => if (i =? l)%nat then 1 else 0)) ->
  is_derive (fun t => ln (det n (K t))) t0 (rsum n (fun i => rsum n (fun j => D i j * W i j))).
Proof.
  intros HK DK HW.
  assert (XK : forall i j, (i < n)%nat -> (j < n)%nat -> ex_derive (fun t => K t i j) t0) by (intros; eexists; apply DK; assumption).
  assert (LO := Lof_ok n t0 K HK).
  destruct (locally_singleton _ _ LO) as (P & Z & E). destruct (locally_singleton _ _ HK) as (S0 & P0).
  set (L := Lof n K) in *.
  set (dL := fun i j => Derive (fun t => L t i j) t0).
  assert (DL : forall i j, (i < n)%nat -> (j < n)%nat -> is_derive (fun t => L t i j) t0 (dL i j)).
  { intros i j Hi Hj. apply Derive_correct. apply (Lof_derive n t0 K HK XK i j Hi Hj). }
  assert (DLz : forall i c, (i < c)%nat -> (c < n)%nat -> dL i c = 0).
  { intros i c Hi Hc. apply (dR_unique (fun t => L t i c) t0); [apply DL; lia|].
    apply (is_derive_ext_loc (fun _ => 0)); [|apply dR_const]. revert LO. apply filter_imp. intros t (_ & Zt & _). symmetry. apply Zt; assumption. }
  assert (DE : forall i j, (i < n)%nat -> (j < n)%nat -> D i j = rsum n (fun c => dL i c * L t0 j c + L t0 i c * dL j c)).
  { intros i j Hi Hj. apply (dR_unique (fun t => K t i j) t0); [apply DK; assumption|].
    apply (is_derive_ext_loc (fun t => rsum n (fun c => L t i c * L t j c))).
    { revert LO. apply filter_imp. intros t (_ & _ & Et). symmetry. apply Et; assumption. }
    apply (dR_rsum_ex n (fun t c => L t i c * L t j c)). intros c Hc. apply dR_mult; apply DL; assumption. }
  assert (HWs : symf n W).
  { intros i j Hi Hj.
    assert (A := HW j Hj). assert (B := HW i Hi).
    (* W i j = w_i^T K w_j both ways *)
    assert (X1 : bform n (K t0) (fun k => W k i) (fun k => W k j) = W j i).
    { rewrite bform_dotp. unfold dotp. rewrite (rsum_ext n _ (fun k => if (k =? j)%nat then W k i else 0)).
      - apply (rsum_delta n j (fun k => W k i) Hj).
      - intros k Hk. rewrite (A k Hk). destruct (k =? j)%nat; ring. }
    assert (X2 : bform n (K t0) (fun k => W k j) (fun k => W k i) = W i j).
    { rewrite bform_dotp. unfold dotp. rewrite (rsum_ext n _ (fun k => if (k =? i)%nat then W k j else 0)).
      - apply (rsum_delta n i (fun k => W k j) Hi).
      - intros k Hk. rewrite (B k Hk). destruct (k =? i)%nat; ring. }
    rewrite <- X1, <- X2. apply bform_sym. exact S0. }
  assert (HI := low_inverse n (L t0) (K t0) W (conj P (conj Z E)) S0).
  assert (HI' : forall i l, (i < n)%nat -> (l <= i)%nat -> rsum n (fun j => W i j * L t0 j l) = if (i =? l)%nat then / L t0 i i else 0).
  { apply HI. intros i l Hi Hl. rewrite <- (HW i Hi l Hl) at 1 || idtac.
    assert (Q := HW i Hi l Hl). cbv beta in Q. rewrite (Nat.eqb_sym i l), <- Q. apply rsum_ext. intros j Hj. rewrite (HWs i j Hi Hj), (S0 j l Hj Hl). ring. }
  apply (is_derive_ext_loc (fun t => 2 * rsum n (fun c => ln (L t c c)))).
  { revert LO. apply filter_imp. intros t (Pt & Zt & Et). symmetry.
    apply (logdet_chol n (L t) (mkmat n n (K t))). split; [reflexivity|]. split; [reflexivity|]. split; [exact Pt|].
    intros i j Hi Hj. cbn [mat_at]. rewrite Et by assumption. symmetry. apply rsum_low. exact Zt. }
  refine (dR_val _ _ _ _ (dR_scal _ 2 t0 _ (dR_rsum_ex n (fun t c => ln (L t c c)) (fun c => / L t0 c c * dL c c) t0 _)) _).
  { intros c Hc. refine (dR_val _ _ _ _ (dR_comp ln (fun t => L t c c) t0 _ _ (DL c c Hc Hc) (dR_ln (L t0 c c) (P c Hc))) _). ring. }
  (* 2 sum_c L'cc / Lcc = sum_ij D_ij W_ij *)
  assert (Q : rsum n (fun i => rsum n (fun j => D i j * W i j)) = 2 * rsum n (fun i => rsum n (fun j => rsum n (fun c => dL i c * L t0 j c * W i j)))).
  { replace (2 * rsum n (fun i => rsum n (fun j => rsum n (fun c => dL i c * L t0 j c * W i j)))) with
      (rsum n (fun i => rsum n (fun j => rsum n (fun c => dL i c * L t0 j c * W i j))) + rsum n (fun i => rsum n (fun j => rsum n (fun c => dL j c * L t0 i c * W j i)))).
    2:{ rewrite (rsum_swap n n (fun i j => rsum n (fun c => dL j c * L t0 i c * W j i))). ring. }
    rewrite <- rsum_plus. apply rsum_ext; intros i Hi. rewrite <- rsum_plus. apply rsum_ext; intros j Hj.
    rewrite (DE i j Hi Hj), <- rsum_scal_r, <- rsum_plus. apply rsum_ext; intros c Hc. rewrite (HWs j i Hj Hi). ring. }
  rewrite Q. f_equal. apply rsum_ext; intros i Hi.
  rewrite rsum_swap. rewrite (rsum_ext n _ (fun c => dL i c * rsum n (fun j => W i j * L t0 j c))).
  2:{ intros c Hc. rewrite <- rsum_scal. apply rsum_ext; intros; ring. }
  rewrite (rsum_single n i); [|exact Hi|].
  - rewrite HI' by lia. rewrite Nat.eqb_refl. ring.
  - intros c Hc Hne. destruct (Nat.lt_ge_cases c i) as [H|H].
    + rewrite HI' by lia. destruct (Nat.eqb_spec i c); [lia|ring].
    + rewrite DLz by lia. ring.
Qed.

(** derivative of a solution: K x' = b' - K' x *)
Lemma sol_derive n t0 (K : R -> nat -> nat -> R) (D : nat -> nat -> R) (x b : R -> nat -> R) (db : nat -> R) :
  locally t0 (fun t => pdf n (K t)) ->
  (forall i j, (i < n)%nat -> (j < n)%nat -> is_derive (fun t => K t i j) t0 (D i j)) ->
  locally t0 (fun t => fsolves n (K t) (x t) (b t)) ->
  (forall i, (i < n)%nat -> is_derive (fun t => b t i) t0 (db i)) ->
  exists dx, (forall i, (i < n)%nat -> is_derive (fun t => x t i) t0 (dx i)) /\
    fsolves n (K t0) dx (fun i => db i - rsum n (fun j => D i j * x t0 j)).
Proof.
  intros HK DK Hx Db.
  assert (XK : forall i j, (i < n)%nat -> (j < n)%nat -> ex_derive (fun t => K t i j) t0) by (intros; eexists; apply DK; assumption).
  exists (fun i => Derive (fun t => x t i) t0).
  assert (Dx : forall i, (i < n)%nat -> is_derive (fun t => x t i) t0 (Derive (fun t => x t i) t0)).
  { intros i Hi. apply Derive_correct. apply (sol_exd n t0 K HK XK x b Hx); [|exact Hi]. intros; eexists; apply Db; assumption. }
  split; [exact Dx|]. intros i Hi.
  assert (Z : db i = rsum n (fun j => D i j * x t0 j + K t0 i j * Derive (fun t => x t j) t0)).
  { apply (dR_unique (fun t => b t i) t0); [apply Db, Hi|].
    apply (is_derive_ext_loc (fun t => rsum n (fun j => K t i j * x t j))).
    { revert Hx. apply filter_imp. intros t Ht. apply Ht, Hi. }
    apply (dR_rsum_ex n (fun t j => K t i j * x t j)). intros j Hj. apply dR_mult; [apply DK; assumption|apply Dx, Hj]. }
  rewrite rsum_plus in Z. lra.
Qed.
