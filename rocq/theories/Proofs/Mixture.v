(** Covariances that are (limits of) positive scale mixtures of squared exponentials inherit every
    linear inequality that holds for squared exponentials of all length scales. *)
From Coq Require Import Reals List Arith Bool Lia Lra Psatz.
From Coquelicot Require Import Coquelicot.
From Verif.Base Require Import NpLite NpFacts.
From Verif.Spec Require Import KernelSpec.
From Verif.Proofs Require Import Jets.
Import ListNotations.
Local Open Scope R_scope.

(** a linear functional of a jet covariance *)
Definition func := list (R * obs * obs).
Fixpoint ev (f : func) (c : jcov) : R :=
  match f with [] => 0 | (w, a, b) :: t => w * c a b + ev t c end.
Lemma ev_app f g c : ev (f ++ g) c = ev f c + ev g c.
Proof. induction f as [|[[w a] b] f IH]; simpl; [ring | rewrite IH; ring]. Qed.
Lemma ev_ext f c c' : (forall a b, c a b = c' a b) -> ev f c = ev f c'.
Proof. intros H; induction f as [|[[w a] b] f IH]; simpl; [reflexivity | rewrite H, IH; reflexivity]. Qed.
Lemma ev_lim f (c : nat -> jcov) (c' : jcov) : (forall a b, is_lim_seq (fun n => c n a b) (c' a b)) ->
  is_lim_seq (fun n => ev f (c n)) (ev f c').
Proof.
  intros H. induction f as [|[[w a] b] f IH]; simpl; [apply is_lim_seq_const|].
  apply is_lim_seq_plus'; [|exact IH]. apply (is_lim_seq_scal_l _ w (c' a b)); apply H.
Qed.
Lemma ev_scal f t c : ev f (fun a b => t * c a b) = t * ev f c.
Proof. induction f as [|[[w a] b] f IH]; simpl; [ring | rewrite IH; ring]. Qed.
Lemma is_RInt_extR (f g : R -> R) A B (l : R) : (forall u, f u = g u) -> is_RInt f A B l -> is_RInt g A B l.
Proof. intros H. apply is_RInt_ext. intros; apply H. Qed.
Lemma ev_RInt f (c : R -> jcov) (I : jcov) A B : (forall a b, is_RInt (fun u => c u a b) A B (I a b)) ->
  is_RInt (fun u => ev f (c u)) A B (ev f I).
Proof.
  intros H. induction f as [|[[w a] b] f IH]; simpl.
  - assert (Z := is_RInt_const A B (0 : R)). assert (E : scal (B - A) (0 : R) = 0) by (unfold scal; simpl; unfold mult; simpl; ring).
    exact (eq_rect _ (fun v : R => is_RInt (fun _ : R => 0) A B v) Z 0 E).
  - apply (is_RInt_plus (fun u => w * c u a b) (fun u => ev f (c u))); [|exact IH].
    apply (is_RInt_scal (fun u => c u a b) A B w (I a b)). apply H.
Qed.
(** the quadratic form as a functional *)
Definition qf_row (w : R) (a : obs) (l : lin) : func := map (fun vb => (w * fst vb, a, snd vb)) l.
Definition qf (l l' : lin) : func := flat_map (fun wa => qf_row (fst wa) (snd wa) l') l.
Lemma ev_qf_row w a l c : ev (qf_row w a l) c = w * lsum l (fun b => c a b).
Proof. induction l as [|[v b] l IH]; simpl; [ring | rewrite IH; ring]. Qed.
Lemma ev_qf l l' c : ev (qf l l') c = qq c l l'.
Proof.
  unfold qq. induction l as [|[w a] l IH]; simpl; [reflexivity|]. rewrite ev_app, ev_qf_row, IH. reflexivity.
Qed.

Section Mix.
Variables (d : nat) (th : nat -> R).
Hypothesis (Hnn : forall i, 0 <= th i).
Lemma sqd_nn x y : 0 <= sqd d th x y.
Proof. apply rsum_nonneg. intros i _. apply Rmult_le_pos; [apply Hnn | apply pow2_ge_0]. Qed.

(** squared exponential with squared inverse length scales multiplied by [l] *)
Definition sejet (l : R) : jcov :=
  rjet d th (fun s => exp (- (l * s))) (fun s => - l * exp (- (l * s))) (fun s => l * l * exp (- (l * s))).
Lemma sejet_scaled l a b : sejet l a b = rjet d (fun i => l * th i) (fun s => exp (- s)) (fun s => - exp (- s)) (fun s => exp (- s)) a b.
Proof.
  unfold sejet, rjet. assert (E : forall x y, sqd d (fun i => l * th i) x y = l * sqd d th x y).
  { intros. unfold sqd. rewrite <- rsum_scal. apply rsum_ext; intros; ring. }
  destruct a as [x|i x], b as [y|j y]; rewrite E; try ring.
  destruct (Nat.eqb_spec i j); ring.
Qed.
Lemma psdk_sejet l : 0 <= l -> (forall i, (d <= i)%nat -> th i = 0) -> psdk (sejet l).
Proof.
  intros Hl Ho. eapply psdk_ext; [intros; symmetry; apply sejet_scaled|].
  apply psdk_se; [intros i; apply Rmult_le_pos; auto | intros i Hi; rewrite Ho by exact Hi; ring].
Qed.

(** The mixture principle.  [W] is the (unnormalised) mixing density over u in [A n, B n], [g] the
    scale at u. *)
Lemma mixture (f : func) (p0 p1 p2 : R -> R) (A B N : nat -> R) (W g : R -> R) (I0 I1 I2 : nat -> R -> R) :
  (forall l, 0 < l -> 0 <= ev f (sejet l)) ->
  (forall n, A n <= B n) -> (forall n, 0 < N n) ->
  (forall n u, A n < u < B n -> 0 <= W u /\ 0 < g u) ->
  (forall n s, 0 <= s -> is_RInt (fun u => W u * exp (- (g u * s))) (A n) (B n) (I0 n s)) ->
  (forall n s, 0 <= s -> is_RInt (fun u => W u * (g u * exp (- (g u * s)))) (A n) (B n) (I1 n s)) ->
  (forall n s, 0 <= s -> is_RInt (fun u => W u * (g u * g u * exp (- (g u * s)))) (A n) (B n) (I2 n s)) ->
  (forall s, 0 <= s -> is_lim_seq (fun n => I0 n s / N n) (p0 s)) ->
  (forall s, 0 <= s -> is_lim_seq (fun n => I1 n s / N n) (- p1 s)) ->
  (forall s, 0 <= s -> is_lim_seq (fun n => I2 n s / N n) (p2 s)) ->
  0 <= ev f (rjet d th p0 p1 p2).
Proof.
  intros Hf HAB HN HW R0 R1 R2 L0 L1 L2.
  assert (Hn : forall n, 0 <= ev f (rjet d th (I0 n) (fun s => - I1 n s) (I2 n))).
  { intros n. eapply (is_RInt_ge_0 (fun u => ev f (fun a b => W u * sejet (g u) a b)) (A n) (B n)); [apply HAB| |].
    - apply ev_RInt. intros a b.
      destruct a as [x|i x], b as [y|j y]; unfold sejet, rjet; set (s := sqd d th x y); assert (Hs : 0 <= s) by apply sqd_nn.
      + apply R0; exact Hs.
      + apply (is_RInt_extR (fun u => (2 * th j * (x j - y j)) * (W u * (g u * exp (- (g u * s)))))); [intros; ring|].
        replace (- (2 * th j * (x j - y j) * - I1 n s)) with ((2 * th j * (x j - y j)) * I1 n s) by ring.
        apply (is_RInt_scal (fun u => W u * (g u * exp (- (g u * s))))). apply R1; exact Hs.
      + apply (is_RInt_extR (fun u => (- (2 * th i * (x i - y i))) * (W u * (g u * exp (- (g u * s)))))); [intros; ring|].
        replace (2 * th i * (x i - y i) * - I1 n s) with ((- (2 * th i * (x i - y i))) * I1 n s) by ring.
        apply (is_RInt_scal (fun u => W u * (g u * exp (- (g u * s))))). apply R1; exact Hs.
      + set (dl := if (i =? j)%nat then 2 * th i else 0). set (r := 2 * th i * (x i - y i) * (2 * th j * (x j - y j))).
        apply (is_RInt_extR (fun u => dl * (W u * (g u * exp (- (g u * s)))) + (- r) * (W u * (g u * g u * exp (- (g u * s)))))).
        { intros; ring. }
        replace (- (dl * - I1 n s + r * I2 n s)) with (dl * I1 n s + (- r) * I2 n s) by ring.
        apply (is_RInt_plus (fun u => dl * (W u * (g u * exp (- (g u * s)))))).
        * apply (is_RInt_scal (fun u => W u * (g u * exp (- (g u * s))))). apply R1; exact Hs.
        * apply (is_RInt_scal (fun u => W u * (g u * g u * exp (- (g u * s))))). apply R2; exact Hs.
    - intros u Hu. rewrite ev_scal. destruct (HW n u Hu) as (W1 & W2). apply Rmult_le_pos; [exact W1 | apply Hf; exact W2]. }
  apply (is_lim_seq_le (fun _ => 0) (fun n => ev f (rjet d th (fun s => I0 n s / N n) (fun s => - (I1 n s / N n)) (fun s => I2 n s / N n)))
           0 (ev f (rjet d th p0 p1 p2))).
  - intros n. rewrite (ev_ext f _ (fun a b => / N n * rjet d th (I0 n) (fun s => - I1 n s) (I2 n) a b)).
    + rewrite ev_scal. apply Rmult_le_pos; [left; apply Rinv_0_lt_compat, HN | apply Hn].
    + intros [x|i x] [y|j y]; unfold rjet, Rdiv; ring.
  - apply is_lim_seq_const.
  - apply ev_lim. intros [x|i x] [y|j y]; unfold rjet; set (s := sqd d th x y); assert (Hs : 0 <= s) by apply sqd_nn.
    + apply L0; exact Hs.
    + assert (Z := is_lim_seq_scal_l _ (2 * th j * (x j - y j)) _ (L1 s Hs)). cbn [Rbar_mult Rbar_mult'] in Z.
      eapply is_lim_seq_ext; [|replace (- (2 * th j * (x j - y j) * p1 s)) with (2 * th j * (x j - y j) * - p1 s) by ring; exact Z].
      intros n; simpl; ring.
    + assert (Z := is_lim_seq_scal_l _ (- (2 * th i * (x i - y i))) _ (L1 s Hs)). cbn [Rbar_mult Rbar_mult'] in Z.
      eapply is_lim_seq_ext; [|replace (2 * th i * (x i - y i) * p1 s) with (- (2 * th i * (x i - y i)) * - p1 s) by ring; exact Z].
      intros n; simpl; ring.
    + set (dl := if (i =? j)%nat then 2 * th i else 0). set (r := 2 * th i * (x i - y i) * (2 * th j * (x j - y j))).
      assert (Z1 := is_lim_seq_scal_l _ dl _ (L1 s Hs)). assert (Z2 := is_lim_seq_scal_l _ (- r) _ (L2 s Hs)).
      cbn [Rbar_mult Rbar_mult'] in Z1, Z2.
      assert (Z := is_lim_seq_plus' _ _ _ _ Z1 Z2).
      eapply is_lim_seq_ext; [|replace (- (dl * p1 s + r * p2 s)) with (dl * - p1 s + - r * p2 s) by ring; exact Z].
      intros n; simpl; ring.
Qed.
End Mix.
