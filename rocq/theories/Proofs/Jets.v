(** Positive semidefiniteness of covariances of function values and partial derivatives.
    A "jet covariance" gives the covariance of any two observations; it is positive when every
    finite linear combination of observations has non-negative variance. *)
From Coq Require Import Reals List Arith Bool Lia Lra Psatz.
From Coquelicot Require Import Coquelicot.
From Verif.Base Require Import NpLite NpFacts.
From Verif.Spec Require Import KernelSpec.
Import ListNotations.
Local Open Scope R_scope.

Definition jcov := obs -> obs -> R.
Definition lin := list (R * obs).
Fixpoint lsum (l : lin) (f : obs -> R) : R :=
  match l with [] => 0 | (w, a) :: t => w * f a + lsum t f end.
Definition qq (c : jcov) (l l' : lin) : R := lsum l (fun a => lsum l' (fun b => c a b)).
Definition psdk (c : jcov) : Prop := forall l, 0 <= qq c l l.

Lemma lsum_ext l f g : (forall a, f a = g a) -> lsum l f = lsum l g.
Proof. intros H; induction l as [|[w a] l IH]; simpl; [reflexivity | rewrite H, IH; reflexivity]. Qed.
Lemma lsum_plus l f g : lsum l (fun a => f a + g a) = lsum l f + lsum l g.
Proof. induction l as [|[w a] l IH]; simpl; [ring | rewrite IH; ring]. Qed.
Lemma lsum_scal l c f : lsum l (fun a => c * f a) = c * lsum l f.
Proof. induction l as [|[w a] l IH]; simpl; [ring | rewrite IH; ring]. Qed.
Lemma lsum_app l l' f : lsum (l ++ l') f = lsum l f + lsum l' f.
Proof. induction l as [|[w a] l IH]; simpl; [ring | rewrite IH; ring]. Qed.
Lemma lsum_zero l : lsum l (fun _ => 0) = 0.
Proof. induction l as [|[w a] l IH]; simpl; [reflexivity | rewrite IH; ring]. Qed.
Lemma lsum_swap l l' (g : obs -> obs -> R) : lsum l (fun a => lsum l' (fun b => g a b)) = lsum l' (fun b => lsum l (fun a => g a b)).
Proof.
  induction l as [|[w a] l IH]; simpl; [symmetry; apply lsum_zero|].
  rewrite IH, <- lsum_scal, <- lsum_plus. reflexivity.
Qed.
Lemma lsum_rsum n l f : lsum l (fun a => rsum n (f a)) = rsum n (fun i => lsum l (fun a => f a i)).
Proof.
  induction n as [|n IH]; simpl.
  - induction l as [|[w a] l IHl]; simpl; [reflexivity | rewrite IHl; ring].
  - rewrite lsum_plus, IH. reflexivity.
Qed.
Lemma lsum_lim l (f : nat -> obs -> R) (g : obs -> R) : (forall a, is_lim_seq (fun n => f n a) (g a)) ->
  is_lim_seq (fun n => lsum l (f n)) (lsum l g).
Proof.
  intros H. induction l as [|[w a] l IH]; simpl; [apply is_lim_seq_const|].
  apply is_lim_seq_plus'; [|exact IH]. apply (is_lim_seq_scal_l _ w (g a)); apply H.
Qed.

Lemma psdk_ext c c' : (forall a b, c a b = c' a b) -> psdk c -> psdk c'.
Proof.
  intros H P l. unfold qq. rewrite (lsum_ext l _ (fun a => lsum l (fun b => c a b))); [apply P|].
  intros a. apply lsum_ext; intros; rewrite H; reflexivity.
Qed.
Lemma psdk_plus c c' : psdk c -> psdk c' -> psdk (fun a b => c a b + c' a b).
Proof.
  intros P P' l. unfold qq. rewrite (lsum_ext l _ (fun a => lsum l (fun b => c a b) + lsum l (fun b => c' a b)))
    by (intros; apply lsum_plus).
  rewrite lsum_plus. specialize (P l). specialize (P' l). unfold qq in *. lra.
Qed.
Lemma psdk_scal t c : 0 <= t -> psdk c -> psdk (fun a b => t * c a b).
Proof.
  intros Ht P l. unfold qq. rewrite (lsum_ext l _ (fun a => t * lsum l (fun b => c a b))) by (intros; apply lsum_scal).
  rewrite lsum_scal. apply Rmult_le_pos; [exact Ht | apply P].
Qed.
Lemma psdk_0 : psdk (fun _ _ => 0).
Proof.
  intros l. unfold qq. assert (E : forall l, lsum l (fun _ => 0) = 0).
  { induction l0 as [|[w a] l0 IH]; simpl; [reflexivity | rewrite IH; ring]. }
  rewrite (lsum_ext l _ (fun _ => 0)) by (intros; apply E). rewrite E. lra.
Qed.
Lemma psdk_rsum n (c : nat -> jcov) : (forall i, (i < n)%nat -> psdk (c i)) -> psdk (fun a b => rsum n (fun i => c i a b)).
Proof.
  induction n as [|n IH]; intros H; [apply psdk_0|]. simpl. apply psdk_plus; [apply IH; intros; apply H; lia | apply H; lia].
Qed.
Lemma qq_lim (c : nat -> jcov) (c' : jcov) l l' : (forall a b, is_lim_seq (fun n => c n a b) (c' a b)) ->
  is_lim_seq (fun n => qq (c n) l l') (qq c' l l').
Proof. intros H. unfold qq. apply lsum_lim. intros a. apply lsum_lim. intros b. apply H. Qed.
Lemma psdk_lim (c : nat -> jcov) (c' : jcov) : (forall a b, is_lim_seq (fun n => c n a b) (c' a b)) ->
  (forall n, psdk (c n)) -> psdk c'.
Proof.
  intros H P l. apply (is_lim_seq_le (fun _ => 0) (fun n => qq (c n) l l) 0 (qq c' l l)).
  - intros n. apply P.
  - apply is_lim_seq_const.
  - apply qq_lim, H.
Qed.

(** ** multiplication of the process by a function f with gradient df (Leibniz rule) *)
Definition ex1 (f : pt -> R) (df : nat -> pt -> R) (a : obs) : lin :=
  match a with
  | Val x => [(f x, Val x)]
  | Der i x => [(f x, Der i x); (df i x, Val x)]
  end.
Definition mulk f df (c : jcov) : jcov := fun a b => qq c (ex1 f df a) (ex1 f df b).
Definition lexp f df (l : lin) : lin := flat_map (fun wa => map (fun vb => (fst wa * fst vb, snd vb)) (ex1 f df (snd wa))) l.
Lemma lsum_lexp f df l g : lsum (lexp f df l) g = lsum l (fun a => lsum (ex1 f df a) g).
Proof.
  induction l as [|[w a] l IH]; [reflexivity|]. simpl lexp. rewrite lsum_app.
  change (flat_map _ l) with (lexp f df l). rewrite IH. simpl lsum. f_equal.
  destruct a; simpl; ring.
Qed.
Lemma psdk_mulk f df c : psdk c -> psdk (mulk f df c).
Proof.
  intros P l. specialize (P (lexp f df l)). unfold qq in P. rewrite lsum_lexp in P.
  unfold qq, mulk. eapply Rle_trans; [exact P|]. right. apply lsum_ext; intros a.
  transitivity (lsum (ex1 f df a) (fun a' => lsum l (fun b => lsum (ex1 f df b) (fun b' => c a' b')))).
  - apply lsum_ext; intros a'. apply lsum_lexp.
  - unfold qq. apply lsum_swap.
Qed.

(** the constant process *)
Definition constk : jcov := fun a b => match a, b with Val _, Val _ => 1 | _, _ => 0 end.
Lemma psdk_const : psdk constk.
Proof.
  intros l. unfold qq, constk.
  set (v := fun a : obs => match a with Val _ => 1 | Der _ _ => 0 end).
  rewrite (lsum_ext l _ (fun a => lsum l v * v a)).
  - rewrite lsum_scal. assert (Z := Rle_0_sqr (lsum l v)). unfold Rsqr in Z. exact Z.
  - intros a. destruct a; unfold v at 2.
    + rewrite Rmult_1_r. reflexivity.
    + rewrite Rmult_0_r. transitivity (lsum l (fun _ => 0)); [|apply lsum_zero]. apply lsum_ext; intros b; destruct b; reflexivity.
Qed.

(** ** The squared exponential kernel *)
Section SE.
Variables (d : nat) (th : nat -> R).
Hypothesis (Hnn : forall i, 0 <= th i) (Hout : forall i, (d <= i)%nat -> th i = 0).

Definition zz (x y : pt) : R := rsum d (fun i => 2 * th i * x i * y i).
(** jets of a function of the inner product *)
Definition zjet (F0 F1 F2 : R -> R) : jcov := fun a b =>
  match a, b with
  | Val x, Val y => F0 (zz x y)
  | Der i x, Val y => 2 * th i * y i * F1 (zz x y)
  | Val x, Der j y => 2 * th j * x j * F1 (zz x y)
  | Der i x, Der j y => (if (i =? j)%nat then 2 * th i else 0) * F1 (zz x y)
                        + (2 * th i * y i) * (2 * th j * x j) * F2 (zz x y)
  end.
Definition en (n : nat) (z : R) : R := z ^ n / INR (fact n).
Definition en1 (n : nat) (z : R) : R := match n with O => 0 | S m => en m z end.
Definition en2 (n : nat) (z : R) : R := match n with S (S m) => en m z | _ => 0 end.
Lemma en_S n z : INR (S n) * en (S n) z = z * en n z.
Proof.
  unfold en. rewrite fact_simpl, mult_INR. simpl pow. field. split; apply not_0_INR; [apply fact_neq_0 | lia].
Qed.
Lemma en1_S n z : INR (S n) * en1 (S n) z = en n z + z * en1 n z.
Proof.
  destruct n as [|n]; simpl en1; [simpl; ring|]. rewrite <- en_S. rewrite (S_INR (S n)). ring.
Qed.
Lemma en2_S n z : INR (S n) * en2 (S n) z = 2 * en1 n z + z * en2 n z.
Proof.
  destruct n as [|[|n]]; simpl en2; simpl en1; [simpl; ring | simpl; ring|].
  rewrite <- en_S. rewrite (S_INR (S (S n))), (S_INR (S n)). ring.
Qed.
Definition afn (l : nat) (x : pt) : R := sqrt (2 * th l) * x l.
Definition dafn (l i : nat) (x : pt) : R := if (i =? l)%nat then sqrt (2 * th l) else 0.
Lemma ss l : sqrt (2 * th l) * sqrt (2 * th l) = 2 * th l.
Proof. apply sqrt_sqrt. assert (H := Hnn l). lra. Qed.
Lemma afn_z x y : rsum d (fun l => afn l x * afn l y) = zz x y.
Proof. apply rsum_ext; intros l _. unfold afn.
  replace (sqrt (2 * th l) * x l * (sqrt (2 * th l) * y l)) with (sqrt (2 * th l) * sqrt (2 * th l) * (x l * y l)) by ring.
  rewrite ss. ring. Qed.
Lemma afn_d i x y : rsum d (fun l => dafn l i x * afn l y) = 2 * th i * y i.
Proof.
  destruct (Nat.lt_ge_cases i d) as [Hi|Hi].
  - rewrite (rsum_single d i); [|exact Hi|].
    + unfold dafn, afn. rewrite Nat.eqb_refl, <- Rmult_assoc, ss. reflexivity.
    + intros l _ Hl. unfold dafn. destruct (Nat.eqb_spec i l); [congruence|ring].
  - rewrite (Hout i Hi). rewrite rsum_0; [ring|]. intros l Hl. unfold dafn. destruct (Nat.eqb_spec i l); [lia|ring].
Qed.
Lemma afn_dd i j x y : rsum d (fun l => dafn l i x * dafn l j y) = if (i =? j)%nat then 2 * th i else 0.
Proof.
  destruct (Nat.eqb_spec i j) as [<-|Hij].
  - destruct (Nat.lt_ge_cases i d) as [Hi|Hi].
    + rewrite (rsum_single d i); [|exact Hi|].
      * unfold dafn. rewrite Nat.eqb_refl. apply ss.
      * intros l _ Hl. unfold dafn. destruct (Nat.eqb_spec i l); [congruence|ring].
    + rewrite (Hout i Hi). rewrite rsum_0; [ring|]. intros l Hl. unfold dafn. destruct (Nat.eqb_spec i l); [lia|ring].
  - apply rsum_0. intros l Hl. unfold dafn. destruct (Nat.eqb_spec i l), (Nat.eqb_spec j l); try ring; congruence.
Qed.
Lemma zjet_step n a b :
  zjet (en (S n)) (en1 (S n)) (en2 (S n)) a b
  = / INR (S n) * rsum d (fun l => mulk (afn l) (dafn l) (zjet (en n) (en1 n) (en2 n)) a b).
Proof.
  assert (Hn : INR (S n) <> 0) by (apply not_0_INR; lia).
  apply (Rmult_eq_reg_l (INR (S n))); [|exact Hn]. rewrite <- Rmult_assoc, Rinv_r, Rmult_1_l by exact Hn.
  assert (RW : forall c f, rsum d (fun l => c * f l) = c * rsum d f) by (intros; apply rsum_scal).
  destruct a as [x|i x], b as [y|j y]; unfold mulk, qq, ex1, lsum, zjet.
  - rewrite en_S, <- (afn_z x y) at 1. rewrite <- rsum_scal_r. apply rsum_ext; intros; ring.
  - set (z := zz x y).
    replace (INR (S n) * (2 * th j * x j * en1 (S n) z)) with (2 * th j * x j * (INR (S n) * en1 (S n) z)) by ring.
    rewrite en1_S.
    rewrite (rsum_ext d _ (fun l => (2 * th j * x j * en1 n z) * (afn l x * afn l y) + en n z * (dafn l j y * afn l x))) by (intros; ring).
    rewrite rsum_plus, !rsum_scal, afn_z, afn_d. fold z. ring.
  - set (z := zz x y).
    replace (INR (S n) * (2 * th i * y i * en1 (S n) z)) with (2 * th i * y i * (INR (S n) * en1 (S n) z)) by ring.
    rewrite en1_S.
    rewrite (rsum_ext d _ (fun l => (2 * th i * y i * en1 n z) * (afn l x * afn l y) + en n z * (dafn l i x * afn l y))) by (intros; ring).
    rewrite rsum_plus, !rsum_scal, afn_z, afn_d. fold z. ring.
  - set (z := zz x y). set (dl := if (i =? j)%nat then 2 * th i else 0).
    replace (INR (S n) * _) with (dl * (INR (S n) * en1 (S n) z) + (2 * th i * y i) * (2 * th j * x j) * (INR (S n) * en2 (S n) z)) by ring.
    rewrite en1_S, en2_S.
    rewrite (rsum_ext d _ (fun l => (dl * en1 n z + (2 * th i * y i) * (2 * th j * x j) * en2 n z) * (afn l x * afn l y)
        + (2 * th i * y i * en1 n z) * (dafn l j y * afn l x) + (2 * th j * x j * en1 n z) * (dafn l i x * afn l y)
        + en n z * (dafn l i x * dafn l j y))) by (intros; ring).
    rewrite !rsum_plus, !rsum_scal, afn_z, !afn_d, afn_dd. fold z dl. ring.
Qed.
Lemma psdk_zjet n : psdk (zjet (en n) (en1 n) (en2 n)).
Proof.
  induction n as [|n IH].
  - apply (psdk_ext constk); [|apply psdk_const].
    intros [x|i x] [y|j y]; unfold zjet, constk, en, en1, en2; simpl; try field; ring.
  - apply (psdk_ext (fun a b => / INR (S n) * rsum d (fun l => mulk (afn l) (dafn l) (zjet (en n) (en1 n) (en2 n)) a b))).
    + intros; symmetry; apply zjet_step.
    + apply psdk_scal.
      * left. apply Rinv_0_lt_compat, lt_0_INR. lia.
      * apply psdk_rsum. intros l _. apply psdk_mulk, IH.
Qed.
(** partial sums of the exponential series *)
Lemma en_sum z : is_lim_seq (fun N => rsum N (fun n => en n z)) (exp z).
Proof.
  assert (H := is_exp_Reals z). unfold is_pseries in H. apply is_lim_seq_incr_1.
  apply (is_lim_seq_ext (sum_n (fun k => scal (pow_n z k) (/ INR (fact k))))); [|exact H].
  intros n. induction n as [|n IHn].
  - rewrite sum_O. simpl. unfold scal, one, mult, en; simpl. unfold mult; simpl. field.
  - rewrite sum_Sn, IHn. cbn [rsum]. apply f_equal. unfold en. rewrite pow_n_pow. reflexivity.
Qed.
Lemma en1_sum z : is_lim_seq (fun N => rsum N (fun n => en1 n z)) (exp z).
Proof.
  apply is_lim_seq_incr_1. eapply is_lim_seq_ext; [|apply en_sum]. intros n. symmetry.
  replace (S n) with (1 + n)%nat by lia. rewrite rsum_split. simpl. ring.
Qed.
Lemma en2_sum z : is_lim_seq (fun N => rsum N (fun n => en2 n z)) (exp z).
Proof.
  apply is_lim_seq_incr_1. eapply is_lim_seq_ext; [|apply en1_sum]. intros n. symmetry.
  replace (S n) with (1 + n)%nat by lia. rewrite rsum_split. cbn [rsum]. simpl en2 at 1. rewrite !Rplus_0_l. reflexivity.
Qed.
Lemma psdk_zexp : psdk (zjet exp exp exp).
Proof.
  apply (psdk_lim (fun N a b => rsum N (fun n => zjet (en n) (en1 n) (en2 n) a b))).
  - intros [x|i x] [y|j y]; unfold zjet.
    + apply en_sum.
    + eapply is_lim_seq_ext; [intros n; symmetry; apply rsum_scal|]. apply (is_lim_seq_scal_l _ _ (exp (zz x y))), en1_sum.
    + eapply is_lim_seq_ext; [intros n; symmetry; apply rsum_scal|]. apply (is_lim_seq_scal_l _ _ (exp (zz x y))), en1_sum.
    + set (u := if (i =? j)%nat then 2 * th i else 0). set (v := 2 * th i * y i * (2 * th j * x j)).
      apply (is_lim_seq_ext (fun N => u * rsum N (fun n => en1 n (zz x y)) + v * rsum N (fun n => en2 n (zz x y)))).
      { intros n. rewrite rsum_plus, !rsum_scal. reflexivity. }
      apply is_lim_seq_plus'; apply (is_lim_seq_scal_l _ _ (exp (zz x y))); [apply en1_sum | apply en2_sum].
  - intros N. apply psdk_rsum. intros n _. apply psdk_zjet.
Qed.
(** jets of a radial covariance function *)
Definition rjet (p0 p1 p2 : R -> R) : jcov := fun a b =>
  match a, b with
  | Val x, Val y => p0 (sqd d th x y)
  | Der i x, Val y => 2 * th i * (x i - y i) * p1 (sqd d th x y)
  | Val x, Der j y => - (2 * th j * (x j - y j) * p1 (sqd d th x y))
  | Der i x, Der j y => - ((if (i =? j)%nat then 2 * th i else 0) * p1 (sqd d th x y)
                        + (2 * th i * (x i - y i)) * (2 * th j * (x j - y j)) * p2 (sqd d th x y))
  end.
Definition gse (x : pt) : R := exp (- rsum d (fun i => th i * x i ^ 2)).
Definition dgse (i : nat) (x : pt) : R := - (2 * th i * x i) * gse x.
Lemma gse_z x y : gse x * gse y * exp (zz x y) = exp (- sqd d th x y).
Proof.
  unfold gse. rewrite <- !exp_plus. f_equal. unfold zz, sqd.
  rewrite <- !rsum_opp, <- !rsum_plus. apply rsum_ext; intros; ring.
Qed.
Theorem psdk_se : psdk (rjet (fun s => exp (- s)) (fun s => - exp (- s)) (fun s => exp (- s))).
Proof.
  apply (psdk_ext (mulk gse dgse (zjet exp exp exp))); [|apply psdk_mulk, psdk_zexp].
  intros [x|i x] [y|j y]; unfold mulk, qq, ex1, lsum, zjet, rjet, dgse; rewrite <- gse_z; try ring.
Qed.
End SE.
