(** * C61, C62: the example objective functions and the acquisition functions *)
From Coq Require Import Reals List Arith Bool Lia Lra Psatz.
From Coquelicot Require Import Coquelicot.
From Verif.Base Require Import NpLite NpFacts.
From Verif.Spec Require Import ScriptSpec.
From Verif.Model Require Import Scripts.
Import ListNotations.
Local Open Scope R_scope.

Lemma rsum_S_l n f : rsum (S n) f = f 0%nat + rsum n (fun j => f (S j)).
Proof. induction n as [|n IH]; [cbn [rsum]; ring|]. cbn [rsum] in *. rewrite IH. ring. Qed.
Lemma rosen_obj_ok X a : exists o, rosen_obj X a = Ok o /\ vlen o = nr X /\ forall p, vat o p = rosenbrock a (nc X) (mat_at X p).
Proof.
  unfold rosen_obj, rosenbrock, for_range. rewrite Nat.sub_0_r.
  assert (H : forall k a0 (s : nat -> R), exists s', for_steps k a0 (fun d obj => Ok (fun p => obj p + (a * (mat_at X p (d + 1) - mat_at X p d ^ 2) ^ 2 + (1 - mat_at X p d) ^ 2))) s = Ok s'
            /\ forall p, s' p = s p + rsum k (fun j => a * (mat_at X p (S (a0 + j)) - mat_at X p (a0 + j)%nat ^ 2) ^ 2 + (1 - mat_at X p (a0 + j)%nat) ^ 2)).
  { induction k as [|k IH]; intros a0 s.
    - exists s. split; [reflexivity|]. intros p. cbn [rsum]. ring.
    - cbn [for_steps bind]. destruct (IH (S a0) (fun p => s p + (a * (mat_at X p (a0 + 1) - mat_at X p a0 ^ 2) ^ 2 + (1 - mat_at X p a0) ^ 2))) as (s' & E & H).
      exists s'. split; [exact E|]. intros p. rewrite H. rewrite rsum_S_l. rewrite Nat.add_0_r, Nat.add_1_r.
      rewrite (rsum_ext k _ (fun j => a * (mat_at X p (S (a0 + S j)) - mat_at X p (a0 + S j)%nat ^ 2) ^ 2 + (1 - mat_at X p (a0 + S j)%nat) ^ 2)).
      + ring.
      + intros j Hj. rewrite Nat.add_succ_r. reflexivity. }
  destruct (H (nc X - 1)%nat 0%nat (fun _ => 0)) as (s' & E & Hs). rewrite E. cbn [bind].
  eexists. split; [reflexivity|]. split; [reflexivity|]. intros p. cbn [vat]. rewrite Hs. cbn [Nat.add]. ring.
Qed.
(** the partial derivative of the Rosenbrock function *)
Definition rder (a : R) (d : nat) (x : nat -> R) (i : nat) : R :=
  (if (i <? d - 1)%nat then -2 * (1 - x i) - 4 * a * x i * (x (S i) - x i ^ 2) else 0)
  + (if (i =? 0)%nat then 0 else 2 * a * (x i - x (i - 1)%nat ^ 2)).
Definition rterm (a : R) (x : nat -> R) (j : nat) : R := a * (x (S j) - x j ^ 2) ^ 2 + (1 - x j) ^ 2.
Definition setc (x : nat -> R) (i : nat) (t : R) (j : nat) : R := if (j =? i)%nat then t else x j.
Definition dterm (a : R) (x : nat -> R) (i j : nat) : R :=
  (if (j =? i)%nat then -2 * (1 - x i) - 4 * a * x i * (x (S i) - x i ^ 2) else 0) + (if (S j =? i)%nat then 2 * a * (x i - x j ^ 2) else 0).
Lemma rterm_der a x i j : is_derive (fun t => rterm a (setc x i t) j) (x i) (dterm a x i j).
Proof.
  unfold rterm, setc, dterm. destruct (Nat.eqb_spec (S j) i), (Nat.eqb_spec j i); try lia.
  - auto_derive; [exact I|]. ring.
  - subst. auto_derive; [exact I|]. ring.
  - auto_derive; [exact I|]. ring.
Qed.
Lemma rsum_der n (f : nat -> R -> R) (df : nat -> R) x : (forall j, (j < n)%nat -> is_derive (f j) x (df j)) -> is_derive (fun t => rsum n (fun j => f j t)) x (rsum n df).
Proof.
  induction n as [|n IH]; intros H.
  - cbn [rsum]. apply (is_derive_const 0).
  - cbn [rsum]. apply (is_derive_plus (V := R_NormedModule)); [apply IH; intros; apply H; lia|apply H; lia].
Qed.
Lemma rosenbrock_der a d x i : (i < d)%nat -> is_derive (fun t => rosenbrock a d (setc x i t)) (x i) (rder a d x i).
Proof.
  intros Hi. replace (rder a d x i) with (rsum (d - 1) (dterm a x i)).
  - apply (rsum_der (d - 1) (fun j t => rterm a (setc x i t) j)). intros. apply rterm_der.
  - unfold dterm, rder. rewrite rsum_plus. f_equal.
    + destruct (Nat.ltb_spec i (d - 1)).
      * rewrite (rsum_delta (d - 1) i (fun _ => -2 * (1 - x i) - 4 * a * x i * (x (S i) - x i ^ 2))) by assumption. reflexivity.
      * apply rsum_0. intros j Hj. destruct (Nat.eqb_spec j i); [lia|reflexivity].
    + destruct i as [|i].
      * apply rsum_0. intros j Hj. destruct (Nat.eqb_spec (S j) 0); [lia|reflexivity].
      * cbn [Nat.eqb]. rewrite (rsum_delta (d - 1) i (fun j => 2 * a * (x (S i) - x j ^ 2))) by lia. cbn [Nat.sub]. rewrite Nat.sub_0_r. reflexivity.
Qed.
Lemma rosen_grad_ok X a : (2 <= nc X)%nat -> exists g, rosen_grad X a = Ok g /\ nr g = nr X /\ nc g = nc X /\
  forall p i, (i < nc X)%nat -> mat_at g p i = rder a (nc X) (mat_at X p) i.
Proof.
  intros H2. unfold rosen_grad. destruct (Nat.ltb_spec (nc X) 2); [lia|]. cbv zeta.
  set (x := fun p d => mat_at X p d).
  set (mid := fun d p => -2 * (1 - x p d) - 4 * a * x p d * (x p (d + 1)%nat - x p d ^ 2) + 2 * a * (x p d - x p (d - 1)%nat ^ 2)).
  set (g2 := fun p d => if (d =? nc X - 1)%nat then 2 * a * (x p (nc X - 1)%nat - x p (nc X - 2)%nat ^ 2) else
                        if (d =? 0)%nat then -2 * (1 - x p 0%nat) - 4 * a * x p 0%nat * (x p 1%nat - x p 0%nat ^ 2) else 0).
  assert (HL : forall k a0 (s : nat -> nat -> R), exists s',
     for_steps k a0 (fun d g => Ok (fun p e => if (e =? d)%nat then g p e + mid d p else g p e)) s = Ok s' /\
     forall p e, s' p e = if ((a0 <=? e) && (e <? a0 + k))%nat then s p e + mid e p else s p e).
  { induction k as [|k IH]; intros a0 s.
    - exists s. split; [reflexivity|]. intros p e. destruct (Nat.leb_spec a0 e), (Nat.ltb_spec e (a0 + 0)); cbn [andb]; try reflexivity; lia.
    - cbn [for_steps bind]. destruct (IH (S a0) (fun p e => if (e =? a0)%nat then s p e + mid a0 p else s p e)) as (s' & E & HS).
      exists s'. split; [exact E|]. intros p e. rewrite HS.
      destruct (Nat.leb_spec (S a0) e), (Nat.ltb_spec e (S a0 + k)), (Nat.leb_spec a0 e), (Nat.ltb_spec e (a0 + S k)), (Nat.eqb_spec e a0); cbn [andb]; try lia; subst; reflexivity. }
  destruct (HL (nc X - 1 - 1)%nat 1%nat g2) as (g & E & Hg).
  exists (mkmat (nr X) (nc X) g). split.
  - change (bind (for_range 1 (nc X - 1) (fun d g => Ok (fun p e => if (e =? d)%nat then g p e + mid d p else g p e)) g2) (fun g => Ok (mkmat (nr X) (nc X) g)) = Ok (mkmat (nr X) (nc X) g)).
    unfold for_range. rewrite E. reflexivity.
  - cbn [nr nc mat_at]. repeat split. intros p i Hi. rewrite Hg. unfold g2, mid, rder, x.
    destruct (Nat.leb_spec 1 i), (Nat.ltb_spec i (1 + (nc X - 1 - 1))); cbn [andb]; try lia.
    + destruct (Nat.eqb_spec i (nc X - 1)); [lia|]. destruct (Nat.eqb_spec i 0); [lia|]. destruct (Nat.ltb_spec i (nc X - 1)); [|lia].
      rewrite Nat.add_1_r. ring.
    + assert (i = nc X - 1)%nat by lia. subst i. rewrite Nat.eqb_refl. destruct (Nat.ltb_spec (nc X - 1) (nc X - 1)); [lia|]. destruct (Nat.eqb_spec (nc X - 1) 0); [lia|].
      replace (nc X - 1 - 1)%nat with (nc X - 2)%nat by lia. ring.
    + assert (i = 0)%nat by lia. subst i. destruct (Nat.eqb_spec 0 (nc X - 1)); [lia|]. cbn [Nat.eqb]. destruct (Nat.ltb_spec 0 (nc X - 1)); [|lia]. ring.
Qed.

(** C61: the gradient supplied with the Rosenbrock function is its gradient, in every dimension, at every point *)
Theorem C61_rosenbrock_gradient :
  forall (X : mat) (a : R), (2 <= nc X)%nat ->
  exists o g, rosen_obj X a = Ok o /\ rosen_grad X a = Ok g /\
    vlen o = nr X /\ (forall p, (p < nr X)%nat -> vat o p = rosenbrock a (nc X) (mat_at X p)) /\
    gradient_of (fun Y => rosen_obj Y a) X g.
Proof.
  intros X a H2. destruct (rosen_obj_ok X a) as (o & E & L & V). destruct (rosen_grad_ok X a H2) as (g & Eg & G1 & G2 & G).
  exists o, g. split; [exact E|]. split; [exact Eg|]. split; [exact L|]. split; [intros; apply V|].
  split; [exact G1|]. split; [exact G2|]. intros p i Hp Hi. rewrite G by exact Hi.
  apply (is_derive_ext (fun t => rosenbrock a (nc X) (setc (mat_at X p) i t))).
  - intros t. unfold value_at. destruct (rosen_obj_ok (replace_entry X p i t) a) as (o' & E' & _ & V'). rewrite E', V'.
    cbn [replace_entry nc]. unfold rosenbrock. apply rsum_ext. intros j Hj. unfold replace_entry, setc. cbn [mat_at]. rewrite Nat.eqb_refl. cbn [andb]. reflexivity.
  - apply rosenbrock_der. exact Hi.
Qed.
Print Assumptions C61_rosenbrock_gradient.

(** its minimum: nowhere negative, zero exactly at (1, ..., 1) *)
Theorem C61_rosenbrock_minimum :
  forall (X : mat) (a : R) (o : vec) (p : nat), (2 <= nc X)%nat -> 0 < a -> rosen_obj X a = Ok o -> (p < nr X)%nat ->
  0 <= vat o p /\ (vat o p = 0 <-> forall i, (i < nc X)%nat -> mat_at X p i = 1).
Proof.
  intros X a o p H2 Ha E Hp. destruct (rosen_obj_ok X a) as (o' & E' & L & V). rewrite E in E'. injection E' as <-. rewrite V. clear V.
  set (x := mat_at X p). unfold rosenbrock.
  assert (T : forall j, 0 <= a * (x (S j) - x j ^ 2) ^ 2 + (1 - x j) ^ 2). { intros j. pose proof (pow2_ge_0 (x (S j) - x j ^ 2)). pose proof (pow2_ge_0 (1 - x j)). nra. }
  split; [apply rsum_nonneg; intros; apply T|]. split.
  - intros Z. assert (Tz : forall j, (j < nc X - 1)%nat -> a * (x (S j) - x j ^ 2) ^ 2 + (1 - x j) ^ 2 = 0).
    { intros j Hj. apply (rsum_nonneg_eq0 (nc X - 1) (fun j => a * (x (S j) - x j ^ 2) ^ 2 + (1 - x j) ^ 2) (fun j _ => T j) Z j Hj). }
    assert (Q : forall j, (j < nc X - 1)%nat -> x j = 1 /\ x (S j) = 1).
    { intros j Hj. specialize (Tz j Hj). pose proof (pow2_ge_0 (x (S j) - x j ^ 2)). pose proof (pow2_ge_0 (1 - x j)).
      assert (Z1 : (1 - x j) ^ 2 = 0) by nra. assert (Z2 : (x (S j) - x j ^ 2) ^ 2 = 0) by nra.
      assert (x j = 1) by nra. split; [assumption|]. rewrite H1 in Z2. nra. }
    intros i Hi. destruct (Nat.ltb_spec i (nc X - 1)); [apply Q; assumption|]. replace i with (S (nc X - 2))%nat by lia. apply Q. lia.
  - intros H1. apply rsum_0. intros j Hj. rewrite !H1 by lia. ring.
Qed.
Print Assumptions C61_rosenbrock_minimum.

(** the one-dimensional test function *)
Theorem C61_sine_gradient :
  forall X : mat, nc X = 1%nat -> exists o g, sin_obj X = Ok o /\ sin_grad X = Ok g /\ vlen o = nr X /\ gradient_of sin_obj X g.
Proof.
  intros X H1. unfold sin_obj, sin_grad. rewrite H1. cbn [Nat.eqb]. do 2 eexists. split; [reflexivity|]. split; [reflexivity|]. split; [reflexivity|].
  split; [reflexivity|]. split; [cbn [nc]; lia|]. intros p i Hp Hi. assert (i = 0)%nat by lia. subst i. cbn [mat_at].
  apply (is_derive_ext (fun t => sin t + sin (10 * t / 3.0))).
  - intros t. unfold value_at, replace_entry. cbn [nc nr mat_at]. rewrite H1. cbn [Nat.eqb vat]. rewrite Nat.eqb_refl. reflexivity.
  - replace 3.0 with 3 by lra. replace 10.0 with 10 by lra. auto_derive; [exact I|]. unfold Rdiv. field.
Qed.
Print Assumptions C61_sine_gradient.
(** in one dimension the Rosenbrock gradient does not exist: the second column is read *)
Theorem C61_rosenbrock_dimension_one : forall X a, (nc X < 2)%nat -> rosen_grad X a = Err EIndex.
Proof. intros X a H. unfold rosen_grad. destruct (Nat.ltb_spec (nc X) 2); [reflexivity|lia]. Qed.
Print Assumptions C61_rosenbrock_dimension_one.
Example C61_case : exists X o, nc X = 3%nat /\ nr X = 2%nat /\ rosen_obj X 10 = Ok o /\ vat o 0 <> 0 /\ vat o 1 = 0.
Proof.
  set (X := mkmat 2 3 (fun p _ => if (p =? 0)%nat then 0 else 1)). destruct (rosen_obj_ok X 10) as (o & E & _ & V).
  exists X, o. repeat split; try assumption; rewrite V; unfold rosenbrock, X; cbn [nc mat_at Nat.eqb Nat.sub rsum]; lra.
Qed.
