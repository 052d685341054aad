(** * What the posterior looks like at a data point: linear algebra. *)
From Coq Require Import Reals List Arith Bool Lia Lra Psatz.
From Verif.Base Require Import NpLite NpFacts.
From Verif.Spec Require Import KernelSpec LinAlgSpec.
From Verif.Proofs Require Import LinAlg LinDeriv LkdCore.
Local Open Scope R_scope.

Section I.
Variables (N : nat) (K : nat -> nat -> R) (D : nat -> R).
Let A : nat -> nat -> R := fun i j => K i j + (if (i =? j)%nat then D i else 0).
Hypothesis HA : pdf N A.
Hypothesis HK : forall i j, (i < N)%nat -> (j < N)%nat -> K i j = K j i.

Lemma row_A x r : (r < N)%nat -> rsum N (fun j => A r j * x j) = rsum N (fun j => K r j * x j) + D r * x r.
Proof.
  intros Hr. unfold A. rewrite (rsum_ext N _ (fun j => K r j * x j + (if (j =? r)%nat then D r * x j else 0))).
  - rewrite rsum_plus. rewrite (rsum_delta N r (fun j => D r * x j) Hr). reflexivity.
  - intros j Hj. rewrite (Nat.eqb_sym j r). destruct (r =? j)%nat; ring.
Qed.
(** the part of the weights that is not reproduced *)
Lemma interp_row b w r : fsolves N A w b -> (r < N)%nat -> dotp N (fun s => K s r) w = b r - D r * w r.
Proof.
  intros Hw Hr. assert (E := Hw r Hr). unfold mv in E. rewrite row_A in E by exact Hr. unfold dotp.
  rewrite (rsum_ext N _ (fun j => K r j * w j)) by (intros j Hj; rewrite (HK j r) by assumption; reflexivity). lra.
Qed.
(** the prior variance minus what the data explain *)
Lemma interp_var p : (p < N)%nat -> exists g, 0 <= g /\ dotp N (fun s => K s p) (ksol N A (fun s => K s p)) = K p p - D p + D p ^ 2 * g.
Proof.
  intros Hp. set (e := fun s : nat => if (s =? p)%nat then 1 else 0). set (gv := ksol N A e).
  assert (Hg : fsolves N A gv e) by (apply ksol_ok, HA).
  assert (Hz : forall r, (r < N)%nat -> ksol N A (fun s => K s p) r = e r - D p * gv r).
  { intros r Hr. symmetry. apply (ksol_unique N A (fun r => e r - D p * gv r) (fun s => K s p) HA); [|exact Hr].
    intros i Hi. unfold mv. rewrite (rsum_ext N _ (fun j => (if (j =? p)%nat then A i j else 0) + (- D p) * (A i j * gv j))).
    2:{ intros j Hj. unfold e. destruct (j =? p)%nat; ring. }
    rewrite rsum_plus, (rsum_delta N p (fun j => A i j) Hp), rsum_scal. assert (E := Hg i Hi). unfold mv in E. rewrite E. unfold A, e.
    destruct (Nat.eqb_spec i p) as [->|]; ring. }
  assert (G0 : 0 <= gv p).
  { assert (Q : dotp N e gv = gv p). { unfold dotp, e. rewrite (rsum_ext N _ (fun j => if (j =? p)%nat then gv j else 0)) by (intros j Hj; destruct (j =? p)%nat; ring). apply (rsum_delta N p gv Hp). }
    destruct (Req_dec (gv p) 0) as [->|NZ]; [lra|].
    assert (P : 0 < bform N A gv gv). { apply HA. exists p. split; [exact Hp|exact NZ]. }
    rewrite <- Q. left. replace (dotp N e gv) with (bform N A gv gv); [exact P|]. unfold bform, dotp. apply rsum_ext. intros i Hi. assert (E := Hg i Hi). unfold mv in E. rewrite <- E.
    rewrite (Rmult_comm _ (gv i)), <- rsum_scal. apply rsum_ext. intros j Hj. ring. }
  exists (gv p). split; [exact G0|]. unfold dotp.
  rewrite (rsum_ext N _ (fun r => (if (r =? p)%nat then K r p else 0) + (- D p) * (K p r * gv r))).
  2:{ intros r Hr. rewrite Hz by exact Hr. rewrite (HK r p) by assumption. unfold e. destruct (Nat.eqb_spec r p) as [->|]; ring. }
  rewrite rsum_plus, (rsum_delta N p (fun r => K r p) Hp), rsum_scal. assert (E := Hg p Hp). unfold mv in E. rewrite row_A in E by exact Hp. unfold e in E. rewrite Nat.eqb_refl in E.
  replace (rsum N (fun j => K p j * gv j)) with (1 - D p * gv p) by lra. ring.
Qed.
End I.
