(** Differentiation rules over R in plain form. *)
From Coq Require Import Reals List Arith Bool Lia Lra.
From Coquelicot Require Import Coquelicot.
From Verif.Base Require Import NpLite NpFacts.
Local Open Scope R_scope.

Lemma dR_val (f : R -> R) (x l l' : R) : is_derive f x l -> l = l' -> is_derive f x l'.
Proof. intros H <-; exact H. Qed.
Lemma dR_const (c x : R) : is_derive (fun _ => c) x 0.
Proof. apply @is_derive_const. Qed.
Lemma dR_id (x : R) : is_derive (fun t => t) x 1.
Proof. apply @is_derive_id. Qed.
Lemma dR_plus (f g : R -> R) (x a b : R) :
  is_derive f x a -> is_derive g x b -> is_derive (fun t => f t + g t) x (a + b).
Proof. intros; apply (is_derive_plus f g); assumption. Qed.
Lemma dR_minus (f g : R -> R) (x a b : R) :
  is_derive f x a -> is_derive g x b -> is_derive (fun t => f t - g t) x (a - b).
Proof. intros; apply (is_derive_minus f g); assumption. Qed.
Lemma dR_opp (f : R -> R) (x a : R) : is_derive f x a -> is_derive (fun t => - f t) x (- a).
Proof. intros; apply (is_derive_opp f); assumption. Qed.
Lemma dR_mult (f g : R -> R) (x a b : R) :
  is_derive f x a -> is_derive g x b -> is_derive (fun t => f t * g t) x (a * g x + f x * b).
Proof. intros; apply (is_derive_mult f g); auto. intros; apply Rmult_comm. Qed.
Lemma dR_scal (f : R -> R) (c x a : R) : is_derive f x a -> is_derive (fun t => c * f t) x (c * a).
Proof. intros; apply (is_derive_scal f); assumption. Qed.
Lemma dR_inv (f : R -> R) (x a : R) : is_derive f x a -> f x <> 0 ->
  is_derive (fun t => / f t) x (- a / (f x) ^ 2).
Proof. intros; apply (is_derive_inv f); assumption. Qed.
Lemma dR_comp (f u : R -> R) (x a b : R) :
  is_derive u x b -> is_derive f (u x) a -> is_derive (fun t => f (u t)) x (b * a).
Proof. intros Hu Hf. apply (is_derive_comp f u); assumption. Qed.
Lemma dR_ln (x : R) : 0 < x -> is_derive ln x (/ x).
Proof. intros H. apply is_derive_Reals, derivable_pt_lim_ln, H. Qed.
Lemma dR_exp (x : R) : is_derive exp x (exp x).
Proof. apply is_derive_Reals, derivable_pt_lim_exp. Qed.
Lemma dR_sqrt (x : R) : 0 < x -> is_derive sqrt x (/ (2 * sqrt x)).
Proof. intros H. apply is_derive_Reals, derivable_pt_lim_sqrt, H. Qed.
Lemma dR_rsum n (f : nat -> R -> R) (df : nat -> R) (x : R) :
  (forall i, (i < n)%nat -> is_derive (f i) x (df i)) ->
  is_derive (fun t => rsum n (fun i => f i t)) x (rsum n df).
Proof.
  induction n as [|n IH]; simpl; intros H; [apply dR_const|].
  apply dR_plus; [apply IH; intros; apply H; lia | apply H; lia].
Qed.
Lemma dR_ext (f g : R -> R) (x l : R) : (forall t, f t = g t) -> is_derive f x l -> is_derive g x l.
Proof. intros; eapply is_derive_ext; eauto. Qed.
Lemma dR_ext_near (f g : R -> R) (x l del : R) : 0 < del ->
  (forall t, Rabs (t - x) < del -> f t = g t) -> is_derive f x l -> is_derive g x l.
Proof.
  intros Hd H Hf. eapply is_derive_ext_loc; [|exact Hf].
  exists (mkposreal del Hd). intros t Ht. apply H. exact Ht.
Qed.
Lemma dR_unique (f : R -> R) (x a b : R) : is_derive f x a -> is_derive f x b -> a = b.
Proof. intros H H'. rewrite <- (is_derive_unique _ _ _ H). apply is_derive_unique; exact H'. Qed.
