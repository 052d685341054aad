(** * The condition number in the Frobenius norm and its derivative *)
From Coq Require Import Reals List Arith Bool Lia Lra.
From Coquelicot Require Import Coquelicot.
From Verif.Base Require Import NpLite NpFacts Deriv.
From Verif.Spec Require Import KernelSpec LinAlgSpec GpSpec HpSpec CondSpec.
From Verif.Model Require Import KernelSqExp KernelMatern KernelRatQuad KernelDispatch CommonFun WellCond Rescaling GpState Chol Cov HpInfo HpGrad MeanFun Lkd.
From Verif.Proofs Require Import KernTac LinAlg CholCorrect Det CovStruct StateFacts LinDeriv LkdCore LkdFacts LkdMain CondGrad.
Import ListNotations.
Local Open Scope R_scope.

Definition w2 n K i j := ksol n K (fun k => kinv n K k j) i.
Definition w3 n K i j := ksol n K (fun k => w2 n K k j) i.

Section F.
Variables (n : nat) (t0 : R) (K : R -> nat -> nat -> R) (D : nat -> nat -> R).
Hypothesis NP : (0 < n)%nat.
Hypothesis HK : locally t0 (fun t => pdf n (K t)).
Hypothesis DK : forall i j, (i < n)%nat -> (j < n)%nat -> is_derive (fun t => K t i j) t0 (D i j).
Lemma fro_K0 : pdf n (K t0). Proof. apply (locally_singleton _ _ HK). Qed.
Lemma dkinv i j : (i < n)%nat -> (j < n)%nat ->
  is_derive (fun t => kinv n (K t) i j) t0 (- rsum n (fun l => kinv n (K t0) i l * rsum n (fun k => D l k * kinv n (K t0) k j))).
Proof.
  intros Hi Hj. destruct (sol_derive n t0 K D (fun t k => kinv n (K t) k j) (fun _ k => if (k =? j)%nat then 1 else 0) (fun _ => 0) HK DK) as (dx & Dx & Sx).
  - revert HK. apply filter_imp. intros t Ht. apply ksol_ok, Ht.
  - intros k _. apply dR_const.
  - eapply dR_val; [apply Dx, Hi|]. rewrite (ksol_unique n (K t0) dx _ fro_K0 Sx i Hi), (kinv_apply n (K t0) _ fro_K0 i Hi). rewrite <- rsum_opp. apply rsum_ext. intros l Hl. ring.
Qed.
Lemma dsumsq (F : R -> nat -> nat -> R) (dF : nat -> nat -> R) : (forall i j, (i < n)%nat -> (j < n)%nat -> is_derive (fun t => F t i j) t0 (dF i j)) ->
  is_derive (fun t => rsum n (fun i => rsum n (fun j => F t i j ^ 2))) t0 (2 * rsum n (fun i => rsum n (fun j => dF i j * F t0 i j))).
Proof.
  intros H. rewrite <- rsum_scal. apply (dR_rsum_ex n (fun t i => rsum n (fun j => F t i j ^ 2))). intros i Hi. rewrite <- rsum_scal. apply (dR_rsum_ex n (fun t j => F t i j ^ 2)). intros j Hj.
  apply (dR_ext (fun t => F t i j * F t i j)); [intros t; ring|]. eapply dR_val; [apply dR_mult; apply H; assumption|]. cbv beta. ring.
Qed.
Lemma frob_pos (F : nat -> nat -> R) i : (i < n)%nat -> F i i <> 0 -> 0 < rsum n (fun i => rsum n (fun j => F i j ^ 2)).
Proof.
  intros Hi Hne. apply Rlt_le_trans with (F i i ^ 2); [apply pow2_gt_0, Hne|]. eapply Rle_trans; [|apply (rsum_le_term n (fun i => rsum n (fun j => F i j ^ 2)) i); [intros; apply rsum_nonneg; intros; apply pow2_ge_0|exact Hi]].
  apply (rsum_le_term n (fun j => F i j ^ 2) i); [intros; apply pow2_ge_0|exact Hi].
Qed.
Lemma pdf_diag_pos (F : nat -> nat -> R) i : pdf n F -> (i < n)%nat -> 0 < F i i.
Proof. intros (_ & P) Hi. rewrite <- (bform_unit n F i i Hi Hi). apply P. exists i. split; [exact Hi|]. rewrite Nat.eqb_refl. lra. Qed.
Lemma kinv_diag_pos i : (i < n)%nat -> 0 < kinv n (K t0) i i.
Proof.
  intros Hi. assert (P := ksol_quad_pos n (K t0) (fun k => if (k =? i)%nat then 1 else 0) fro_K0 ltac:(exists i; split; [exact Hi|rewrite Nat.eqb_refl; lra])).
  unfold dotp in P. rewrite (rsum_ext n _ (fun k => if (k =? i)%nat then ksol n (K t0) (fun k => if (k =? i)%nat then 1 else 0) k else 0)) in P by (intros k _; destruct (Nat.eqb_spec k i); ring).
  rewrite (rsum_delta n i _ Hi) in P. exact P.
Qed.
(** sum_ij (dW)_ij W_ij = - sum D_lk (W^3)_lk *)
Lemma dW_W3 : rsum n (fun i => rsum n (fun j => - rsum n (fun l => kinv n (K t0) i l * rsum n (fun k => D l k * kinv n (K t0) k j)) * kinv n (K t0) i j)) =
  - rsum n (fun l => rsum n (fun k => D l k * w3 n (K t0) l k)).
Proof.
  set (W := kinv n (K t0)). assert (SW : symf n W) by apply (kinv_sym n (K t0) fro_K0).
  assert (E2 : forall i j, (i < n)%nat -> w2 n (K t0) i j = rsum n (fun m => W i m * W m j)) by (intros i j Hi; apply (kinv_apply n (K t0) _ fro_K0 i Hi)).
  assert (E3 : forall i j, (i < n)%nat -> w3 n (K t0) i j = rsum n (fun m => W i m * w2 n (K t0) m j)) by (intros i j Hi; apply (kinv_apply n (K t0) _ fro_K0 i Hi)).
  rewrite <- rsum_opp.
  transitivity (rsum n (fun i => rsum n (fun l => - rsum n (fun k => D l k * (W l i * w2 n (K t0) i k))))).
  - apply rsum_ext. intros i Hi.
    transitivity (rsum n (fun j => rsum n (fun l => - rsum n (fun k => D l k * (W l i * (W i j * W j k)))))).
    + apply rsum_ext. intros j Hj. rewrite <- rsum_opp, <- rsum_scal_r. apply rsum_ext. intros l Hl. rewrite <- !rsum_scal, <- rsum_opp, <- rsum_scal_r, <- rsum_opp. apply rsum_ext. intros k Hk.
      rewrite (SW l i Hl Hi), (SW j k Hj Hk). ring.
    + rewrite rsum_swap. apply rsum_ext. intros l Hl. rewrite rsum_opp. f_equal. rewrite rsum_swap. apply rsum_ext. intros k Hk. rewrite rsum_scal. f_equal. rewrite rsum_scal. f_equal. symmetry. apply E2, Hi.
  - rewrite rsum_swap. apply rsum_ext. intros l Hl. rewrite rsum_opp. f_equal. rewrite rsum_swap. apply rsum_ext. intros k Hk. rewrite rsum_scal. f_equal. symmetry. apply E3, Hl.
Qed.
Lemma fro_derive :
  let nK := frob n (K t0) in let nW := frob n (kinv n (K t0)) in 0 < nK /\ 0 < nW /\
  is_derive (fun t => frob n (K t) * frob n (kinv n (K t))) t0 (rsum n (fun i => rsum n (fun j => D i j * (nW / nK * K t0 i j - w3 n (K t0) i j / (nW / nK))))).
Proof.
  assert (SK := frob_pos (K t0) 0 NP (Rgt_not_eq _ _ (pdf_diag_pos (K t0) 0 fro_K0 NP))).
  assert (SW := frob_pos (kinv n (K t0)) 0 NP (Rgt_not_eq _ _ (kinv_diag_pos 0 NP))).
  assert (PK := sqrt_lt_R0 _ SK). assert (PW := sqrt_lt_R0 _ SW). cbv zeta. fold (frob n (K t0)) in PK. fold (frob n (kinv n (K t0))) in PW.
  split; [exact PK|]. split; [exact PW|].
  assert (DA : is_derive (fun t => frob n (K t)) t0 (/ (2 * frob n (K t0)) * (2 * rsum n (fun i => rsum n (fun j => D i j * K t0 i j))))).
  { eapply dR_val; [apply (dR_comp sqrt _ t0 _ _ (dsumsq K D DK) (dR_sqrt _ SK))|]. unfold frob. ring. }
  assert (DB : is_derive (fun t => frob n (kinv n (K t))) t0 (/ (2 * frob n (kinv n (K t0))) * (2 * - rsum n (fun l => rsum n (fun k => D l k * w3 n (K t0) l k))))).
  { eapply dR_val; [apply (dR_comp sqrt _ t0 _ _ (dsumsq (fun t => kinv n (K t)) _ dkinv) (dR_sqrt _ SW))|]. rewrite dW_W3. unfold frob. ring. }
  eapply dR_val; [apply dR_mult; [exact DA|exact DB]|]. cbv beta. set (a := frob n (K t0)) in *. set (b := frob n (kinv n (K t0))) in *.
  transitivity (b / a * rsum n (fun i => rsum n (fun j => D i j * K t0 i j)) - a / b * rsum n (fun l => rsum n (fun k => D l k * w3 n (K t0) l k))); [field; lra|].
  rewrite <- !rsum_scal, <- rsum_minus. apply rsum_ext. intros i Hi. rewrite <- !rsum_scal, <- rsum_minus. apply rsum_ext. intros j Hj. field. lra.
Qed.
End F.
