(** Refutations for the RatQu kernel with only the first mask, uniqueness of the specification. *)
From Coq Require Import Reals List Arith Bool Lia Lra Psatz.
From Coquelicot Require Import Coquelicot.
From Verif.Base Require Import NpLite NpFacts.
From Verif.Spec Require Import KernelSpec.
From Verif.Model Require Import KernelSqExp KernelMatern KernelRatQuad KernelDispatch.
From Verif.Proofs Require Import KernTac KernGradBlocks RadialCalculus RadialFns KernelExact.
Import ListNotations.
Local Open Scope R_scope.

Lemma is_cov_unique k a b v v' : is_cov k a b v -> is_cov k a b v' -> v = v'.
Proof.
  destruct a as [x|i x], b as [y|j y]; simpl.
  - congruence.
  - intros H H'. rewrite <- (is_derive_unique _ _ _ H). apply is_derive_unique; exact H'.
  - intros H H'. rewrite <- (is_derive_unique _ _ _ H). apply is_derive_unique; exact H'.
  - intros (g & G1 & G2) (g' & G1' & G2').
    assert (E : forall x', g x' = g' x').
    { intros x'. rewrite <- (is_derive_unique _ _ _ (G1 x')). apply is_derive_unique; apply G1'. }
    rewrite <- (is_derive_unique _ _ _ G2').
    symmetry. apply is_derive_unique. eapply is_derive_ext; [|exact G2]. intros t; apply E.
Qed.
Lemma is_cov_matrix_unique k oa ob K K' :
  is_cov_matrix k oa ob K -> is_cov_matrix k oa ob K' ->
  nr K = nr K' /\ nc K = nc K' /\
  forall r c, (r < nr K)%nat -> (c < nc K)%nat -> mat_at K r c = mat_at K' r c.
Proof.
  intros (H1 & H2 & H) (H1' & H2' & H'). repeat split; try congruence.
  intros r c Hr Hc. rewrite H1 in Hr. rewrite H2 in Hc.
  apply nth_error_Some in Hr. apply nth_error_Some in Hc.
  destruct (nth_error oa r) as [a|] eqn:Ea; [|congruence].
  destruct (nth_error ob c) as [b|] eqn:Eb; [|congruence].
  eapply is_cov_unique; [apply H | apply H']; eauto.
Qed.

Lemma KernGrad_mask_guard k X Y theta hp b1 b2 :
  nc X = nc Y -> vlen theta = nc X -> (forall i, (i < nc X)%nat -> 0 <= vat theta i) -> hp_ok k hp ->
  mask_ok (nr X) b1 -> mask_ok (nr Y) b2 -> (k = RatQu -> b2 = None -> b1 = None) ->
  exists Rt Kfull K, calc_Rtensor X Y = Ok Rt /\
    calc_KernGrad k Rt theta hp None None = Ok Kfull /\
    calc_KernGrad k Rt theta hp b1 b2 = Ok K /\
    nr K = length (kept (nr X) (nc X) b1) /\ nc K = length (kept (nr Y) (nc X) b2) /\
    forall r c r' c', nth_error (kept (nr X) (nc X) b1) r = Some r' ->
      nth_error (kept (nr Y) (nc X) b2) c = Some c' -> mat_at K r c = mat_at Kfull r' c'.
Proof.
  intros E Hd Hth Hhp M1 M2 Hm. apply KernGrad_mask; auto.
  - apply th_ok_nn; exact Hth.
  - destruct k; simpl; auto.
Qed.

(** [m] ends with an exception [e] *)
Definition rerr {A} (m : res A) (e : err) : Prop := m = Err e.
Lemma rerr_bind {A B} (m : res A) (k : A -> res B) P e :
  rok m P -> (forall a, P a -> rerr (k a) e) -> rerr (bind m k) e.
Proof. destruct m; simpl; [intros H1 H2; apply H2; exact H1 | tauto]. Qed.
Lemma rerr_bind0 {A B} (m : res A) (k : A -> res B) e : rerr m e -> rerr (bind m k) e.
Proof. intros ->; reflexivity. Qed.
Lemma rerr_for_first {S} body a b (s : S) e : (a < b)%nat -> rerr (body a s) e -> rerr (for_range a b body s) e.
Proof.
  intros H Hb. unfold for_range. destruct (b - a)%nat as [|k] eqn:E; [lia|]. simpl.
  apply rerr_bind0; exact Hb.
Qed.
Lemma mzip_err h n1 m1 n2 m2 A B f g : mspec n1 m1 A f -> mspec n2 m2 B g ->
  n1 <> n2 -> n1 <> 1%nat -> n2 <> 1%nat -> rerr (mzip h A B) EShape.
Proof.
  intros (H1 & H2 & _) (G1 & G2 & _) N1 N2 N3. unfold mzip, rerr, bdim. rewrite H1, G1.
  destruct (Nat.eqb_spec n1 n2); [congruence|]. destruct (Nat.eqb_spec n1 1); [congruence|].
  destruct (Nat.eqb_spec n2 1); [congruence|]. reflexivity.
Qed.

Ltac estep1 :=
  lazymatch goal with
  | |- rerr (bind (vget _ _) _) _ =>
      let x := fresh "th" in let Hx := fresh "H" x in
      eapply rerr_bind; [eapply vget_ok; [eassumption | first [lia | assumption]] | intros x Hx; cbv beta in Hx; subst x]
  | |- rerr (bind (tget _ _) _) _ =>
      let x := fresh "Rm" in let Hx := fresh "H" x in
      eapply rerr_bind; [eapply tget_ok; [mspec_tac | first [lia | assumption]] | intros x Hx; cbv beta in Hx]
  | |- rerr (bind (mmul _ _) _) _ =>
      let x := fresh "v" in let Hx := fresh "H" x in
      eapply rerr_bind; [eapply mzip_ok; mspec_tac | intros x Hx; cbv beta in Hx]
  | |- rerr (bind (opt_rows _ _) _) _ => eapply rerr_bind; [eapply opt_rows_ok; [mspec_tac | assumption] |
      let x := fresh "og" in let Hx := fresh "H" x in intros x Hx; cbv beta in Hx]
  | |- rerr (bind (opt_cols _ _) _) _ => eapply rerr_bind; [eapply opt_cols_ok; [mspec_tac | assumption] |
      let x := fresh "og" in let Hx := fresh "H" x in intros x Hx; cbv beta in Hx]
  | |- rerr (bind (opt_trows _ _) _) _ => eapply rerr_bind; [eapply opt_trows_ok; [mspec_tac | assumption] |
      let x := fresh "og" in let Hx := fresh "H" x in intros x Hx; cbv beta in Hx]
  | |- rerr (bind (opt_tcols _ _) _) _ => eapply rerr_bind; [eapply opt_tcols_ok; [mspec_tac | assumption] |
      let x := fresh "og" in let Hx := fresh "H" x in intros x Hx; cbv beta in Hx]
  end.

Theorem ratqu_first_mask_raises (X Y : mat) (theta : vec) (alpha : R) (m : list bool) :
  nc X = nc Y -> vlen theta = nc X -> (0 < nc X)%nat ->
  length m = nr X -> (2 <= count_true m < nr X)%nat ->
  exists Rt, calc_Rtensor X Y = Ok Rt /\ calc_KernGrad RatQu Rt theta (Some alpha) (Some m) None = Err EShape.
Proof.
  intros E Hd Hpos Hm Hc.
  destruct (rok_ex _ _ (Rtensor_ok X Y E)) as (Rt & ERt & HR). exists Rt; split; [exact ERt|].
  set (n1 := nr X) in *. set (n2 := nr Y) in *. set (d := nc X) in *.
  assert (Hth : vspec d theta (vat theta)) by (split; [exact Hd | auto]).
  change (rerr (rat_calc_KernGrad Rt theta alpha (Some m) None) EShape). unfold rat_calc_KernGrad.
  assert (H := HR); destruct H as (-> & -> & -> & _). cbv zeta.
  eapply rerr_bind; [eapply pos_sum_ok; eassumption|]. intros tmp Htmp; cbv beta in Htmp.
  assert (M1 : mok n1 (Some m)) by exact Hm. assert (M2 : mok n2 None) by exact I.
  do 7 estep1. cbn [bind]. do 2 estep1.
  assert (HK0 := bspec_const n1 (opt_count n1 (Some m)) d n2 (opt_count n2 None) d 0).
  eapply rerr_bind.
  { eapply (mupd_b _ _ _ _ _ _ _ _ _ RF RF); [exact HK0 | exact I | exact I | reflexivity | reflexivity | reflexivity | reflexivity | simpl; mspec_tac]. }
  intros K HK; cbv beta in HK. apply rerr_for_first; [exact Hpos|]. cbv beta zeta.
  do 3 estep1.
  eapply rerr_bind.
  { eapply (mupd_b _ _ _ _ _ _ _ _ _ (RG 0) RF); [exact HK | exact Hpos | exact I | reflexivity | reflexivity | reflexivity | reflexivity | simpl; mspec_tac]. }
  intros K2 HK2; cbv beta in HK2. estep1.
  apply rerr_bind0. eapply mzip_err; [mspec_tac | exact Hog1 | | |]; simpl; lia.
Qed.

Theorem ratqu_first_mask_wrong :
  exists (X Y : mat) (theta : vec) (m : list bool) Rt K,
    nc X = nc Y /\ vlen theta = nc X /\ vat theta 0 = 1 /\ mask_ok (nr X) (Some m) /\
    calc_Rtensor X Y = Ok Rt /\ calc_KernGrad RatQu Rt theta (Some 1) (Some m) None = Ok K /\
    ~ is_cov_matrix (k_ratqu (nc X) (vat theta) 1)
        (observations (nr X) (nc X) (rows_of X) (Some m)) (observations (nr Y) (nc X) (rows_of Y) None) K.
Proof.
  set (X := mkmat 2 1 (fun i _ => INR i)). set (Y := mkmat 1 1 (fun _ _ => 0)).
  set (theta := mkvec 1 (fun _ => 1)). set (m := [true; false]).
  destruct (calc_Rtensor X Y) as [Rt|] eqn:ER; [|discriminate].
  destruct (calc_KernGrad RatQu Rt theta (Some 1) (Some m) None) as [K|e] eqn:EK.
  2:{ exfalso. injection ER as <-. vm_compute in EK. discriminate. }
  exists X, Y, theta, m, Rt, K. repeat split; auto.
  intros C.
  (* the value the code computes at row 1 (function at x=1), column 1 (derivative at y=0) *)
  assert (V : mat_at K 1 1 = 2).
  { injection ER as <-. injection EK as <-. simpl.
    unfold delta, rat_pow, rat_B, Rpower. simpl.
    replace (1 + (0 + 1 * ((0 - 0) * ((0 - 0) * 1))) / 1) with 1 by field. rewrite ln_1, Rmult_0_r, exp_0. ring. }
  destruct (KernGrad_exact RatQu X Y theta (Some 1) None None) as (Rt' & K' & E1 & E2 & C'); simpl; auto.
  { intros; lra. } { exists 1; split; [reflexivity | lra]. }
  destruct C as (_ & _ & C). destruct C' as (_ & _ & C').
  assert (U : mat_at K 1 1 = mat_at K' 1 1).
  { eapply is_cov_unique; [apply (C 1%nat 1%nat); reflexivity | apply (C' 1%nat 1%nat); reflexivity]. }
  assert (V' : mat_at K' 1 1 <= 1 / 2).
  { injection E1 as <-. injection E2 as <-. simpl.
    unfold delta, rat_pow, rat_B, Rpower. simpl.
    replace (1 + (0 + 1 * ((1 - 0) * ((1 - 0) * 1))) / 1) with 2 by field.
    replace ((- (1) - 1) * ln 2) with (- ln 2 + - ln 2) by ring.
    rewrite exp_plus, exp_Ropp, exp_ln by lra. lra. }
  lra.
Qed.
