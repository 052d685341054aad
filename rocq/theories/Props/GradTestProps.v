(** * C58: the finite-difference check of gradients (CommonFun.test_grad_calc).
    Vocabulary: [Spec/GradTestSpec.v]. *)
From Coq Require Import Reals List Arith Bool Lia Lra FunctionalExtensionality.
From Coquelicot Require Import Coquelicot.
From Verif.Base Require Import NpLite NpFacts Deriv.
From Verif.Spec Require Import KernelSpec RescaleSpec GradTestSpec.
From Verif.Model Require Import GradTest.
From Verif.Proofs Require Import CovStruct StateFacts.
Import ListNotations.
Local Open Scope R_scope.

Definition fdq (f : pt -> R) (x : pt) (i : nat) (eps : R) (cent : bool) : R :=
  if cent then (along f x i (x i + eps) - along f x i (x i - eps)) / (2 * eps) else (along f x i (x i + eps) - f x) / eps.

Lemma bump_upd x i e : vat (bump x i e) = upd (vat x) i (vat x i + e).
Proof. apply functional_extensionality. intros j. cbn [bump vat]. unfold upd. destruct (Nat.eqb_spec j i) as [->|]; reflexivity. Qed.
Lemma fd_col_ok dim m f fh x0 fx eps cent i : handle_of dim m f fh -> vlen x0 = dim -> vspec m fx (fun k => f k (vat x0)) ->
  rok (fd_column x0 fh fx eps cent i) (fun q => vspec m q (fun k => fdq (f k) (vat x0) i eps cent)).
Proof.
  intros HF Hd HX. unfold fd_column.
  destruct (HF (bump x0 i eps) Hd) as (vp & -> & P1 & P2). rewrite bind_Ok.
  assert (VP : vspec m vp (fun k => along (f k) (vat x0) i (vat x0 i + eps))) by (split; [exact P1|]; intros k Hk; rewrite P2 by exact Hk; unfold along; rewrite bump_upd; reflexivity).
  destruct cent.
  - destruct (HF (bump x0 i (- eps)) Hd) as (vm & -> & M1 & M2). rewrite bind_Ok.
    assert (VM : vspec m vm (fun k => along (f k) (vat x0) i (vat x0 i - eps))) by (split; [exact M1|]; intros k Hk; rewrite M2 by exact Hk; unfold along; rewrite bump_upd; reflexivity).
    eapply rok_bind; [apply (vzip_ok Rminus m _ _ _ _ VP VM)|]. intros q (Q1 & Q2). cbn [rok]. split; [exact Q1|]. intros k Hk. cbn [vmap vat]. rewrite Q2 by exact Hk. reflexivity.
  - eapply rok_bind; [apply (vzip_ok Rminus m _ _ _ _ VP HX)|]. intros q (Q1 & Q2). cbn [rok]. split; [exact Q1|]. intros k Hk. cbn [vmap vat]. rewrite Q2 by exact Hk. reflexivity.
Qed.

Lemma fd_loop_ok dim m f fh x0 fx eps cent : handle_of dim m f fh -> vlen x0 = dim -> vspec m fx (fun k => f k (vat x0)) ->
  rok (for_range 0 (vlen x0) (fun i A => q <- fd_column x0 fh fx eps cent i ;; mset A 0 (vlen fx) i (i + 1) (colmat q)) (mconst (vlen fx) (vlen x0) 0))
    (fun A => mspec m dim A (fun k i => fdq (f k) (vat x0) i eps cent)).
Proof.
  intros HF Hd HX. assert (L := proj1 HX). rewrite L, Hd.
  apply rok_mono with (P := fun A => nr A = m /\ nc A = dim /\ forall k i, (k < m)%nat -> (i < dim)%nat -> mat_at A k i = fdq (f k) (vat x0) i eps cent); [|intros A H; exact H].
  eapply rok_mono; [apply (rok_for_range (fun j A => nr A = m /\ nc A = dim /\ forall k i, (k < m)%nat -> (i < j)%nat -> mat_at A k i = fdq (f k) (vat x0) i eps cent))|].
  - lia.
  - split; [reflexivity|]. split; [reflexivity|]. intros k i _ Hi. lia.
  - intros j A Hj (A1 & A2 & A3). eapply rok_bind; [apply (fd_col_ok dim m f fh x0 fx eps cent j HF Hd HX)|]. intros q (Q1 & Q2).
    unfold mset, mupd, bcast_to, colmat. cbn [nr nc mat_at]. rewrite A1, A2, Q1, !Nat.min_id, Nat.sub_0_r, Nat.min_l by lia.
    replace (j + 1 - j)%nat with 1%nat by lia. rewrite !Nat.eqb_refl. cbn [orb andb rok nr nc mat_at]. split; [reflexivity|]. split; [reflexivity|].
    intros k i Hk Hi. destruct (Nat.leb_spec 0 k); [|lia]. destruct (Nat.ltb_spec k m); [|lia]. cbn [andb].
    destruct (Nat.leb_spec j i); cbn [andb].
    + destruct (Nat.ltb_spec i (j + 1)); [|lia]. replace i with j by lia. unfold bix. rewrite Nat.sub_0_r. destruct (Nat.eqb_spec m 1) as [->|Hm]; [replace k with 0%nat by lia; apply Q2; lia|apply Q2, Hk].
    + apply A3; lia.
  - intros A H. exact H.
Qed.

(** what the call returns *)
Lemma test_ok dim m f fh fg x0 g eps cent : handle_of dim m f fh -> vlen x0 = dim -> fg x0 = Ok g -> grad_shape dim m g ->
  exists fd, test_grad_calc x0 fh fg eps cent = Ok (fd, g) /\ grad_shape dim m fd /\ same_axes fd g /\
    forall k i, (k < m)%nat -> (i < dim)%nat -> gentry fd k i = fdq (f k) (vat x0) i eps cent.
Proof.
  intros HF Hd HG HS. destruct (HF x0 Hd) as (fx & EX & X1 & X2). assert (HX : vspec m fx (fun k => f k (vat x0))) by (split; assumption).
  destruct (rok_ex _ _ (fd_loop_ok dim m f fh x0 fx eps cent HF Hd HX)) as (A & EA & B1 & B2 & B3).
  assert (EB : bdim dim dim = Ok dim) by (unfold bdim; rewrite Nat.eqb_refl; reflexivity).
  assert (EM : bdim m m = Ok m) by (unfold bdim; rewrite Nat.eqb_refl; reflexivity).
  unfold test_grad_calc. rewrite EX, bind_Ok, HG, bind_Ok. cbv zeta. rewrite EA, bind_Ok. destruct g as [v|M]; cbn [grad_shape] in HS.
  - destruct HS as (L & ->). rewrite X1. cbn [Nat.eqb assert_]. rewrite !bind_Ok. unfold diff_fd, vzip. cbn [vlen]. rewrite L, B2, EB, !bind_Ok.
    eexists. split; [reflexivity|]. cbn [grad_shape vlen same_axes gentry vat]. split; [auto|]. split; [exact I|]. intros k i Hk Hi. replace k with 0%nat by lia. apply B3; [lia|exact Hi].
  - destruct HS as (L1 & L2). rewrite !bind_Ok. unfold diff_fd, msub, mzip. rewrite L1, L2, B1, B2, EM, !bind_Ok, EB, !bind_Ok.
    eexists. split; [reflexivity|]. cbn [grad_shape same_axes gentry]. split; [auto|]. split; [exact I|]. exact B3.
Qed.

(** ** analysis *)
Lemma grow u u' c n e : 0 < e -> u 0 = 0 -> (forall s, 0 <= s <= e -> is_derive u s (u' s)) -> (forall s, 0 <= s <= e -> Rabs (u' s) <= c * s ^ n) ->
  Rabs (u e) <= c * e ^ (n + 1) / INR (n + 1).
Proof.
  intros He H0 HD HB. assert (NP : 0 < INR (n + 1)) by (apply lt_0_INR; lia).
  assert (DP : forall s, is_derive (fun s => c * s ^ (n + 1) / INR (n + 1)) s (c * s ^ n)).
  { intros s. auto_derive; [exact I|]. replace (pred (n + 1)) with n by lia. lazymatch goal with |- @eq _ ?a ?b => change (@eq R a b) end. field. lra. }
  assert (Z0 : c * 0 ^ (n + 1) / INR (n + 1) = 0) by (rewrite pow_ne_zero by lia; unfold Rdiv; ring).
  assert (K : forall sg, sg = 1 \/ sg = -1 -> 0 <= c * e ^ (n + 1) / INR (n + 1) + sg * u e).
  { intros sg Hsg. set (w := fun s => c * s ^ (n + 1) / INR (n + 1) + sg * u s).
    assert (DW : forall s, 0 <= s <= e -> is_derive w s (c * s ^ n + sg * u' s)).
    { intros s Hs. apply (is_derive_plus (fun s => c * s ^ (n + 1) / INR (n + 1)) (fun s => sg * u s)); [apply DP|]. apply (is_derive_scal u); apply HD, Hs. }
    destruct (MVT_gen w 0 e (fun s => c * s ^ n + sg * u' s)) as (z & Hz & EZ).
    - intros s Hs. rewrite Rmin_left, Rmax_right in Hs by lra. apply DW. lra.
    - intros s Hs. rewrite Rmin_left, Rmax_right in Hs by lra. apply continuity_pt_filterlim. apply (ex_derive_continuous w). eexists. apply DW, Hs.
    - rewrite Rmin_left, Rmax_right in Hz by lra. unfold w in EZ. rewrite Z0, H0 in EZ. assert (B := HB z Hz).
      assert (P : 0 <= c * z ^ n + sg * u' z) by (destruct Hsg as [->| ->]; revert B; unfold Rabs; destruct (Rcase_abs (u' z)); lra).
      assert (0 <= (c * z ^ n + sg * u' z) * (e - 0)) by (apply Rmult_le_pos; lra). lra. }
  assert (P1 := K 1 (or_introl eq_refl)). assert (P2 := K (-1) (or_intror eq_refl)). apply Rabs_le. lra.
Qed.
Lemma along_here f x i : along f x i (x i) = f x.
Proof. unfold along. f_equal. apply functional_extensionality. intros j. unfold upd. destruct (Nat.eqb_spec j i) as [->|]; reflexivity. Qed.
Lemma fdq_lim f x i D cent tol : is_partial f i x D -> 0 < tol -> exists del, 0 < del /\ forall eps, eps <> 0 -> Rabs eps < del -> Rabs (fdq f x i eps cent - D) < tol.
Proof.
  intros HD Ht. apply is_derive_Reals in HD. destruct (HD tol Ht) as (del & Hdel). exists del. split; [apply cond_pos|]. intros e He Hlt.
  assert (P := Hdel e He Hlt). fold (along f x i (x i + e)) in P. fold (along f x i (x i)) in P. rewrite along_here in P.
  unfold fdq. destruct cent; [|exact P].
  assert (Q := Hdel (- e) ltac:(lra) ltac:(rewrite Rabs_Ropp; exact Hlt)). fold (along f x i (x i + - e)) in Q. fold (along f x i (x i)) in Q. rewrite along_here in Q.
  change (x i - e) with (x i + - e). set (a := along f x i (x i + e)) in *. set (b := along f x i (x i + - e)) in *.
  replace ((a - b) / (2 * e) - D) with (/ 2 * ((a - f x) / e - D) + / 2 * ((b - f x) / - e - D)) by (field; exact He).
  eapply Rle_lt_trans; [apply Rabs_triang|]. rewrite !Rabs_mult, (Rabs_pos_eq (/ 2)) by lra. lra.
Qed.

(** ** C58.  The check returns, beside the gradient it was given, an array of the same shape whose entries tend to the
    partial derivatives as the step tends to 0, whichever difference is used. *)
Theorem C58_finite_differences_converge :
  forall (dim m : nat) (f : nat -> pt -> R) (fh : vec -> res vec) (fg : vec -> res garr) (x0 : vec) (g : garr) (cent : bool) (k i : nat) (D tol : R),
  handle_of dim m f fh -> vlen x0 = dim -> fg x0 = Ok g -> grad_shape dim m g ->
  (k < m)%nat -> (i < dim)%nat -> is_partial (f k) i (vat x0) D -> 0 < tol ->
  exists del, 0 < del /\ forall eps, eps <> 0 -> Rabs eps < del ->
    exists fd, test_grad_calc x0 fh fg eps cent = Ok (fd, g) /\ grad_shape dim m fd /\ same_axes fd g /\ Rabs (gentry fd k i - D) < tol.
Proof.
  intros dim m f fh fg x0 g cent k i D tol HF Hd HG HS Hk Hi HD Ht. destruct (fdq_lim (f k) (vat x0) i D cent tol HD Ht) as (del & Hdel & HL).
  exists del. split; [exact Hdel|]. intros eps He Hlt. destruct (test_ok dim m f fh fg x0 g eps cent HF Hd HG HS) as (fd & E & S1 & S2 & V).
  exists fd. split; [exact E|]. split; [exact S1|]. split; [exact S2|]. rewrite V by assumption. apply HL; assumption.
Qed.
Print Assumptions C58_finite_differences_converge.

(** a gradient with a wrong entry shows: with a small enough step the difference of the two returned arrays is there at
    least half of the error *)
Theorem C58_wrong_gradient_shows :
  forall (dim m : nat) (f : nat -> pt -> R) (fh : vec -> res vec) (fg : vec -> res garr) (x0 : vec) (g : garr) (cent : bool) (k i : nat) (D : R),
  handle_of dim m f fh -> vlen x0 = dim -> fg x0 = Ok g -> grad_shape dim m g ->
  (k < m)%nat -> (i < dim)%nat -> is_partial (f k) i (vat x0) D -> gentry g k i <> D ->
  exists del, 0 < del /\ forall eps, eps <> 0 -> Rabs eps < del ->
    exists fd, test_grad_calc x0 fh fg eps cent = Ok (fd, g) /\ Rabs (gentry g k i - D) / 2 < Rabs (gentry g k i - gentry fd k i).
Proof.
  intros dim m f fh fg x0 g cent k i D HF Hd HG HS Hk Hi HD HN.
  assert (P : 0 < Rabs (gentry g k i - D)) by (apply Rabs_pos_lt; lra).
  destruct (C58_finite_differences_converge dim m f fh fg x0 g cent k i D (Rabs (gentry g k i - D) / 2) HF Hd HG HS Hk Hi HD ltac:(lra)) as (del & Hdel & HL).
  exists del. split; [exact Hdel|]. intros eps He Hlt. destruct (HL eps He Hlt) as (fd & E & _ & _ & V). exists fd. split; [exact E|].
  assert (T := Rabs_triang (gentry g k i - gentry fd k i) (gentry fd k i - D)). replace (gentry g k i - gentry fd k i + (gentry fd k i - D)) with (gentry g k i - D) in T by ring. lra.
Qed.
Print Assumptions C58_wrong_gradient_shows.

(** exact for every step: both differences for a function that is affine in the coordinate, the central one for one that
    is quadratic in it *)
Theorem C58_exact_for_polynomials :
  forall (dim m : nat) (f : nat -> pt -> R) (fh : vec -> res vec) (fg : vec -> res garr) (x0 : vec) (g : garr) (cent : bool) (eps : R),
  handle_of dim m f fh -> vlen x0 = dim -> fg x0 = Ok g -> grad_shape dim m g -> eps <> 0 ->
  exists fd, test_grad_calc x0 fh fg eps cent = Ok (fd, g) /\
    forall k i D, (k < m)%nat -> (i < dim)%nat -> is_partial (f k) i (vat x0) D ->
      (affine_along (f k) (vat x0) i D \/ cent = true /\ quadratic_along (f k) (vat x0) i) -> gentry fd k i = D.
Proof.
  intros dim m f fh fg x0 g cent eps HF Hd HG HS He. destruct (test_ok dim m f fh fg x0 g eps cent HF Hd HG HS) as (fd & E & _ & _ & V).
  exists fd. split; [exact E|]. intros k i D Hk Hi HD HP. rewrite V by assumption. unfold fdq. rewrite <- (along_here (f k) (vat x0) i).
  destruct HP as [(c & HA)|(-> & c & a & b & HQ)].
  - destruct cent; rewrite !HA; field; exact He.
  - rewrite !HQ. assert (ED : D = a + 2 * b * vat x0 i).
    { refine (dR_unique _ _ _ _ HD _). apply (dR_ext (fun t => c + a * t + b * t ^ 2)); [intros t; symmetry; apply HQ|]. auto_derive; [exact I|]. lazymatch goal with |- @eq _ ?u ?v => change (@eq R u v) end. ring. }
    rewrite ED. field. exact He.
Qed.
Print Assumptions C58_exact_for_polynomials.

(** error of the forward difference: at most half of a bound of the second derivative times the step *)
Theorem C58_forward_error :
  forall (dim m : nat) (f : nat -> pt -> R) (fh : vec -> res vec) (fg : vec -> res garr) (x0 : vec) (g : garr) (eps : R),
  handle_of dim m f fh -> vlen x0 = dim -> fg x0 = Ok g -> grad_shape dim m g -> 0 < eps ->
  exists fd, test_grad_calc x0 fh fg eps false = Ok (fd, g) /\
    forall k i (f1 f2 : R -> R) (B : R), (k < m)%nat -> (i < dim)%nat ->
      (forall t, vat x0 i <= t <= vat x0 i + eps -> is_derive (along (f k) (vat x0) i) t (f1 t) /\ is_derive f1 t (f2 t) /\ Rabs (f2 t) <= B) ->
      Rabs (gentry fd k i - f1 (vat x0 i)) <= B * eps / 2.
Proof.
  intros dim m f fh fg x0 g eps HF Hd HG HS He. destruct (test_ok dim m f fh fg x0 g eps false HF Hd HG HS) as (fd & E & _ & _ & V).
  exists fd. split; [exact E|]. intros k i f1 f2 B Hk Hi HB. rewrite V by assumption. unfold fdq. rewrite <- (along_here (f k) (vat x0) i).
  set (x := vat x0 i) in *. set (h := along (f k) (vat x0) i) in *.
  assert (S1 : forall s, 0 <= s <= eps -> Rabs (f1 (x + s) - f1 x) <= B * s ^ 1).
  { intros s Hs. destruct (Req_dec s 0) as [->|Hz].
    - replace (f1 (x + 0) - f1 x) with 0 by (rewrite Rplus_0_r; ring). rewrite Rabs_R0. simpl. lra.
    - assert (Z := grow (fun s => f1 (x + s) - f1 x) (fun s => f2 (x + s)) B 0 s ltac:(lra) ltac:(cbv beta; rewrite Rplus_0_r; ring)).
      cbv beta in Z. replace (B * s ^ (0 + 1) / INR (0 + 1)) with (B * s ^ 1) in Z by (simpl; field). apply Z.
      + intros t Ht. destruct (HB (x + t) ltac:(lra)) as (_ & D2 & _). replace (f2 (x + t)) with (1 * f2 (x + t) - 0) by ring.
        apply (is_derive_minus (fun s => f1 (x + s)) (fun _ => f1 x)); [|apply (is_derive_const (f1 x))]. apply (is_derive_comp f1 (fun s => x + s)); [exact D2|]. auto_derive; [exact I|ring].
      + intros t Ht. destruct (HB (x + t) ltac:(lra)) as (_ & _ & D3). simpl. lra. }
  assert (S2 := grow (fun s => h (x + s) - h x - s * f1 x) (fun s => f1 (x + s) - f1 x) B 1 eps He ltac:(cbv beta; rewrite Rplus_0_r; ring)).
  cbv beta in S2. replace (B * eps ^ (1 + 1) / INR (1 + 1)) with (B * eps / 2 * eps) in S2 by (simpl; field).
  assert (S3 : Rabs (h (x + eps) - h x - eps * f1 x) <= B * eps / 2 * eps).
  { apply S2; [|exact S1]. intros t Ht. destruct (HB (x + t) ltac:(lra)) as (D1 & _). replace (f1 (x + t) - f1 x) with ((1 * f1 (x + t) - 0) - 1 * f1 x) by ring.
    apply (is_derive_minus (fun s => h (x + s) - h x) (fun s => s * f1 x)); [|auto_derive; [exact I|ring]].
    apply (is_derive_minus (fun s => h (x + s)) (fun _ => h x)); [|apply (is_derive_const (h x))]. apply (is_derive_comp h (fun s => x + s)); [exact D1|]. auto_derive; [exact I|ring]. }
  replace ((h (x + eps) - h x) / eps - f1 x) with ((h (x + eps) - h x - eps * f1 x) / eps) by (field; lra).
  unfold Rdiv. rewrite Rabs_mult, (Rabs_pos_eq (/ eps)) by (left; apply Rinv_0_lt_compat; exact He).
  apply Rmult_le_reg_r with eps; [exact He|]. rewrite Rmult_assoc, Rinv_l, Rmult_1_r by lra. exact S3.
Qed.
Print Assumptions C58_forward_error.

(** error of the central difference: at most a sixth of a bound of the third derivative times the square of the step *)
Theorem C58_central_error :
  forall (dim m : nat) (f : nat -> pt -> R) (fh : vec -> res vec) (fg : vec -> res garr) (x0 : vec) (g : garr) (eps : R),
  handle_of dim m f fh -> vlen x0 = dim -> fg x0 = Ok g -> grad_shape dim m g -> 0 < eps ->
  exists fd, test_grad_calc x0 fh fg eps true = Ok (fd, g) /\
    forall k i (f1 f2 f3 : R -> R) (B : R), (k < m)%nat -> (i < dim)%nat ->
      (forall t, vat x0 i - eps <= t <= vat x0 i + eps ->
         is_derive (along (f k) (vat x0) i) t (f1 t) /\ is_derive f1 t (f2 t) /\ is_derive f2 t (f3 t) /\ Rabs (f3 t) <= B) ->
      Rabs (gentry fd k i - f1 (vat x0 i)) <= B * eps ^ 2 / 6.
Proof.
  intros dim m f fh fg x0 g eps HF Hd HG HS He. destruct (test_ok dim m f fh fg x0 g eps true HF Hd HG HS) as (fd & E & _ & _ & V).
  exists fd. split; [exact E|]. intros k i f1 f2 f3 B Hk Hi HB. rewrite V by assumption. unfold fdq.
  set (x := vat x0 i) in *. set (h := along (f k) (vat x0) i) in *.
  assert (CP : forall (u u1 : R -> R) s, is_derive u (x + s) (u1 (x + s)) -> is_derive (fun s => u (x + s)) s (u1 (x + s))).
  { intros u u1 s D. replace (u1 (x + s)) with (1 * u1 (x + s)) by ring. apply (is_derive_comp u (fun s => x + s)); [exact D|]. auto_derive; [exact I|ring]. }
  assert (CM : forall (u u1 : R -> R) s, is_derive u (x - s) (u1 (x - s)) -> is_derive (fun s => u (x - s)) s (- u1 (x - s))).
  { intros u u1 s D. replace (- u1 (x - s)) with (- (1) * u1 (x - s)) by ring. apply (is_derive_comp u (fun s => x - s)); [exact D|]. auto_derive; [exact I|ring]. }
  assert (S0 : forall s, 0 <= s <= eps -> Rabs (f2 (x + s) - f2 (x - s)) <= 2 * B * s ^ 1).
  { intros s Hs. destruct (Req_dec s 0) as [->|Hz].
    - replace (f2 (x + 0) - f2 (x - 0)) with 0 by (rewrite Rplus_0_r, Rminus_0_r; ring). rewrite Rabs_R0. simpl. lra.
    - assert (Z := grow (fun s => f2 (x + s) - f2 (x - s)) (fun s => f3 (x + s) - - f3 (x - s)) (2 * B) 0 s ltac:(lra) ltac:(cbv beta; rewrite Rplus_0_r, Rminus_0_r; ring)).
      cbv beta in Z. replace (2 * B * s ^ (0 + 1) / INR (0 + 1)) with (2 * B * s ^ 1) in Z by (simpl; field). apply Z.
      + intros t Ht. apply (is_derive_minus (fun s => f2 (x + s)) (fun s => f2 (x - s))); [apply CP|apply CM]; apply HB; lra.
      + intros t Ht. destruct (HB (x + t) ltac:(lra)) as (_ & _ & _ & D3). destruct (HB (x - t) ltac:(lra)) as (_ & _ & _ & D4). simpl.
        replace (f3 (x + t) - - f3 (x - t)) with (f3 (x + t) + f3 (x - t)) by ring. eapply Rle_trans; [apply Rabs_triang|]. lra. }
  assert (S1 : forall s, 0 <= s <= eps -> Rabs (f1 (x + s) - - f1 (x - s) - 2 * f1 x) <= B * s ^ 2).
  { intros s Hs. destruct (Req_dec s 0) as [->|Hz].
    - replace (f1 (x + 0) - - f1 (x - 0) - 2 * f1 x) with 0 by (rewrite Rplus_0_r, Rminus_0_r; ring). rewrite Rabs_R0. simpl. lra.
    - assert (Z := grow (fun s => f1 (x + s) - - f1 (x - s) - 2 * f1 x) (fun s => f2 (x + s) - f2 (x - s)) (2 * B) 1 s ltac:(lra) ltac:(cbv beta; rewrite Rplus_0_r, Rminus_0_r; ring)).
      cbv beta in Z. replace (2 * B * s ^ (1 + 1) / INR (1 + 1)) with (B * s ^ 2) in Z by (simpl; field). apply Z.
      + intros t Ht. replace (f2 (x + t) - f2 (x - t)) with (f2 (x + t) - - - f2 (x - t) - 0) by ring.
        apply (is_derive_minus (fun s => f1 (x + s) - - f1 (x - s)) (fun _ => 2 * f1 x)); [|apply (is_derive_const (2 * f1 x))].
        apply (is_derive_minus (fun s => f1 (x + s)) (fun s => - f1 (x - s))); [apply CP; apply HB; lra|]. apply (is_derive_opp (fun s => f1 (x - s))). apply CM; apply HB; lra.
      + intros t Ht. apply S0. lra. }
  assert (S2 := grow (fun s => h (x + s) - h (x - s) - s * (2 * f1 x)) (fun s => f1 (x + s) - - f1 (x - s) - 2 * f1 x) B 2 eps He ltac:(cbv beta; rewrite Rplus_0_r, Rminus_0_r; ring)).
  cbv beta in S2. replace (B * eps ^ (2 + 1) / INR (2 + 1)) with (B * eps ^ 2 / 6 * (2 * eps)) in S2 by (simpl; field).
  assert (S3 : Rabs (h (x + eps) - h (x - eps) - eps * (2 * f1 x)) <= B * eps ^ 2 / 6 * (2 * eps)).
  { apply S2; [|exact S1]. intros t Ht. replace (f1 (x + t) - - f1 (x - t) - 2 * f1 x) with (f1 (x + t) - - f1 (x - t) - 1 * (2 * f1 x)) by ring.
    apply (is_derive_minus (fun s => h (x + s) - h (x - s)) (fun s => s * (2 * f1 x))); [|auto_derive; [exact I|ring]].
    apply (is_derive_minus (fun s => h (x + s)) (fun s => h (x - s))); [apply CP|apply CM]; apply HB; lra. }
  replace ((h (x + eps) - h (x - eps)) / (2 * eps) - f1 x) with ((h (x + eps) - h (x - eps) - eps * (2 * f1 x)) / (2 * eps)) by (field; lra).
  unfold Rdiv. rewrite Rabs_mult, (Rabs_pos_eq (/ (2 * eps))) by (left; apply Rinv_0_lt_compat; lra).
  apply Rmult_le_reg_r with (2 * eps); [lra|]. rewrite Rmult_assoc, Rinv_l, Rmult_1_r by lra. exact S3.
Qed.
Print Assumptions C58_central_error.

(** several functions need a gradient with a row for each: a 1-d gradient is rejected *)
Theorem C58_one_dimensional_gradient_rejected :
  forall (dim m : nat) (f : nat -> pt -> R) (fh : vec -> res vec) (fg : vec -> res garr) (x0 v : vec) (eps : R) (cent : bool),
  handle_of dim m f fh -> vlen x0 = dim -> fg x0 = Ok (A1 v) -> m <> 1%nat -> test_grad_calc x0 fh fg eps cent = Err EAssert.
Proof.
  intros dim m f fh fg x0 v eps cent HF Hd HG Hm. destruct (HF x0 Hd) as (fx & EX & X1 & X2). assert (HX : vspec m fx (fun k => f k (vat x0))) by (split; assumption).
  destruct (rok_ex _ _ (fd_loop_ok dim m f fh x0 fx eps cent HF Hd HX)) as (A & EA & _).
  unfold test_grad_calc. rewrite EX, bind_Ok, HG, bind_Ok. cbv zeta. rewrite EA, bind_Ok, X1. destruct (Nat.eqb_spec m 1); [contradiction|reflexivity].
Qed.
Print Assumptions C58_one_dimensional_gradient_rejected.

(** With the forward difference a passed check is conclusive: values of f for all steps (of both signs) near 0 whose
    forward differences tend to g make g the partial derivative ... *)
Theorem C58_forward_check_conclusive :
  forall (dim m : nat) (f : nat -> pt -> R) (fh : vec -> res vec) (fg : vec -> res garr) (x0 : vec) (g : garr) (k i : nat),
  handle_of dim m f fh -> vlen x0 = dim -> fg x0 = Ok g -> grad_shape dim m g -> (k < m)%nat -> (i < dim)%nat ->
  (forall tol, 0 < tol -> exists del, 0 < del /\ forall eps fd, eps <> 0 -> Rabs eps < del ->
     test_grad_calc x0 fh fg eps false = Ok (fd, g) -> Rabs (gentry fd k i - gentry g k i) < tol) ->
  is_partial (f k) i (vat x0) (gentry g k i).
Proof.
  intros dim m f fh fg x0 g k i HF Hd HG HS Hk Hi HC. unfold is_partial. apply is_derive_Reals. intros tol Ht. destruct (HC tol Ht) as (del & Hdel & HL).
  exists (mkposreal del Hdel). intros e He Hlt. simpl in Hlt. destruct (test_ok dim m f fh fg x0 g e false HF Hd HG HS) as (fd & E & _ & _ & V).
  specialize (HL e fd He Hlt E). rewrite V in HL by assumption. unfold fdq in HL. fold (along (f k) (vat x0) i (vat x0 i + e)). fold (along (f k) (vat x0) i (vat x0 i)). rewrite along_here. exact HL.
Qed.
Print Assumptions C58_forward_check_conclusive.

(** ... with the central difference (the default) it is not: |t| at 0 has no derivative, yet every step gives 0 *)
Definition absh (x : vec) : res vec := Ok (mkvec 1 (fun _ => Rabs (vat x 0))).
Theorem C58_central_check_passes_a_kink :
  handle_of 1 1 (fun _ x => Rabs (x 0%nat)) absh /\
  (forall eps, eps <> 0 -> exists v, test_grad_calc (vconst 1 0) absh (fun _ => Ok (A1 (vconst 1 0))) eps true = Ok (A1 v, A1 (vconst 1 0)) /\ vat v 0 = 0) /\
  ~ exists D, is_partial (fun x => Rabs (x 0%nat)) 0 (vat (vconst 1 0)) D.
Proof.
  assert (HF : handle_of 1 1 (fun _ x => Rabs (x 0%nat)) absh) by (intros x Hx; eexists; split; [reflexivity|]; split; [reflexivity|]; reflexivity).
  split; [exact HF|]. split.
  - intros eps He. destruct (test_ok 1 1 _ absh (fun _ => Ok (A1 (vconst 1 0))) (vconst 1 0) (A1 (vconst 1 0)) eps true HF eq_refl eq_refl ltac:(split; reflexivity)) as (fd & E & S1 & S2 & V).
    destruct fd as [v|M]; [|contradiction]. exists v. split; [exact E|]. specialize (V 0%nat 0%nat ltac:(lia) ltac:(lia)). cbn [gentry] in V. rewrite V. unfold fdq, along, upd. cbn.
    replace (0 - eps) with (- eps) by ring. rewrite Rplus_0_l, Rabs_Ropp. unfold Rdiv. ring.
  - intros (D & HD). unfold is_partial in HD. cbn in HD. apply is_derive_Reals in HD.
    destruct (HD (1 / 2) ltac:(lra)) as (del & Hdel). assert (P := cond_pos del).
    assert (A := Hdel (del / 2) ltac:(lra) ltac:(rewrite Rabs_pos_eq; lra)). assert (B := Hdel (- (del / 2)) ltac:(lra) ltac:(rewrite Rabs_Ropp, Rabs_pos_eq; lra)).
    unfold upd in A, B. cbn in A, B. rewrite !Rplus_0_l in A, B. rewrite Rabs_R0 in A, B. rewrite Rabs_Ropp in B. rewrite (Rabs_pos_eq (del / 2)) in A, B by lra.
    replace ((del / 2 - 0) / (del / 2)) with 1 in A by (field; lra). replace ((del / 2 - 0) / - (del / 2)) with (-1) in B by (field; lra).
    apply Rabs_def2 in A. apply Rabs_def2 in B. lra.
Qed.
Print Assumptions C58_central_check_passes_a_kink.
