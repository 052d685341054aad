(** * Decay of the third derivatives of the kernels, and of the Hessian blocks. *)
From Coq Require Import Reals List Arith Bool Lia Lra Psatz.
From Coquelicot Require Import Coquelicot.
From Verif.Base Require Import NpLite NpFacts Deriv.
From Verif.Spec Require Import KernelSpec LinAlgSpec.
From Verif.Model Require Import KernelSqExp KernelMatern KernelRatQuad KernelDispatch.
From Verif.Proofs Require Import KernTac KernGradBlocks RadialCalculus RadialFns KernelExact KernelExtra LinAlg Mixture Jets Psd HessX HessX2 ThetaGrad EvalKern LkdCore FarFacts.
Local Open Scope R_scope.

Definition tail3 (k : kernel) (a s : R) : R := s * sqrt s * Rabs (phi3 k a s).
Lemma sqrt_le_self s : 1 <= s -> 1 <= sqrt s <= s.
Proof.
  intros Hs. split; [rewrite <- sqrt_1; apply sqrt_le_1_alt; lra|]. rewrite <- (sqrt_square s) at 2 by lra. apply sqrt_le_1_alt; nra.
Qed.
Lemma tail3_se a s : 1 <= s -> tail3 SqExp a s <= 256 / s.
Proof.
  intros Hs. unfold tail3, phi3. assert (E := exp4 s ltac:(lra)). assert (P := exp_pos (- s)). rewrite Rabs_Ropp, Rabs_pos_eq by lra. destruct (sqrt_le_self s Hs) as (Q0 & Q).
  assert (S2 : 1 <= s * s) by nra. apply Rle_trans with (exp (- s) * (s * s)).
  - replace (s * sqrt s * exp (- s)) with (exp (- s) * (s * sqrt s)) by ring. apply Rmult_le_compat_l; [lra|]. apply Rmult_le_compat_l; lra.
  - apply (Rmult_le_reg_r (s * s)); [lra|]. replace (256 / s * (s * s)) with (256 * s) by (field; lra). replace (exp (- s) * (s * s) * (s * s)) with (exp (- s) * s ^ 4) by ring. lra.
Qed.
Lemma tail3_ma a s : 1 <= s -> tail3 Ma5f2 a s <= 40 / s.
Proof.
  intros Hs. unfold tail3, phi3, matern_Abase_entry. destruct (sqrt_le_self s Hs) as (V1 & V0).
  assert (Q5 : sqrt 5 * sqrt 5 = 5) by (apply sqrt_sqrt; lra). assert (P5 : 2 <= sqrt 5) by (rewrite <- (sqrt_square 2) by lra; apply sqrt_le_1_alt; lra). assert (P6 : sqrt 5 <= 3) by nra.
  assert (V2 : sqrt s * sqrt s = s) by (apply sqrt_sqrt; lra). set (v := sqrt s) in *.
  assert (FL : nu_floor <= v). { apply Rle_trans with 1; [|exact V1]. unfold nu_floor. rewrite <- Rinv_1. apply Rinv_le_contravar; [lra|]. apply pow_R1_Rle; lra. }
  rewrite (Rmax_left _ _ FL). set (w := sqrt 5 * v). replace (- sqrt 5 * v) with (- w) by (unfold w; ring). set (x := exp (- w)). assert (X0 : 0 < x) by apply exp_pos.
  assert (W : 1 <= w) by (unfold w; nra). assert (W2 : w * w = 5 * s) by (unfold w; replace (sqrt 5 * v * (sqrt 5 * v)) with (sqrt 5 * sqrt 5 * (v * v)) by ring; rewrite Q5, V2; reflexivity).
  assert (E : x * w ^ 4 <= 256) by (apply exp4; lra). replace (w ^ 4) with (25 * (s * s)) in E by (replace (w ^ 4) with ((w * w) * (w * w)) by ring; rewrite W2; ring).
  assert (IV : 0 < / v) by (apply Rinv_0_lt_compat; lra). replace (- (25 * sqrt 5 / 24) * / v * x) with (- (25 * sqrt 5 / 24 * / v * x)) by ring.
  rewrite Rabs_Ropp, Rabs_pos_eq by (apply Rmult_le_pos; [apply Rmult_le_pos; lra|lra]).
  replace (s * v * (25 * sqrt 5 / 24 * / v * x)) with (25 * sqrt 5 / 24 * (x * s)) by (field; lra).
  assert (B : x * s <= 11 / s). { apply (Rmult_le_reg_r s); [lra|]. replace (11 / s * s) with 11 by (field; lra). lra. }
  assert (XS : 0 < x * s) by nra. assert (25 * sqrt 5 / 24 * (x * s) <= 25 * 3 / 24 * (x * s)) by (apply Rmult_le_compat_r; lra).
  assert (SP : 0 < / s) by (apply Rinv_0_lt_compat; lra). unfold Rdiv in *. lra.
Qed.
Lemma tail3_rq a s : 0 < a -> 1 <= s -> tail3 RatQu a s <= (a + 1) * (a + 2) * tail RatQu a s.
Proof.
  intros Ha Hs. destruct (sqrt_le_self s Hs) as (V1 & V0). apply Rle_trans with ((a + 1) * (a + 2) * Rabs (phi0 RatQu a s)).
  2:{ apply Rmult_le_compat_l; [nra|]. unfold tail. assert (0 <= sqrt s * Rabs (phi1 RatQu a s)) by (apply Rmult_le_pos; [lra|apply Rabs_pos]). assert (0 <= s * Rabs (phi2 RatQu a s)) by (apply Rmult_le_pos; [lra|apply Rabs_pos]). lra. }
  unfold tail3, phi3, phi0, rq0, rat_pow, rat_B. set (B := 1 + s / a). assert (B1 : 1 <= B) by (unfold B; assert (0 < s / a) by (apply Rdiv_lt_0_compat; lra); lra).
  assert (SB : s <= a * B) by (unfold B; replace (a * (1 + s / a)) with (a + s) by (field; lra); lra).
  assert (P0 : 0 < Rpower B (- a)) by apply exp_pos. assert (P3 : 0 < Rpower B (- a - 3)) by apply exp_pos.
  assert (E1 : Rpower B (- a) = B * B * B * Rpower B (- a - 3)).
  { replace (- a) with (- a - 3 + 1 + 1 + 1) at 1 by ring. rewrite !Rpower_plus, Rpower_1 by lra. ring. }
  assert (I : 0 < / a) by (apply Rinv_0_lt_compat, Ha). set (c := (1 + 1 / a) * (1 + 2 / a)). assert (C0 : 0 < c) by (unfold c, Rdiv; apply Rmult_lt_0_compat; lra).
  replace (- (1 + 1 / a) * (1 + 2 / a) * Rpower B (- a - 3)) with (- (c * Rpower B (- a - 3))) by (unfold c; ring). rewrite Rabs_Ropp, !Rabs_pos_eq by nra.
  assert (EC : (a + 1) * (a + 2) = a * a * c) by (unfold c; field; lra). rewrite E1, EC.
  assert (S2 : s * sqrt s <= s * s) by nra. assert (S3 : s * s <= a * B * (a * B)) by (apply Rmult_le_compat; lra).
  assert (CP : 0 < c * Rpower B (- a - 3)) by nra. apply Rle_trans with (a * B * (a * B) * (c * Rpower B (- a - 3))); [apply Rmult_le_compat_r; lra|].
  replace (a * a * c * (B * B * B * Rpower B (- a - 3))) with (a * B * (a * B) * (c * Rpower B (- a - 3)) * B) by ring.
  assert (0 <= a * B * (a * B) * (c * Rpower B (- a - 3))) by (apply Rmult_le_pos; [apply Rmult_le_pos; nra|lra]). nra.
Qed.
Lemma tail3_small k hp e : hp_ok k hp -> 0 < e -> exists S, 1 <= S /\ forall s, S <= s -> tail3 k (hp_val hp) s <= e /\ tail k (hp_val hp) s <= e.
Proof.
  intros Hh He. assert (GEN : forall S1, 1 <= S1 -> (forall s, S1 <= s -> tail3 k (hp_val hp) s <= e) -> exists S, 1 <= S /\ forall s, S <= s -> tail3 k (hp_val hp) s <= e /\ tail k (hp_val hp) s <= e).
  { intros S1 L1 H1. destruct (tail_small k hp e Hh He) as (S2 & L2 & H2). exists (Rmax S1 S2). split; [eapply Rle_trans; [exact L1|apply Rmax_l]|]. intros s Hs. split; [apply H1|apply H2]; (eapply Rle_trans; [|exact Hs]); [apply Rmax_l|apply Rmax_r]. }
  destruct k.
  - assert (P : 0 < 256 / e) by (apply Rdiv_lt_0_compat; lra). apply (GEN (1 + 256 / e)); [lra|]. intros s Hs. assert (T := tail3_se (hp_val hp) s ltac:(lra)).
    apply (Rle_trans _ _ _ T). apply (Rmult_le_reg_r s); [lra|]. replace (256 / s * s) with (e * (256 / e)) by (field; lra). apply Rmult_le_compat_l; lra.
  - assert (P : 0 < 40 / e) by (apply Rdiv_lt_0_compat; lra). apply (GEN (1 + 40 / e)); [lra|]. intros s Hs. assert (T := tail3_ma (hp_val hp) s ltac:(lra)).
    apply (Rle_trans _ _ _ T). apply (Rmult_le_reg_r s); [lra|]. replace (40 / s * s) with (e * (40 / e)) by (field; lra). apply Rmult_le_compat_l; lra.
  - assert (Hh' := Hh). cbn [hp_ok] in Hh'. destruct Hh' as (a & EA & Ha). assert (Q : 0 < (a + 1) * (a + 2)) by nra. assert (EQ : 0 < e / ((a + 1) * (a + 2))) by (apply Rdiv_lt_0_compat; assumption).
    destruct (tail_small RatQu hp _ Hh EQ) as (S1 & L1 & H1). apply (GEN S1 L1). intros s Hs. specialize (H1 s Hs). rewrite EA in *. cbn [hp_val] in *. assert (T := tail3_rq a s Ha ltac:(lra)).
    apply (Rle_trans _ _ _ T). apply (Rmult_le_compat_l ((a + 1) * (a + 2))) in H1; [|lra]. replace ((a + 1) * (a + 2) * (e / ((a + 1) * (a + 2)))) with e in H1 by (field; lra). exact H1.
Qed.

(** the third derivative, away from the data *)
Section K.
Variables (k : kernel) (hp : option R) (d : nat) (th : nat -> R).
Hypothesis Hh : hp_ok k hp.
Hypothesis Hth : forall i, 0 <= th i.
Lemma dphi2 x y l : (l < d)%nat -> 1 <= sqd d th x y ->
  is_derive (fun t => phi2 k (hp_val hp) (sqd d th (upd x l t) y)) (x l) (2 * th l * (x l - y l) * phi3 k (hp_val hp) (sqd d th x y)).
Proof.
  intros Hl Hs. destruct k.
  - apply (dsqd d th Dall); [intros; exact I | exact Hl | apply se_d23].
  - assert (V1 := proj1 (sqrt_le_self _ Hs)).
    assert (FL : nu_floor <= sqrt (sqd d th x y)). { apply Rle_trans with 1; [|exact V1]. unfold nu_floor. rewrite <- Rinv_1. apply Rinv_le_contravar; [lra|]. apply pow_R1_Rle; lra. }
    unfold phi3. rewrite (Rmax_left _ _ FL).
    eapply dR_val.
    + apply (deriv_on_comp_loc Dpos ma2 ma3 (fun t => sqd d th (upd x l t) y)).
      * apply ma_d23.
      * unfold Dpos. rewrite sqd_upd_id'. lra.
      * assert (Cn : continuous (fun t => sqd d th (upd x l t) y) (x l)) by (eapply cont_of_derive; apply is_derive_sqd_l; exact Hl).
        apply (Cn (fun u => 0 < u)). rewrite sqd_upd_id'. apply open_gt. lra.
      * apply is_derive_sqd_l; exact Hl.
    + rewrite sqd_upd_id'. unfold ma3. unfold Rdiv. ring.
  - cbn [hp_ok] in Hh. destruct Hh as (al & E' & Hal). rewrite E'. cbn [hp_val phi2 phi3].
    apply (dsqd d th Dnn) with (f := rq2 al) (f1 := rq3 al); [intros; apply sqd_nonneg; intros; apply Hth | exact Hl | apply rq_d23, Hal].
Qed.
Definition kd2 (l i : nat) (a : obs) (x : pt) : R :=
  match a with
  | Val y => let s := sqd d th x y in 2 * th i * delta i l * phi1 k (hp_val hp) s + 4 * th i * th l * (x i - y i) * (x l - y l) * phi2 k (hp_val hp) s
  | Der j y => let s := sqd d th x y in
      - (4 * th i * th j * delta i l * (x j - y j) + 4 * th i * th l * (delta i j * (x l - y l) + delta j l * (x i - y i))) * phi2 k (hp_val hp) s
      - 8 * th i * th j * th l * (x i - y i) * (x j - y j) * (x l - y l) * phi3 k (hp_val hp) s
  end.
Lemma kd2_cov x l i a : (l < d)%nat -> (i < d)%nat -> obs_lt d a -> 1 <= sqd d th x (at_of a) ->
  is_cov_dx (fun x y => phi0 k (hp_val hp) (sqd d th x y)) l i x a (kd2 l i a x).
Proof.
  intros Hl Hi Ha Hs. assert (TO : th_ok k d th) by (apply th_ok_nn; intros; apply Hth). destruct a as [y|j y]; cbn [obs_lt at_of] in *; unfold kd2; cbv zeta.
  - apply (hess_F d th (Dk k)); auto; [apply Dk_sqd; exact TO|apply phi_d01; exact Hh|apply phi_d12; exact Hh].
  - apply (hess_G d th (Dk k) (phi0 k (hp_val hp)) (phi1 k (hp_val hp)) (phi2 k (hp_val hp)) (phi3 k (hp_val hp))); auto; [apply Dk_sqd; exact TO|apply phi_d01; exact Hh|apply phi_d12; exact Hh|]. left. apply dphi2; assumption.
Qed.
Lemma kd2_small e : 0 < e -> exists S, 1 <= S /\ forall a x l i, obs_lt d a -> (l < d)%nat -> (i < d)%nat -> S <= sqd d th x (at_of a) -> Rabs (kd2 l i a x) <= e.
Proof.
  intros He. set (T := 1 + rsum d th). assert (T0 : 0 <= rsum d th) by (apply rsum_nonneg; intros; apply Hth).
  assert (T1 : forall i, (i < d)%nat -> th i <= T /\ sqrt (th i) <= T).
  { intros i Hi. assert (Z := rsum_le_term d th i ltac:(intros; apply Hth) Hi). assert (H := Hth i). split; [unfold T; lra|]. apply Rle_trans with (1 + th i); [|unfold T; lra].
    rewrite <- (sqrt_square (1 + th i)) by lra. apply sqrt_le_1_alt. nra. }
  assert (TP : 1 <= T) by (unfold T; lra). assert (TT : 1 <= T * T) by nra. assert (T3 : T * T <= T * T * T) by nra. assert (EP : 0 < e / (20 * (T * T * T))) by (apply Rdiv_lt_0_compat; nra).
  destruct (tail3_small k hp _ Hh EP) as (S & S1 & S2). exists S. split; [exact S1|]. intros a x l i Ha Hl Hi Hs. set (s := sqd d th x (at_of a)) in *.
  destruct (S2 s Hs) as (B3 & B). unfold tail, tail3 in *. set (q := e / (20 * (T * T * T))) in *. assert (EQ : e = 20 * (T * T * T) * q) by (unfold q; field; lra).
  destruct (sqrt_le_self s ltac:(lra)) as (R1 & R0). assert (R2 : sqrt s * sqrt s = s) by (apply sqrt_sqrt; lra). set (r := sqrt s) in *.
  set (f0 := Rabs (phi0 k (hp_val hp) s)) in *. set (f1 := Rabs (phi1 k (hp_val hp) s)) in *. set (f2 := Rabs (phi2 k (hp_val hp) s)) in *. set (f3 := Rabs (phi3 k (hp_val hp) s)) in *.
  assert (F0 : 0 <= f0) by apply Rabs_pos. assert (F1 : 0 <= f1) by apply Rabs_pos. assert (F2 : 0 <= f2) by apply Rabs_pos. assert (F3 : 0 <= f3) by apply Rabs_pos.
  assert (C1 : f1 <= q) by nra. assert (C2 : s * f2 <= q) by nra. assert (C2' : r * f2 <= q) by nra.
  assert (L1 : forall m y, (m < d)%nat -> sqd d th x y = s -> Rabs (2 * th m * (x m - y m)) <= 2 * T * r).
  { intros m y Hm Hxy. replace (2 * th m * (x m - y m)) with (2 * (th m * (x m - y m))) by ring. rewrite Rabs_mult, (Rabs_pos_eq 2) by lra. assert (Z := term_sqrt d th Hth x y m Hm). rewrite Hxy in Z. fold r in Z. destruct (T1 m Hm). nra. }
  assert (L0 : forall m b c, (m < d)%nat -> Rabs (2 * th m * delta b c) <= 2 * T).
  { intros m b c Hm. destruct (T1 m Hm). assert (H' := Hth m). unfold delta. destruct (b =? c)%nat; [rewrite Rabs_pos_eq; lra|rewrite Rmult_0_r, Rabs_R0; lra]. }
  assert (QQ : 0 <= q) by nra. assert (Q1 : T * T * q <= T * T * T * q) by nra. assert (Q2 : T * q <= T * T * q) by nra.
  destruct a as [y|j y]; cbn [at_of obs_lt] in *; unfold kd2; cbv zeta; fold s.
  - replace (4 * th i * th l * (x i - y i) * (x l - y l)) with (2 * th i * (x i - y i) * (2 * th l * (x l - y l))) by ring.
    eapply Rle_trans; [apply Rabs_triang|]. rewrite (Rabs_mult _ (phi1 k _ s)), (Rabs_mult _ (phi2 k _ s)). fold f1 f2.
    assert (A1 : Rabs (2 * th i * delta i l) * f1 <= 2 * T * q) by (apply Rmult_le_compat; auto using Rabs_pos).
    assert (A2 : Rabs (2 * th i * (x i - y i) * (2 * th l * (x l - y l))) * f2 <= 4 * (T * T) * q).
    { rewrite Rabs_mult. apply Rle_trans with (2 * T * r * (2 * T * r) * f2); [apply Rmult_le_compat_r; [exact F2|]; apply Rmult_le_compat; auto using Rabs_pos|]. replace (2 * T * r * (2 * T * r) * f2) with (4 * (T * T) * (s * f2)) by (rewrite <- R2; ring). apply Rmult_le_compat_l; nra. }
    lra.
  - set (gi := 2 * th i * (x i - y i)). set (gj := 2 * th j * (x j - y j)). set (gl := 2 * th l * (x l - y l)).
    assert (Gi : Rabs gi <= 2 * T * r) by (apply L1; auto). assert (Gj : Rabs gj <= 2 * T * r) by (apply L1; auto). assert (Gl : Rabs gl <= 2 * T * r) by (apply L1; auto).
    set (t1 := 2 * th i * delta i l * gj). set (t2 := 2 * th i * delta i j * gl). set (t3 := 2 * th l * delta j l * gi).
    replace (- (4 * th i * th j * delta i l * (x j - y j) + 4 * th i * th l * (delta i j * (x l - y l) + delta j l * (x i - y i))) * phi2 k (hp_val hp) s - 8 * th i * th j * th l * (x i - y i) * (x j - y j) * (x l - y l) * phi3 k (hp_val hp) s)
      with (- ((t1 + t2 + t3) * phi2 k (hp_val hp) s + gi * gj * gl * phi3 k (hp_val hp) s)) by (unfold t1, t2, t3, gi, gj, gl; ring).
    rewrite Rabs_Ropp. eapply Rle_trans; [apply Rabs_triang|]. rewrite (Rabs_mult _ (phi2 k _ s)), (Rabs_mult _ (phi3 k _ s)). fold f2 f3.
    assert (TB : forall u g, Rabs u <= 2 * T -> Rabs g <= 2 * T * r -> Rabs (u * g) <= 4 * (T * T) * r) by (intros u g U G; rewrite Rabs_mult; replace (4 * (T * T) * r) with (2 * T * (2 * T * r)) by ring; apply Rmult_le_compat; auto using Rabs_pos).
    assert (A1 : Rabs (t1 + t2 + t3) <= 12 * (T * T) * r).
    { assert (Z1 : Rabs t1 <= 4 * (T * T) * r) by (apply TB; auto). assert (Z2 : Rabs t2 <= 4 * (T * T) * r) by (apply TB; auto). assert (Z3 : Rabs t3 <= 4 * (T * T) * r) by (apply TB; auto).
      eapply Rle_trans; [apply Rabs_triang|]. assert (Z := Rabs_triang t1 t2). lra. }
    assert (A2 : Rabs (t1 + t2 + t3) * f2 <= 12 * (T * T) * q). { apply Rle_trans with (12 * (T * T) * r * f2); [apply Rmult_le_compat_r; assumption|]. replace (12 * (T * T) * r * f2) with (12 * (T * T) * (r * f2)) by ring. apply Rmult_le_compat_l; lra. }
    assert (A3 : Rabs (gi * gj * gl) <= 8 * (T * T * T) * (s * r)).
    { rewrite !Rabs_mult. replace (8 * (T * T * T) * (s * r)) with (2 * T * r * (2 * T * r) * (2 * T * r)) by (rewrite <- R2; ring). apply Rmult_le_compat; [apply Rmult_le_pos; apply Rabs_pos|apply Rabs_pos| |exact Gl]. apply Rmult_le_compat; auto using Rabs_pos. }
    assert (A4 : Rabs (gi * gj * gl) * f3 <= 8 * (T * T * T) * q). { apply Rle_trans with (8 * (T * T * T) * (s * r) * f3); [apply Rmult_le_compat_r; assumption|]. rewrite Rmult_assoc. apply Rmult_le_compat_l; lra. }
    lra.
Qed.
End K.
(** the Hessian block as derivative of the gradient block *)
Lemma kd2_dx k hp d th a x l i : hp_ok k hp -> (forall m, (m < d)%nat -> 0 <= th m) -> (l < d)%nat -> (i < d)%nat -> obs_lt d a -> 1 <= sqd d (cut d th) x (at_of a) ->
  is_derive (fun t => kjet k (hp_val hp) d (cut d th) a (Der i (upd x l t))) (x l) (kd2 k hp d (cut d th) l i a x).
Proof.
  intros Hh Hth Hl Hi Ha Hs. apply (kjet_dx2 k hp d th Hh); auto; [apply th_ok_nn; exact Hth|].
  apply (is_cov_dx_ext (fun x y => phi0 k (hp_val hp) (sqd d (cut d th) x y))).
  - intros u v. rewrite sqd_cut. apply phi0_kfun.
  - apply kd2_cov; auto. intros m. unfold cut. destruct (Nat.ltb_spec m d); [apply Hth; assumption|lra].
Qed.
