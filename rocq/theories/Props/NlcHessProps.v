(** * C44 / C18: Hessians in the scaled coordinates.
    The Hessians of the constraints are converted with the square of the scale of the second coordinate only, so they are right on
    the diagonal and where the two scales agree, and wrong at every other entry that is not 0. *)
From Coq Require Import Reals List Arith Bool Lia Lra.
From Coquelicot Require Import Coquelicot.
From Verif.Base Require Import NpLite NpFacts Deriv.
From Verif.Spec Require Import KernelSpec LinAlgSpec RescaleSpec NlcSpec.
From Verif.Model Require Import KernelSqExp CommonFun Rescaling NlcScaling.
From Verif.Proofs Require Import StateFacts RescaleFacts DataFacts.
From Verif.Props Require Import RescaleProps NlcProps.
Import ListNotations.
Local Open Scope R_scope.

(** second derivatives of a scaled function *)
Lemma partial2_scaled d sh s osh osc f i j x u v : local d f -> (i < d)%nat -> (j < d)%nat -> (forall k, (k < d)%nat -> 0 < vat s k) ->
  (forall k, (k < d)%nat -> u k = scaled sh s x k) ->
  is_partial2 f i j x v -> is_partial2 (scaled_fun sh s osh osc f) i j u (v * osc / (vat s i * vat s j)).
Proof.
  intros L Hi Hj Hs E (g & G1 & G2).
  assert (Lg : local d g).
  { intros y z Eyz. apply (dR_unique (fun t => f (upd y j t)) (y j)); [apply G1|]. exact (local_partial d f j z y _ L Hj (fun k Hk => eq_sym (Eyz k Hk)) (G1 z)). }
  exists (fun w => scaled_fun sh s 0 (1 / vat s j * osc) g w). split.
  - intros w. unfold scaled_fun at 2. rewrite Rminus_0_r. apply (partial_scaled d); auto.
  - eapply dR_val; [apply (partial_scaled_at d _ _ _ _ _ _ x); eauto|].
    assert (A := Hs i Hi). assert (B := Hs j Hj). field. lra.
Qed.
(** what the factor (1 / s_j)^2 makes of it *)
Lemma hess_entry s_i s_j osc v : 0 < s_i -> 0 < s_j -> 0 < osc ->
  v * ((1 / s_j) ^ 2 * osc) = v * osc / (s_i * s_j) <-> s_i = s_j \/ v = 0.
Proof.
  intros A B C. split.
  - intros H. destruct (Req_dec v 0) as [Z|Z]; [right; exact Z|left].
    assert (K : v * osc * (s_i - s_j) = 0).
    { replace (v * osc * (s_i - s_j)) with ((v * ((1 / s_j) ^ 2 * osc) - v * osc / (s_i * s_j)) * (s_i * s_j * s_j)) by (field; lra). rewrite H. ring. }
    apply Rmult_integral in K. destruct K as [K|K]; [|lra]. apply Rmult_integral in K. lra.
  - intros [-> | ->]; field; lra.
Qed.

Lemma rmap_ok {A B} (f : A -> res B) (P : A -> B -> Prop) (l : list A) : (forall a, In a l -> exists b, f a = Ok b /\ P a b) ->
  exists l', rmap f l = Ok l' /\ List.Forall2 P l l'.
Proof.
  induction l as [|a l IH]; intros H; [exists []; split; [reflexivity|constructor]|].
  destruct (H a (or_introl eq_refl)) as (b & Eb & Pb). destruct IH as (l' & El & Fl); [intros c Hc; apply H; right; exact Hc|].
  exists (b :: l'). cbn [rmap]. rewrite Eb. cbn [bind]. rewrite El. split; [reflexivity|]. constructor; assumption.
Qed.
Lemma Forall2_nth {A B} (P : A -> B -> Prop) l l' (da : A) (db : B) : List.Forall2 P l l' -> List.length l' = List.length l /\ forall k, (k < List.length l)%nat -> P (nth k l da) (nth k l' db).
Proof.
  induction 1 as [|a b l l' Hab _ [IH1 IH2]]; [split; [reflexivity|cbn; lia]|]. split; [cbn; congruence|]. intros [|k] Hk; [exact Hab|]. cbn in *. apply IH2. lia.
Qed.

(** [H] holds the Hessians of the constraints [c 0], ..., [c (k-1)] at the rows of [Y] *)
Definition noten : ten := mkten 0 0 0 (fun _ _ _ => 0).
Definition is_con_hessians (d k : nat) (c : nat -> pt -> R) (Y : mat) (H : list ten) : Prop :=
  List.length H = k /\ forall j, (j < k)%nat -> is_hessians d (c j) Y (nth j H noten).

(** After any history of successful calls the conversion of the Hessians of k constraints at any points succeeds; an entry
    is the second derivative of the scaled constraint exactly when the two coordinates have the same scale or the entry is 0.
    Missing: the other entries, where the code is wrong. *)
Theorem C44_scaled_hessians_partial :
  forall (X : mat) (best : option nat) (use_shift : bool) (m : xmtd) (dst : option R) (r0 : resc) (calls : list ncall) (n : nresc) (k : nat) (c : nat -> pt -> R) (Y : mat) (H : list ten),
  rescaling_init X best use_shift m dst = Ok r0 -> do_ncalls (fresh_nlc r0) calls = Ok n -> scale_cfg_ok X m dst -> List.Forall ncall_pos calls ->
  vlen (n_shift n) = k ->
  (forall j, (j < k)%nat -> local (nc X) (c j)) -> nc Y = nc X -> is_con_hessians (nc X) k c Y H ->
  exists U H', x_init_2_scl (r_shift (n_r n)) (r_scale (n_r n)) Y = Ok U /\ nlc_hess_2_scl (r_scale (n_r n)) (n_scale n) H = Ok H' /\
    List.length H' = k /\
    let c' := fun j => scaled_fun (r_shift (n_r n)) (r_scale (n_r n)) (vat (n_shift n) j) (n_scale n) (c j) in
    (forall j p i l, (j < k)%nat -> (p < nr Y)%nat -> (i < nc X)%nat -> (l < nc X)%nat ->
       (is_partial2 (c' j) i l (rows_of U p) (tat (nth j H' noten) p i l) <->
        vat (r_scale (n_r n)) i = vat (r_scale (n_r n)) l \/ tat (nth j H noten) p i l = 0)) /\
    ((forall i l, (i < nc X)%nat -> (l < nc X)%nat -> vat (r_scale (n_r n)) i = vat (r_scale (n_r n)) l) -> is_con_hessians (nc X) k c' U H').
Proof.
  intros X best us m dst r0 calls n k c Y H H1 H2 C P HS L HY (HL & HH).
  destruct (nlc_history _ _ _ _ _ _ _ _ H1 H2 P) as ((S & D) & HB).
  destruct (history_inv _ _ _ _ _ _ _ _ H1 HB) as ((I1 & I2 & _) & E1 & E2 & E3). rewrite E1, E2, E3 in *. specialize (I2 C). destruct I1 as (_ & L1 & L2 & _).
  destruct (rok_ex _ _ (x_init_2_scl_ok Y (r_shift (n_r n)) (r_scale (n_r n)) ltac:(congruence) ltac:(congruence))) as (U & EU & U1 & U2 & U3).
  set (s := r_scale (n_r n)) in *. set (sc := n_scale n) in *.
  assert (SP : forall i, (i < nc X)%nat -> 0 < vat s i) by (intros i Hi; apply I2; congruence).
  destruct (rmap_ok (fun T => tmul_last T (vmap (fun s => (1 / s) ^ 2 * sc) s))
     (fun T T' => ten_is T' (td T) (tr T) (tc T) (fun p i l => tat T p i l * ((1 / vat s l) ^ 2 * sc))) H) as (H' & EH & FH).
  { intros T HT. destruct (In_nth _ _ noten HT) as (j & Hj & Ej). rewrite HL in Hj. destruct (HH j Hj) as (_ & _ & T3 & _). rewrite Ej in T3.
    destruct (rok_ex _ _ (tlast_ok T (vmap (fun s => (1 / s) ^ 2 * sc) s) ltac:(cbn; congruence))) as (T' & ET & B). exists T'. split; [exact ET|exact B]. }
  destruct (Forall2_nth _ _ _ noten noten FH) as (HL' & HN).
  exists U, H'. split; [exact EU|]. split; [exact EH|]. split; [congruence|]. cbv zeta.
  assert (K : forall j p i l, (j < k)%nat -> (p < nr Y)%nat -> (i < nc X)%nat -> (l < nc X)%nat ->
     (is_partial2 (scaled_fun (r_shift (n_r n)) s (vat (n_shift n) j) sc (c j)) i l (rows_of U p) (tat (nth j H' noten) p i l) <->
       vat s i = vat s l \/ tat (nth j H noten) p i l = 0)).
  { intros j p i l Hj Hp Hi Hl. destruct (HH j Hj) as (T1 & T2 & T3 & T4). destruct (HN j ltac:(congruence)) as (B1 & B2 & B3 & B4).
    rewrite B4 by congruence. 
    assert (Q := partial2_scaled (nc X) (r_shift (n_r n)) s (vat (n_shift n) j) sc (c j) i l (rows_of Y p) (rows_of U p) _ (L j Hj) Hi Hl SP
       ltac:(intros q Hq; unfold rows_of; rewrite U3 by congruence; reflexivity) (T4 p i l Hp Hi Hl)).
    rewrite <- (hess_entry (vat s i) (vat s l) sc _ (SP i Hi) (SP l Hl) S). split.
    - intros V. exact (partial2_unique _ _ _ _ _ _ V Q).
    - intros E. rewrite E. exact Q. }
  split; [exact K|]. intros Iso. split; [congruence|]. intros j Hj. destruct (HH j Hj) as (T1 & T2 & T3 & T4). destruct (HN j ltac:(congruence)) as (B1 & B2 & B3 & B4).
  split; [congruence|]. split; [congruence|]. split; [congruence|]. intros p i l Hp Hi Hl. apply K; auto. congruence.
Qed.
Print Assumptions C44_scaled_hessians_partial.

(** The two conversions of the Hessians are inverse to each other. *)
Theorem C44_hessian_round_trip :
  forall (X : mat) (best : option nat) (use_shift : bool) (m : xmtd) (dst : option R) (r0 : resc) (calls : list ncall) (n : nresc) (H : list ten),
  rescaling_init X best use_shift m dst = Ok r0 -> do_ncalls (fresh_nlc r0) calls = Ok n -> scale_cfg_ok X m dst -> List.Forall ncall_pos calls ->
  (forall T, In T H -> tc T = nc X) ->
  let same := fun T T' => ten_is T' (td T) (tr T) (tc T) (tat T) in
  (exists A B, nlc_hess_2_scl (r_scale (n_r n)) (n_scale n) H = Ok A /\ nlc_hess_2_init (r_scale (n_r n)) (n_scale n) A = Ok B /\ List.Forall2 same H B) /\
  (exists A B, nlc_hess_2_init (r_scale (n_r n)) (n_scale n) H = Ok A /\ nlc_hess_2_scl (r_scale (n_r n)) (n_scale n) A = Ok B /\ List.Forall2 same H B).
Proof.
  intros X best us m dst r0 calls n H H1 H2 C P HT same.
  destruct (nlc_history _ _ _ _ _ _ _ _ H1 H2 P) as ((S & D) & HB).
  destruct (history_inv _ _ _ _ _ _ _ _ H1 HB) as ((I1 & I2 & _) & E1 & E2 & E3). rewrite E1, E2, E3 in *. specialize (I2 C). destruct I1 as (_ & L1 & L2 & _).
  set (s := r_scale (n_r n)) in *. set (sc := n_scale n) in *.
  assert (SP : forall i, (i < nc X)%nat -> 0 < vat s i) by (intros i Hi; apply I2; congruence).
  assert (G : forall f g : R -> R, (forall t, 0 < t -> f t * g t = 1) -> forall l, (forall T, In T l -> tc T = nc X) ->
     exists A B, rmap (fun T => tmul_last T (vmap f s)) l = Ok A /\ rmap (fun T => tmul_last T (vmap g s)) A = Ok B /\ List.Forall2 same l B).
  { intros f g FG l. induction l as [|T l IH]; intros Hl; [exists [], []; repeat split; constructor|].
    destruct IH as (A & B & EA & EB & F2); [intros T' HT'; apply Hl; right; exact HT'|].
    assert (TC := Hl T (or_introl eq_refl)).
    destruct (rok_ex _ _ (tlast_ok T (vmap f s) ltac:(cbn; congruence))) as (T1 & ET1 & Y1 & Y2 & Y3 & Y4).
    destruct (rok_ex _ _ (tlast_ok T1 (vmap g s) ltac:(cbn; congruence))) as (T2 & ET2 & Z1 & Z2 & Z3 & Z4).
    exists (T1 :: A), (T2 :: B). cbn [rmap]. rewrite ET1. cbn [bind]. rewrite EA. cbn [bind rmap]. rewrite ET2. cbn [bind]. rewrite EB. split; [reflexivity|]. split; [reflexivity|].
    constructor; [|exact F2]. split; [congruence|]. split; [congruence|]. split; [congruence|]. intros p i j Hp Hi Hj.
    rewrite Z4 by congruence. rewrite Y4 by congruence. cbn [vat vmap].
    rewrite Rmult_assoc, FG; [ring|]. apply SP; congruence. }
  split; (apply G; [|exact HT]); intros t Ht; field; lra.
Qed.
Print Assumptions C44_hessian_round_trip.

(** Objective: after any history an off-diagonal entry that is not 0 is wrong as soon as the scales of its two coordinates
    differ; every other entry is right (with [C18_scaled_hessian_partial]). *)
Theorem C18_scaled_hessian_mixed_refuted :
  forall (X : mat) (best : option nat) (use_shift : bool) (m : xmtd) (dst : option R) (r0 r : resc) (calls : list call) (f : pt -> R) (Y : mat) (T : ten),
  rescaling_init X best use_shift m dst = Ok r0 -> do_calls r0 calls = Ok r -> scale_cfg_ok X m dst -> 0 < r_obj_scale r ->
  local (nc X) f -> nc Y = nc X -> is_hessians (nc X) f Y T ->
  exists U T', x_init_2_scl (r_shift r) (r_scale r) Y = Ok U /\ obj_hess_2_scl (r_scale r) (r_obj_scale r) T = Ok T' /\
    let g := scaled_fun (r_shift r) (r_scale r) (r_obj_shift r) (r_obj_scale r) f in
    forall p i j, (p < nr Y)%nat -> (i < nc X)%nat -> (j < nc X)%nat ->
      (is_partial2 g i j (rows_of U p) (tat T' p i j) <-> vat (r_scale r) i = vat (r_scale r) j \/ tat T p i j = 0).
Proof.
  intros X best us m dst r0 r calls f Y T H1 H2 C O L HY (T1 & T2 & T3 & T4).
  destruct (history_inv _ _ _ _ _ _ _ _ H1 H2) as ((I1 & I2 & _) & E1 & E2 & E3).
  rewrite E1, E2, E3 in *. specialize (I2 C). destruct I1 as (_ & L1 & L2 & _).
  destruct (rok_ex _ _ (x_init_2_scl_ok Y (r_shift r) (r_scale r) ltac:(congruence) ltac:(congruence))) as (U & EU & U1 & U2 & U3).
  unfold obj_hess_2_scl, scl_hess_vec. set (s := r_scale r) in *. set (osc := r_obj_scale r) in *.
  destruct (rok_ex _ _ (tlast_ok T (vmap (fun t => (1 / t) ^ 2 * osc) s) ltac:(cbn; congruence))) as (B & EB & B1 & B2 & B3 & B4).
  exists U, B. split; [exact EU|]. split; [exact EB|]. cbv zeta. intros p i j Hp Hi Hj.
  assert (SP : forall i, (i < nc X)%nat -> 0 < vat s i) by (intros q Hq; apply I2; congruence).
  rewrite B4 by congruence. cbn [vat vmap].
  assert (Q := partial2_scaled (nc X) (r_shift r) s (r_obj_shift r) osc f i j (rows_of Y p) (rows_of U p) _ L Hi Hj SP
       ltac:(intros q Hq; unfold rows_of; rewrite U3 by congruence; reflexivity) (T4 p i j Hp Hi Hj)).
  rewrite <- (hess_entry (vat s i) (vat s j) osc _ (SP i Hi) (SP j Hj) O). split.
  - intros V. exact (partial2_unique _ _ _ _ _ _ V Q).
  - intros E. rewrite E. exact Q.
Qed.
Print Assumptions C18_scaled_hessian_mixed_refuted.

(** a concrete case: f(x) = x_0 x_1 as the only constraint, scales 1 and 2: the entry (0, 1) is 1, so it is converted wrongly *)
Example C44_hessians_case : exists r0 n, rescaling_init hx_X None true Xnone None = Ok r0 /\
  do_ncalls (fresh_nlc r0) [NBase (CXscale None (Some hx_s)); NData (mknlc (mconst 1 1 0) (Some (mconst 1 1 0)) None None) true Nnone] = Ok n /\
  scale_cfg_ok hx_X Xnone None /\ vlen (n_shift n) = 1%nat /\ is_con_hessians 2 1 (fun _ => hx_f) hx_X [hx_T] /\
  vat (r_scale (n_r n)) 0 <> vat (r_scale (n_r n)) 1 /\ tat hx_T 0 0 1 <> 0.
Proof.
  assert (V : vpositive hx_s = true).
  { unfold vpositive, hx_s. cbn. destruct (Rlt_dec 0 1); [|lra]. destruct (Rlt_dec 0 2); [reflexivity|lra]. }
  destruct C18_scaled_hessian_refuted as (r0 & r & T' & _ & _ & _ & HH & _).
  eexists. eexists. split; [unfold rescaling_init, set_xscale_data, calc_x_shift_n_scale; cbn; reflexivity|].
  split; [cbn [do_ncalls do_ncall do_call]; unfold set_xscale_data, calc_x_shift_n_scale; rewrite V; cbn; reflexivity|].
  split; [split; discriminate|]. split; [reflexivity|].
  split; [split; [reflexivity|]; intros j Hj; assert (j = 0)%nat by lia; subst j; exact HH|].
  split; cbn; lra.
Qed.
