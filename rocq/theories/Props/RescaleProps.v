(** * Properties C16-C18: the scaling object of the 'rescale' and 'dflt' methods.
    Vocabulary: [Spec/RescaleSpec.v] (images of points, feasibility, scaled functions, histories of
    method calls) and [Spec/DataSpec.v] (smallest and largest distance).
    Every theorem quantifies over an arbitrary history: construction of the object followed by any
    successful sequence of calls of its methods. *)
From Coq Require Import Reals List Arith Bool Lia Lra Psatz.
From Coquelicot Require Import Coquelicot.
From Verif.Base Require Import NpLite NpFacts Deriv.
From Verif.Spec Require Import KernelSpec LinAlgSpec.
From Verif.Model Require Import KernelSqExp CommonFun Rescaling.
From Verif.Spec Require Import DataSpec RescaleSpec.
From Verif.Proofs Require Import StateFacts MinMax DataFacts RescaleFacts.
Import ListNotations.
Local Open Scope R_scope.

(** rows of a matrix of points after scaling *)
Definition is_image (f : pt -> pt) (Y Z : mat) : Prop :=
  nr Z = nr Y /\ nc Z = nc Y /\ forall p i, (p < nr Y)%nat -> (i < nc Y)%nat -> mat_at Z p i = f (rows_of Y p) i.

Lemma x_back_ok Y sh sc : vlen sh = nc Y -> vlen sc = nc Y ->
  rok (x_scl_2_init sh sc Y) (fun B => mspec (nr Y) (nc Y) B (fun i j => mat_at Y i j / vat sc j + vat sh j)).
Proof.
  intros H1 H2. unfold x_scl_2_init. eapply rok_bind.
  - apply (mrow_ok Rdiv (nr Y) (nc Y) Y (mat_at Y) sc (vat sc)); [apply mspec_refl|split; auto].
  - intros T HT. exact (mrow_ok Rplus (nr Y) (nc Y) T _ sh (vat sh) HT (conj H1 (fun i _ => eq_refl))).
Qed.

(** ** C16 *)
Theorem C16_scaling_is_invertible :
  forall (X : mat) (best : option nat) (use_shift : bool) (m : xmtd) (dst : option R) (r0 r : resc) (calls : list call),
  rescaling_init X best use_shift m dst = Ok r0 -> do_calls r0 calls = Ok r -> scale_cfg_ok X m dst ->
  let sh := r_shift r in let s := r_scale r in
  vlen sh = nc X /\ vlen s = nc X /\ (forall i, (i < nc X)%nat -> 0 < vat s i) /\
  is_image (scaled sh s) X (r_xscl r) /\
  (* matrices of points *)
  (forall Y, nc Y = nc X ->
     (exists Z Y', x_init_2_scl sh s Y = Ok Z /\ is_image (scaled sh s) Y Z /\ x_scl_2_init sh s Z = Ok Y' /\ is_image (fun x => x) Y Y') /\
     (exists Z Y', x_scl_2_init sh s Y = Ok Z /\ is_image (unscaled sh s) Y Z /\ x_init_2_scl sh s Z = Ok Y' /\ is_image (fun x => x) Y Y')) /\
  (* single points *)
  (forall y, vlen y = nc X ->
     (exists z y', x_init_2_scl_v sh s y = Ok z /\ vlen z = nc X /\ (forall i, (i < nc X)%nat -> vat z i = scaled sh s (vat y) i) /\
        x_scl_2_init_v sh s z = Ok y' /\ vlen y' = nc X /\ forall i, (i < nc X)%nat -> vat y' i = vat y i) /\
     (exists z y', x_scl_2_init_v sh s y = Ok z /\ vlen z = nc X /\ (forall i, (i < nc X)%nat -> vat z i = unscaled sh s (vat y) i) /\
        x_init_2_scl_v sh s z = Ok y' /\ vlen y' = nc X /\ forall i, (i < nc X)%nat -> vat y' i = vat y i)).
Proof.
  intros X best us m dst r0 r calls H1 H2 C. cbv zeta. destruct (history_inv _ _ _ _ _ _ _ _ H1 H2) as ((I1 & I2 & _) & E1 & E2 & E3).
  rewrite E1, E2, E3 in *. specialize (I2 C). destruct I1 as (_ & L1 & L2 & XS & _).
  split; [exact L1|]. split; [exact L2|]. split; [exact I2|]. split; [exact XS|]. split.
  - intros Y HY. split.
    + destruct (rok_ex _ _ (x_init_2_scl_ok Y (r_shift r) (r_scale r) ltac:(congruence) ltac:(congruence))) as (Z & EZ & Z1 & Z2 & HZ).
      destruct (rok_ex _ _ (x_back_ok Z (r_shift r) (r_scale r) ltac:(congruence) ltac:(congruence))) as (Y' & EY & Y1 & Y2 & HY').
      exists Z, Y'. split; [exact EZ|]. split; [split; [exact Z1|split; [exact Z2|exact HZ]]|]. split; [exact EY|].
      split; [congruence|]. split; [congruence|]. intros p i Hp Hi. rewrite HY', HZ by congruence. unfold rows_of. field.
      assert (0 < vat (r_scale r) i) by (apply I2; congruence). lra.
    + destruct (rok_ex _ _ (x_back_ok Y (r_shift r) (r_scale r) ltac:(congruence) ltac:(congruence))) as (Z & EZ & Z1 & Z2 & HZ).
      destruct (rok_ex _ _ (x_init_2_scl_ok Z (r_shift r) (r_scale r) ltac:(congruence) ltac:(congruence))) as (Y' & EY & Y1 & Y2 & HY').
      exists Z, Y'. split; [exact EZ|]. split; [split; [exact Z1|split; [exact Z2|exact HZ]]|]. split; [exact EY|].
      split; [congruence|]. split; [congruence|]. intros p i Hp Hi. rewrite HY', HZ by congruence. unfold rows_of. field.
      assert (0 < vat (r_scale r) i) by (apply I2; congruence). lra.
  - intros y Hy. set (sh := r_shift r) in *. set (s := r_scale r) in *.
    assert (VS : forall v, vlen v = nc X -> vspec (nc X) v (vat v)) by (intros; split; auto).
    split.
    + unfold x_init_2_scl_v, x_scl_2_init_v.
      destruct (rok_ex _ _ (vzip_ok Rminus _ y sh _ _ (VS y Hy) (VS sh L1))) as (t & -> & T1). cbn [bind].
      destruct (rok_ex _ _ (vzip_ok Rmult _ t s _ _ T1 (VS s L2))) as (z & -> & Z1).
      destruct (rok_ex _ _ (vzip_ok Rdiv _ z s _ _ Z1 (VS s L2))) as (t' & Et' & T2).
      destruct (rok_ex _ _ (vzip_ok Rplus _ t' sh _ _ T2 (VS sh L1))) as (y' & Ey' & Y1).
      exists z, y'. split; [reflexivity|]. split; [apply Z1|]. split; [apply Z1|]. rewrite Et'. cbn [bind]. split; [exact Ey'|]. split; [apply Y1|].
      intros i Hi. rewrite (proj2 Y1) by exact Hi. field. assert (0 < vat s i) by (apply I2; exact Hi). lra.
    + unfold x_init_2_scl_v, x_scl_2_init_v.
      destruct (rok_ex _ _ (vzip_ok Rdiv _ y s _ _ (VS y Hy) (VS s L2))) as (t & -> & T1). cbn [bind].
      destruct (rok_ex _ _ (vzip_ok Rplus _ t sh _ _ T1 (VS sh L1))) as (z & -> & Z1).
      destruct (rok_ex _ _ (vzip_ok Rminus _ z sh _ _ Z1 (VS sh L1))) as (t' & Et' & T2).
      destruct (rok_ex _ _ (vzip_ok Rmult _ t' s _ _ T2 (VS s L2))) as (y' & Ey' & Y1).
      exists z, y'. split; [reflexivity|]. split; [apply Z1|]. split; [apply Z1|]. rewrite Et'. cbn [bind]. split; [exact Ey'|]. split; [apply Y1|].
      intros i Hi. rewrite (proj2 Y1) by exact Hi. field. assert (0 < vat s i) by (apply I2; exact Hi). lra.
Qed.
Print Assumptions C16_scaling_is_invertible.
(** Distances: the two conversions are inverse to each other, and with the same scale in every direction they convert
    the distance of two points into the distance of their images. *)
Definition distance (n : nat) (x y : nat -> R) : R := sqrt (rsum n (fun i => (x i - y i) ^ 2)).
Theorem C16_distance_conversion :
  forall (X : mat) (best : option nat) (use_shift : bool) (m : xmtd) (dst : option R) (r0 r : resc) (calls : list call),
  rescaling_init X best use_shift m dst = Ok r0 -> do_calls r0 calls = Ok r -> scale_cfg_ok X m dst -> (0 < nc X)%nat ->
  let sh := r_shift r in let s := r_scale r in
  (forall t, dist_scl_2_init s (dist_init_2_scl s t) = t /\ dist_init_2_scl s (dist_scl_2_init s t) = t) /\
  (forall t, 0 < t -> 0 < dist_init_2_scl s t /\ 0 < dist_scl_2_init s t) /\
  ((forall i j, (i < nc X)%nat -> (j < nc X)%nat -> vat s i = vat s j) ->
     forall x y, distance (nc X) (scaled sh s x) (scaled sh s y) = dist_init_2_scl s (distance (nc X) x y) /\
       distance (nc X) (unscaled sh s x) (unscaled sh s y) = dist_scl_2_init s (distance (nc X) x y)).
Proof.
  intros X best us m dst r0 r calls H1 H2 C NP. cbv zeta. destruct (C16_scaling_is_invertible X best us m dst r0 r calls H1 H2 C) as (_ & L & P & _). cbv zeta in L, P.
  assert (SP : forall n f, (0 < n)%nat -> (forall i, (i < n)%nat -> 0 < f i) -> 0 < rsum n f).
  { intros n f. induction n as [|n IH]; intros Hn Hf; [lia|]. cbn [rsum]. destruct n as [|n]; [cbn [rsum]|specialize (IH ltac:(lia) (fun i Hi => Hf i ltac:(lia)))]; specialize (Hf _ (Nat.lt_succ_diag_r _)); lra. }
  assert (IP : 0 < INR (nc X)) by (apply lt_0_INR; lia).
  assert (MP : 0 < vec_mean (r_scale r)). { unfold vec_mean, vsum. rewrite L. apply Rdiv_lt_0_compat; [apply SP; assumption|exact IP]. }
  unfold dist_scl_2_init, dist_init_2_scl. split; [intros t; split; field; lra|]. split; [intros t Ht; split; [apply Rmult_lt_0_compat|apply Rdiv_lt_0_compat]; assumption|].
  intros EQ x y. set (c := vat (r_scale r) 0). assert (SC : forall i, (i < nc X)%nat -> vat (r_scale r) i = c) by (intros i Hi; apply EQ; lia).
  assert (CP : 0 < c) by (apply P; lia).
  assert (MC : vec_mean (r_scale r) = c). { unfold vec_mean, vsum. rewrite L. rewrite (rsum_ext _ _ (fun _ => c)) by (intros; apply SC; assumption). rewrite rsum_const. field. lra. }
  rewrite MC. unfold distance, scaled, unscaled. split.
  - rewrite (rsum_ext _ _ (fun i => c ^ 2 * (x i - y i) ^ 2)) by (intros i Hi; rewrite SC by exact Hi; ring). rewrite rsum_scal, sqrt_mult_alt by nra. rewrite <- Rsqr_pow2, sqrt_Rsqr by lra. ring.
  - rewrite (rsum_ext _ _ (fun i => (/ c) ^ 2 * (x i - y i) ^ 2)) by (intros i Hi; rewrite SC by exact Hi; field; lra). rewrite rsum_scal, sqrt_mult_alt by apply pow2_ge_0. rewrite <- Rsqr_pow2, sqrt_Rsqr by (left; apply Rinv_0_lt_compat; exact CP). field. lra.
Qed.
Print Assumptions C16_distance_conversion.

(** The reference point - the one given, or the last - is the origin of the scaled coordinates whatever is called later;
    without the shift the origin stays where it was.  The value there is zero when the values are given with their shift. *)
Definition reference (X : mat) (best : option nat) : nat := match best with Some i => i | None => (nr X - 1)%nat end.
Lemma shift_call r c r' : do_call r c = Ok r' -> r_best r' = r_best r /\ r_use_shift r' = r_use_shift r /\ r_x r' = r_x r /\
  (r_shift r' = r_shift r \/ (r_shift r' = if r_use_shift r then mkvec (nc (r_x r)) (fun i => mat_at (r_x r) (r_best r) i) else vconst (nc (r_x r)) 0)).
Proof.
  intros E1. destruct c as [a b|o us dm|a b|n m|lb u|A lb u]; cbn [do_call] in E1.
  - unfold set_xscale_data in E1. binv E1 ss E2. destruct ss as (sh, sc). binv E1 xs E3. binv E1 Rt E4. binv E1 os E5.
    binv E1 u E6. binv E1 bs E7. binv E1 ls E8. injection E1 as <-. cbn. repeat split; auto. right.
    unfold calc_x_shift_n_scale in E2. cbv zeta in E2. binv E2 s1 F1. binv E2 s2 F2. binv E2 s3 F3. binv E2 s4 F4. injection E2 as <- <-.
    destruct a; [binv F1 w F1w; discriminate|]. destruct (r_use_shift r); [destruct (r_best r <? nr (r_x r))%nat; [|discriminate]|]; injection F1 as <-; reflexivity.
  - unfold set_obj_data in E1. binv_assert E1. binv E1 ss E2. destruct ss as (sh, sc). binv E1 os E3. injection E1 as <-. cbn. auto.
  - unfold set_obj_scaling in E1. destruct (r_obj r); [|discriminate]. cbv zeta in E1. binv E1 os E3. injection E1 as <-. cbn. auto.
  - unfold set_nlc_data in E1. binv_assert E1. binv_assert E1. binv E1 u E2. injection E1 as <-. cbn. auto.
  - unfold set_boxcon in E1. binv E1 bb E2. injection E1 as <-. cbn. auto.
  - unfold set_lincon in E1. binv E1 bb E2. injection E1 as <-. cbn. auto.
Qed.
Theorem C16_reference_point :
  forall (X : mat) (best : option nat) (use_shift : bool) (m : xmtd) (dst : option R) (r0 r : resc) (calls : list call),
  rescaling_init X best use_shift m dst = Ok r0 -> do_calls r0 calls = Ok r -> (0 < nr X)%nat ->
  (use_shift = true -> (reference X best < nr X)%nat /\ forall i, (i < nc X)%nat -> mat_at (r_xscl r) (reference X best) i = 0) /\
  (forall i, (i < nc X)%nat -> vat (r_shift r) i = if use_shift then mat_at X (reference X best) i else 0) /\
  (forall o dm r', set_obj_data r o true dm = Ok r' -> forall os, r_obj_scl r' = Some os -> vat (ob_val os) (reference X best) = 0).
Proof.
  intros X best us m dst r0 r calls H1 H2 NX.
  assert (I0 : r_best r0 = reference X best /\ r_use_shift r0 = us /\ r_x r0 = X /\ r_shift r0 = (if us then mkvec (nc X) (fun i => mat_at X (reference X best) i) else vconst (nc X) 0)).
  { unfold rescaling_init in H1. set (q := mkresc _ _ _ _ _ _ _ _ _ _ _ _ _ _ _ _ _ _) in H1.
    assert (S := shift_call q (CXscale None None) r0 H1). destruct S as (A & B & C & D). cbn in A, B, C. repeat split; auto.
    assert (K := set_xscale_inv _ _ _ _ H1). destruct K as (_ & _ & _ & _ & _ & _ & _ & K). unfold calc_x_shift_n_scale in K. cbv zeta in K. binv K s1 F1. binv K s2 F2. binv K s3 F3. binv K s4 F4. injection K as <- _.
    cbn [r_x r_best r_use_shift r_mtd r_dist q] in F1. destruct us; [fold (reference X best) in F1; destruct (reference X best <? nr X)%nat; [|discriminate]|]; injection F1 as <-; reflexivity. }
  assert (IR : (us = true -> (reference X best < nr X)%nat)).
  { intros ->. unfold rescaling_init in H1. assert (K := set_xscale_inv _ _ _ _ H1). destruct K as (_ & _ & _ & _ & _ & _ & _ & K). unfold calc_x_shift_n_scale in K. cbv zeta in K. binv K s1 F1.
    cbn [r_x r_best r_use_shift r_mtd r_dist] in F1. fold (reference X best) in F1. destruct (Nat.ltb_spec (reference X best) (nr X)); [assumption|discriminate]. }
  assert (I : r_best r = reference X best /\ r_use_shift r = us /\ r_x r = X /\ r_shift r = (if us then mkvec (nc X) (fun i => mat_at X (reference X best) i) else vconst (nc X) 0)).
  { clear H1 IR. revert r0 H2 I0. induction calls as [|c l IH]; intros r0 H2 I0; cbn [do_calls] in H2; [injection H2 as <-; exact I0|].
    binv H2 r1 E1. apply (IH r1 H2). destruct (shift_call _ _ _ E1) as (A & B & C & D). destruct I0 as (A0 & B0 & C0 & D0).
    repeat split; try congruence. destruct D as [D|D]; rewrite D; [exact D0|]. rewrite B0, C0, A0. reflexivity. }
  destruct I as (A & B & C & D).
  assert (S : forall i, (i < nc X)%nat -> vat (r_shift r) i = if us then mat_at X (reference X best) i else 0) by (intros i Hi; rewrite D; destruct us; reflexivity).
  split; [|split; [exact S|]].
  - intros U. split; [exact (IR U)|]. intros i Hi. destruct (history_inv _ _ _ _ _ _ _ _ H1 H2) as ((I1 & _ & _) & E1 & _). destruct I1 as (_ & _ & _ & (_ & _ & XS) & _).
    rewrite E1 in XS. rewrite XS by (try assumption; exact (IR U)). unfold rows_of. rewrite S by exact Hi. rewrite U. ring.
  - intros o dm r' H os Ho. unfold set_obj_data in H. binv_assert H. binv H ss E. destruct ss as (sh, sc). binv H os' E2. injection H as <-. cbn in Ho. injection Ho as <-.
    unfold scl_objdata in E2. binv E2 g1 Eg. binv E2 g2 Eg2. injection E2 as <-. cbn. unfold calc_obj_scaling in E. binv E s1 F1. binv E s2 F2. injection E as <- <-.
    unfold vget in F1. rewrite A in F1. destruct (_ <? _)%nat; [|discriminate]. injection F1 as <-. ring.
Qed.
Print Assumptions C16_reference_point.

(** the relative scale of the coordinates asked for: the argument xvec_scale_in, or all 1 *)
Definition rel_scale (s : option vec) (x : pt) : pt := fun i => match s with Some v => x i * vat v i | None => x i end.
(** [req] is the requested distance: dist_set, or 1 *)
Definition requested (dst : option R) : R := match dst with Some v => v | None => 1 end.

(** any call of set_xscale_data (the constructor calls it too) on an object with at least two points:
    the requested distance is reached exactly - for 'set_vmin' provided the points, in the requested
    relative scaling, are at least 1e-14 apart; when they are not, it is undershot *)
Theorem C16_requested_distance_is_reached :
  forall (r r' : resc) (scale_in : option vec),
  set_xscale_data r None scale_in = Ok r' -> (2 <= nr (r_x r))%nat -> scale_cfg_ok (r_x r) (r_mtd r) (r_dist r) ->
  (r_mtd r = Xvmin ->
     (forall p q, (p < nr (r_x r))%nat -> (q < nr (r_x r))%nat -> p <> q ->
        / 10 ^ 14 <= dist (nc (r_x r)) (rel_scale scale_in (rows_of (r_x r) p)) (rel_scale scale_in (rows_of (r_x r) q))) ->
     is_dist_min (r_xscl r') (requested (r_dist r))) /\
  (r_mtd r = Xvmin -> forall m, is_dist_min (r_xscl r') m -> m <= requested (r_dist r)) /\
  (r_mtd r = Xvmax -> is_dist_max (r_xscl r') (requested (r_dist r))) /\
  (* without a method the scale is the one asked for *)
  (r_mtd r = Xnone -> forall i, (i < nc (r_x r))%nat -> vat (r_scale r') i = match scale_in with Some v => vat v i | None => 1 end) /\
  (* in every case it is proportional to the one asked for, and the shift is the best point, or 0 *)
  (exists c, 0 < c /\ forall i, (i < nc (r_x r))%nat -> vat (r_scale r') i = c * match scale_in with Some v => vat v i | None => 1 end) /\
  (forall i, (i < nc (r_x r))%nat -> vat (r_shift r') i = if r_use_shift r then mat_at (r_x r) (r_best r) i else 0).
Proof.
  intros r r' sci H H2 C. set (X := r_x r) in *.
  destruct (set_xscale_inv _ _ _ _ H) as (((_ & _ & _ & XS & _) & _) & E1 & _ & _ & _ & _ & _ & K). rewrite E1 in XS. fold X in XS, K.
  assert (POS := calc_scale_pos _ _ _ _ _ _ _ _ _ K C).
  apply calc_scale_inv in K. destruct K as (_ & P & _ & L1 & L2 & SH & _ & X1 & c & HX1 & Hsc & Hc).
  destruct (Nat.eqb_spec (nr X) 1); [lia|]. assert (C1 := proj1 C). assert (Q := req_pos (r_mtd r) (r_dist r) C1).
  assert (RQ : req_dist (r_mtd r) (r_dist r) = requested (r_dist r)) by reflexivity.
  assert (cpos : 0 < c).
  { destruct (r_mtd r); [lra| |].
    - destruct Hc as (m0 & _ & ->). apply Rdiv_lt_0_compat; [exact Q|]. eapply Rlt_le_trans; [apply tol_pos|apply Rmax_l].
    - destruct Hc as (m0 & ((p0 & q0 & A1 & _) & M) & ->). apply Rdiv_lt_0_compat; [exact Q|].
      destruct (proj2 C eq_refl H2) as (p & q & k & Hp & Hq & Hk & Hne). destruct HX1 as (R1 & R2 & HX1).
      eapply Rlt_le_trans; [|apply (M p q); lia]. apply (dist_pos _ _ _ k); [lia|]. unfold rows_of. rewrite !HX1 by auto.
      assert (0 < base_scale (nc X) sci k) by (apply base_scale_pos; auto). intros E. apply Hne. apply Rmult_eq_reg_r in E; lra. }
  assert (SD : forall p q, (p < nr X)%nat -> (q < nr X)%nat -> cdist (r_xscl r') p q = c * cdist X1 p q).
  { intros p q Hp Hq. eapply scaled_dist; eauto. lra. }
  destruct HX1 as (R1 & R2 & HX1).
  assert (RS : forall p q, (p < nr X)%nat -> (q < nr X)%nat -> dist (nc X) (rel_scale sci (rows_of X p)) (rel_scale sci (rows_of X q)) = cdist X1 p q).
  { intros p q Hp Hq. unfold cdist, dist, rel_scale, rows_of. rewrite R2. f_equal. apply rsum_ext. intros i Hi. rewrite !HX1 by auto.
    unfold base_scale. destruct sci; ring. }
  assert (XR : nr (r_xscl r') = nr X1) by (rewrite R1; apply XS).
  assert (CM : c * 0 = 0) by ring.
  split; [|split; [|split; [|split; [|split]]]].
  - intros Em T. rewrite Em in Hc. destruct Hc as (m0 & M & Ec).
    replace (requested (r_dist r)) with (c * m0).
    + apply (dist_min_scale X1 _ c m0 XR); [lra| |exact M]. rewrite R1. exact SD.
    + destruct M as ((p & q & A1 & A2 & A3 & A4) & _). rewrite R1 in A1, A2. change (m0 = cdist X1 p q) in A4.
      assert (Z := T p q A1 A2 A3). rewrite RS, <- A4 in Z by assumption. rewrite Ec. assert (T0 := tol_pos).
      unfold tol_min_dist_x in *. rewrite Rmax_right by exact Z. change (req_dist Xvmin (r_dist r)) with (requested (r_dist r)). field. lra.
  - intros Em m' M'. rewrite Em in Hc. destruct Hc as (m0 & M & Ec).
    assert (M2 := dist_min_scale X1 _ c m0 XR ltac:(lra) ltac:(rewrite R1; exact SD) M). rewrite (is_dist_min_unique _ _ _ M' M2), Ec.
    change (req_dist Xvmin (r_dist r)) with (requested (r_dist r)). assert (T0 := tol_pos). assert (Z := Rmax_r tol_min_dist_x m0). assert (Z' := Rmax_l tol_min_dist_x m0).
    change (req_dist (r_mtd r) (r_dist r)) with (requested (r_dist r)) in Q.
    apply Rle_trans with (requested (r_dist r) / Rmax tol_min_dist_x m0 * Rmax tol_min_dist_x m0).
    + apply Rmult_le_compat_l; [|exact Z]. left. apply Rdiv_lt_0_compat; lra.
    + right. field. lra.
  - intros Em. rewrite Em in Hc. destruct Hc as (m0 & M & Ec).
    replace (requested (r_dist r)) with (c * m0).
    + apply (dist_max_scale X1 _ c m0 XR); [lra| |exact M]. rewrite R1. exact SD.
    + rewrite Ec. change (req_dist Xvmax (r_dist r)) with (requested (r_dist r)). field. intros ->. rewrite Ec in cpos. unfold Rdiv in cpos. rewrite Rinv_0 in cpos. lra.
  - intros Em i Hi. rewrite Em in Hc. rewrite Hsc, Hc by exact Hi. unfold base_scale. destruct sci; ring.
  - exists c. split; [exact cpos|]. intros i Hi. rewrite Hsc by exact Hi. unfold base_scale. destruct sci; ring.
  - exact SH.
Qed.
Print Assumptions C16_requested_distance_is_reached.
(** a call that passes a shift never succeeds (the code reads the non-existent attribute [.dim]) *)
Theorem C16_given_shift_refuted : forall (r : resc) (shift : vec) (scale_in : option vec) (r' : resc),
  set_xscale_data r (Some shift) scale_in <> Ok r'.
Proof. intros r sh sc r' H. apply set_xscale_inv in H. destruct H as (_ & _ & _ & _ & _ & _ & _ & K). apply calc_scale_inv in K. destruct K; discriminate. Qed.
Print Assumptions C16_given_shift_refuted.
(** once nonlinear-constraint data are stored, the points cannot be rescaled any more *)
Theorem C16_rescaling_after_constraint_data_refuted : forall (r r1 r' : resc) (n : nat) (m : nlcmtd) (shift_in scale_in : option vec),
  set_nlc_data r n m = Ok r1 -> set_xscale_data r1 shift_in scale_in <> Ok r'.
Proof.
  intros r r1 r' n m a b H H'. unfold set_nlc_data in H. binv_assert H. binv_assert H. binv H u E1. injection H as <-.
  unfold set_xscale_data in H'. binv H' ss E2. destruct ss as (sh0, sc0). binv H' xs E3. binv H' Rt E4. binv H' os E5. binv H' w E6. discriminate.
Qed.
Print Assumptions C16_rescaling_after_constraint_data_refuted.

(** ** C17.  Feasible sets, after any history. *)
Theorem C17_box_constraints :
  forall (X : mat) (best : option nat) (use_shift : bool) (m : xmtd) (dst : option R) (r0 r : resc) (calls : list call) (lb ub : vec),
  rescaling_init X best use_shift m dst = Ok r0 -> do_calls r0 calls = Ok r -> scale_cfg_ok X m dst ->
  r_box r = Some (lb, ub) -> vlen lb = nc X -> vlen ub = nc X ->
  exists lb' ub', r_box_scl r = Some (lb', ub') /\ vlen lb' = nc X /\ vlen ub' = nc X /\
    forall x, in_box (nc X) lb ub x <-> in_box (nc X) lb' ub' (scaled (r_shift r) (r_scale r) x).
Proof.
  intros X best us m dst r0 r calls lb ub H1 H2 C HB L1 L2. destruct (history_inv _ _ _ _ _ _ _ _ H1 H2) as ((I1 & I2 & _ & I4 & _) & E1 & E2 & E3).
  rewrite E1, E2, E3 in *. specialize (I2 C). destruct I1 as (_ & S1 & S2 & _).
  destruct (I4 _ _ HB) as ((lb', ub') & EB & K). exists lb', ub'. split; [exact EB|].
  unfold boxcon_init_2_scl in K. set (sh := r_shift r) in *. set (s := r_scale r) in *.
  assert (VS : forall v, vlen v = nc X -> vspec (nc X) v (vat v)) by (intros; split; auto).
  binv K a Ea. binv K a' Ea'. binv K b Eb. binv K b' Eb'. injection K as -> ->.
  assert (A := rok_inv _ _ _ (vzip_ok Rminus _ lb sh _ _ (VS lb L1) (VS sh S1)) Ea).
  assert (A' := rok_inv _ _ _ (vzip_ok Rmult _ s a _ _ (VS s S2) A) Ea').
  assert (B := rok_inv _ _ _ (vzip_ok Rminus _ ub sh _ _ (VS ub L2) (VS sh S1)) Eb).
  assert (B' := rok_inv _ _ _ (vzip_ok Rmult _ s b _ _ (VS s S2) B) Eb').
  split; [apply A'|]. split; [apply B'|]. intros x. unfold in_box, scaled.
  split; intros Z i Hi; specialize (Z i Hi); assert (P := I2 i Hi); rewrite (proj2 A'), (proj2 B') in * by exact Hi.
  - split; rewrite (Rmult_comm (x i - vat sh i)); apply Rmult_le_compat_l; lra.
  - rewrite (Rmult_comm (x i - vat sh i)) in Z. destruct Z as (Z1 & Z2). apply Rmult_le_reg_l in Z1, Z2; lra.
Qed.
Print Assumptions C17_box_constraints.
Theorem C17_linear_constraints :
  forall (X : mat) (best : option nat) (use_shift : bool) (m : xmtd) (dst : option R) (r0 r : resc) (calls : list call) (A : mat) (lb ub : vec),
  rescaling_init X best use_shift m dst = Ok r0 -> do_calls r0 calls = Ok r -> scale_cfg_ok X m dst ->
  r_lin r = Some (A, lb, ub) -> nc A = nc X -> vlen lb = nr A -> vlen ub = nr A ->
  exists A' lb' ub', r_lin_scl r = Some (A', lb', ub') /\ nr A' = nr A /\ nc A' = nc X /\ vlen lb' = nr A /\ vlen ub' = nr A /\
    forall x, in_lin A lb ub x <-> in_lin A' lb' ub' (scaled (r_shift r) (r_scale r) x).
Proof.
  intros X best us m dst r0 r calls A lb ub H1 H2 C HB LA L1 L2. destruct (history_inv _ _ _ _ _ _ _ _ H1 H2) as ((I1 & I2 & _ & _ & I5) & E1 & E2 & E3).
  rewrite E1, E2, E3 in *. specialize (I2 C). destruct I1 as (_ & S1 & S2 & _).
  destruct (I5 _ _ _ HB) as (((A', lb'), ub') & EB & K). exists A', lb', ub'. split; [exact EB|].
  unfold lincon_init_2_scl in K. set (sh := r_shift r) in *. set (s := r_scale r) in *.
  assert (VS : forall n v, vlen v = n -> vspec n v (vat v)) by (intros; split; auto).
  binv K As EAs. binv K Ash EAsh. binv K a Ea. binv K b Eb. injection K as -> -> ->.
  assert (QA := rok_inv _ _ _ (mrow_ok Rmult (nr A) (nc A) A (mat_at A) (vmap (fun t => 1 / t) s) (fun i => 1 / vat s i) (mspec_refl A)
     (conj (eq_trans S2 (eq_sym LA)) (fun i _ => eq_refl))) EAs).
  assert (QS := rok_inv _ _ _ (mdotv_ok (nr A) (nc A) A sh _ _ (mspec_refl A) (VS (nc A) sh (eq_trans S1 (eq_sym LA)))) EAsh).
  assert (Qa := rok_inv _ _ _ (vzip_ok Rminus _ lb Ash _ _ (VS (nr A) lb L1) QS) Ea).
  assert (Qb := rok_inv _ _ _ (vzip_ok Rminus _ ub Ash _ _ (VS (nr A) ub L2) QS) Eb).
  destruct QA as (A1 & A2 & A3). split; [exact A1|]. split; [congruence|]. split; [apply Qa|]. split; [apply Qb|]. intros x.
  assert (MV : forall r, (r < nr A)%nat -> mv A' (scaled sh s x) r = mv A x r - rsum (nc A) (fun l => mat_at A r l * vat sh l)).
  { intros k Hk. unfold mv. rewrite A2, <- rsum_minus. apply rsum_ext. intros i Hi. rewrite A3 by auto. unfold scaled. field.
    assert (0 < vat s i) by (apply I2; congruence). lra. }
  unfold in_lin. rewrite A1. split; intros Z k Hk; specialize (Z k Hk); rewrite MV, (proj2 Qa), (proj2 Qb) in * by exact Hk; lra.
Qed.
Print Assumptions C17_linear_constraints.

(** ** C18.  Values, standard deviations, gradients, Hessians.  [sh s osh osc] are the shifts and scales in force. *)
Definition vec_is (v : vec) (n : nat) (f : nat -> R) : Prop := vlen v = n /\ forall i, (i < n)%nat -> vat v i = f i.
Definition mat_is (A : mat) (n m : nat) (f : nat -> nat -> R) : Prop :=
  nr A = n /\ nc A = m /\ forall i j, (i < n)%nat -> (j < m)%nat -> mat_at A i j = f i j.
Definition ten_is (T : ten) (k n m : nat) (f : nat -> nat -> nat -> R) : Prop :=
  td T = k /\ tr T = n /\ tc T = m /\ forall l i j, (l < k)%nat -> (i < n)%nat -> (j < m)%nat -> tat T l i j = f l i j.
Lemma grad_scl_ok s osc A : vlen s = nc A -> rok (obj_grad_2_scl s osc A) (fun B => mat_is B (nr A) (nc A) (fun i j => mat_at A i j * (1 / vat s j * osc))).
Proof. intros H. apply (mrow_ok Rmult (nr A) (nc A) A (mat_at A) (scl_grad_vec s osc) (fun j => 1 / vat s j * osc) (mspec_refl A)). split; [exact H|reflexivity]. Qed.
Lemma grad_ini_ok s osc A : vlen s = nc A -> rok (obj_grad_2_init s osc A) (fun B => mat_is B (nr A) (nc A) (fun i j => mat_at A i j * (vat s j / osc))).
Proof. intros H. apply (mrow_ok Rmult (nr A) (nc A) A (mat_at A) (vmap (fun s => s / osc) s) (fun j => vat s j / osc) (mspec_refl A)). split; [exact H|reflexivity]. Qed.
Lemma tlast_ok T v : vlen v = tc T -> rok (tmul_last T v) (fun B => ten_is B (td T) (tr T) (tc T) (fun l i j => tat T l i j * vat v j)).
Proof. intros H. unfold tmul_last. rewrite H, Nat.eqb_refl. simpl. repeat split; auto. Qed.

(** the stored scaled data always agree with the stored data and with the scaling in force, and scaling
    followed by unscaling, and conversely, change nothing *)
Theorem C18_scaling_of_function_data_is_invertible :
  forall (X : mat) (best : option nat) (use_shift : bool) (m : xmtd) (dst : option R) (r0 r : resc) (calls : list call) (o : objdata),
  rescaling_init X best use_shift m dst = Ok r0 -> do_calls r0 calls = Ok r -> scale_cfg_ok X m dst -> List.Forall call_pos calls ->
  r_obj r = Some o ->
  let s := r_scale r in let osh := r_obj_shift r in let osc := r_obj_scale r in
  0 < osc /\
  (exists os, r_obj_scl r = Some os /\
     vec_is (ob_val os) (vlen (ob_val o)) (fun p => (vat (ob_val o) p - osh) * osc) /\
     match ob_std o, ob_std os with
     | Some v, Some v' => vec_is v' (vlen v) (fun p => vat v p * osc) | None, None => True | _, _ => False end /\
     match ob_grad o, ob_grad os with
     | Some A, Some A' => nc A = nc X -> mat_is A' (nr A) (nc A) (fun p i => mat_at A p i * osc / vat s i) | None, None => True | _, _ => False end /\
     match ob_stdg o, ob_stdg os with
     | Some A, Some A' => nc A = nc X -> mat_is A' (nr A) (nc A) (fun p i => mat_at A p i * osc / vat s i) | None, None => True | _, _ => False end) /\
  (forall v, vec_is (obj_val_2_init osh osc (obj_val_2_scl osh osc v)) (vlen v) (vat v) /\
             vec_is (obj_val_2_scl osh osc (obj_val_2_init osh osc v)) (vlen v) (vat v) /\
             vec_is (obj_std_2_init osc (obj_std_2_scl osc v)) (vlen v) (vat v) /\
             vec_is (obj_std_2_scl osc (obj_std_2_init osc v)) (vlen v) (vat v)) /\
  (forall A, nc A = nc X ->
     (exists B C, obj_grad_2_scl s osc A = Ok B /\ obj_grad_2_init s osc B = Ok C /\ mat_is C (nr A) (nc A) (mat_at A)) /\
     (exists B C, obj_grad_2_init s osc A = Ok B /\ obj_grad_2_scl s osc B = Ok C /\ mat_is C (nr A) (nc A) (mat_at A))) /\
  (forall T, tc T = nc X ->
     (exists B C, obj_hess_2_scl s osc T = Ok B /\ obj_hess_2_init s osc B = Ok C /\ ten_is C (td T) (tr T) (tc T) (tat T)) /\
     (exists B C, obj_hess_2_init s osc T = Ok B /\ obj_hess_2_scl s osc B = Ok C /\ ten_is C (td T) (tr T) (tc T) (tat T))).
Proof.
  intros X best us m dst r0 r calls o H1 H2 C Hc Ho. cbv zeta. assert (P := history_osc _ _ _ _ _ _ _ _ H1 H2 Hc).
  destruct (history_inv _ _ _ _ _ _ _ _ H1 H2) as ((I1 & I2 & I3 & _) & E1 & E2 & E3).
  rewrite E1, E2, E3 in *. specialize (I2 C). destruct I1 as (_ & L1 & L2 & _).
  set (s := r_scale r) in *. set (osh := r_obj_shift r) in *. set (osc := r_obj_scale r) in *.
  split; [exact P|]. split.
  { destruct (I3 o Ho) as (os & EO & K). exists os. split; [exact EO|]. unfold scl_objdata in K. binv K g Eg. binv K sg Esg. injection K as <-. cbn [ob_val ob_std ob_grad ob_stdg].
    split; [split; reflexivity|]. split; [destruct (ob_std o); simpl; [split; reflexivity|exact I]|].
    assert (OM : forall (q : option mat) g', omap (obj_grad_2_scl s osc) q = Ok g' ->
       match q, g' with Some A, Some A' => nc A = nc X -> mat_is A' (nr A) (nc A) (fun p i => mat_at A p i * osc / vat s i) | None, None => True | _, _ => False end).
    { intros q g' E. destruct q as [A|]; simpl in E; [|injection E as <-; exact I]. binv E B EB. injection E as <-. intros HA.
      destruct (rok_inv _ _ _ (grad_scl_ok s osc A ltac:(congruence)) EB) as (A1 & A2 & A3). split; [exact A1|]. split; [exact A2|]. intros i j Hi Hj. rewrite A3 by assumption.
      field. assert (0 < vat s j) by (apply I2; congruence). lra. }
    split; apply OM; assumption. }
  split.
  { intros v. unfold vec_is, obj_val_2_init, obj_val_2_scl, obj_std_2_init, obj_std_2_scl. cbn. repeat split; intros; field; lra. }
  split.
  - intros A HA. split.
    + destruct (rok_ex _ _ (grad_scl_ok s osc A ltac:(congruence))) as (B & EB & B1 & B2 & B3). destruct (rok_ex _ _ (grad_ini_ok s osc B ltac:(congruence))) as (D & ED & D1 & D2 & D3).
      exists B, D. split; [exact EB|]. split; [exact ED|]. split; [congruence|]. split; [congruence|]. intros i j Hi Hj. rewrite D3, B3 by congruence. field.
      assert (0 < vat s j) by (apply I2; congruence). lra.
    + destruct (rok_ex _ _ (grad_ini_ok s osc A ltac:(congruence))) as (B & EB & B1 & B2 & B3). destruct (rok_ex _ _ (grad_scl_ok s osc B ltac:(congruence))) as (D & ED & D1 & D2 & D3).
      exists B, D. split; [exact EB|]. split; [exact ED|]. split; [congruence|]. split; [congruence|]. intros i j Hi Hj. rewrite D3, B3 by congruence. field.
      assert (0 < vat s j) by (apply I2; congruence). lra.
  - intros T HT. unfold obj_hess_2_scl, obj_hess_2_init, scl_hess_vec. split.
    + destruct (rok_ex _ _ (tlast_ok T (vmap (fun t => (1 / t) ^ 2 * osc) s) ltac:(cbn; congruence))) as (B & EB & B1 & B2 & B3 & B4).
      destruct (rok_ex _ _ (tlast_ok B (vmap (fun t => t ^ 2 / osc) s) ltac:(cbn; congruence))) as (D & ED & D1 & D2 & D3 & D4).
      exists B, D. split; [exact EB|]. split; [exact ED|]. split; [congruence|]. split; [congruence|]. split; [congruence|]. intros l i j Hl Hi Hj. rewrite D4, B4 by congruence. cbn [vat vmap]. field.
      assert (0 < vat s j) by (apply I2; congruence). lra.
    + destruct (rok_ex _ _ (tlast_ok T (vmap (fun t => t ^ 2 / osc) s) ltac:(cbn; congruence))) as (B & EB & B1 & B2 & B3 & B4).
      destruct (rok_ex _ _ (tlast_ok B (vmap (fun t => (1 / t) ^ 2 * osc) s) ltac:(cbn; congruence))) as (D & ED & D1 & D2 & D3 & D4).
      exists B, D. split; [exact EB|]. split; [exact ED|]. split; [congruence|]. split; [congruence|]. split; [congruence|]. intros l i j Hl Hi Hj. rewrite D4, B4 by congruence. cbn [vat vmap]. field.
      assert (0 < vat s j) by (apply I2; congruence). lra.
Qed.
Print Assumptions C18_scaling_of_function_data_is_invertible.

(** what the default function scaling of set_obj_data achieves: value 0 at the best point, range 100 (less
    when the given range is below 1e-20) *)
Theorem C18_default_function_scaling :
  forall (r r' : resc) (o : objdata) (use_shift : bool),
  set_obj_data r o use_shift true = Ok r' -> (2 <= nr (r_x r))%nat ->
  (use_shift = true -> vat (obj_val_2_scl (r_obj_shift r') (r_obj_scale r') (ob_val o)) (r_best r) = 0) /\
  (use_shift = false -> r_obj_shift r' = 0) /\
  (forall p q, (p < vlen (ob_val o))%nat -> (q < vlen (ob_val o))%nat ->
      let w := obj_val_2_scl (r_obj_shift r') (r_obj_scale r') (ob_val o) in vat w p - vat w q <= 100) /\
  ((exists p q, (p < vlen (ob_val o))%nat /\ (q < vlen (ob_val o))%nat /\ / 10 ^ 20 <= vat (ob_val o) p - vat (ob_val o) q) ->
   exists p q, (p < vlen (ob_val o))%nat /\ (q < vlen (ob_val o))%nat /\
      let w := obj_val_2_scl (r_obj_shift r') (r_obj_scale r') (ob_val o) in vat w p - vat w q = 100).
Proof.
  intros r r' o us H Hn. unfold set_obj_data in H. binv_assert H. apply Nat.eqb_eq in HA. binv H ss E1. destruct ss as (sh, sc). binv H os E2. injection H as <-. cbn [r_obj_shift r_obj_scale].
  unfold calc_obj_scaling in E1. binv E1 a Ea. binv E1 b Eb. injection E1 as <- <-.
  destruct (Nat.eqb_spec (vlen (ob_val o)) 1); [lia|]. cbn [orb negb] in Eb. binv Eb Mm Em. injection Eb as <-.
  unfold vmaxmin in Em. binv Em M EM. binv Em mn Emn. injection Em as <-. cbn [fst snd].
  set (v := ob_val o) in *. unfold rangeobj_max_dflt, tol_min_range_obj.
  destruct (lmax_inv _ _ EM) as (_ & M1 & M2). destruct (lmin_inv _ _ Emn) as (_ & N1 & N2).
  assert (T0 : 0 < / 10 ^ 20) by (apply Rinv_0_lt_compat, pow_lt; lra).
  set (t := / 10 ^ 20) in *. clearbody t.
  assert (B : forall p, (p < vlen v)%nat -> mn <= vat v p <= M).
  { intros p Hp. split; [apply N2|apply M2]; apply in_map_iff; exists p; (split; [reflexivity|apply in_seq; lia]). }
  assert (K := Rmax_l t (M - mn)). assert (K' := Rmax_r t (M - mn)). set (D := Rmax t (M - mn)) in *.
  split; [|split; [|split]].
  - intros ->. unfold vget in Ea. destruct (Nat.ltb_spec (r_best r) (vlen v)); [|discriminate]. injection Ea as <-. cbn. ring.
  - intros ->. injection Ea as <-. reflexivity.
  - intros p q Hp Hq. cbn. replace ((vat v p - a) * (100 / D) - (vat v q - a) * (100 / D)) with (100 * ((vat v p - vat v q) / D)) by (field; lra).
    assert (B1 := B p Hp). assert (B2 := B q Hq).
    assert ((vat v p - vat v q) / D <= 1); [|lra]. apply (Rmult_le_reg_r D); [lra|]. unfold Rdiv. rewrite Rmult_assoc, Rinv_l, Rmult_1_r, Rmult_1_l; lra.
  - intros (p & q & Hp & Hq & Hpq). apply in_map_iff in M1, N1. destruct M1 as (p' & M1 & I1). destruct N1 as (q' & N1 & I2). apply in_seq in I1, I2.
    exists p', q'. split; [lia|]. split; [lia|]. cbn. rewrite M1, N1. assert (B1 := B p Hp). assert (B2 := B q Hq).
    assert (D = M - mn) as ED by (unfold D; apply Rmax_right; lra). rewrite ED. field. lra.
Qed.
Print Assumptions C18_default_function_scaling.

(** [A] holds the gradients, [T] the Hessians, of [f] at the rows of [Y] *)
Definition is_gradients (d : nat) (f : pt -> R) (Y A : mat) : Prop :=
  nr A = nr Y /\ nc A = d /\ forall p i, (p < nr Y)%nat -> (i < d)%nat -> is_partial f i (rows_of Y p) (mat_at A p i).
Definition is_hessians (d : nat) (f : pt -> R) (Y : mat) (T : ten) : Prop :=
  td T = nr Y /\ tr T = d /\ tc T = d /\
  forall p i j, (p < nr Y)%nat -> (i < d)%nat -> (j < d)%nat -> is_partial2 f i j (rows_of Y p) (tat T p i j).
Lemma local_partial d f i x y v : local d f -> (i < d)%nat -> (forall j, (j < d)%nat -> x j = y j) -> is_partial f i x v -> is_partial f i y v.
Proof.
  intros L Hi E H. unfold is_partial in *. rewrite <- (E i Hi). eapply dR_ext; [|exact H]. intros t. apply L. intros j Hj. unfold upd.
  destruct (j =? i)%nat; [reflexivity|auto].
Qed.
Lemma local_scaled d sh s osh osc f : local d f -> local d (scaled_fun sh s osh osc f).
Proof. intros L x y E. unfold scaled_fun. f_equal. f_equal. apply L. intros i Hi. unfold unscaled. rewrite E by exact Hi. reflexivity. Qed.
Lemma partial_scaled d sh s osh osc f i u v : local d f -> (i < d)%nat -> (forall j, (j < d)%nat -> 0 < vat s j) ->
  is_partial f i (unscaled sh s u) v -> is_partial (scaled_fun sh s osh osc f) i u (v * (1 / vat s i * osc)).
Proof.
  intros L Hi Hs H. unfold is_partial in *. assert (Si := Hs i Hi).
  apply (dR_ext (fun t => osc * (f (upd (unscaled sh s u) i (t / vat s i + vat sh i)) - osh))).
  - intros t. unfold scaled_fun. rewrite (Rmult_comm _ osc). f_equal. f_equal. apply L. intros j Hj. unfold unscaled, upd. destruct (Nat.eqb_spec j i); [subst; reflexivity|reflexivity].
  - eapply dR_val; [apply dR_scal; apply dR_minus; [|apply dR_const]; apply (dR_comp (fun z => f (upd (unscaled sh s u) i z)) (fun t => t / vat s i + vat sh i))|].
    + apply dR_plus; [|apply dR_const]. apply (dR_ext (fun t => / vat s i * t)); [intros; unfold Rdiv; ring|]. apply dR_scal, dR_id.
    + exact H.
    + field. lra.
Qed.
Lemma partial_scaled_at d sh s osh osc f i x u v : local d f -> (i < d)%nat -> (forall j, (j < d)%nat -> 0 < vat s j) ->
  (forall j, (j < d)%nat -> u j = scaled sh s x j) ->
  is_partial f i x v -> is_partial (scaled_fun sh s osh osc f) i u (v * (1 / vat s i * osc)).
Proof.
  intros L Hi Hs E H. apply (partial_scaled d); auto. apply (local_partial d f i x); auto. intros j Hj. unfold unscaled. rewrite E by exact Hj. unfold scaled. field. assert (Z := Hs j Hj). lra.
Qed.

(** the scaled gradients are the gradients of the scaled function at the scaled points: any differentiable
    f of the coordinates, any points, any history *)
Theorem C18_scaled_gradient_is_the_gradient_of_the_scaled_function :
  forall (X : mat) (best : option nat) (use_shift : bool) (m : xmtd) (dst : option R) (r0 r : resc) (calls : list call) (f : pt -> R) (Y A : mat),
  rescaling_init X best use_shift m dst = Ok r0 -> do_calls r0 calls = Ok r -> scale_cfg_ok X m dst ->
  local (nc X) f -> nc Y = nc X -> is_gradients (nc X) f Y A ->
  exists U A', x_init_2_scl (r_shift r) (r_scale r) Y = Ok U /\ obj_grad_2_scl (r_scale r) (r_obj_scale r) A = Ok A' /\
    is_gradients (nc X) (scaled_fun (r_shift r) (r_scale r) (r_obj_shift r) (r_obj_scale r) f) U A'.
Proof.
  intros X best us m dst r0 r calls f Y A H1 H2 C L HY (A1 & A2 & A3).
  destruct (history_inv _ _ _ _ _ _ _ _ H1 H2) as ((I1 & I2 & _) & E1 & E2 & E3).
  rewrite E1, E2, E3 in *. specialize (I2 C). destruct I1 as (_ & L1 & L2 & _).
  destruct (rok_ex _ _ (x_init_2_scl_ok Y (r_shift r) (r_scale r) ltac:(congruence) ltac:(congruence))) as (U & EU & U1 & U2 & U3).
  destruct (rok_ex _ _ (grad_scl_ok (r_scale r) (r_obj_scale r) A ltac:(congruence))) as (B & EB & B1 & B2 & B3).
  exists U, B. split; [exact EU|]. split; [exact EB|]. split; [congruence|]. split; [congruence|]. intros p i Hp Hi. rewrite B3 by congruence.
  apply (partial_scaled_at (nc X) _ _ _ _ _ _ (rows_of Y p)); auto.
  - intros j Hj. unfold rows_of. rewrite U3 by congruence. reflexivity.
  - apply A3; congruence.
Qed.
Print Assumptions C18_scaled_gradient_is_the_gradient_of_the_scaled_function.
(** same for Hessians when all coordinates have the same scale, and for the diagonal entries in any case.
    Missing: the off-diagonal entries when the scales differ, where the code is wrong (next theorem) *)
Theorem C18_scaled_hessian_partial :
  forall (X : mat) (best : option nat) (use_shift : bool) (m : xmtd) (dst : option R) (r0 r : resc) (calls : list call) (f : pt -> R) (Y : mat) (T : ten),
  rescaling_init X best use_shift m dst = Ok r0 -> do_calls r0 calls = Ok r -> scale_cfg_ok X m dst ->
  local (nc X) f -> nc Y = nc X -> is_hessians (nc X) f Y T ->
  exists U T', x_init_2_scl (r_shift r) (r_scale r) Y = Ok U /\ obj_hess_2_scl (r_scale r) (r_obj_scale r) T = Ok T' /\
    let g := scaled_fun (r_shift r) (r_scale r) (r_obj_shift r) (r_obj_scale r) f in
    (forall p i, (p < nr Y)%nat -> (i < nc X)%nat -> is_partial2 g i i (rows_of U p) (tat T' p i i)) /\
    ((forall i j, (i < nc X)%nat -> (j < nc X)%nat -> vat (r_scale r) i = vat (r_scale r) j) -> is_hessians (nc X) g U T').
Proof.
  intros X best us m dst r0 r calls f Y T H1 H2 C L HY (T1 & T2 & T3 & T4).
  destruct (history_inv _ _ _ _ _ _ _ _ H1 H2) as ((I1 & I2 & _) & E1 & E2 & E3).
  rewrite E1, E2, E3 in *. specialize (I2 C). destruct I1 as (_ & L1 & L2 & _).
  destruct (rok_ex _ _ (x_init_2_scl_ok Y (r_shift r) (r_scale r) ltac:(congruence) ltac:(congruence))) as (U & EU & U1 & U2 & U3).
  unfold obj_hess_2_scl, scl_hess_vec. set (s := r_scale r) in *. set (osc := r_obj_scale r).
  destruct (rok_ex _ _ (tlast_ok T (vmap (fun t => (1 / t) ^ 2 * osc) s) ltac:(cbn; congruence))) as (B & EB & B1 & B2 & B3 & B4).
  exists U, B. split; [exact EU|]. split; [exact EB|]. cbv zeta.
  assert (K : forall p i j, (p < nr Y)%nat -> (i < nc X)%nat -> (j < nc X)%nat -> vat s i = vat s j ->
     is_partial2 (scaled_fun (r_shift r) s (r_obj_shift r) osc f) i j (rows_of U p) (tat B p i j)).
  { intros p i j Hp Hi Hj Es. destruct (T4 p i j Hp Hi Hj) as (g & G1 & G2).
    assert (Lg : local (nc X) g).
    { intros x y E. apply (dR_unique (fun t => f (upd x j t)) (x j)); [apply G1|]. exact (local_partial (nc X) f j y x _ L Hj (fun k Hk => eq_sym (E k Hk)) (G1 y)). }
    exists (fun u => scaled_fun (r_shift r) s 0 (1 / vat s j * osc) g u). split.
    - intros u. unfold scaled_fun at 2. rewrite Rminus_0_r. apply (partial_scaled (nc X)); auto.
    - rewrite B4 by congruence. eapply dR_val.
      + apply (partial_scaled_at (nc X) _ _ _ _ _ _ (rows_of Y p)); eauto. intros k Hk. unfold rows_of. rewrite U3 by congruence. reflexivity.
      + cbn [vat vmap]. rewrite Es. field. assert (0 < vat s j) by auto. lra. }
  split; [intros; apply K; auto|]. intros Iso. split; [congruence|]. split; [congruence|]. split; [congruence|]. intros p i j Hp Hi Hj. apply K; auto. congruence.
Qed.
Print Assumptions C18_scaled_hessian_partial.

Lemma partial2_unique f i j x v v' : is_partial2 f i j x v -> is_partial2 f i j x v' -> v = v'.
Proof.
  intros (g & G1 & G2) (h & K1 & K2). eapply dR_unique; [exact G2|]. eapply dR_ext; [|exact K2].
  intros t. cbv beta. eapply dR_unique; [apply K1|apply G1].
Qed.
(** wrong for two coordinates with different scales: f(x) = x_0 x_1, scale (1, 2): the code returns the
    entries 1/4 and 1 for the mixed second derivative 1/2 *)
Definition hx_X : mat := mkmat 1 2 (fun _ _ => 0).
Definition hx_f : pt -> R := fun x => x 0%nat * x 1%nat.
Definition hx_T : ten := mkten 1 2 2 (fun _ i j => if (i =? j)%nat then 0 else 1).
Definition hx_s : vec := mkvec 2 (fun i => if (i =? 0)%nat then 1 else 2).
Theorem C18_scaled_hessian_refuted :
  exists r0 r T', rescaling_init hx_X None true Xnone None = Ok r0 /\
    do_calls r0 [CXscale None (Some hx_s); CObj (mkobj (vconst 1 0) None None None) true true] = Ok r /\
    local 2 hx_f /\ is_hessians 2 hx_f hx_X hx_T /\ obj_hess_2_scl (r_scale r) (r_obj_scale r) hx_T = Ok T' /\
    tat T' 0 0 1 <> tat T' 0 1 0 /\
    forall U, x_init_2_scl (r_shift r) (r_scale r) hx_X = Ok U ->
      ~ is_hessians 2 (scaled_fun (r_shift r) (r_scale r) (r_obj_shift r) (r_obj_scale r) hx_f) U T'.
Proof.
  assert (V : vpositive hx_s = true).
  { unfold vpositive, hx_s. cbn. destruct (Rlt_dec 0 1); [|lra]. destruct (Rlt_dec 0 2); [reflexivity|lra]. }
  assert (D0 : forall y, is_partial hx_f 1 y (y 0%nat)).
  { intros y. unfold is_partial, hx_f, upd. cbn. eapply dR_val; [apply dR_mult; [apply dR_const|apply dR_id]|]. cbv beta. ring. }
  assert (D1 : forall y, is_partial hx_f 0 y (y 1%nat)).
  { intros y. unfold is_partial, hx_f, upd. cbn. eapply dR_val; [apply dR_mult; [apply dR_id|apply dR_const]|]. cbv beta. ring. }
  assert (L : local 2 hx_f) by (intros x y E; unfold hx_f; rewrite !E by lia; reflexivity).
  eexists. eexists. eexists. split; [unfold rescaling_init, set_xscale_data, calc_x_shift_n_scale; cbn; reflexivity|].
  split; [cbn [do_calls do_call]; unfold set_xscale_data, calc_x_shift_n_scale; rewrite V; cbn; reflexivity|]. split; [exact L|].
  split.
  { split; [reflexivity|]. split; [reflexivity|]. split; [reflexivity|]. intros p i j Hp Hi Hj. unfold hx_T. cbn in Hp. cbn [tat]. destruct i as [|[|i]]; [| |lia]; destruct j as [|[|j]]; try lia; cbn.
    - exists (fun y => y 1%nat). split; [exact D1|]. unfold is_partial, upd; cbn; apply dR_const.
    - exists (fun y => y 0%nat). split; [exact D0|]. unfold is_partial, upd; cbn; apply dR_id.
    - exists (fun y => y 1%nat). split; [exact D1|]. unfold is_partial, upd; cbn; apply dR_id.
    - exists (fun y => y 0%nat). split; [exact D0|]. unfold is_partial, upd; cbn; apply dR_const. }
  split; [cbn; reflexivity|]. split; [cbn; lra|]. intros U EU (_ & _ & _ & H4). cbn in EU. injection EU as <-.
  specialize (H4 0%nat 0%nat 1%nat ltac:(cbn; lia) ltac:(lia) ltac:(lia)). revert H4. cbn [r_shift r_scale r_obj_shift r_obj_scale]. intros H4.
  match type of H4 with is_partial2 ?g _ _ ?x ?v => assert (K : is_partial2 g 0 1 x (/ 2)) end.
  { exists (fun y => y 0%nat / 2). split.
    - intros y. unfold is_partial, scaled_fun, unscaled, hx_f, upd. cbn.
      apply (dR_ext (fun t => y 0%nat / 2 * t)); [intros t; field|]. eapply dR_val; [apply dR_scal, dR_id|ring].
    - unfold is_partial, upd. cbn. apply (dR_ext (fun t => / 2 * t)); [intros; field|]. eapply dR_val; [apply dR_scal, dR_id|ring]. }
  assert (Q := partial2_unique _ _ _ _ _ _ H4 K). cbn in Q. lra.
Qed.
Print Assumptions C18_scaled_hessian_refuted.

(** ** The hypotheses of C16-C18 are met: three points in the plane, smallest distance 2 requested, an
    anisotropic scale, box and linear constraints, function data *)
Definition ex_X : mat := mkmat 3 2 (fun p i => match p, i with 1%nat, 0%nat => 1 | 2%nat, 1%nat => 3 | _, _ => 0 end).
Definition ex_o : objdata := mkobj (mkvec 3 (fun p => INR p)) (Some (vconst 3 (/ 10))) (Some (mconst 3 2 1)) None.
Definition ex_calls : list call :=
  [CXscale None (Some hx_s); CObj ex_o true true; CBox (vconst 2 (-5)) (vconst 2 5); CLin (mconst 1 2 1) (vconst 1 0) (vconst 1 4);
   CXscale None None; CObjScl None (Some 3)].
Ltac iso := match goal with |- context [isoscaling ?Y ?d ?b] => let c := fresh "c" in let E := fresh "E" in destruct (isoscaling_ok Y d b ltac:(cbn; lia)) as (c & E); rewrite E; clear E end.
Example C16_C18_reachable : exists r0 r, rescaling_init ex_X (Some 1%nat) true Xvmin (Some 2) = Ok r0 /\ do_calls r0 ex_calls = Ok r /\
  scale_cfg_ok ex_X Xvmin (Some 2) /\ List.Forall call_pos ex_calls /\
  r_obj r = Some ex_o /\ r_box r = Some (vconst 2 (-5), vconst 2 5) /\ r_lin r = Some (mconst 1 2 1, vconst 1 0, vconst 1 4).
Proof.
  assert (V : vpositive hx_s = true).
  { unfold vpositive, hx_s. cbn. destruct (Rlt_dec 0 1); [|lra]. destruct (Rlt_dec 0 2); [reflexivity|lra]. }
  assert (A : exists r0 r, rescaling_init ex_X (Some 1%nat) true Xvmin (Some 2) = Ok r0 /\ do_calls r0 ex_calls = Ok r /\
     r_obj r = Some ex_o /\ r_box r = Some (vconst 2 (-5), vconst 2 5) /\ r_lin r = Some (mconst 1 2 1, vconst 1 0, vconst 1 4)).
  { unfold rescaling_init, set_xscale_data, calc_x_shift_n_scale; cbn -[isoscaling do_calls]. iso. cbn -[isoscaling do_calls].
    match goal with |- exists r0 r, Ok ?x = Ok r0 /\ _ => exists x end.
    cbn [do_calls do_call ex_calls]. unfold set_xscale_data at 1, calc_x_shift_n_scale. rewrite V. cbn -[isoscaling set_xscale_data set_obj_data set_boxcon set_lincon set_obj_scaling]. iso.
    cbn -[isoscaling set_xscale_data set_obj_data set_boxcon set_lincon set_obj_scaling]. 
    match goal with |- context [set_obj_data ?r ?o ?a ?b] => destruct (set_obj_data_total r o a b eq_refl ltac:(cbn; lia) ltac:(intros ? EE; injection EE as <-; reflexivity) ltac:(discriminate)) as (r1 & E1) end.
    rewrite E1. unfold set_obj_data in E1. binv_assert E1. binv E1 ss E2. destruct ss as (sh, sc). binv E1 os E3. injection E1 as <-.
    cbn -[isoscaling set_xscale_data]. unfold set_xscale_data, calc_x_shift_n_scale. cbn -[isoscaling]. iso. cbn.
    eexists. split; [reflexivity|]. split; [reflexivity|]. split; [reflexivity|]. split; reflexivity. }
  destruct A as (r0 & r & A1 & A2 & A3 & A4 & A5). exists r0, r.
  split; [exact A1|]. split; [exact A2|].
  split; [split; [intros v E; injection E as <-; lra|discriminate]|]. split; [|auto].
  unfold ex_calls. repeat (apply List.Forall_cons; [cbn; try exact I; lra|]). apply List.Forall_nil.
Qed.
