(** C06 / C08 below the floor 1e-16 on the scaled distance of the Matern-5/2 kernel
    (kernel/KernelMatern5f2.py: nu is clipped at 1e-16 before it is inverted). *)
From Coq Require Import Reals List Arith Bool Lia Lra Psatz.
From Coquelicot Require Import Coquelicot.
From Verif.Base Require Import NpLite NpFacts Deriv.
From Verif.Spec Require Import KernelSpec.
From Verif.Model Require Import KernelSqExp KernelMatern KernelRatQuad KernelDispatch.
From Verif.Proofs Require Import KernTac KernGradBlocks ThetaGradBlocks RadialCalculus RadialFns KernelExact ThetaGrad HessX HessX2 KernelExtra.
Import ListNotations.
Local Open Scope R_scope.

(** the third derivative of the radial function, without the floor *)
Definition mtrue3 (s : R) : R := if Rlt_dec 0 s then ma3 s else 0.

Lemma mtrue3_lt s : 0 < s -> sqrt s < nu_floor -> mtrue3 s < phi3 Ma5f2 0 s.
Proof.
  intros Hs Hf. unfold mtrue3. destruct (Rlt_dec 0 s) as [_|C]; [|contradiction].
  assert (Hn := sqrt_lt_R0 s Hs). cbn [phi3]. unfold ma3. rewrite Rmax_right by lra.
  assert (EP : 0 < matern_Abase_entry (sqrt s)) by apply exp_pos.
  assert (P5 : 0 < sqrt 5) by (apply sqrt_lt_R0; lra).
  set (A := matern_Abase_entry (sqrt s)) in *.
  assert (I : / nu_floor < / sqrt s) by (apply Rinv_lt_contravar; [apply Rmult_lt_0_compat; lra | exact Hf]).
  apply Rminus_gt_0_lt.
  replace (- (25 * sqrt 5 / 24) * / nu_floor * A - - (25 * sqrt 5 / 24) / sqrt s * A)
    with (25 * sqrt 5 / 24 * A * (/ sqrt s - / nu_floor)) by (unfold Rdiv; ring).
  repeat apply Rmult_lt_0_compat; lra.
Qed.

Section true.
Variables (d : nat) (th : nat -> R) (X : nat -> pt) (e : nat).
Hypothesis Hpos : forall i, (i < d)%nat -> 0 < th i.
Hypothesis He : (e < d)%nat.
Lemma d2_true p q :
   is_derive (fun t => phi2 Ma5f2 0 (sqd d (upd th e t) (X p) (X q))) (th e)
   ((X p e - X q e) ^ 2 * mtrue3 (sqd d th (X p) (X q))).
Proof.
  cbn [phi2]. unfold mtrue3. destruct (Rlt_dec 0 (sqd d th (X p) (X q))) as [Hs|Hs].
  - apply (deriv_th Dpos ma2 ma3); [exact He | apply ma_d23 |].
    set (s0 := sqd d th (X p) (X q)) in *. set (c := (X p e - X q e) ^ 2).
    assert (Hc : 0 <= c) by apply pow2_ge_0.
    exists (s0 / (c + 1)). split; [apply Rdiv_lt_0_compat; lra|].
    intros t Ht. unfold Dpos. rewrite sqd_upd_th by exact He. fold s0 c.
    assert (Hb : Rabs ((t - th e) * c) < s0).
    { rewrite Rabs_mult, (Rabs_pos_eq c) by exact Hc.
      apply Rle_lt_trans with (Rabs (t - th e) * (c + 1)).
      - apply Rmult_le_compat_l; [apply Rabs_pos | lra].
      - apply Rmult_lt_reg_r with (/ (c + 1)); [apply Rinv_0_lt_compat; lra|].
        replace (Rabs (t - th e) * (c + 1) * / (c + 1)) with (Rabs (t - th e)) by (field; lra). exact Ht. }
    apply Rabs_def2 in Hb. lra.
  - assert (Z : sqd d th (X p) (X q) = 0).
    { assert (N := sqd_nonneg d th (X p) (X q)). assert (0 <= sqd d th (X p) (X q)) by (apply N; intros; left; auto). lra. }
    assert (EX : forall i, (i < d)%nat -> X p i = X q i) by (intros i Hi; apply (sqd_pos_nz d th); auto).
    apply (dR_ext (fun _ => ma2 (sqd d th (X p) (X q)))); [|eapply dR_val; [apply (dR_const (ma2 (sqd d th (X p) (X q)))) |]].
    + intros t. apply (f_equal ma2). apply sqd_zero_eq. exact EX.
    + ring.
Qed.
End true.

(** the matrix is differentiable in every component of theta, with no condition on the distances *)
Theorem matern_derivative_exists X theta Rt e :
  vlen theta = nc X -> (forall i, (i < nc X)%nat -> 0 < vat theta i) ->
  calc_Rtensor X X = Ok Rt -> (e < nc X)%nat ->
  exists del Kt, 0 < del /\
    (forall t, Rabs (t - vat theta e) < del -> calc_KernGrad Ma5f2 Rt (vset theta e t) None None None = Ok (Kt t) /\
        nr (Kt t) = (nr X + nr X * nc X)%nat /\ nc (Kt t) = (nr X + nr X * nc X)%nat) /\
    forall a b, rvalid (nr X) (nr X) (nc X) a -> rvalid (nr X) (nr X) (nc X) b ->
      is_derive (fun t => mat_at (Kt t) (radr (nr X) (nr X) a) (radr (nr X) (nr X) b)) (vat theta e)
        (rk_th (vat theta) (fun i p q => rows_of X p i - rows_of X q i)
         (fun p q => phi1 Ma5f2 0 (sqd (nc X) (vat theta) (rows_of X p) (rows_of X q)))
         (fun p q => phi2 Ma5f2 0 (sqd (nc X) (vat theta) (rows_of X p) (rows_of X q)))
         (fun p q => mtrue3 (sqd (nc X) (vat theta) (rows_of X p) (rows_of X q))) (osel None) e a b).
Proof.
  intros Hd Hpos ERt He.
  assert (HRt := rok_inv _ _ _ (Rtensor_ok X X eq_refl) ERt). cbv beta in HRt.
  assert (Hhp : hp_ok Ma5f2 None) by exact I.
  set (th := vat theta) in *. set (n := nr X) in *. set (d := nc X) in *.
  exists (th e), (fun t => get_mat (calc_KernGrad Ma5f2 Rt (vset theta e t) None None None)).
  split; [apply Hpos, He|].
  assert (Hnear : forall t, Rabs (t - th e) < th e ->
     rok (calc_KernGrad Ma5f2 Rt (vset theta e t) None None None) (fun K => bspec n n d n n d K
       (rkk Ma5f2 0 d (upd th e t) (rows_of X) (rows_of X) (osel None) (osel None)))).
  { intros t Ht. apply (KernGrad_blocks Ma5f2 Rt (vset theta e t) None d n n (rows_of X) (rows_of X) None None HRt); auto.
    all: try (apply th_ok_nn; intros i Hi; left; exact (th_near_pos d th e He Hpos t Ht i Hi)).
    all: try exact I; try apply masks_ok_same. }
  split.
  - intros t Ht. destruct (rok_ex _ _ (Hnear t Ht)) as (K & EK & K1 & K2 & _). rewrite EK. simpl. auto.
  - intros ra ca V1 V2.
    eapply (dR_ext_near (fun t => rkk Ma5f2 0 d (upd th e t) (rows_of X) (rows_of X) (osel None) (osel None) ra ca) _ _ _ (th e)); [apply Hpos, He | | ].
    + intros t Ht. destruct (rok_ex _ _ (Hnear t Ht)) as (K & EK & K1 & K2 & HK). rewrite EK. simpl.
      symmetry. apply HK; assumption.
    + unfold rkk.
      apply (rk_th_derive d th (rows_of X) (osel None) (phi0 Ma5f2 0) (phi1 Ma5f2 0) (phi2 Ma5f2 0)
        (fun p q => mtrue3 (sqd d th (rows_of X p) (rows_of X q))) e n n); auto.
      * intros p q _ _. apply (d0_th Ma5f2 None d th (rows_of X)); auto.
      * intros p q _ _. apply (d1_th Ma5f2 None d th (rows_of X)); auto.
      * intros p q Hp Hq. apply (d2_true d th (rows_of X)); auto.
Qed.

Theorem matern_theta_below_floor X theta Rt :
  vlen theta = nc X -> (forall i, (i < nc X)%nat -> 0 < vat theta i) ->
  calc_Rtensor X X = Ok Rt ->
  exists T, calc_KernGrad_grad_th Ma5f2 Rt theta None None = Ok T /\
    forall e p q, (e < nc X)%nat -> (p < nr X)%nat -> (q < nr X)%nat ->
      mat_at X p e <> mat_at X q e ->
      sqrt (sqd (nc X) (vat theta) (rows_of X p) (rows_of X q)) < nu_floor ->
      (exists D, is_mat_derive (fun t => calc_KernGrad Ma5f2 Rt (vset theta e t) None None None)
         (vat theta e) (nr X + nr X * nc X) (nr X + nr X * nc X) D) /\
      forall D, is_mat_derive (fun t => calc_KernGrad Ma5f2 Rt (vset theta e t) None None None)
         (vat theta e) (nr X + nr X * nc X) (nr X + nr X * nc X) D ->
        tat T e (nr X + e * nr X + p) (nr X + e * nr X + q) < D (nr X + e * nr X + p)%nat (nr X + e * nr X + q)%nat.
Proof.
  intros Hd Hpos ERt.
  assert (HRt := rok_inv _ _ _ (Rtensor_ok X X eq_refl) ERt). cbv beta in HRt.
  assert (Hhp : hp_ok Ma5f2 None) by exact I.
  destruct (rok_ex _ _ (grad_th_blocks Ma5f2 Rt theta None _ _ _ None HRt Hd Hhp I)) as (T & ET & T0 & T1 & T2 & HT).
  exists T. split; [exact ET|]. intros e p q He Hp Hq Hne Hnu.
  destruct (matern_derivative_exists X theta Rt e Hd Hpos ERt He) as (del' & Kt' & Hdel' & H1' & H2').
  split.
  { eexists. exists del', Kt'. split; [exact Hdel'|]. split; [exact H1'|].
    intros r c Hr Hc. destruct (unradr_ok (nr X) (nr X) (nc X) r Hr) as [V1 A1]. destruct (unradr_ok (nr X) (nr X) (nc X) c Hc) as [V2 A2].
    assert (H := H2' _ _ V1 V2). rewrite A1, A2 in H.
    exact H || (pattern r, c in H; exact H). }
  intros D (del & Kt & Hdel & H1 & H2).
  set (ga := G e p). set (gb := G e q).
  assert (Va : rvalid (nr X) (nr X) (nc X) ga) by (split; assumption).
  assert (Vb : rvalid (nr X) (nr X) (nc X) gb) by (split; assumption).
  assert (V := HT e ga gb He Va Vb).
  assert (W := H2' ga gb Va Vb).
  assert (Ba : (nr X + e * nr X + p < nr X + nr X * nc X)%nat) by nia.
  assert (Bb : (nr X + e * nr X + q < nr X + nr X * nc X)%nat) by nia.
  cbn [opt_count] in V.
  cbn [radr ga gb] in V, W. unfold ga, gb in V, W. cbn [radr] in V, W. rewrite V.
  assert (ED := dR_unique _ _ _ _ (H2 _ _ Ba Bb)
    (dR_ext_near _ _ _ _ (Rmin del del') (Rmin_pos _ _ Hdel Hdel')
      (fun t Ht => eq_sym (f_equal (fun K => mat_at K (nr X + e * nr X + p) (nr X + e * nr X + q))
         (let A1 := proj1 (H1 t (Rlt_le_trans _ _ _ Ht (Rmin_l _ _))) in
          let A2 := proj1 (H1' t (Rlt_le_trans _ _ _ Ht (Rmin_r _ _))) in
          match eq_trans (eq_sym A1) A2 in (_ = y) return (match y with Ok k => Kt t = k | Err _ => True end) with eq_refl => eq_refl end))) W)).
  rewrite ED. unfold ga, gb, rk_th, th_entry. rewrite !Nat.eqb_refl. cbn [andb].
  unfold cu. cbn [osel].
  assert (Hr : 0 < (rows_of X p e - rows_of X q e) ^ 2).
  { apply pow2_gt_0. unfold rows_of. lra. }
  assert (Hs : 0 < sqd (nc X) (vat theta) (rows_of X p) (rows_of X q)).
  { destruct (Rle_lt_dec (sqd (nc X) (vat theta) (rows_of X p) (rows_of X q)) 0) as [H|H]; [|exact H].
    assert (N : 0 <= sqd (nc X) (vat theta) (rows_of X p) (rows_of X q)) by (apply sqd_nonneg; intros; left; auto).
    exfalso. apply Hne. apply (sqd_pos_nz (nc X) (vat theta) (rows_of X p) (rows_of X q) e); auto. lra. }
  assert (L := mtrue3_lt _ Hs Hnu).
  cbn [hp_val]. set (A := phi3 Ma5f2 0 _) in *. set (B := mtrue3 _) in *.
  assert (Ht := Hpos e He).
  assert (M : 4 * vat theta e ^ 2 * (rows_of X p e - rows_of X q e) ^ 2 * (rows_of X p e - rows_of X q e) ^ 2 * B
            < 4 * vat theta e ^ 2 * (rows_of X p e - rows_of X q e) ^ 2 * (rows_of X p e - rows_of X q e) ^ 2 * A).
  { apply Rmult_lt_compat_l; [|exact L]. assert (0 < vat theta e ^ 2) by (apply pow_lt; exact Ht).
    apply Rmult_lt_0_compat; [apply Rmult_lt_0_compat; [apply Rmult_lt_0_compat; [lra|]|]|]; assumption. }
  lra.
Qed.

(** C08: the x-derivative tensor *)
Lemma is_cov_dx_unique k l i x b v v' : is_cov_dx k l i x b v -> is_cov_dx k l i x b v' -> v = v'.
Proof.
  intros (g & G1 & D1) (g' & G2 & D2). eapply dR_unique; [exact D1|].
  eapply dR_ext; [|exact D2]. intros t. cbv beta. apply (is_cov_unique k (Der i (upd x l t)) b); auto.
Qed.

Theorem matern_x_below_floor X Y theta :
  nc X = nc Y -> vlen theta = nc X -> (forall i, (i < nc X)%nat -> 0 < vat theta i) ->
  exists Rt T, calc_Rtensor X Y = Ok Rt /\ calc_KernGrad_grad_x Ma5f2 Rt theta None None = Ok T /\
    forall l p q, (l < nc X)%nat -> (p < nr X)%nat -> (q < nr Y)%nat ->
      mat_at X p l <> mat_at Y q l ->
      sqrt (sqd (nc X) (vat theta) (rows_of X p) (rows_of Y q)) < nu_floor ->
      (exists v, is_cov_dx (k_matern (nc X) (vat theta)) l l (rows_of X p) (Der l (rows_of Y q)) v) /\
      forall v, is_cov_dx (k_matern (nc X) (vat theta)) l l (rows_of X p) (Der l (rows_of Y q)) v ->
        tat T l (l * nr X + p) (nr Y + l * nr Y + q) <> v.
Proof.
  intros E Hd Hpos.
  assert (Hhp : hp_ok Ma5f2 None) by exact I.
  assert (Hth : th_ok Ma5f2 (nc X) (vat theta)) by (apply th_ok_nn; intros; left; auto).
  destruct (rok_ex _ _ (Rtensor_ok X Y E)) as (Rt & ERt & HRt).
  destruct (rok_ex _ _ (grad_x_blocks Ma5f2 Rt theta None _ _ _ _ _ None HRt Hd Hhp I)) as (T & ET & T0 & T1 & T2 & HT).
  exists Rt, T. split; [exact ERt|]. split; [exact ET|].
  intros l p q Hl Hp Hq Hne Hnu.
  set (d := nc X) in *. set (th := vat theta) in *. set (x := rows_of X p) in *. set (y := rows_of Y q) in *.
  assert (Hxy : x l <> y l) by exact Hne.
  assert (Hs : 0 < sqd d th x y).
  { destruct (Rle_lt_dec (sqd d th x y) 0) as [H|H]; [|exact H].
    assert (N : 0 <= sqd d th x y) by (apply sqd_nonneg; intros; left; auto).
    exfalso. apply Hxy. apply (sqd_pos_nz d th x y l); auto. lra. }
  assert (W : is_cov_dx (k_matern d th) l l x (Der l y)
    (- (4 * th l * th l * delta l l * (x l - y l) + 4 * th l * th l * (delta l l * (x l - y l) + delta l l * (x l - y l))) * phi2 Ma5f2 0 (sqd d th x y)
      - 8 * th l * th l * th l * (x l - y l) * (x l - y l) * (x l - y l) * mtrue3 (sqd d th x y))).
  { apply (is_cov_dx_ext (fun x y => phi0 Ma5f2 0 (sqd d th x y))); [intros; apply (phi0_kfun Ma5f2)|].
    apply (hess_G d th (Dk Ma5f2) (phi0 Ma5f2 0) (phi1 Ma5f2 0) (phi2 Ma5f2 0) mtrue3); auto.
    - apply Dk_sqd; exact Hth.
    - apply (phi_d01 Ma5f2 None); exact I.
    - apply (phi_d12 Ma5f2 None); exact I.
    - left. eapply dR_val.
      + apply (deriv_on_comp_loc Dpos ma2 ma3 (fun t => sqd d th (upd x l t) y)).
        * apply ma_d23.
        * unfold Dpos. rewrite sqd_upd_id'. exact Hs.
        * assert (Cn : continuous (fun t => sqd d th (upd x l t) y) (x l)).
          { eapply cont_of_derive. apply is_derive_sqd_l; exact Hl. }
          apply (Cn (fun u => 0 < u)). rewrite sqd_upd_id'. apply open_gt. exact Hs.
        * apply is_derive_sqd_l; exact Hl.
      + rewrite sqd_upd_id'. unfold mtrue3. destruct (Rlt_dec 0 (sqd d th x y)); [|contradiction]. unfold Rdiv. ring. }
  split; [eexists; exact W|]. intros v Hv. rewrite (is_cov_dx_unique _ _ _ _ _ _ _ Hv W). clear v Hv.
  assert (V := HT l (G l p) (G l q) Hl (conj Hl Hp) (conj Hl Hq)). cbn [radr Nat.add opt_count] in V.
  rewrite V. unfold hx. cbn [osel hp_val].
  fold x y th d.
  assert (L := mtrue3_lt _ Hs Hnu). set (A := phi3 Ma5f2 0 _) in *. set (B := mtrue3 _) in *.
  intros C.
  assert (Z : (8 * th l * th l * th l * (x l - y l) * (x l - y l) * (x l - y l)) * (A - B) = 0) by lra.
  assert (Ht := Hpos l Hl). fold th in Ht.
  apply Rmult_integral in Z. destruct Z as [Z|Z]; [|lra].
  assert (NZ : x l - y l <> 0) by lra. revert Z. 
  repeat apply Rmult_integral_contrapositive_currified; lra.
Qed.
