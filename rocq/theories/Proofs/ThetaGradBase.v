(** C06 (gradient-free matrices): exact for SqExp and RatQu, wrong for Ma5f2. *)
From Coq Require Import Reals List Arith Bool Lia Lra Psatz.
From Coquelicot Require Import Coquelicot.
From Verif.Base Require Import NpLite NpFacts Deriv.
From Verif.Spec Require Import KernelSpec.
From Verif.Model Require Import KernelSqExp KernelMatern KernelRatQuad KernelDispatch.
From Verif.Proofs Require Import KernTac KernGradBlocks ThetaGradBlocks RadialCalculus RadialFns KernelExact ThetaGrad.
Import ListNotations.
Local Open Scope R_scope.

Lemma tset_whole_ok d n m T f k A v : tspec d n m T f -> (k < d)%nat -> mspec n m A v ->
  rok (tset T k 0 n 0 m A)
      (fun T' => tspec d n m T' (fun k' i j => if (k' =? k)%nat then v i j else f k' i j)).
Proof.
  intros HT Hk HA. unfold tset, tupd.
  eapply rok_bind; [eapply tget_ok; eassumption|]. intros S HS.
  eapply rok_bind.
  - exact (mupd_whole_ok (fun _ v => v) n m S _ A v HS HA).
  - intros S' HS'. eapply rok_mono; [eapply (tput_ok d n m T f k S' v HT Hk HS')|]. auto.
Qed.
Lemma slice_loop d n m (v : nat -> nat -> nat -> R) body :
  (forall k T f, (k < d)%nat -> tspec d n m T f ->
     rok (body k T) (fun T' => tspec d n m T' (fun k' i j => if (k' =? k)%nat then v k i j else f k' i j))) ->
  rok (for_range 0 d body (tconst d n m 0)) (fun T => tspec d n m T v).
Proof.
  intros Hb. eapply rok_mono.
  - apply (rok_for_range (fun k T => tspec d n m T (fun e i j => if (e <? k)%nat then v e i j else 0))); [lia| |].
    + repeat split; auto.
    + intros k T Hk HT. eapply rok_mono; [apply (Hb k T _ (proj2 Hk) HT)|].
      intros T' (A & B & C & D). repeat split; auto. intros e i j He Hi Hj. rewrite D by auto.
      destruct (Nat.eqb_spec e k); natcase; subst; try reflexivity; lia.
  - intros T (A & B & C & D). repeat split; auto. intros e i j He Hi Hj. rewrite D by auto. natcase; reflexivity.
Qed.

(** the slices computed by the three gradient-free methods *)
Definition base_th_entry (k : kernel) (a : R) (s : R) : R :=
  match k with
  | SqExp => - exp (- s)
  | Ma5f2 => - (sqrt 5 * / (2 * Rmax (sqrt s) nu_floor) * matern_base_entry (sqrt s))
  | RatQu => - rat_pow a (- a - 1) s
  end.
Lemma base_grad_th_blocks k Rt theta hp d n X :
  tspec d n n Rt (fun i p q => X p i - X q i) -> vlen theta = d -> hp_ok k hp ->
  rok (calc_KernBase_grad_th k Rt theta hp)
    (fun T => tspec d n n T (fun e p q => (X p e - X q e) ^ 2 * base_th_entry k (hp_val hp) (sqd d (vat theta) (X p) (X q)))).
Proof.
  intros HR Hd Hhp. assert (Hv : vspec d theta (vat theta)) by (split; [exact Hd | auto]).
  destruct k; simpl in *.
  - unfold sq_exp_calc_KernBase_grad_th. eapply rok_bind; [eapply sq_exp_sum_ok; eassumption|].
    intros A HA. cbv beta in HA. cbv zeta. rewrite Hd.
    assert (H := HR); destruct H as (-> & -> & -> & _).
    apply slice_loop. intros k T f Hk HT. msteps. eapply rok_mono; [eapply tset_whole_ok; [eassumption | exact Hk | mspec_tac]|].
    intros T' (E0 & E1 & E2 & E3). repeat split; auto. intros e p q He Hp Hq. rewrite E3 by auto. unfold sqd.
    destruct (Nat.eqb_spec e k); [subst|reflexivity]. cbv beta. simpl. ring.
  - unfold matern_calc_KernBase_grad_th. assert (H := HR); destruct H as (-> & -> & -> & _). rewrite Nat.eqb_refl. cbn [assert_ bind]. cbv zeta.
    eapply rok_bind; [eapply nu_mat_ok; eassumption|].
    intros A HA. cbv beta in HA. 
    apply slice_loop. intros k T f Hk HT. msteps. eapply rok_mono; [eapply tset_whole_ok; [eassumption | exact Hk | mspec_tac]|].
    intros T' (E0 & E1 & E2 & E3). repeat split; auto. intros e p q He Hp Hq. rewrite E3 by auto. unfold sqd.
    destruct (Nat.eqb_spec e k); [subst|reflexivity]. cbv beta. simpl. ring.
  - destruct Hhp as (a & -> & Ha). simpl.
    unfold rat_calc_KernBase_grad_th. assert (H := HR); destruct H as (-> & -> & -> & _). rewrite Nat.eqb_refl. cbn [assert_ bind]. cbv zeta.
    eapply rok_bind; [eapply pos_sum_ok; eassumption|].
    intros A HA. cbv beta in HA. 
    apply slice_loop. intros k T f Hk HT. msteps. eapply rok_mono; [eapply tset_whole_ok; [eassumption | exact Hk | mspec_tac]|].
    intros T' (E0 & E1 & E2 & E3). repeat split; auto. intros e p q He Hp Hq. rewrite E3 by auto. unfold sqd.
    destruct (Nat.eqb_spec e k); [subst|reflexivity]. cbv beta. simpl. ring.
Qed.
(** the true slice of any of the kernels, for comparison *)
Lemma KernBase_derive k X theta hp Rt e :
  vlen theta = nc X -> (forall i, (i < nc X)%nat -> 0 < vat theta i) -> hp_ok k hp ->
  calc_Rtensor X X = Ok Rt -> (e < nc X)%nat ->
  is_mat_derive (fun t => calc_KernBase k Rt (vset theta e t) hp) (vat theta e) (nr X) (nr X)
    (fun p q => (rows_of X p e - rows_of X q e) ^ 2 * phi1 k (hp_val hp) (sqd (nc X) (vat theta) (rows_of X p) (rows_of X q))).
Proof.
  intros Hd Hpos Hhp ERt He.
  assert (HRt := rok_inv _ _ _ (Rtensor_ok X X eq_refl) ERt). cbv beta in HRt.
  set (th := vat theta) in *. set (n := nr X) in *. set (d := nc X) in *.
  exists (th e), (fun t => get_mat (calc_KernBase k Rt (vset theta e t) hp)).
  split; [apply Hpos, He|].
  assert (Hnear : forall t,
     rok (calc_KernBase k Rt (vset theta e t) hp) (fun K => mspec n n K
       (fun p q => phi0 k (hp_val hp) (sqd d (upd th e t) (rows_of X p) (rows_of X q))))).
  { intros t. apply (KernBase_blocks k Rt (vset theta e t) hp d n n (rows_of X) (rows_of X) HRt); auto. }
  split.
  - intros t Ht. destruct (rok_ex _ _ (Hnear t)) as (K & EK & K1 & K2 & _). rewrite EK. simpl. auto.
  - intros p q Hp Hq.
    eapply (dR_ext (fun t => phi0 k (hp_val hp) (sqd d (upd th e t) (rows_of X p) (rows_of X q)))).
    + intros t. destruct (rok_ex _ _ (Hnear t)) as (K & EK & K1 & K2 & HK). rewrite EK. simpl.
      symmetry. apply HK; assumption.
    + apply (d0_th k hp d th (rows_of X)); auto.
Qed.

Theorem KernBase_theta_gradient k X theta hp Rt :
  k <> Ma5f2 ->
  vlen theta = nc X -> (forall i, (i < nc X)%nat -> 0 < vat theta i) -> hp_ok k hp ->
  calc_Rtensor X X = Ok Rt ->
  exists T, calc_KernBase_grad_th k Rt theta hp = Ok T /\
    is_theta_gradient (fun th => calc_KernBase k Rt th hp) theta T.
Proof.
  intros Hk Hd Hpos Hhp ERt.
  assert (HRt := rok_inv _ _ _ (Rtensor_ok X X eq_refl) ERt). cbv beta in HRt.
  destruct (rok_ex _ _ (base_grad_th_blocks k Rt theta hp _ _ _ HRt Hd Hhp)) as (T & ET & T0 & T1 & T2 & HT).
  exists T. split; [exact ET|]. split; [congruence|]. rewrite Hd, T1, T2. intros e He.
  destruct (KernBase_derive k X theta hp Rt e Hd Hpos Hhp ERt He) as (del & Kt & Hdel & H1 & H2).
  exists del, Kt. split; [exact Hdel|]. split; [exact H1|].
  intros r c Hr Hc. eapply dR_val; [apply H2; auto|]. rewrite HT by auto.
  destruct k; try congruence; simpl; unfold se1, rq1; ring.
Qed.
(** the Matern slice differs from the derivative at every pair of points differing in that direction
    (as soon as they are further apart than the floor) *)
Theorem KernBase_theta_gradient_matern_wrong X theta Rt :
  vlen theta = nc X -> (forall i, (i < nc X)%nat -> 0 < vat theta i) ->
  calc_Rtensor X X = Ok Rt ->
  exists T, calc_KernBase_grad_th Ma5f2 Rt theta None = Ok T /\
    forall e p q D, (e < nc X)%nat -> (p < nr X)%nat -> (q < nr X)%nat ->
      mat_at X p e <> mat_at X q e ->
      nu_floor <= sqrt (sqd (nc X) (vat theta) (rows_of X p) (rows_of X q)) ->
      is_mat_derive (fun t => calc_KernBase Ma5f2 Rt (vset theta e t) None) (vat theta e) (nr X) (nr X) D ->
      tat T e p q < D p q.
Proof.
  intros Hd Hpos ERt.
  assert (HRt := rok_inv _ _ _ (Rtensor_ok X X eq_refl) ERt). cbv beta in HRt.
  assert (Hhp : hp_ok Ma5f2 None) by exact I.
  destruct (rok_ex _ _ (base_grad_th_blocks Ma5f2 Rt theta None _ _ _ HRt Hd Hhp)) as (T & ET & T0 & T1 & T2 & HT).
  exists T. split; [exact ET|]. intros e p q D He Hp Hq Hne Hnu (del & Kt & Hdel & H1 & H2).
  destruct (KernBase_derive Ma5f2 X theta None Rt e Hd Hpos Hhp ERt He) as (del' & Kt' & Hdel' & H1' & H2').
  assert (ED : D p q = (rows_of X p e - rows_of X q e) ^ 2 * phi1 Ma5f2 (hp_val None) (sqd (nc X) (vat theta) (rows_of X p) (rows_of X q))).
  { eapply dR_unique; [apply H2; auto|].
    eapply (dR_ext_near _ _ _ _ (Rmin del del')); [apply Rmin_pos; assumption | | apply (H2' p q); auto].
    intros t Ht. destruct (H1 t) as [A1 _]; [eapply Rlt_le_trans; [exact Ht | apply Rmin_l]|].
    destruct (H1' t) as [A2 _]; [eapply Rlt_le_trans; [exact Ht | apply Rmin_r]|].
    rewrite A1 in A2. congruence. }
  rewrite ED, HT by auto. cbn [base_th_entry phi1]. unfold ma1.
  set (nu := sqrt (sqd (nc X) (vat theta) (rows_of X p) (rows_of X q))) in *.
  rewrite (Rmax_left _ _ Hnu).
  assert (Hfl : 0 < nu_floor) by (unfold nu_floor; apply Rinv_0_lt_compat, pow_lt; lra).
  assert (Hn : 0 < nu) by lra.
  assert (Hr : 0 < (rows_of X p e - rows_of X q e) ^ 2).
  { apply pow2_gt_0. unfold rows_of. lra. }
  apply Rmult_lt_compat_l; [exact Hr|].
  unfold matern_base_entry, matern_mat1_entry.
  assert (S5 := sq5). assert (P5 : 0 < sqrt 5) by (apply sqrt_lt_R0; lra).
  assert (EP := exp_pos (- sqrt 5 * nu)). set (E := exp (- sqrt 5 * nu)) in *. set (s := sqrt 5) in *.
  clearbody E s. clear - S5 P5 EP Hn.
  apply Rminus_gt_0_lt.
  match goal with |- 0 < ?x => replace x with ((s / (2 * nu) + 5 / 3) * E) end.
  - apply Rmult_lt_0_compat; [|exact EP]. assert (0 < s / (2 * nu)) by (apply Rdiv_lt_0_compat; lra). lra.
  - apply Rminus_diag_uniq. field_simplify; [|lra..]. 
    match goal with |- ?n / ?d = 0 => replace n with 0; [unfold Rdiv; ring|] end.
    replace (s ^ 2) with (s * s) by ring. rewrite S5. ring.
Qed.
