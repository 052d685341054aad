(** C06: the theta-derivative tensors are the derivatives of the kernel matrices. *)
From Coq Require Import Reals List Arith Bool Lia Lra Psatz.
From Coquelicot Require Import Coquelicot.
From Verif.Base Require Import NpLite NpFacts Deriv.
From Verif.Spec Require Import KernelSpec.
From Verif.Model Require Import KernelSqExp KernelMatern KernelRatQuad KernelDispatch.
From Verif.Proofs Require Import KernTac KernGradBlocks ThetaGradBlocks RadialCalculus RadialFns KernelExact.
Import ListNotations.
Local Open Scope R_scope.

Lemma sqd_upd_th d th e t x y : (e < d)%nat ->
  sqd d (upd th e t) x y = sqd d th x y + (t - th e) * (x e - y e) ^ 2.
Proof.
  intros He. unfold sqd.
  transitivity (rsum d (fun k => if (k =? e)%nat then t * (x e - y e) ^ 2 else th k * (x k - y k) ^ 2)).
  - apply rsum_ext; intros k _. unfold upd. destruct (Nat.eqb_spec k e); [subst|]; reflexivity.
  - rewrite (rsum_upd d e (fun k => th k * (x k - y k) ^ 2)) by exact He. ring.
Qed.
Lemma upd_id th e (i : nat) : upd th e (th e) i = th i.
Proof. unfold upd. destruct (Nat.eqb_spec i e); subst; reflexivity. Qed.
Lemma sqd_upd_id d th e x y : sqd d (upd th e (th e)) x y = sqd d th x y.
Proof. apply rsum_ext; intros i _. rewrite upd_id. reflexivity. Qed.

(** a deriv_on pair composed with theta |-> sqd *)
Lemma deriv_th D f f1 d th e x y : (e < d)%nat -> deriv_on D f f1 ->
  (exists del, 0 < del /\ forall t, Rabs (t - th e) < del -> D (sqd d (upd th e t) x y)) ->
  is_derive (fun t => f (sqd d (upd th e t) x y)) (th e) ((x e - y e) ^ 2 * f1 (sqd d th x y)).
Proof.
  intros He Hf (del & Hdel & HD).
  eapply dR_val.
  - apply (deriv_on_comp_loc D f f1 (fun t => sqd d (upd th e t) x y) (th e) ((x e - y e) ^ 2) Hf).
    + apply HD. rewrite Rminus_diag_eq by reflexivity. rewrite Rabs_R0. exact Hdel.
    + exists (mkposreal del Hdel). intros t Ht. apply HD. exact Ht.
    + eapply dR_ext; [intros t; symmetry; apply sqd_upd_th; exact He|].
      eapply dR_val; [apply dR_plus; [apply dR_const|]; apply dR_mult; [apply dR_minus; [apply dR_id | apply dR_const] | apply dR_const] |].
      simpl. ring.
  - cbv beta. rewrite sqd_upd_id. reflexivity.
Qed.

Lemma dR_upd (th : nat -> R) e i : is_derive (fun t => upd th e t i) (th e) (delta i e).
Proof.
  unfold upd, delta. destruct (i =? e)%nat; [apply dR_id | apply dR_const].
Qed.

Ltac dR1 :=
  lazymatch goal with
  | |- is_derive (fun _ => _ + _) _ _ => apply dR_plus
  | |- is_derive (fun _ => _ - _) _ _ => apply dR_minus
  | |- is_derive (fun _ => _ * _) _ _ => apply dR_mult
  | |- is_derive (fun _ => - _) _ _ => apply dR_opp
  | |- is_derive (fun t => upd _ _ t _) _ _ => apply dR_upd
  | H : is_derive (fun t => ?f (sqd _ (upd _ _ t) _ _)) _ _ |- is_derive (fun t => ?f (sqd _ (upd _ _ t) _ _)) _ _ => exact H
  | |- _ => first [apply dR_const | apply dR_id]
  end.

Section th_deriv.
Variables (d : nat) (th : nat -> R) (X : nat -> pt) (sl : nat -> nat).
Variables (f0 f1 f2 : R -> R) (p3 : nat -> nat -> R).
Let p0 p q := f0 (sqd d th (X p) (X q)).
Let p1 p q := f1 (sqd d th (X p) (X q)).
Let p2 p q := f2 (sqd d th (X p) (X q)).
Variable e : nat.
Hypothesis He : (e < d)%nat.
Let Rr := fun i p q => X p i - X q i.
Variables (n g : nat).
Hypothesis Hsl : forall p, (p < g)%nat -> (sl p < n)%nat.
Hypothesis D0 : forall p q, (p < n)%nat -> (q < n)%nat -> is_derive (fun t => f0 (sqd d (upd th e t) (X p) (X q))) (th e) (Rr e p q ^ 2 * p1 p q).
Hypothesis D1 : forall p q, (p < n)%nat -> (q < n)%nat -> is_derive (fun t => f1 (sqd d (upd th e t) (X p) (X q))) (th e) (Rr e p q ^ 2 * p2 p q).
Hypothesis D2 : forall p q, (p < n)%nat -> (q < n)%nat -> is_derive (fun t => f2 (sqd d (upd th e t) (X p) (X q))) (th e) (Rr e p q ^ 2 * p3 p q).

Lemma rk_th_derive a b : rvalid n g d a -> rvalid n g d b ->
  is_derive (fun t => rk (upd th e t) Rr
        (fun p q => f0 (sqd d (upd th e t) (X p) (X q))) (fun p q => f1 (sqd d (upd th e t) (X p) (X q)))
        (fun p q => f2 (sqd d (upd th e t) (X p) (X q))) sl sl a b) (th e)
    (rk_th th Rr p1 p2 p3 sl e a b).
Proof.
  intros Va Vb.
  destruct a as [p|i p], b as [q|j q]; unfold rk; cbn [rvalid] in Va, Vb.
  - apply D0; assumption.
  - assert (H1 := D1 p (sl q) Va (Hsl q (proj2 Vb))). eapply dR_val; [repeat dR1|].
    cbv beta. rewrite upd_id, sqd_upd_id. unfold rk_th, th_entry, ct1', ct', delta.
    fold (p1 p (sl q)). destruct (Nat.eqb_spec j e); [subst|]; ring.
  - assert (H1 := D1 (sl p) q (Hsl p (proj2 Va)) Vb). eapply dR_val; [repeat dR1|].
    cbv beta. rewrite upd_id, sqd_upd_id. unfold rk_th, th_entry, ct1, ct, delta.
    fold (p1 (sl p) q). destruct (Nat.eqb_spec i e); [subst|]; ring.
  - assert (H1 := D1 (sl p) (sl q) (Hsl p (proj2 Va)) (Hsl q (proj2 Vb))). assert (H2 := D2 (sl p) (sl q) (Hsl p (proj2 Va)) (Hsl q (proj2 Vb))). eapply dR_val; [repeat dR1|].
    cbv beta. rewrite !upd_id, sqd_upd_id. unfold rk_th, th_entry, cm, ct2, cu, ct4, delta.
    fold (p1 (sl p) (sl q)). fold (p2 (sl p) (sl q)).
    destruct (Nat.eqb_spec i j); [subst|].
    + destruct (Nat.eqb_spec j e); [subst|]; cbn [andb]; ring.
    + destruct (Nat.eqb_spec i e); [subst|]; cbn [andb].
      * destruct (Nat.eqb_spec j e); [congruence|]. destruct (e <? j)%nat; ring.
      * destruct (Nat.eqb_spec j e); [subst|].
        { destruct (i <? e)%nat; ring. }
        { destruct (i <? j)%nat; ring. }
Qed.
End th_deriv.

(** neighbourhoods of a positive theta *)
Lemma th_near_pos d (th : nat -> R) e : (e < d)%nat -> (forall i, (i < d)%nat -> 0 < th i) ->
  forall t, Rabs (t - th e) < th e -> forall i, (i < d)%nat -> 0 < upd th e t i.
Proof.
  intros He Hp t Ht i Hi. unfold upd. destruct (Nat.eqb_spec i e).
  - apply Rabs_def2 in Ht. lra.
  - apply Hp; exact Hi.
Qed.
Lemma sqd_pos_nz d th x y i : (forall i, (i < d)%nat -> 0 < th i) -> (i < d)%nat ->
  sqd d th x y = 0 -> x i = y i.
Proof.
  intros Hp Hi H. assert (E := rsum_nonneg_eq0 d (fun i => th i * (x i - y i) ^ 2)).
  cbv beta in E. assert (Z : th i * (x i - y i) ^ 2 = 0).
  { apply E; auto. intros k Hk. apply Rmult_le_pos; [left; auto | apply pow2_ge_0]. }
  apply Rmult_integral in Z. destruct Z as [Z|Z]; [specialize (Hp i Hi); lra|].
  assert (x i - y i = 0) by nra. lra.
Qed.
Lemma sqd_zero_eq d th th' x y : (forall i, (i < d)%nat -> x i = y i) -> sqd d th x y = sqd d th' x y.
Proof. intros H. apply rsum_ext; intros i Hi. rewrite (H i Hi). ring. Qed.

Definition phi3 (k : kernel) (a : R) (s : R) : R :=
  match k with
  | SqExp => - exp (- s)
  | Ma5f2 => - (25 * sqrt 5 / 24) * / Rmax (sqrt s) nu_floor * matern_Abase_entry (sqrt s)
  | RatQu => - (1 + 1 / a) * (1 + 2 / a) * rat_pow a (- a - 3) s
  end.
(** distances for which the floor on nu is inactive *)
Definition nu_ok (k : kernel) d th (X : nat -> pt) (n : nat) : Prop :=
  k = Ma5f2 -> forall p q, (p < n)%nat -> (q < n)%nat ->
    sqd d th (X p) (X q) = 0 \/ nu_floor <= sqrt (sqd d th (X p) (X q)).

Section all.
Variables (k : kernel) (hp : option R) (d : nat) (th : nat -> R) (X : nat -> pt) (n : nat).
Hypothesis Hhp : hp_ok k hp.
Hypothesis Hpos : forall i, (i < d)%nat -> 0 < th i.
Hypothesis Hnu : nu_ok k d th X n.
Variable e : nat.
Hypothesis He : (e < d)%nat.
Let a := hp_val hp.

Lemma near_nn x y : exists del, 0 < del /\ forall t, Rabs (t - th e) < del -> Dk k (sqd d (upd th e t) x y).
Proof.
  exists (th e). split; [apply Hpos, He|]. intros t Ht. apply Dk_nn. apply sqd_nonneg.
  intros i Hi. left. apply (th_near_pos d th e He Hpos t Ht i Hi).
Qed.
Lemma d0_th p q : is_derive (fun t => phi0 k a (sqd d (upd th e t) (X p) (X q))) (th e)
   ((X p e - X q e) ^ 2 * phi1 k a (sqd d th (X p) (X q))).
Proof. apply (deriv_th (Dk k)); [exact He | apply phi_d01, Hhp | apply near_nn]. Qed.
Lemma d1_th p q : is_derive (fun t => phi1 k a (sqd d (upd th e t) (X p) (X q))) (th e)
   ((X p e - X q e) ^ 2 * phi2 k a (sqd d th (X p) (X q))).
Proof. apply (deriv_th (Dk k)); [exact He | apply phi_d12, Hhp | apply near_nn]. Qed.
Lemma d2_th p q : (p < n)%nat -> (q < n)%nat ->
   is_derive (fun t => phi2 k a (sqd d (upd th e t) (X p) (X q))) (th e)
   ((X p e - X q e) ^ 2 * phi3 k a (sqd d th (X p) (X q))).
Proof.
  intros Hp Hq. unfold a. assert (NN := near_nn (X p) (X q)). destruct k; simpl.
  - apply (deriv_th Dall se2 se3); [exact He | apply se_d23 |]. exists 1. split; [lra | intros; exact I].
  - destruct (Hnu eq_refl p q Hp Hq) as [Z|Z].
    + assert (EX : forall i, (i < d)%nat -> X p i = X q i) by (intros i Hi; apply (sqd_pos_nz d th); auto).
      apply (dR_ext (fun _ => ma2 (sqd d th (X p) (X q)))); [|eapply dR_val; [apply (dR_const (ma2 (sqd d th (X p) (X q)))) |]].
      * intros t. apply (f_equal ma2). apply sqd_zero_eq. exact EX.
      * rewrite (EX e He). ring.
    + assert (Hfl : 0 < nu_floor) by (unfold nu_floor; apply Rinv_0_lt_compat, pow_lt; lra).
      assert (Hs : 0 < sqd d th (X p) (X q)).
      { destruct (Rle_lt_dec (sqd d th (X p) (X q)) 0) as [H|H]; [|exact H].
        rewrite (sqrt_neg_0 _ H) in Z. lra. }
      eapply dR_val.
      * apply (deriv_th Dpos ma2 ma3); [exact He | apply ma_d23 |].
        set (s0 := sqd d th (X p) (X q)) in *. set (c := (X p e - X q e) ^ 2).
        assert (Hc : 0 <= c) by apply pow2_ge_0.
        exists (s0 / (c + 1)). split; [apply Rdiv_lt_0_compat; lra|].
        intros t Ht. unfold Dpos. rewrite sqd_upd_th by exact He. fold s0 c.
        assert (Hb : Rabs ((t - th e) * c) < s0).
        { rewrite Rabs_mult, (Rabs_pos_eq c) by exact Hc.
          apply Rle_lt_trans with (Rabs (t - th e) * (c + 1)).
          - apply Rmult_le_compat_l; [apply Rabs_pos | lra].
          - apply Rmult_lt_reg_r with (/ (c + 1)); [apply Rinv_0_lt_compat; lra|].
            replace (Rabs (t - th e) * (c + 1) * / (c + 1)) with (Rabs (t - th e)) by (field; lra). exact Ht. }
        apply Rabs_def2 in Hb. lra.
      * unfold ma3. rewrite (Rmax_left _ _ Z). unfold Rdiv. ring.
  - destruct Hhp as (al & E & Hal). rewrite E. simpl.
    apply (deriv_th Dnn (rq2 al) (rq3 al)); [exact He | apply rq_d23, Hal | exact NN].
Qed.
End all.

(** ** assembling C06 for the gradient-enhanced matrices *)
Definition full_mask (n : nat) (b : option (list bool)) : Prop :=
  match b with None => True | Some m => m = repeat true n end.
Lemma true_idx_repeat n k : true_idx_from k (repeat true n) = seq k n.
Proof. revert k; induction n; intros k; simpl; f_equal; auto. Qed.
Lemma full_mask_facts n b : full_mask n b ->
  mask_ok n b /\ opt_count n b = n /\ forall p, (p < n)%nat -> osel b p = p.
Proof.
  destruct b as [m|]; simpl; [intros -> | auto]. repeat split.
  - apply repeat_length.
  - clear. induction n; simpl; auto.
  - intros p Hp. unfold sel, true_idx. rewrite true_idx_repeat. rewrite seq_nth by exact Hp. reflexivity.
Qed.
(** masks for which the implementation is right: RatQu any, the others only full masks *)
Definition th_mask_ok (k : kernel) (n : nat) (b : option (list bool)) : Prop :=
  match k with RatQu => mask_ok n b | _ => full_mask n b end.
Lemma th_mask_mok k n b : th_mask_ok k n b -> mask_ok n b.
Proof. destruct k; simpl; auto; apply full_mask_facts. Qed.

Lemma grad_th_blocks k Rt theta hp d n X b :
  tspec d n n Rt (fun i p q => X p i - X q i) -> vlen theta = d -> hp_ok k hp -> th_mask_ok k n b ->
  rok (calc_KernGrad_grad_th k Rt theta hp b)
    (fun T => tbspec d n (opt_count n b) d n (opt_count n b) d T
      (rk_th (vat theta) (fun i p q => X p i - X q i)
         (fun p q => phi1 k (hp_val hp) (sqd d (vat theta) (X p) (X q)))
         (fun p q => phi2 k (hp_val hp) (sqd d (vat theta) (X p) (X q)))
         (fun p q => phi3 k (hp_val hp) (sqd d (vat theta) (X p) (X q))) (osel b))).
Proof.
  intros HR Hd Hhp Hm. assert (Hv : vspec d theta (vat theta)) by (split; [exact Hd | auto]).
  assert (Ha : forall i p q, X q i - X p i = - (X p i - X q i)) by (intros; ring).
  destruct k; simpl in *.
  - destruct (full_mask_facts n b Hm) as (M & C & S).
    exact (sq_exp_grad_th_blocks Rt theta d n _ _ HR Hv Ha b M C S).
  - destruct (full_mask_facts n b Hm) as (M & C & S).
    exact (matern_grad_th_blocks Rt theta d n _ _ HR Hv Ha b M C S).
  - destruct Hhp as (al & -> & Hal). simpl.
    assert (Hne : al <> 0) by lra.
    exact (rat_grad_th_blocks Rt theta d n _ _ HR Hv Ha b Hm al Hne).
Qed.

Lemma nr_tbspec_valid n g d r : (r < n + g * d)%nat -> rvalid n g d (unradr n g r) /\ radr n g (unradr n g r) = r.
Proof. apply unradr_ok. Qed.

Definition get_mat (m : res mat) : mat := match m with Ok K => K | Err _ => mconst 0 0 0 end.

Theorem KernGrad_theta_gradient k X theta hp b Rt :
  vlen theta = nc X -> (forall i, (i < nc X)%nat -> 0 < vat theta i) -> hp_ok k hp ->
  th_mask_ok k (nr X) b -> nu_ok k (nc X) (vat theta) (rows_of X) (nr X) ->
  calc_Rtensor X X = Ok Rt ->
  exists T, calc_KernGrad_grad_th k Rt theta hp b = Ok T /\
    is_theta_gradient (fun th => calc_KernGrad k Rt th hp b b) theta T.
Proof.
  intros Hd Hpos Hhp Hm Hnu ERt.
  assert (HRt := rok_inv _ _ _ (Rtensor_ok X X eq_refl) ERt). cbv beta in HRt.
  destruct (rok_ex _ _ (grad_th_blocks k Rt theta hp _ _ _ b HRt Hd Hhp Hm)) as (T & ET & T0 & T1 & T2 & HT).
  exists T. split; [exact ET|]. split; [congruence|]. rewrite Hd, T1, T2. intros e He.
  set (th := vat theta) in *. set (n := nr X) in *. set (d := nc X) in *. set (g := opt_count n b) in *.
  assert (M := th_mask_mok k n b Hm).
  exists (th e), (fun t => get_mat (calc_KernGrad k Rt (vset theta e t) hp b b)).
  split; [apply Hpos, He|].
  assert (Hnear : forall t, Rabs (t - th e) < th e ->
     rok (calc_KernGrad k Rt (vset theta e t) hp b b) (fun K => bspec n g d n g d K
       (rkk k (hp_val hp) d (upd th e t) (rows_of X) (rows_of X) (osel b) (osel b)))).
  { intros t Ht. apply (KernGrad_blocks k Rt (vset theta e t) hp d n n (rows_of X) (rows_of X) b b HRt); auto.
    - apply th_ok_nn. intros i Hi. left. exact (th_near_pos d th e He Hpos t Ht i Hi).
    - apply masks_ok_same. }
  split.
  - intros t Ht. destruct (rok_ex _ _ (Hnear t Ht)) as (K & EK & K1 & K2 & _). rewrite EK. simpl. auto.
  - intros r c Hr Hc.
    destruct (unradr_ok n g d r Hr) as [V1 A1]. destruct (unradr_ok n g d c Hc) as [V2 A2].
    set (ra := unradr n g r) in *. set (ca := unradr n g c) in *.
    assert (O : forall p, (p < g)%nat -> (osel b p < n)%nat) by (intros p Hp; apply osel_lt; auto).
    eapply dR_val; [|rewrite <- A1, <- A2; symmetry; apply (HT e ra ca He V1 V2)].
    eapply (dR_ext_near (fun t => rkk k (hp_val hp) d (upd th e t) (rows_of X) (rows_of X) (osel b) (osel b) ra ca) _ _ _ (th e)); [apply Hpos, He | | ].
    + intros t Ht. destruct (rok_ex _ _ (Hnear t Ht)) as (K & EK & K1 & K2 & HK). rewrite EK. simpl.
      rewrite <- A1, <- A2. symmetry. apply HK; assumption.
    + unfold rkk.
      apply (rk_th_derive d th (rows_of X) (osel b) (phi0 k (hp_val hp)) (phi1 k (hp_val hp)) (phi2 k (hp_val hp))
        (fun p q => phi3 k (hp_val hp) (sqd d th (rows_of X p) (rows_of X q))) e n g O); auto.
      * intros p q _ _. apply (d0_th k hp d th (rows_of X)); auto.
      * intros p q _ _. apply (d1_th k hp d th (rows_of X)); auto.
      * intros p q Hp Hq. apply (d2_th k hp d th (rows_of X) n); auto.
Qed.
