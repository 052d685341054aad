(** Block structure computed by the [calc_KernGrad_grad_th] methods (and grad_alpha). *)
From Coq Require Import Reals List Arith Bool Lia Lra.
From Verif.Base Require Import NpLite NpFacts.
From Verif.Model Require Import KernelSqExp KernelMatern KernelRatQuad.
From Verif.Proofs Require Import KernTac KernGradBlocks.
Import ListNotations.
Local Open Scope R_scope.

(** additive form of the block update rules *)
Definition blk (r1 r2 : reg) (v : nat -> nat -> R) (a b : rix) : R :=
  if inreg r1 a && inreg r2 b then v (loc a) (loc b) else 0.
Lemma tadd_acc D n1 g1 d1 n2 g2 d2 T f k r1 r2 V v lo1 hi1 lo2 hi2 :
  tbspec D n1 g1 d1 n2 g2 d2 T f -> (k < D)%nat -> rgv d1 r1 -> rgv d2 r2 ->
  lo1 = rlo n1 g1 r1 -> hi1 = rhi n1 g1 r1 -> lo2 = rlo n2 g2 r2 -> hi2 = rhi n2 g2 r2 ->
  mspec (rht n1 g1 r1) (rht n2 g2 r2) V v ->
  rok (tadd_at T k lo1 hi1 lo2 hi2 V) (fun T' => tbspec D n1 g1 d1 n2 g2 d2 T'
    (fun k' a b => f k' a b + (if (k' =? k)%nat then blk r1 r2 v a b else 0))).
Proof.
  intros. eapply rok_mono; [eapply (tupd_b Rplus D n1 g1 d1 n2 g2 d2); eassumption|].
  intros T' HT. eapply tbspec_ext; [exact HT|]. intros k' a b _ _ _. unfold blk.
  destruct (k' =? k)%nat; simpl; [destruct (inreg r1 a && inreg r2 b); ring | ring].
Qed.
Lemma tsub_acc D n1 g1 d1 n2 g2 d2 T f k r1 r2 V v lo1 hi1 lo2 hi2 :
  tbspec D n1 g1 d1 n2 g2 d2 T f -> (k < D)%nat -> rgv d1 r1 -> rgv d2 r2 ->
  lo1 = rlo n1 g1 r1 -> hi1 = rhi n1 g1 r1 -> lo2 = rlo n2 g2 r2 -> hi2 = rhi n2 g2 r2 ->
  mspec (rht n1 g1 r1) (rht n2 g2 r2) V (fun p q => - v p q) ->
  rok (tsub_at T k lo1 hi1 lo2 hi2 V) (fun T' => tbspec D n1 g1 d1 n2 g2 d2 T'
    (fun k' a b => f k' a b + (if (k' =? k)%nat then blk r1 r2 v a b else 0))).
Proof.
  intros. eapply rok_mono; [eapply (tupd_b Rminus D n1 g1 d1 n2 g2 d2); eassumption|].
  intros T' HT. eapply tbspec_ext; [exact HT|]. intros k' a b _ _ _. unfold blk.
  destruct (k' =? k)%nat; simpl; [destruct (inreg r1 a && inreg r2 b); ring | ring].
Qed.

(** loops that accumulate *)
Lemma acc_loop D n1 g1 d1 n2 g2 d2 body (c : nat -> nat -> rix -> rix -> R) a b T f :
  (a <= b)%nat ->
  (forall j T f, (a <= j < b)%nat -> tbspec D n1 g1 d1 n2 g2 d2 T f ->
     rok (body j T) (fun T' => tbspec D n1 g1 d1 n2 g2 d2 T' (fun k x y => f k x y + c j k x y))) ->
  tbspec D n1 g1 d1 n2 g2 d2 T f ->
  rok (for_range a b body T) (fun T' => tbspec D n1 g1 d1 n2 g2 d2 T'
     (fun k x y => f k x y + rsum b (fun j => if (a <=? j)%nat then c j k x y else 0))).
Proof.
  intros Hab Hb HT.
  eapply rok_mono.
  - apply (rok_for_range (fun m T' => tbspec D n1 g1 d1 n2 g2 d2 T'
     (fun k x y => f k x y + rsum m (fun j => if (a <=? j)%nat then c j k x y else 0)))); auto.
    + eapply tbspec_ext; [exact HT|]. intros k x y _ _ _. rewrite rsum_0; [ring|].
      intros i Hi. destruct (Nat.leb_spec a i); [lia|reflexivity].
    + intros j s Hj Hs. eapply rok_mono; [apply Hb; [exact Hj | exact Hs]|].
      intros T' HT'. eapply tbspec_ext; [exact HT'|]. intros k x y _ _ _. simpl.
      destruct (Nat.leb_spec a j); [ring | lia].
  - auto.
Qed.

Ltac tacc_side := first [exact I | lia | assumption | reflexivity].
Ltac tacc_sub tac :=
  [ > eassumption | first [lia|assumption]
  | simpl; tacc_side | simpl; tacc_side
  | off_tac | off_tac | off_tac | off_tac
  | eapply mspec_ext; [simpl; mspec_tac | cbv beta; tac] ].
Ltac tbacc r1 r2 v tac :=
  cbv beta zeta; eapply rok_bind;
  [ eapply (tadd_acc _ _ _ _ _ _ _ _ _ _ r1 r2 _ v); tacc_sub tac
  | let x := fresh "KG" in let Hx := fresh "H" x in intros x Hx; cbv beta in Hx ].
Ltac tbacc_last r1 r2 v tac :=
  cbv beta zeta; eapply rok_mono;
  [ eapply (tadd_acc _ _ _ _ _ _ _ _ _ _ r1 r2 _ v); tacc_sub tac
  | let x := fresh "KG" in let Hx := fresh "H" x in intros x Hx; cbv beta in Hx ].

Ltac tbsub r1 r2 v tac :=
  cbv beta zeta; eapply rok_bind;
  [ eapply rok_mono; [eapply (tsub_acc _ _ _ _ _ _ _ _ _ _ r1 r2 _ v); tacc_sub tac
                     | let x := fresh in let Hx := fresh in intros x Hx; exact Hx]
  | let x := fresh "KG" in let Hx := fresh "H" x in intros x Hx; cbv beta in Hx ].

(** value functions used by one theta-derivative slice *)
Section slices.
Variables (d g n : nat).
Variables (v0 : nat -> nat -> nat -> R) (t1 t1' m : nat -> nat -> nat -> R)
          (t t' t2 t2' u : nat -> nat -> nat -> nat -> R) (t4 : nat -> nat -> nat -> nat -> nat -> R).
Definition th_entry (e : nat) (a b : rix) : R :=
  match a, b with
  | F p, F q => v0 e p q
  | G i p, F q => (if (i =? e)%nat then t1 e p q else 0) + t e i p q
  | F p, G j q => (if (j =? e)%nat then t1' e p q else 0) + t' e j p q
  | G i p, G j q =>
      (if ((i =? e) && (j =? e))%nat then m e p q else 0)
      + (if (i =? e)%nat then t2 e j p q else 0) + (if (j =? e)%nat then t2' e i p q else 0)
      + (if (i =? j)%nat then u e i p q else if (i <? j)%nat then t4 e i j p q else t4 e j i p q)
  end.
Definition th_j (e i j : nat) (a b : rix) : R :=
  blk (RG i) (RG j) (t4 e i j) a b + blk (RG j) (RG i) (t4 e i j) a b.
Definition th_i (e i : nat) (a b : rix) : R :=
  blk (RG i) RF (t e i) a b + blk RF (RG i) (t' e i) a b
  + blk (RG e) (RG i) (t2 e i) a b + blk (RG i) (RG e) (t2' e i) a b
  + blk (RG i) (RG i) (u e i) a b
  + rsum d (fun j => if (i + 1 <=? j)%nat then th_j e i j a b else 0).
Definition th_sum (e : nat) (a b : rix) : R :=
  blk RF RF (v0 e) a b
  + blk (RG e) RF (t1 e) a b + blk RF (RG e) (t1' e) a b + blk (RG e) (RG e) (m e) a b
  + rsum d (fun i => if (0 <=? i)%nat then th_i e i a b else 0).

Lemma th_sum_entry e a b : (e < d)%nat -> rvalid n g d a -> rvalid n g d b ->
  th_sum e a b = th_entry e a b.
Proof.
  intros He Ha Hb. unfold th_sum, th_i, th_j.
  destruct a as [p|i p], b as [q|j q]; cbn [rvalid] in *; unfold blk; cbn [inreg andb loc].
  - rewrite rsum_0; [simpl; ring|]. intros i Hi. simpl. rewrite rsum_0; [ring|].
    intros k Hk. rewrite ?andb_false_r. destruct (_ <=? _)%nat; ring.
  - rewrite (rsum_single d j).
    + rewrite Nat.eqb_refl. cbn [Nat.leb]. rewrite rsum_0; [|intros k _; rewrite ?andb_false_r; destruct (_ <=? _)%nat; ring].
      rewrite ?andb_false_r. simpl. rewrite (Nat.eqb_sym e j). destruct (j =? e)%nat; ring.
    + tauto.
    + intros k Hk Hne. cbn [Nat.leb]. rewrite rsum_0; [|intros l _; rewrite ?andb_false_r; destruct (_ <=? _)%nat; ring].
      destruct (Nat.eqb_spec k j); [congruence|]. ring.
  - rewrite (rsum_single d i).
    + rewrite Nat.eqb_refl. cbn [Nat.leb]. rewrite rsum_0; [|intros k _; rewrite ?andb_false_r; destruct (_ <=? _)%nat; ring].
      rewrite ?andb_false_r, ?andb_true_r. simpl. rewrite (Nat.eqb_sym e i). destruct (i =? e)%nat; ring.
    + tauto.
    + intros k Hk Hne. cbn [Nat.leb]. rewrite rsum_0; [|intros l _; rewrite ?andb_false_r; destruct (_ <=? _)%nat; ring].
      rewrite ?andb_false_r, ?andb_true_r. destruct (Nat.eqb_spec k i); [congruence|]. ring.
  - destruct Ha as [Hi Hp], Hb as [Hj Hq].
    transitivity ((if ((e =? i) && (e =? j))%nat then m e p q else 0)
      + rsum d (fun k => if (k =? j)%nat then (if (e =? i)%nat then t2 e k p q else 0) else 0)
      + rsum d (fun k => if (k =? i)%nat then (if (e =? j)%nat then t2' e k p q else 0) else 0)
      + rsum d (fun k => if (k =? i)%nat then (if (k =? j)%nat then u e k p q else 0) else 0)
      + rsum d (fun k => if (k =? i)%nat then
                   rsum d (fun l => if (l =? j)%nat then (if (k <? l)%nat then t4 e k l p q else 0) else 0) else 0)
      + rsum d (fun k => if (k =? j)%nat then
                   rsum d (fun l => if (l =? i)%nat then (if (k <? l)%nat then t4 e k l p q else 0) else 0) else 0)).
    + rewrite andb_false_r. cbn [andb].
      rewrite Rplus_0_l, !Rplus_0_l. repeat rewrite Rplus_assoc. rewrite <- !rsum_plus. f_equal.
      apply rsum_ext. intros k Hk. cbn [Nat.leb]. rewrite ?andb_false_r. cbn [andb].
      replace (rsum d (fun j0 => if (k + 1 <=? j0)%nat
           then (if (k =? i)%nat && (j0 =? j)%nat then t4 e k j0 p q else 0)
                + (if (j0 =? i)%nat && (k =? j)%nat then t4 e k j0 p q else 0) else 0))
        with ((if (k =? i)%nat then rsum d (fun l => if (l =? j)%nat then (if (k <? l)%nat then t4 e k l p q else 0) else 0) else 0)
            + (if (k =? j)%nat then rsum d (fun l => if (l =? i)%nat then (if (k <? l)%nat then t4 e k l p q else 0) else 0) else 0)).
      2:{ assert (Z : forall c, (if c : bool then 0 else 0) = 0) by (intros []; reflexivity).
          destruct (Nat.eqb_spec k i); destruct (Nat.eqb_spec k j); cbn [andb];
            rewrite <- ?rsum_plus, ?Rplus_0_l, ?Rplus_0_r.
          - apply rsum_ext; intros l _. rewrite ?andb_true_r.
            destruct (Nat.leb_spec (k + 1) l); destruct (Nat.ltb_spec k l); try lia;
            destruct (l =? j)%nat, (l =? i)%nat; ring.
          - apply rsum_ext; intros l _. rewrite ?andb_false_r.
            destruct (Nat.leb_spec (k + 1) l); destruct (Nat.ltb_spec k l); try lia;
            destruct (l =? j)%nat; ring.
          - apply rsum_ext; intros l _. rewrite ?andb_true_r.
            destruct (Nat.leb_spec (k + 1) l); destruct (Nat.ltb_spec k l); try lia;
            destruct (l =? i)%nat; ring.
          - symmetry. apply rsum_0; intros l _. rewrite ?andb_false_r. destruct (_ <=? _)%nat; ring. }
      destruct (k =? i)%nat, (k =? j)%nat, (e =? i)%nat, (e =? j)%nat; cbn [andb]; ring.
    + rewrite (rsum_delta d j (fun k => if (e =? i)%nat then t2 e k p q else 0) Hj).
      rewrite (rsum_delta d i (fun k => if (e =? j)%nat then t2' e k p q else 0) Hi).
      rewrite (rsum_delta d i (fun k => if (k =? j)%nat then u e k p q else 0) Hi).
      rewrite (rsum_delta d i (fun k => rsum d (fun l => if (l =? j)%nat then (if (k <? l)%nat then t4 e k l p q else 0) else 0)) Hi).
      rewrite (rsum_delta d j (fun k => rsum d (fun l => if (l =? i)%nat then (if (k <? l)%nat then t4 e k l p q else 0) else 0)) Hj).
      rewrite (rsum_delta d j (fun l => if (i <? l)%nat then t4 e i l p q else 0) Hj).
      rewrite (rsum_delta d i (fun l => if (j <? l)%nat then t4 e j l p q else 0) Hi).
      cbn [th_entry]. rewrite (Nat.eqb_sym i e), (Nat.eqb_sym j e).
      destruct (Nat.eqb_spec i j); destruct (Nat.ltb_spec i j); destruct (Nat.ltb_spec j i); try lia; ring.
Qed.
End slices.

(** closed forms, in terms of the derivatives phi1, phi2, phi3 of the radial function *)
Section closed.
Variables (th : nat -> R) (Rr : nat -> nat -> nat -> R) (ph1 ph2 ph3 : nat -> nat -> R) (sl : nat -> nat).
Definition cv0 (e p q : nat) : R := Rr e p q ^ 2 * ph1 p q.
Definition ct1 (e p q : nat) : R := 2 * Rr e (sl p) q * ph1 (sl p) q.
Definition ct1' (e p q : nat) : R := - (2 * Rr e p (sl q) * ph1 p (sl q)).
Definition cm (e p q : nat) : R := - (2 * ph1 (sl p) (sl q)).
Definition ct (e i p q : nat) : R := 2 * th i * Rr i (sl p) q * Rr e (sl p) q ^ 2 * ph2 (sl p) q.
Definition ct' (e i p q : nat) : R := - (2 * th i * Rr i p (sl q) * Rr e p (sl q) ^ 2 * ph2 p (sl q)).
Definition ct2 (e i p q : nat) : R := - (4 * th i * Rr e (sl p) (sl q) * Rr i (sl p) (sl q) * ph2 (sl p) (sl q)).
Definition cu (e i p q : nat) : R :=
  - (2 * th i * Rr e (sl p) (sl q) ^ 2 * ph2 (sl p) (sl q)
     + 4 * th i ^ 2 * Rr i (sl p) (sl q) ^ 2 * Rr e (sl p) (sl q) ^ 2 * ph3 (sl p) (sl q)).
Definition ct4 (e i j p q : nat) : R :=
  - (4 * th i * th j * Rr i (sl p) (sl q) * Rr j (sl p) (sl q) * Rr e (sl p) (sl q) ^ 2 * ph3 (sl p) (sl q)).
Definition rk_th : nat -> rix -> rix -> R := th_entry cv0 ct1 ct1' cm ct ct' ct2 ct2 cu ct4.
End closed.

(** assembling the three nested loops *)
Section assemble.
Variables (d n g : nat) (body : nat -> ten -> res ten).
Variables (v0 : nat -> nat -> nat -> R) (t1 t1' m : nat -> nat -> nat -> R)
          (t t' t2 t2' u : nat -> nat -> nat -> nat -> R) (t4 : nat -> nat -> nat -> nat -> nat -> R).
Lemma th_outer :
  (forall e T f, (e < d)%nat -> tbspec d n g d n g d T f ->
     (forall a b, rvalid n g d a -> rvalid n g d b -> f e a b = 0) ->
     rok (body e T) (fun T' => tbspec d n g d n g d T'
       (fun k a b => f k a b + (if (k =? e)%nat then th_sum d v0 t1 t1' m t t' t2 t2' u t4 e a b else 0)))) ->
  rok (for_range 0 d body (tconst d (n + g * d) (n + g * d) 0))
      (fun T => tbspec d n g d n g d T (th_entry v0 t1 t1' m t t' t2 t2' u t4)).
Proof.
  intros Hb.
  eapply rok_mono.
  - apply (rok_for_range (fun k T => tbspec d n g d n g d T
      (fun e a b => if (e <? k)%nat then th_entry v0 t1 t1' m t t' t2 t2' u t4 e a b else 0))); [lia| |].
    + eapply tbspec_ext; [apply tbspec_const|]. intros; destruct (Nat.ltb_spec k 0); [lia|reflexivity].
    + intros e T He HT. eapply rok_mono; [apply (Hb e T _ (proj2 He) HT)|].
      * intros a b _ _. rewrite Nat.ltb_irrefl. reflexivity.
      * intros T' HT'. eapply tbspec_ext; [exact HT'|]. intros k a b Hk Ha Hb'. cbv beta.
        destruct (Nat.eqb_spec k e) as [->|Hne].
        { rewrite Nat.ltb_irrefl. destruct (Nat.ltb_spec e (S e)); [|lia].
          rewrite (th_sum_entry d g n) by (tauto || auto). ring. }
        { destruct (Nat.ltb_spec k e); destruct (Nat.ltb_spec k (S e)); try lia; ring. }
  - intros T HT. eapply tbspec_ext; [exact HT|]. intros k a b Hk _ _. cbv beta.
    destruct (Nat.ltb_spec k d); [reflexivity|lia].
Qed.
End assemble.

Ltac kunf3 := unfold cv0, ct1, ct1', cm, ct, ct', ct2, cu, ct4.

Section three.
Variables (Rt : ten) (theta : vec) (d n : nat) (Rr : nat -> nat -> nat -> R) (th : nat -> R).
Hypothesis (HR : tspec d n n Rt Rr) (Hth : vspec d theta th).
Hypothesis (Hanti : forall i p q, Rr i q p = - Rr i p q).
Variables (b : option (list bool)).
Hypotheses (M : mok n b).
Local Notation g := (opt_count n b).
Local Notation sl := (osel b).
Local Notation s p q := (rsum d (fun i => th i * Rr i p q ^ 2)).
Local Notation rt ph1 ph2 ph3 := (rk_th th Rr (fun p q => ph1 (s p q)) (fun p q => ph2 (s p q)) (fun p q => ph3 (s p q)) sl).
Lemma s_sym p q : s q p = s p q.
Proof. apply rsum_ext; intros i _. rewrite (Hanti i p q). ring. Qed.

Local Notation V ph1 ph2 ph3 c := (c th Rr (fun p q => ph1 (s p q)) (fun p q => ph2 (s p q)) (fun p q => ph3 (s p q)) sl).

Lemma rat_grad_th_blocks alpha : alpha <> 0 ->
  let p1 := fun p q => rq1 alpha (s p q) in
  let p2 := fun p q => rq2 alpha (s p q) in
  let p3 := fun p q => - (1 + 1 / alpha) * (1 + 2 / alpha) * rat_pow alpha (- alpha - 3) (s p q) in
  rok (rat_calc_KernGrad_grad_th Rt theta alpha b)
   (fun T => tbspec d n g d n g d T (rk_th th Rr p1 p2 p3 sl)).
Proof.
  intros Hal p1 p2 p3. unfold rat_calc_KernGrad_grad_th.
  assert (H := HR); destruct H as (-> & -> & -> & _). rewrite Nat.eqb_refl. cbn [assert_ bind].
  eapply rok_bind; [eapply pos_sum_ok; eassumption|]. intros tmp Htmp; cbv beta in Htmp.
  do 10 ostep.
  unfold rk_th. apply th_outer. intros e T f He HT H0.
  msteps.
  eapply (rok_bind _ _ (fun T' => tbspec d n g d n g d T' (fun k a b => f k a b + (if (k =? e)%nat then blk RF RF (cv0 Rr p1 e) a b else 0)))).
  { eapply rok_mono.
    - eapply (tupd_b _ _ _ _ _ _ _ _ _ _ _ RF RF _ (cv0 Rr p1 e)); [exact HT | exact He | exact I | exact I | reflexivity | reflexivity | reflexivity | reflexivity |].
      eapply mspec_ext; [simpl; mspec_tac|]. intros p q _ _. unfold cv0, p1, rq1. ring.
    - intros T' HT'. eapply tbspec_ext; [exact HT'|]. intros k x y _ Hx Hy. unfold blk. cbv beta.
      destruct (Nat.eqb_spec k e); cbn [andb]; [subst|ring].
      destruct (inreg RF x && inreg RF y); [rewrite H0 by auto|]; ring. }
  intros T1 HT1; cbv beta in HT1. msteps.
  tbacc (RG e) RF (ct1 Rr p1 sl e) ltac:(intros; kunf3; unfold p1, rq1; ring).
  tbacc RF (RG e) (ct1' Rr p1 sl e) ltac:(intros p q _ _; kunf3; unfold p1, rq1; rewrite (Hanti e p), (s_sym p); ring).
  tbacc (RG e) (RG e) (cm p1 sl e) ltac:(intros; kunf3; unfold p1, rq1; ring).
  eapply rok_mono.
  - eapply (acc_loop d n g d n g d _ (fun i k a b => if (k =? e)%nat then
       th_i d (ct th Rr p2 sl) (ct' th Rr p2 sl) (ct2 th Rr p2 sl) (ct2 th Rr p2 sl) (cu th Rr p2 p3 sl) (ct4 th Rr p3 sl) e i a b else 0));
      [lia | | eassumption].
    intros i T2 f2 Hi HT2. cbv beta. msteps.
    tbacc (RG i) RF (ct th Rr p2 sl e i) ltac:(intros; kunf3; unfold p2, rq2; field; exact Hal).
    tbacc RF (RG i) (ct' th Rr p2 sl e i) ltac:(intros p q _ _; kunf3; unfold p2, rq2; rewrite (Hanti e p), (Hanti i p), (s_sym p); field; exact Hal).
    msteps.
    tbacc (RG e) (RG i) (ct2 th Rr p2 sl e i) ltac:(intros; kunf3; unfold p2, rq2; field; exact Hal).
    tbacc (RG i) (RG e) (ct2 th Rr p2 sl e i) ltac:(intros; kunf3; unfold p2, rq2; field; exact Hal).
    msteps.
    tbacc (RG i) (RG i) (cu th Rr p2 p3 sl e i) ltac:(intros; kunf3; unfold p2, p3, rq2; field; exact Hal).
    eapply rok_mono.
    + eapply (acc_loop d n g d n g d _ (fun j k a b => if (k =? e)%nat then th_j (ct4 th Rr p3 sl) e i j a b else 0));
        [lia | | eassumption].
      intros j T3 f3 Hj HT3. cbv beta. msteps.
      tbacc (RG i) (RG j) (ct4 th Rr p3 sl e i j) ltac:(intros; kunf3; unfold p3; field; exact Hal).
      tbacc_last (RG j) (RG i) (ct4 th Rr p3 sl e i j) ltac:(intros; kunf3; unfold p3; field; exact Hal).
      eapply tbspec_ext; [eassumption|]. intros k x y _ _ _. cbv beta. unfold th_j. destruct (k =? e)%nat; ring.
    + intros T3 HT3. eapply tbspec_ext; [exact HT3|]. intros k x y _ _ _. cbv beta. unfold th_i.
      destruct (k =? e)%nat; [ring|]. rewrite rsum_0; [ring|]. intros l _. destruct (_ <=? _)%nat; reflexivity.
  - intros T3 HT3. eapply tbspec_ext; [exact HT3|]. intros k x y _ _ _. cbv beta. unfold th_sum.
    destruct (k =? e)%nat; [ring|]. rewrite rsum_0; [ring|]. intros l _. destruct (_ <=? _)%nat; reflexivity.
Qed.

(** for the other two kernels: all gradients used *)
Hypothesis Hcnt : g = n.
Hypothesis Hsl : forall p, (p < n)%nat -> sl p = p.

Lemma sq_exp_grad_th_blocks :
  let p1 := fun p q => se1 (s p q) in
  let p2 := fun p q => se2 (s p q) in
  let p3 := fun p q => - exp (- s p q) in
  rok (sq_exp_calc_KernGrad_grad_th Rt theta b)
   (fun T => tbspec d n g d n g d T (rk_th th Rr p1 p2 p3 sl)).
Proof.
  intros p1 p2 p3. unfold sq_exp_calc_KernGrad_grad_th.
  assert (H := HR); destruct H as (-> & -> & -> & _).
  eapply rok_bind; [exact (sq_exp_KernGrad_blocks Rt theta d n n Rr th HR Hth b b M M)|].
  intros K HK; cbv beta in HK. rewrite Nat.eqb_refl. cbn [assert_ bind].
  assert (HB := mslice_b n g d n g d K _ RF RF 0 n 0 n HK I I eq_refl eq_refl eq_refl eq_refl).
  cbn [rht mkr] in HB. cbv beta zeta. set (KB := mslice K 0 n 0 n) in *. clearbody KB.
  do 5 ostep.
  unfold rk_th. apply th_outer. intros e T f He HT H0.
  msteps.
  eapply (rok_bind _ _ (fun T' => tbspec d n g d n g d T' (fun k a b => f k a b + (if (k =? e)%nat then blk RF RF (cv0 Rr p1 e) a b else 0)))).
  { eapply rok_mono.
    - eapply (tupd_b _ _ _ _ _ _ _ _ _ _ _ RF RF _ (cv0 Rr p1 e)); [exact HT | exact He | exact I | exact I | reflexivity | reflexivity | reflexivity | reflexivity |].
      eapply mspec_ext; [simpl; mspec_tac|]. intros p q _ _. unfold cv0, p1, se1, rk, se0. ring.
    - intros T' HT'. eapply tbspec_ext; [exact HT'|]. intros k x y _ Hx Hy. unfold blk. cbv beta.
      destruct (Nat.eqb_spec k e); cbn [andb]; [subst|ring].
      destruct (inreg RF x && inreg RF y); [rewrite H0 by auto|]; ring. }
  intros T1 HT1; cbv beta in HT1. msteps.
  tbacc (RG e) RF (ct1 Rr p1 sl e) ltac:(intros; kunf3; unfold p1, se1, rk, se0; ring).
  tbacc RF (RG e) (ct1' Rr p1 sl e) ltac:(intros p q _ _; kunf3; unfold p1, se1, rk, se0; rewrite (Hanti e p), (s_sym p); ring).
  tbacc (RG e) (RG e) (cm p1 sl e) ltac:(intros; kunf3; unfold p1, se1, rk, se0; ring).
  eapply rok_mono.
  - eapply (acc_loop d n g d n g d _ (fun i k a b => if (k =? e)%nat then
       th_i d (ct th Rr p2 sl) (ct' th Rr p2 sl) (ct2 th Rr p2 sl) (ct2 th Rr p2 sl) (cu th Rr p2 p3 sl) (ct4 th Rr p3 sl) e i a b else 0));
      [lia | | eassumption].
    intros i T2 f2 Hi HT2. cbv beta zeta. 
    assert (HGF := mslice_b n g d n g d K _ (RG i) RF _ _ 0 n HK (proj2 Hi) I eq_refl eq_refl eq_refl eq_refl).
    assert (HGG := mslice_b n g d n g d K _ (RG i) (RG i) _ _ _ _ HK (proj2 Hi) (proj2 Hi) eq_refl eq_refl eq_refl eq_refl).
    cbn [rlo rhi rht mkr] in HGF, HGG.
    set (SGF := mslice K (n + i * g) (n + i * g + g) 0 n) in *. clearbody SGF.
    set (SGG := mslice K (n + i * g) (n + i * g + g) (n + i * g) (n + i * g + g)) in *. clearbody SGG.
    msteps.
    tbacc (RG i) RF (ct th Rr p2 sl e i) ltac:(intros; kunf3; unfold p2, se2, rk, se1; ring).
    tbacc RF (RG i) (ct' th Rr p2 sl e i) ltac:(intros p q _ _; kunf3; unfold p2, se2, rk, se1; rewrite (Hanti e p), (Hanti i p), (s_sym p); ring).
    msteps.
    match goal with H : mspec n n ?v _ |- rok (bind (tadd_at _ _ _ _ _ _ ?v) _) _ => rewrite <- Hcnt in H end.
    tbacc (RG e) (RG i) (ct2 th Rr p2 sl e i) ltac:(rewrite Hcnt; intros; kunf3; unfold p2, se2, rk, se0; rewrite !Hsl by assumption; ring).
    tbacc (RG i) (RG e) (ct2 th Rr p2 sl e i) ltac:(rewrite Hcnt; intros; kunf3; unfold p2, se2, rk, se0; rewrite !Hsl by assumption; ring).
    msteps.

    tbsub (RG i) (RG i) (cu th Rr p2 p3 sl e i) ltac:(intros p q _ _; kunf3; unfold p2, p3, se2, rk, se1, se2, delta; rewrite Nat.eqb_refl; ring).
    eapply rok_mono.
    + eapply (acc_loop d n g d n g d _ (fun j k a b => if (k =? e)%nat then th_j (ct4 th Rr p3 sl) e i j a b else 0));
        [lia | | eassumption].
      intros j T3 f3 Hj HT3. cbv beta zeta.
      assert (HGJ := mslice_b n g d n g d K _ (RG i) (RG j) _ _ _ _ HK (proj2 Hi) (proj2 Hj) eq_refl eq_refl eq_refl eq_refl).
      cbn [rlo rhi rht mkr] in HGJ.
      set (SGJ := mslice K (n + i * g) (n + i * g + g) (n + j * g) (n + j * g + g)) in *. clearbody SGJ.
      msteps.
      tbacc (RG i) (RG j) (ct4 th Rr p3 sl e i j) ltac:(intros; kunf3; unfold p3, rk, se1, se2, delta; destruct (Nat.eqb_spec i j); [lia|]; ring).
      tbacc_last (RG j) (RG i) (ct4 th Rr p3 sl e i j) ltac:(intros; kunf3; unfold p3, rk, se1, se2, delta; destruct (Nat.eqb_spec i j); [lia|]; ring).
      eapply tbspec_ext; [eassumption|]. intros k x y _ _ _. cbv beta. unfold th_j. destruct (k =? e)%nat; ring.
    + intros T3 HT3. eapply tbspec_ext; [exact HT3|]. intros k x y _ _ _. cbv beta. unfold th_i.
      destruct (k =? e)%nat; [ring|]. rewrite rsum_0; [ring|]. intros l _. destruct (_ <=? _)%nat; reflexivity.
  - intros T3 HT3. eapply tbspec_ext; [exact HT3|]. intros k x y _ _ _. cbv beta. unfold th_sum.
    destruct (k =? e)%nat; [ring|]. rewrite rsum_0; [ring|]. intros l _. destruct (_ <=? _)%nat; reflexivity.
Qed.

(** Matern: exact up to the floor on nu in the third derivative *)
Lemma matern_grad_th_blocks :
  let p1 := fun p q => ma1 (s p q) in
  let p2 := fun p q => ma2 (s p q) in
  let p3 := fun p q => - (25 * sqrt 5 / 24) * / Rmax (sqrt (s p q)) nu_floor * matern_Abase_entry (sqrt (s p q)) in
  rok (matern_calc_KernGrad_grad_th Rt theta b)
   (fun T => tbspec d n g d n g d T (rk_th th Rr p1 p2 p3 sl)).
Proof.
  intros p1 p2 p3. unfold matern_calc_KernGrad_grad_th.
  assert (H := HR); destruct H as (-> & -> & -> & _). rewrite Nat.eqb_refl. cbn [assert_ bind].
  eapply rok_bind; [eapply nu_mat_ok; eassumption|]. intros nu Hnu; cbv beta in Hnu.
  do 9 ostep.
  unfold rk_th. apply th_outer. intros e T f He HT H0.
  msteps.
  eapply (rok_bind _ _ (fun T' => tbspec d n g d n g d T' (fun k a b => f k a b + (if (k =? e)%nat then blk RF RF (cv0 Rr p1 e) a b else 0)))).
  { eapply rok_mono.
    - eapply (tupd_b _ _ _ _ _ _ _ _ _ _ _ RF RF _ (cv0 Rr p1 e)); [exact HT | exact He | exact I | exact I | reflexivity | reflexivity | reflexivity | reflexivity |].
      eapply mspec_ext; [simpl; mspec_tac|]. intros p q _ _. unfold cv0, p1, ma1. field.
    - intros T' HT'. eapply tbspec_ext; [exact HT'|]. intros k x y _ Hx Hy. unfold blk. cbv beta.
      destruct (Nat.eqb_spec k e); cbn [andb]; [subst|ring].
      destruct (inreg RF x && inreg RF y); [rewrite H0 by auto|]; ring. }
  intros T1 HT1; cbv beta in HT1. msteps.
  tbacc (RG e) RF (ct1 Rr p1 sl e) ltac:(intros; kunf3; unfold p1, ma1; field).
  tbacc RF (RG e) (ct1' Rr p1 sl e) ltac:(intros p q _ _; kunf3; unfold p1, ma1; rewrite (Hanti e p), (s_sym p); field).
  assert (Hm1 := mmap_spec _ _ _ _ matern_mat1_entry Hnu). rewrite <- Hcnt in Hm1 at 1 2.
  set (M1 := mmap matern_mat1_entry nu) in *. clearbody M1.
  tbacc (RG e) (RG e) (cm p1 sl e) ltac:(rewrite Hcnt; intros; kunf3; unfold p1, ma1; rewrite !Hsl by assumption; field).
  eapply rok_mono.
  - eapply (acc_loop d n g d n g d _ (fun i k a b => if (k =? e)%nat then
       th_i d (ct th Rr p2 sl) (ct' th Rr p2 sl) (ct2 th Rr p2 sl) (ct2 th Rr p2 sl) (cu th Rr p2 p3 sl) (ct4 th Rr p3 sl) e i a b else 0));
      [lia | | eassumption].
    intros i T2 f2 Hi HT2. cbv beta. msteps.
    tbacc (RG i) RF (ct th Rr p2 sl e i) ltac:(intros; kunf3; unfold p2, ma2; field).
    tbacc RF (RG i) (ct' th Rr p2 sl e i) ltac:(intros p q _ _; kunf3; unfold p2, ma2; rewrite (Hanti e p), (Hanti i p), (s_sym p); field).
    msteps.
    match goal with H : mspec g n ?v _ |- rok (bind (tadd_at _ _ _ _ _ _ ?v) _) _ => rewrite <- Hcnt in H at 2 end.
    tbacc (RG e) (RG i) (ct2 th Rr p2 sl e i) ltac:(intros p q _ Hq; rewrite Hcnt in Hq; kunf3; unfold p2, ma2; rewrite (Hsl q) by assumption; field).
    tbacc (RG i) (RG e) (ct2 th Rr p2 sl e i) ltac:(intros p q Hp _; rewrite Hcnt in Hp; kunf3; unfold p2, ma2; rewrite (Hsl p) by assumption; rewrite (Hanti e p), (Hanti i p), (s_sym p); field).
    msteps.
    tbacc (RG i) (RG i) (cu th Rr p2 p3 sl e i) ltac:(intros; kunf3; unfold p2, p3, ma2; generalize (/ Rmax (sqrt (s (sl i0) (sl j))) nu_floor); intros; field).
    msteps.
    eapply rok_mono.
    + eapply (acc_loop d n g d n g d _ (fun j k a b => if (k =? e)%nat then th_j (ct4 th Rr p3 sl) e i j a b else 0));
        [lia | | eassumption].
      intros j T3 f3 Hj HT3. cbv beta. msteps.
      tbacc (RG i) (RG j) (ct4 th Rr p3 sl e i j) ltac:(intros p q _ _; kunf3; unfold p3; generalize (/ Rmax (sqrt (s (sl p) (sl q))) nu_floor); intros; field).
      tbacc_last (RG j) (RG i) (ct4 th Rr p3 sl e i j) ltac:(intros p q _ _; kunf3; unfold p3; generalize (/ Rmax (sqrt (s (sl p) (sl q))) nu_floor); intros; field).
      eapply tbspec_ext; [eassumption|]. intros k x y _ _ _. cbv beta. unfold th_j. destruct (k =? e)%nat; ring.
    + intros T3 HT3. eapply tbspec_ext; [exact HT3|]. intros k x y _ _ _. cbv beta. unfold th_i.
      destruct (k =? e)%nat; [ring|]. rewrite rsum_0; [ring|]. intros l _. destruct (_ <=? _)%nat; reflexivity.
  - intros T3 HT3. eapply tbspec_ext; [exact HT3|]. intros k x y _ _ _. cbv beta. unfold th_sum.
    destruct (k =? e)%nat; [ring|]. rewrite rsum_0; [ring|]. intros l _. destruct (_ <=? _)%nat; reflexivity.
Qed.
End three.
