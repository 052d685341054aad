(** The block structure computed by the three [calc_KernGrad] methods. *)
From Coq Require Import Reals List Arith Bool Lia Lra.
From Verif.Base Require Import NpLite NpFacts.
From Verif.Model Require Import KernelSqExp KernelMatern KernelRatQuad.
From Verif.Proofs Require Import KernTac.
Import ListNotations.
Local Open Scope R_scope.

Definition mok (n : nat) (b : option (list bool)) : Prop :=
  match b with None => True | Some m => length m = n end.
Definition osel (b : option (list bool)) (p : nat) : nat :=
  match b with None => p | Some m => sel m p end.
Lemma osel_lt n b p : mok n b -> (p < opt_count n b)%nat -> (osel b p < n)%nat.
Proof. destruct b; simpl; [intros <- Hp; apply sel_lt; exact Hp | auto]. Qed.

Lemma opt_rows_ok n m A f b : mspec n m A f -> mok n b ->
  rok (opt_rows A b) (fun C => mspec (opt_count n b) m C (fun i j => f (osel b i) j)).
Proof. destruct b; simpl; intros; [eapply mrows_ok; eauto | auto]. Qed.
Lemma opt_cols_ok n m A f b : mspec n m A f -> mok m b ->
  rok (opt_cols A b) (fun C => mspec n (opt_count m b) C (fun i j => f i (osel b j))).
Proof. destruct b; simpl; intros; [eapply mcols_ok; eauto | auto]. Qed.
Lemma opt_trows_ok d n m T f b : tspec d n m T f -> mok n b ->
  rok (opt_trows T b) (fun C => tspec d (opt_count n b) m C (fun k i j => f k (osel b i) j)).
Proof. destruct b; simpl; intros; [eapply trows_ok; eauto | auto]. Qed.
Lemma opt_tcols_ok d n m T f b : tspec d n m T f -> mok m b ->
  rok (opt_tcols T b) (fun C => tspec d n (opt_count m b) C (fun k i j => f k i (osel b j))).
Proof. destruct b; simpl; intros; [eapply tcols_ok; eauto | auto]. Qed.

Ltac ostep :=
  cbv beta zeta;
  lazymatch goal with
  | |- rok (bind (opt_rows _ _) _) _ => eapply rok_bind; [eapply opt_rows_ok; [mspec_tac | assumption] |]
  | |- rok (bind (opt_cols _ _) _) _ => eapply rok_bind; [eapply opt_cols_ok; [mspec_tac | assumption] |]
  | |- rok (bind (opt_trows _ _) _) _ => eapply rok_bind; [eapply opt_trows_ok; [mspec_tac | assumption] |]
  | |- rok (bind (opt_tcols _ _) _) _ => eapply rok_bind; [eapply opt_tcols_ok; [mspec_tac | assumption] |]
  end;
  let x := fresh "og" in let Hx := fresh "H" x in intros x Hx; cbv beta in Hx.

(** partial sums of theta_i R_i^2 *)
Lemma sq_exp_sum_ok Rt theta d n1 n2 Rr th :
  tspec d n1 n2 Rt Rr -> vspec d theta th ->
  rok (sq_exp_exp_sum Rt theta)
      (fun A => mspec n1 n2 A (fun p q => - rsum d (fun i => th i * Rr i p q ^ 2))).
Proof.
  intros HR Hth. unfold sq_exp_exp_sum.
  assert (H := HR); destruct H as (-> & -> & -> & _).
  eapply (rok_for_range (fun k A => mspec n1 n2 A (fun p q => - rsum k (fun i => th i * Rr i p q ^ 2))));
    [lia | simpl; eapply mspec_ext; [apply mconst_spec | intros; simpl; ring] |].
  intros k A Hk HA. msteps. eapply rok_mono; [eapply misub_ok; mspec_tac|].
  intros a Ha. eapply mspec_ext; [exact Ha|]. intros p q _ _. simpl. ring.
Qed.
Lemma pos_sum_ok Rt theta d n1 n2 Rr th :
  tspec d n1 n2 Rt Rr -> vspec d theta th ->
  rok (rat_temp Rt theta)
      (fun A => mspec n1 n2 A (fun p q => rsum d (fun i => th i * Rr i p q ^ 2))).
Proof.
  intros HR Hth. unfold rat_temp.
  assert (H := HR); destruct H as (-> & -> & -> & _).
  eapply (rok_for_range (fun k A => mspec n1 n2 A (fun p q => rsum k (fun i => th i * Rr i p q ^ 2))));
    [lia | simpl; eapply mspec_ext; [apply mconst_spec | intros; simpl; ring] |].
  intros k A Hk HA. msteps. eapply rok_mono; [eapply miadd_ok; mspec_tac|].
  intros a Ha. eapply mspec_ext; [exact Ha|]. intros p q _ _. simpl. ring.
Qed.
Lemma nu_mat_ok Rt theta d n1 n2 Rr th :
  tspec d n1 n2 Rt Rr -> vspec d theta th ->
  rok (matern_nu_mat Rt theta)
      (fun A => mspec n1 n2 A (fun p q => sqrt (rsum d (fun i => th i * Rr i p q ^ 2)))).
Proof.
  intros HR Hth. unfold matern_nu_mat.
  eapply rok_bind; [exact (pos_sum_ok Rt theta d n1 n2 Rr th HR Hth)|].
  intros A HA. simpl. eapply mmap_spec; exact HA.
Qed.

(** ** the common shape of a gradient-enhanced radial kernel:
    k = phi(s), s = sum theta_i R_i^2, with derivatives phi1, phi2 of phi at s *)
Section radial.
Variables (th : nat -> R) (Rr : nat -> nat -> nat -> R) (ph ph1 ph2 : nat -> nat -> R).
Variables (s1 s2 : nat -> nat).
Definition rk (a b : rix) : R :=
  match a, b with
  | F p, F q => ph p q
  | G i p, F q => 2 * th i * Rr i (s1 p) q * ph1 (s1 p) q
  | F p, G j q => - (2 * th j * Rr j p (s2 q) * ph1 p (s2 q))
  | G i p, G j q =>
      - (2 * th i * delta i j * ph1 (s1 p) (s2 q)
         + 4 * th i * th j * Rr i (s1 p) (s2 q) * Rr j (s1 p) (s2 q) * ph2 (s1 p) (s2 q))
  end.
(** value after [k] iterations of the outer loop *)
Definition rk_out (k : nat) (a b : rix) : R :=
  match a, b with
  | F p, F q => ph p q
  | G i p, F q => if (i <? k)%nat then rk a b else 0
  | F p, G j q => if (j <? k)%nat then rk a b else 0
  | G i p, G j q => if (Nat.min i j <? k)%nat then rk a b else 0
  end.
(** inside iteration [i] of the outer loop, after handling j' < m *)
Definition rk_in (k m : nat) (a b : rix) : R :=
  match a, b with
  | G i p, G j q => if ((Nat.min i j <? k) || ((Nat.min i j =? k) && (Nat.max i j <? m)))%nat then rk a b else 0
  | _, _ => rk_out (S k) a b
  end.
End radial.

Ltac kg_close :=
  match goal with
  | |- context [rk_in _ _ _ _ _ _ _ _ _ ?a ?b] => idtac
  | |- context [rk_out _ _ _ _ _ _ _ _ ?a ?b] => idtac
  end;
  unfold rk_in, rk_out, rk, delta; simpl.

Lemma kg_close_1 {th Rr ph ph1 ph2 s1 s2 i d n1 g1 n2 g2 a b} :
  (i < d)%nat ->
  rvalid n1 g1 d a -> rvalid n2 g2 d b ->
  let k := rk th Rr ph ph1 ph2 s1 s2 in
  (if inreg (RG i) a && inreg (RG i) b then k (G i (loc a)) (G i (loc b))
   else if inreg RF a && inreg (RG i) b then k (F (loc a)) (G i (loc b))
   else if inreg (RG i) a && inreg RF b then k (G i (loc a)) (F (loc b))
   else rk_out th Rr ph ph1 ph2 s1 s2 i a b)
  = rk_in th Rr ph ph1 ph2 s1 s2 i (i + 1) a b.
Proof.
  intros Hi Ha Hb k.
  destruct a as [p|i1 p], b as [q|j1 q]; cbn [inreg andb loc rk_in rk_out rvalid] in *.
  - reflexivity.
  - destruct (Nat.eqb_spec i j1) as [->|Hne].
    + destruct (Nat.ltb_spec j1 (S j1)); [|lia]. reflexivity.
    + destruct (Nat.ltb_spec j1 i); destruct (Nat.ltb_spec j1 (S i)); try lia; reflexivity.
  - rewrite andb_false_r, andb_true_r. destruct (Nat.eqb_spec i i1) as [->|Hne].
    + destruct (Nat.ltb_spec i1 (S i1)); [|lia]. reflexivity.
    + destruct (Nat.ltb_spec i1 i); destruct (Nat.ltb_spec i1 (S i)); try lia; reflexivity.
  - destruct (Nat.eqb_spec i i1) as [E1|N1]; destruct (Nat.eqb_spec i j1) as [E2|N2]; cbn [andb];
      natcase; subst; try reflexivity; try lia.
Qed.

Lemma kg_close_2 {th Rr ph ph1 ph2 s1 s2 i j d n1 g1 n2 g2 a b} :
  (i < j)%nat -> (j < d)%nat ->
  rvalid n1 g1 d a -> rvalid n2 g2 d b ->
  let k := rk th Rr ph ph1 ph2 s1 s2 in
  (if inreg (RG j) a && inreg (RG i) b
   then (if inreg (RG i) a && inreg (RG j) b
         then rk_in th Rr ph ph1 ph2 s1 s2 i j a b + k (G i (loc a)) (G j (loc b))
         else rk_in th Rr ph ph1 ph2 s1 s2 i j a b) + k (G j (loc a)) (G i (loc b))
   else if inreg (RG i) a && inreg (RG j) b
         then rk_in th Rr ph ph1 ph2 s1 s2 i j a b + k (G i (loc a)) (G j (loc b))
         else rk_in th Rr ph ph1 ph2 s1 s2 i j a b)
  = rk_in th Rr ph ph1 ph2 s1 s2 i (S j) a b.
Proof.
  intros Hi Hj Ha Hb k.
  destruct a as [p|i1 p], b as [q|j1 q]; cbn [inreg andb loc rk_in rk_out rvalid] in *;
    rewrite ?andb_false_r; try reflexivity.
  destruct (Nat.eqb_spec j i1) as [->|Hne].
  - destruct (Nat.eqb_spec i i1); [lia|]. cbn [andb].
    destruct (Nat.eqb_spec i j1) as [->|Hne2].
    + destruct (Nat.ltb_spec (Nat.min i1 j1) j1); [lia|].
      destruct (Nat.eqb_spec (Nat.min i1 j1) j1); [|lia].
      destruct (Nat.ltb_spec (Nat.max i1 j1) i1); [lia|].
      destruct (Nat.ltb_spec (Nat.max i1 j1) (S i1)); [|lia]. cbn [andb orb]. rewrite Rplus_0_l. reflexivity.
    + destruct (Nat.ltb_spec (Nat.min i1 j1) i); cbn [orb]; [reflexivity|].
      destruct (Nat.eqb_spec (Nat.min i1 j1) i); cbn [andb]; [lia|reflexivity].
  - cbn [andb]. destruct (Nat.eqb_spec i i1) as [->|Hne2]; cbn [andb].
    + destruct (Nat.eqb_spec j j1) as [->|Hne3].
      * destruct (Nat.ltb_spec (Nat.min i1 j1) i1); [lia|].
        destruct (Nat.eqb_spec (Nat.min i1 j1) i1); [|lia].
        destruct (Nat.ltb_spec (Nat.max i1 j1) j1); [lia|].
        destruct (Nat.ltb_spec (Nat.max i1 j1) (S j1)); [|lia]. cbn [andb orb]. rewrite Rplus_0_l. reflexivity.
      * destruct (Nat.ltb_spec (Nat.min i1 j1) i1); cbn [orb]; [reflexivity|].
        destruct (Nat.eqb_spec (Nat.min i1 j1) i1); cbn [andb]; [|reflexivity].
        destruct (Nat.ltb_spec (Nat.max i1 j1) j); destruct (Nat.ltb_spec (Nat.max i1 j1) (S j)); try lia; reflexivity.
    + destruct (Nat.ltb_spec (Nat.min i1 j1) i); cbn [orb]; [reflexivity|].
      destruct (Nat.eqb_spec (Nat.min i1 j1) i); cbn [andb]; [|reflexivity].
      destruct (Nat.ltb_spec (Nat.max i1 j1) j); destruct (Nat.ltb_spec (Nat.max i1 j1) (S j)); try lia; reflexivity.
Qed.

Lemma kg_close_3 {th Rr ph ph1 ph2 s1 s2 i d n1 g1 n2 g2 a b} :
  (i < d)%nat -> rvalid n1 g1 d a -> rvalid n2 g2 d b ->
  rk_in th Rr ph ph1 ph2 s1 s2 i d a b = rk_out th Rr ph ph1 ph2 s1 s2 (S i) a b.
Proof.
  intros Hi Ha Hb. destruct a as [p|i1 p], b as [q|j1 q]; cbn [rk_in rk_out rvalid] in *; try reflexivity.
  destruct (Nat.ltb_spec (Nat.min i1 j1) i); destruct (Nat.ltb_spec (Nat.min i1 j1) (S i)); cbn [orb]; try lia; try reflexivity.
  - destruct (Nat.eqb_spec (Nat.min i1 j1) i); [|lia]. destruct (Nat.ltb_spec (Nat.max i1 j1) d); [|lia]. reflexivity.
  - destruct (Nat.eqb_spec (Nat.min i1 j1) i); [lia|]. reflexivity.
Qed.
Lemma kg_close_4 {th Rr ph ph1 ph2 s1 s2 d n1 g1 n2 g2 a b} :
  rvalid n1 g1 d a -> rvalid n2 g2 d b ->
  rk_out th Rr ph ph1 ph2 s1 s2 d a b = rk th Rr ph ph1 ph2 s1 s2 a b.
Proof.
  intros Ha Hb. destruct a as [p|i1 p], b as [q|j1 q]; cbn [rk_out rvalid] in *; try reflexivity.
  - destruct (Nat.ltb_spec j1 d); [reflexivity|lia].
  - destruct (Nat.ltb_spec i1 d); [reflexivity|lia].
  - destruct (Nat.ltb_spec (Nat.min i1 j1) d); [reflexivity|lia].
Qed.

Ltac kunf := idtac.
Ltac ksolve := intros; cbn [rk]; unfold delta; kunf; rewrite ?Nat.eqb_refl; try ring; try field.
Ltac ksolve_ne i j := intros; cbn [rk]; unfold delta; kunf;
  destruct (Nat.eqb_spec i j); [lia | destruct (Nat.eqb_spec j i); [lia | try ring; try field]].

(** the loop of [calc_KernGrad], common to the three kernels *)
Ltac kg_loop d n1 g1 n2 g2 k ko ki :=
  eapply rok_mono;
  [ eapply (rok_for_range (fun m K => bspec n1 g1 d n2 g2 d K (ko m)));
    [ lia
    | eapply bspec_ext; [eassumption | intros [?|? ?] [?|? ?] _ _; reflexivity]
    | let i := fresh "i" in let K := fresh "K" in let Hi := fresh "Hi" in let HK := fresh "HK" in
      intros i K Hi HK; msteps;
      bupdf (RG i) RF (fun p q : nat => k (G i p) (F q)) ltac:(ksolve); msteps;
      bupdf RF (RG i) (fun p q : nat => k (F p) (G i q)) ltac:(ksolve); msteps;
      bupdf (RG i) (RG i) (fun p q : nat => k (G i p) (G i q)) ltac:(ksolve); msteps;
      eapply rok_mono;
      [ eapply (rok_for_range (fun m K => bspec n1 g1 d n2 g2 d K (ki i m)));
        [ lia
        | eapply bspec_ext; [eassumption | intros a b Ha Hb; eapply (@kg_close_1 _ _ _ _ _ _ _ i d n1 g1 n2 g2 a b); [lia | exact Ha | exact Hb]]
        | let j := fresh "j" in let K2 := fresh "K" in let Hj := fresh "Hj" in let HK2 := fresh "HK" in
          intros j K2 Hj HK2; msteps;
          bupdf (RG i) (RG j) (fun p q : nat => k (G i p) (G j q)) ltac:(ksolve_ne i j);
          bupdf_last (RG j) (RG i) (fun p q : nat => k (G j p) (G i q)) ltac:(ksolve_ne i j);
          eapply bspec_ext; [eassumption | intros a b Ha Hb; eapply (@kg_close_2 _ _ _ _ _ _ _ i j d n1 g1 n2 g2 a b); [lia | lia | exact Ha | exact Hb]] ]
      | let K2 := fresh "K" in let HK2 := fresh "HK" in
        intros K2 HK2; eapply bspec_ext; [exact HK2 | intros a b Ha Hb; eapply (@kg_close_3 _ _ _ _ _ _ _ i d n1 g1 n2 g2 a b); [lia | exact Ha | exact Hb]] ] ]
  | let K2 := fresh "K" in let HK2 := fresh "HK" in
    intros K2 HK2; eapply bspec_ext; [exact HK2 | intros a b Ha Hb; eapply (@kg_close_4 _ _ _ _ _ _ _ d n1 g1 n2 g2 a b); [exact Ha | exact Hb]] ].

(** phi, phi', phi'' of the three kernels as functions of s = sum theta_i (x_i-y_i)^2 *)
Definition se0 x := exp (- x).
Definition se1 x := - exp (- x).
Definition se2 x := exp (- x).
Definition ma0 x := matern_base_entry (sqrt x).
Definition ma1 x := - / 2 * matern_mat1_entry (sqrt x).
Definition ma2 x := 25 / 12 * matern_Abase_entry (sqrt x).
Definition rq0 a x := rat_pow a (- a) x.
Definition rq1 a x := - rat_pow a (- a - 1) x.
Definition rq2 a x := (1 + 1 / a) * rat_pow a (- a - 2) x.
Ltac kunf ::= unfold se0, se1, se2, ma0, ma1, ma2, rq0, rq1, rq2.

Section three.
Variables (Rt : ten) (theta : vec) (d n1 n2 : nat) (Rr : nat -> nat -> nat -> R) (th : nat -> R).
Hypothesis (HR : tspec d n1 n2 Rt Rr) (Hth : vspec d theta th).
Variables (b1 b2 : option (list bool)).
Hypotheses (M1 : mok n1 b1) (M2 : mok n2 b2).
Local Notation g1 := (opt_count n1 b1).
Local Notation g2 := (opt_count n2 b2).
Local Notation s p q := (rsum d (fun i => th i * Rr i p q ^ 2)).
Local Notation kk ph ph1 ph2 := (rk th Rr (fun p q => ph (s p q)) (fun p q => ph1 (s p q)) (fun p q => ph2 (s p q)) (osel b1) (osel b2)).
Local Notation ko ph ph1 ph2 := (rk_out th Rr (fun p q => ph (s p q)) (fun p q => ph1 (s p q)) (fun p q => ph2 (s p q)) (osel b1) (osel b2)).
Local Notation ki ph ph1 ph2 := (rk_in th Rr (fun p q => ph (s p q)) (fun p q => ph1 (s p q)) (fun p q => ph2 (s p q)) (osel b1) (osel b2)).

Lemma sq_exp_KernGrad_blocks :
  rok (sq_exp_calc_KernGrad Rt theta b1 b2)
   (fun K => bspec n1 g1 d n2 g2 d K (kk se0 se1 se2)).
Proof.
  unfold sq_exp_calc_KernGrad.
  assert (H := HR); destruct H as (-> & -> & -> & _). cbv zeta.
  eapply rok_bind; [eapply sq_exp_sum_ok; eassumption|]. intros es Hes; cbv beta in Hes.
  do 6 ostep.
  assert (HK0 := bspec_const n1 g1 d n2 g2 d 0).
  bupdf RF RF (fun p q => kk se0 se1 se2 (F p) (F q)) ltac:(reflexivity).
  kg_loop d n1 constr:(g1) n2 constr:(g2) (kk se0 se1 se2) (ko se0 se1 se2) (ki se0 se1 se2).
Qed.

Lemma matern_KernGrad_blocks :
  (forall i, (i < d)%nat -> 0 <= th i) ->
  rok (matern_calc_KernGrad Rt theta b1 b2)
   (fun K => bspec n1 g1 d n2 g2 d K (kk ma0 ma1 ma2)).
Proof.
  intros Hpos. unfold matern_calc_KernGrad.
  assert (H := HR); destruct H as (-> & -> & -> & _). cbv zeta.
  eapply rok_bind; [eapply nu_mat_ok; eassumption|]. intros nu Hnu; cbv beta in Hnu.
  do 8 ostep.
  assert (HK0 := bspec_const n1 g1 d n2 g2 d 0).
  bupdf RF RF (fun p q => kk ma0 ma1 ma2 (F p) (F q)) ltac:(reflexivity).
  kg_loop d n1 constr:(g1) n2 constr:(g2) (kk ma0 ma1 ma2) (ko ma0 ma1 ma2) (ki ma0 ma1 ma2).
Qed.

(** the rational quadratic kernel, unless only the first mask is given *)
Lemma rat_KernGrad_blocks alpha :
  (b2 = None -> b1 = None) ->
  rok (rat_calc_KernGrad Rt theta alpha b1 b2)
   (fun K => bspec n1 g1 d n2 g2 d K (kk (rq0 alpha) (rq1 alpha) (rq2 alpha))).
Proof.
  intros Hmask. unfold rat_calc_KernGrad.
  assert (H := HR); destruct H as (-> & -> & -> & _). cbv zeta.
  eapply rok_bind; [eapply pos_sum_ok; eassumption|]. intros tmp Htmp; cbv beta in Htmp.
  do 7 ostep.
  eapply (rok_bind _ _ (fun C => mspec n1 g2 C (fun i j => rat_pow alpha (- alpha - 1) (s i (osel b2 j))))).
  { destruct b2 as [m2|].
    - eapply rok_mono; [eapply (opt_cols_ok n1 n2 _ _ (Some m2)); [mspec_tac | exact M2] | intros ? HC; exact HC].
    - rewrite (Hmask eq_refl) in *. simpl in *. assumption. }
  intros B1g2 HB1g2; cbv beta in HB1g2.
  do 2 ostep.
  assert (HK0 := bspec_const n1 g1 d n2 g2 d 0).
  bupdf RF RF (fun p q => kk (rq0 alpha) (rq1 alpha) (rq2 alpha) (F p) (F q)) ltac:(reflexivity).
  kg_loop d n1 constr:(g1) n2 constr:(g2) (kk (rq0 alpha) (rq1 alpha) (rq2 alpha))
    (ko (rq0 alpha) (rq1 alpha) (rq2 alpha)) (ki (rq0 alpha) (rq1 alpha) (rq2 alpha)).
Qed.
End three.
