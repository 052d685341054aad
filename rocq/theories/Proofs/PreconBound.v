(** Row bounds of the three kernels, and the resulting bound on the preconditioned kernel matrix. *)
From Coq Require Import Reals List Arith Bool Lia Lra Psatz.
From Coquelicot Require Import Coquelicot.
From Verif.Base Require Import NpLite NpFacts.
From Verif.Spec Require Import KernelSpec LinAlgSpec.
From Verif.Model Require Import KernelSqExp KernelMatern KernelRatQuad KernelDispatch.
From Verif.Proofs Require Import KernGradBlocks RadialCalculus KernelExact LinAlg Jets Mixture Psd RowSum JetGersh.
Import ListNotations.
Local Open Scope R_scope.

Lemma abs_div a b : 0 < b -> Rabs a / b = Rabs (a / b).
Proof. intros H. unfold Rdiv. rewrite Rabs_mult. f_equal. symmetry. apply Rabs_pos_eq. left. apply Rinv_0_lt_compat, H. Qed.
Lemma abs_mul_r a b : 0 <= b -> Rabs (a * b) = Rabs a * b.
Proof. intros H. rewrite Rabs_mult, (Rabs_pos_eq b H). reflexivity. Qed.

Section PB.
Variables (d : nat) (th : nat -> R).
Hypothesis Hpos : forall i, (i < d)%nat -> 0 < th i.
Hypothesis Hd : (0 < d)%nat.

(** ** squared exponential with parameters l * theta *)
Definition segam (l : R) (i : nat) : R := sqrt (2 * l * th i).
Lemma segam_sq l i : 0 < l -> (i < d)%nat -> segam l i * segam l i = 2 * l * th i.
Proof. intros Hl Hi. assert (P := Hpos i Hi). apply sqrt_sqrt. apply Rmult_le_pos; lra. Qed.
Lemma segam_pos l i : 0 < l -> (i < d)%nat -> 0 < segam l i.
Proof. intros Hl Hi. assert (P := Hpos i Hi). apply sqrt_lt_R0. apply Rmult_lt_0_compat; lra. Qed.
Definition seu l (x y : pt) (j : nat) : R := segam l j * (x j - y j).
Lemma seu_sum l x y : 0 < l -> l * sqd d th x y = rsum d (fun j => seu l x y j ^ 2) / 2.
Proof.
  intros Hl. unfold sqd. rewrite <- rsum_scal. unfold Rdiv. rewrite <- rsum_scal_r. apply rsum_ext; intros j Hj.
  unfold seu. replace ((segam l j * (x j - y j)) ^ 2) with (segam l j * segam l j * (x j - y j) ^ 2) by ring.
  rewrite segam_sq by auto. field.
Qed.
Lemma se_vv l x y : 0 < l -> sejet d th l (Val x) (Val y) = exp (- (rsum d (fun j => seu l x y j ^ 2) / 2)).
Proof. intros Hl. unfold sejet, rjet. rewrite seu_sum by auto. reflexivity. Qed.
Lemma se_vd l x y j : 0 < l -> (j < d)%nat ->
  sejet d th l (Val x) (Der j y) / segam l j = seu l x y j * exp (- (rsum d (fun j => seu l x y j ^ 2) / 2)).
Proof.
  intros Hl Hj. unfold sejet, rjet. rewrite seu_sum by auto. assert (P := segam_pos l j Hl Hj). unfold seu at 2.
  apply (Rmult_eq_reg_r (segam l j)); [|lra].
  replace (segam l j * (x j - y j) * exp (- (rsum d (fun j => seu l x y j ^ 2) / 2)) * segam l j) with
    (segam l j * segam l j * ((x j - y j) * exp (- (rsum d (fun j => seu l x y j ^ 2) / 2)))) by ring.
  rewrite segam_sq by auto. field. lra.
Qed.
Lemma se_dv l x y j : 0 < l -> (j < d)%nat ->
  sejet d th l (Der j x) (Val y) / segam l j = - seu l x y j * exp (- (rsum d (fun j => seu l x y j ^ 2) / 2)).
Proof.
  intros Hl Hj. rewrite Ropp_mult_distr_l_reverse, <- se_vd by auto. unfold sejet, rjet. field.
  apply Rgt_not_eq, segam_pos; auto.
Qed.
Lemma se_dd l x y i j : 0 < l -> (i < d)%nat -> (j < d)%nat ->
  sejet d th l (Der i x) (Der j y) / (segam l i * segam l j) =
  ((if (i =? j)%nat then 1 else 0) - seu l x y i * seu l x y j) * exp (- (rsum d (fun j => seu l x y j ^ 2) / 2)).
Proof.
  intros Hl Hi Hj. unfold sejet, rjet. rewrite seu_sum by auto. set (e := exp _).
  assert (Pi := segam_pos l i Hl Hi). assert (Pj := segam_pos l j Hl Hj).
  assert (Si := segam_sq l i Hl Hi). assert (Sj := segam_sq l j Hl Hj).
  apply (Rmult_eq_reg_r (segam l i * segam l j)); [|apply Rgt_not_eq, Rmult_lt_0_compat; auto].
  transitivity (- ((if (i =? j)%nat then 2 * th i else 0) * (- l * e) + 2 * th i * (x i - y i) * (2 * th j * (x j - y j)) * (l * l * e))).
  { unfold Rdiv. rewrite Rmult_assoc, Rinv_l, Rmult_1_r; [reflexivity | apply Rgt_not_eq, Rmult_lt_0_compat; auto]. }
  unfold seu. transitivity ((if (i =? j)%nat then segam l i * segam l j else 0) * e - (segam l i * segam l i) * (segam l j * segam l j) * ((x i - y i) * (x j - y j)) * e).
  2: destruct (i =? j)%nat; ring.
  rewrite Si, Sj. destruct (Nat.eqb_spec i j); [subst; rewrite Sj|]; ring.
Qed.
Lemma se_rowb l a y : 0 < l -> oval d a -> rowb (sejet d th l) (segam l) d a y <= seM d.
Proof.
  intros Hl Ha. unfold rowb. destruct a as [x|i x]; cbn [oval gs opt_pt] in Ha |- *.
  - eapply Rle_trans; [|apply (se_fun_row d (seu l x y) Hd)]. set (e := exp _). assert (Pe : 0 < e) by apply exp_pos.
    rewrite Rmult_plus_distr_r, <- rsum_scal_r. apply Rplus_le_compat.
    + rewrite se_vv by auto. fold e. rewrite Rabs_pos_eq by lra. lra.
    + right. apply rsum_ext; intros j Hj. rewrite Rmult_1_l, abs_div by (apply segam_pos; auto). rewrite se_vd by auto. fold e.
      apply abs_mul_r. lra.
  - eapply Rle_trans; [|apply (se_grad_row d (seu l x y) i Ha)]. set (e := exp _). assert (Pe : 0 < e) by apply exp_pos.
    rewrite Rmult_plus_distr_r, <- rsum_scal_r. apply Rplus_le_compat; right.
    + rewrite abs_div by (apply segam_pos; auto). rewrite se_dv by auto. fold e. rewrite abs_mul_r, Rabs_Ropp by lra. reflexivity.
    + apply rsum_ext; intros j Hj. rewrite abs_div by (apply Rmult_lt_0_compat; apply segam_pos; auto). rewrite se_dd by auto. fold e.
      apply abs_mul_r. lra.
Qed.
Lemma sqd_self x : sqd d th x x = 0.
Proof. unfold sqd. apply rsum_0. intros. ring. Qed.
Lemma rsum_if_abs i (v : R) : (i < d)%nat -> rsum d (fun j => if (i =? j)%nat then v else 0) = v.
Proof.
  intros Hi. rewrite (rsum_ext d _ (fun j => if (j =? i)%nat then v else 0)) by (intros; rewrite Nat.eqb_sym; reflexivity).
  apply (rsum_delta d i (fun _ => v) Hi).
Qed.
Lemma se_rowb1 l a : 0 < l -> oval d a -> rowb (sejet d th l) (segam l) d a (opt_pt a) <= 1.
Proof.
  intros Hl Ha.
  assert (U : forall x, rsum d (fun j => seu l x x j ^ 2) / 2 = 0).
  { intros x. rewrite rsum_0; [field|]. intros; unfold seu; ring. }
  unfold rowb. destruct a as [x|i x]; cbn [oval gs opt_pt] in Ha |- *.
  - rewrite se_vv, U, Ropp_0, exp_0, Rabs_R1 by auto. rewrite rsum_0; [lra|].
    intros j Hj. rewrite Rmult_1_l, abs_div by (apply segam_pos; auto). rewrite se_vd by auto.
    unfold seu at 1. replace (x j - x j) with 0 by ring. rewrite Rmult_0_r, Rmult_0_l. apply Rabs_R0.
  - rewrite abs_div by (apply segam_pos; auto). rewrite se_dv by auto.
    unfold seu at 1. replace (x i - x i) with 0 by ring. rewrite Rmult_0_r, Ropp_0, Rmult_0_l, Rabs_R0, Rplus_0_l.
    rewrite (rsum_ext d _ (fun j => if (i =? j)%nat then 1 else 0)); [rewrite rsum_if_abs by auto; lra|].
    intros j Hj. rewrite abs_div by (apply Rmult_lt_0_compat; apply segam_pos; auto). rewrite se_dd, U, Ropp_0, exp_0 by auto.
    unfold seu at 1. replace (x i - x i) with 0 by ring. destruct (i =? j)%nat; rewrite Rmult_0_r, Rmult_0_l, Rminus_0_r, Rmult_1_r; [apply Rabs_R1|apply Rabs_R0].
Qed.
Lemma rjet_sym p0 p1 p2 a b : rjet d th p0 p1 p2 a b = rjet d th p0 p1 p2 b a.
Proof.
  assert (S : forall x y, sqd d th x y = sqd d th y x) by (intros; apply rsum_ext; intros; ring).
  destruct a as [x|i x], b as [y|j y]; unfold rjet; rewrite (S y x); try ring.
  rewrite (Nat.eqb_sym j i). destruct (Nat.eqb_spec i j); [subst|]; ring.
Qed.
Lemma se_gersh l n X b v : 0 < l -> mask_ok n b -> (0 < n)%nat ->
  let g := opt_count n b in let N := (n + g * d)%nat in let ob := rowobs n g X (osel b) in
  bform N (fun r s => sejet d th l (ob r) (ob s)) v v
    <= (1 + INR (n - 1) * seM d) * rsum N (fun r => sejet d th l (ob r) (ob r) * v r ^ 2).
Proof.
  intros Hl Mk Hn g N ob.
  assert (Z := jet_gersh (sejet d th l) (segam l) d (seM d) (fun i => segam_pos l i Hl) (fun a y => se_rowb l a y Hl)
     (fun a => se_rowb1 l a Hl) (fun a b _ _ => rjet_sym _ _ _ a b) n X b v Mk Hn).
  fold g N ob in Z. eapply Rle_trans; [exact Z|]. right. f_equal. apply rsum_ext; intros r Hr. f_equal.
  destruct (unradr_ok n g d r Hr) as [V _]. unfold ob, rowobs. destruct (unradr n g r) as [p|i p]; simpl in V |- *.
  - rewrite sqd_self, Rmult_0_r, Ropp_0, exp_0. ring.
  - replace (segam l i * (segam l i * 1)) with (segam l i * segam l i) by ring. rewrite segam_sq by tauto.
    rewrite Nat.eqb_refl, sqd_self, Rmult_0_r, Ropp_0, exp_0. ring.
Qed.

(** ** Matern 5/2 *)
Definition magam (i : nat) : R := sqrt (5 / 3 * th i).
Lemma magam_sq i : (i < d)%nat -> magam i * magam i = 5 / 3 * th i.
Proof. intros Hi. assert (P := Hpos i Hi). apply sqrt_sqrt. lra. Qed.
Lemma magam_pos i : (i < d)%nat -> 0 < magam i.
Proof. intros Hi. assert (P := Hpos i Hi). apply sqrt_lt_R0. lra. Qed.
Definition mau (x y : pt) (j : nat) : R := sqrt 3 * magam j * (x j - y j).
Definition mar (x y : pt) : R := sqrt (rsum d (fun j => mau x y j ^ 2)).
Lemma s33 : sqrt 3 * sqrt 3 = 3. Proof. apply sqrt_sqrt; lra. Qed.
Lemma s3p : 0 < sqrt 3. Proof. apply sqrt_lt_R0; lra. Qed.
Lemma mau_sum x y : rsum d (fun j => mau x y j ^ 2) = 5 * sqd d th x y.
Proof.
  unfold sqd. rewrite <- rsum_scal. apply rsum_ext; intros j Hj. unfold mau.
  replace ((sqrt 3 * magam j * (x j - y j)) ^ 2) with (sqrt 3 * sqrt 3 * (magam j * magam j) * (x j - y j) ^ 2) by ring.
  rewrite s33, magam_sq by auto. field.
Qed.
Lemma mar_eq x y : mar x y = sqrt 5 * sqrt (sqd d th x y).
Proof. unfold mar. rewrite mau_sum. apply sqrt_mult_alt. lra. Qed.
Lemma ma_e0 x y : ma0 (sqd d th x y) = (1 + mar x y + mar x y ^ 2 / 3) * exp (- mar x y).
Proof.
  unfold ma0, matern_base_entry. rewrite mar_eq. replace (- sqrt 5 * sqrt (sqd d th x y)) with (- (sqrt 5 * sqrt (sqd d th x y))) by ring.
  f_equal. f_equal. replace ((sqrt 5 * sqrt (sqd d th x y)) ^ 2) with (sqrt 5 * sqrt 5 * sqrt (sqd d th x y) ^ 2) by ring.
  rewrite (sqrt_sqrt 5) by lra. field.
Qed.
Lemma ma_e1 x y : ma1 (sqd d th x y) = - (5 / 6) * ((1 + mar x y) * exp (- mar x y)).
Proof.
  unfold ma1, matern_mat1_entry. rewrite mar_eq. replace (- sqrt 5 * sqrt (sqd d th x y)) with (- (sqrt 5 * sqrt (sqd d th x y))) by ring. field.
Qed.
Lemma ma_e2 x y : ma2 (sqd d th x y) = 25 / 12 * exp (- mar x y).
Proof.
  unfold ma2, matern_Abase_entry. rewrite mar_eq. replace (- sqrt 5 * sqrt (sqd d th x y)) with (- (sqrt 5 * sqrt (sqd d th x y))) by ring. reflexivity.
Qed.
Definition majet : jcov := rjet d th ma0 ma1 ma2.
Lemma ma_vd x y j : (j < d)%nat ->
  majet (Val x) (Der j y) / magam j = mau x y j / sqrt 3 * (1 + mar x y) * exp (- mar x y).
Proof.
  intros Hj. unfold majet, rjet. rewrite ma_e1. assert (P := magam_pos j Hj). assert (P3 := s3p).
  apply (Rmult_eq_reg_r (magam j)); [|lra]. unfold mau.
  replace (sqrt 3 * magam j * (x j - y j) / sqrt 3 * (1 + mar x y) * exp (- mar x y) * magam j) with
    (magam j * magam j * ((x j - y j) * (1 + mar x y) * exp (- mar x y))) by (field; lra).
  rewrite magam_sq by auto. field. lra.
Qed.
Lemma ma_dv x y j : (j < d)%nat ->
  majet (Der j x) (Val y) / magam j = - (mau x y j / sqrt 3 * (1 + mar x y)) * exp (- mar x y).
Proof.
  intros Hj. rewrite Ropp_mult_distr_l_reverse, <- ma_vd by auto. unfold majet, rjet. field.
  apply Rgt_not_eq, magam_pos; auto.
Qed.
Lemma ma_dd x y i j : (i < d)%nat -> (j < d)%nat ->
  majet (Der i x) (Der j y) / (magam i * magam j) =
  ((if (i =? j)%nat then 1 + mar x y else 0) - mau x y i * mau x y j) * exp (- mar x y).
Proof.
  intros Hi Hj. unfold majet, rjet. rewrite ma_e1, ma_e2. set (e := exp _). set (r := mar x y).
  assert (Pi := magam_pos i Hi). assert (Pj := magam_pos j Hj).
  assert (Si := magam_sq i Hi). assert (Sj := magam_sq j Hj).
  apply (Rmult_eq_reg_r (magam i * magam j)); [|apply Rgt_not_eq, Rmult_lt_0_compat; auto].
  transitivity (- ((if (i =? j)%nat then 2 * th i else 0) * (- (5 / 6) * ((1 + r) * e)) + 2 * th i * (x i - y i) * (2 * th j * (x j - y j)) * (25 / 12 * e))).
  { unfold Rdiv. rewrite Rmult_assoc, Rinv_l, Rmult_1_r; [reflexivity | apply Rgt_not_eq, Rmult_lt_0_compat; auto]. }
  unfold mau. transitivity ((if (i =? j)%nat then (1 + r) * (magam i * magam j) else 0) * e - (sqrt 3 * sqrt 3) * (magam i * magam i) * (magam j * magam j) * ((x i - y i) * (x j - y j)) * e).
  2: destruct (i =? j)%nat; ring.
  rewrite Si, Sj, s33. destruct (Nat.eqb_spec i j); [subst; rewrite Sj|]; field.
Qed.
Lemma ma_rowb a y : oval d a -> rowb majet magam d a y <= maM d.
Proof.
  intros Ha. assert (P3 := s3p). unfold rowb. destruct a as [x|i x]; cbn [oval gs opt_pt] in Ha |- *.
  - eapply Rle_trans; [|apply (ma_fun_row d (mau x y) Hd)]. cbv zeta. fold (mar x y). set (r := mar x y). set (e := exp _).
    assert (Pe : 0 < e) by apply exp_pos. assert (Pr : 0 <= r) by apply sqrt_pos.
    rewrite Rmult_plus_distr_r, <- rsum_scal_r. apply Rplus_le_compat.
    + unfold majet, rjet. rewrite ma_e0. fold r e. rewrite Rabs_pos_eq; [lra|]. apply Rmult_le_pos; [nra|lra].
    + right. apply rsum_ext; intros j Hj. rewrite Rmult_1_l, abs_div by (apply magam_pos; auto). rewrite ma_vd by auto. fold r e.
      rewrite !abs_mul_r by lra. rewrite <- abs_div by lra. reflexivity.
  - eapply Rle_trans; [|apply (ma_grad_row d (mau x y) i Ha)]. cbv zeta. fold (mar x y). set (r := mar x y). set (e := exp _).
    assert (Pe : 0 < e) by apply exp_pos. assert (Pr : 0 <= r) by apply sqrt_pos.
    rewrite Rmult_plus_distr_r, <- rsum_scal_r. apply Rplus_le_compat; right.
    + rewrite abs_div by (apply magam_pos; auto). rewrite ma_dv by auto. fold r e. rewrite abs_mul_r, Rabs_Ropp, abs_mul_r by lra.
      rewrite <- abs_div by lra. reflexivity.
    + apply rsum_ext; intros j Hj. rewrite abs_div by (apply Rmult_lt_0_compat; apply magam_pos; auto). rewrite ma_dd by auto. fold r e.
      apply abs_mul_r. lra.
Qed.
Lemma mar_self x : mar x x = 0.
Proof. rewrite mar_eq, sqd_self, sqrt_0. ring. Qed.
Lemma ma_rowb1 a : oval d a -> rowb majet magam d a (opt_pt a) <= 1.
Proof.
  intros Ha. assert (P3 := s3p).
  unfold rowb. destruct a as [x|i x]; cbn [oval gs opt_pt] in Ha |- *.
  - rewrite rsum_0.
    + unfold majet, rjet. rewrite ma_e0, mar_self, Ropp_0, exp_0. rewrite Rabs_pos_eq; simpl; lra.
    + intros j Hj. rewrite Rmult_1_l, abs_div by (apply magam_pos; auto). rewrite ma_vd by auto.
      unfold mau. replace (x j - x j) with 0 by ring. unfold Rdiv. rewrite Rmult_0_r, !Rmult_0_l. apply Rabs_R0.
  - rewrite abs_div by (apply magam_pos; auto). rewrite ma_dv by auto.
    unfold mau at 1. replace (x i - x i) with 0 by ring. unfold Rdiv at 1. rewrite Rmult_0_r, !Rmult_0_l, Ropp_0, Rmult_0_l, Rabs_R0, Rplus_0_l.
    rewrite (rsum_ext d _ (fun j => if (i =? j)%nat then 1 else 0)); [rewrite rsum_if_abs by auto; lra|].
    intros j Hj. rewrite abs_div by (apply Rmult_lt_0_compat; apply magam_pos; auto). rewrite ma_dd, mar_self, Ropp_0, exp_0 by auto.
    unfold mau at 1. replace (x i - x i) with 0 by ring. rewrite Rmult_0_r, Rmult_0_l, Rminus_0_r, Rmult_1_r.
    destruct (i =? j)%nat; [rewrite Rplus_0_r; apply Rabs_R1|apply Rabs_R0].
Qed.
Lemma ma_gersh n X b v : mask_ok n b -> (0 < n)%nat ->
  let g := opt_count n b in let N := (n + g * d)%nat in let ob := rowobs n g X (osel b) in
  bform N (fun r s => majet (ob r) (ob s)) v v
    <= (1 + INR (n - 1) * maM d) * rsum N (fun r => majet (ob r) (ob r) * v r ^ 2).
Proof.
  intros Mk Hn g N ob.
  assert (Z := jet_gersh majet magam d (maM d) magam_pos ma_rowb ma_rowb1 (fun a b _ _ => rjet_sym _ _ _ a b) n X b v Mk Hn).
  fold g N ob in Z. eapply Rle_trans; [exact Z|]. right. f_equal. apply rsum_ext; intros r Hr. f_equal.
  destruct (unradr_ok n g d r Hr) as [V _]. unfold ob, rowobs. destruct (unradr n g r) as [p|i p]; cbn [obs_at gs rvalid] in V |- *.
  - unfold majet, rjet. rewrite ma_e0, mar_self, Ropp_0, exp_0. simpl. field.
  - replace (magam i ^ 2) with (magam i * magam i) by ring. rewrite magam_sq by tauto.
    unfold majet, rjet. rewrite ma_e1, ma_e2, mar_self, Ropp_0, exp_0, Nat.eqb_refl. field.
Qed.
End PB.

Lemma cut_pos d th : (forall i, (i < d)%nat -> 0 < th i) -> forall i, (i < d)%nat -> 0 < cut d th i.
Proof. intros H i Hi. rewrite cut_lt by exact Hi. auto. Qed.
Lemma ev_opp_qf l c : ev (qf (map (fun wa => (- fst wa, snd wa)) l) l) c = - qq c l l.
Proof.
  rewrite ev_qf. unfold qq. generalize (fun a => lsum l (fun b => c a b)) as f. intros f.
  induction l as [|[w a] l IH]; simpl; [ring | rewrite IH; ring].
Qed.
Lemma ev_diag N ob (w : nat -> R) c : ev (map (fun r => (w r, ob r, ob r)) (seq 0 N)) c = rsum N (fun r => w r * c (ob r) (ob r)).
Proof. induction N as [|N IH]; [reflexivity|]. rewrite seq_S, map_app, ev_app, IH. simpl. ring. Qed.

(** constant of the code: sum of the off-diagonal blocks per pair of points *)
Definition ubM (k : kernel) (d : nat) : R := match k with Ma5f2 => maM d | _ => seM d end.
Lemma ubM_ge1 k d : (0 < d)%nat -> 1 <= ubM k d.
Proof. destruct k; simpl; intros; [apply seM_ge1 | apply maM_ge1 | apply seM_ge1]; auto. Qed.

Theorem kjet_upper k hp d th n X b v : hp_ok k hp -> (forall i, (i < d)%nat -> 0 < th i) -> (0 < d)%nat ->
  mask_ok n b -> (0 < n)%nat ->
  let g := opt_count n b in let N := (n + g * d)%nat in let ob := rowobs n g X (osel b) in
  let c := kjet k (hp_val hp) d (cut d th) in
  bform N (fun r s => c (ob r) (ob s)) v v <= (1 + INR (n - 1) * ubM k d) * rsum N (fun r => c (ob r) (ob r) * v r ^ 2).
Proof.
  intros Hhp Hp Hd Mk Hn g N ob c.
  assert (SE : k <> Ma5f2 -> bform N (fun r s => c (ob r) (ob s)) v v <= (1 + INR (n - 1) * seM d) * rsum N (fun r => c (ob r) (ob r) * v r ^ 2)).
  { intros Hk. set (La := 1 + INR (n - 1) * seM d).
    set (f := qf (map (fun wa => (- fst wa, snd wa)) (wobs N ob v)) (wobs N ob v) ++ map (fun r => (La * v r ^ 2, ob r, ob r)) (seq 0 N)).
    assert (EF : forall c', ev f c' = La * rsum N (fun r => c' (ob r) (ob r) * v r ^ 2) - bform N (fun r s => c' (ob r) (ob s)) v v).
    { intros c'. unfold f. rewrite ev_app, ev_opp_qf, ev_diag, <- bform_jet, <- rsum_scal.
      rewrite (rsum_ext N (fun r => La * v r ^ 2 * c' (ob r) (ob r)) (fun r => La * (c' (ob r) (ob r) * v r ^ 2))) by (intros; ring). ring. }
    assert (Z : 0 <= ev f c).
    { apply mixture_all; auto.
      - apply cut_nn. intros i Hi. left; auto.
      - intros l Hl. rewrite EF. assert (Y := se_gersh d (cut d th) (cut_pos d th Hp) Hd l n X b v Hl Mk Hn).
        apply -> Rminus_le_0. exact Y. }
    rewrite EF in Z. apply Rminus_le_0. exact Z. }
  destruct k; [apply SE; discriminate | | apply SE; discriminate].
  exact (ma_gersh d (cut d th) (cut_pos d th Hp) Hd n X b v Mk Hn).
Qed.
