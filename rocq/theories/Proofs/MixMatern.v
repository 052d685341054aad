(** The Matern 5/2 kernel is an inverse-gamma mixture of squared exponentials. *)
From Coq Require Import Reals List Arith Bool Lia Lra Psatz.
From Coquelicot Require Import Coquelicot.
From Verif.Base Require Import NpLite NpFacts.
From Verif.Spec Require Import KernelSpec.
From Verif.Proofs Require Import Jets Mixture MixRatQu.
Import ListNotations.
Local Open Scope R_scope.

(** ** the Gaussian integral function *)
Definition gs (v : R) : R := exp (- v ^ 2).
Definition GG (x : R) : R := RInt gs 0 x.
Lemma gs_cont x : continuous gs x.
Proof. apply (ex_derive_continuous gs). unfold gs. auto_derive. exact I. Qed.
Lemma gs_int x y : ex_RInt gs x y.
Proof. apply (ex_RInt_continuous (V := R_CompleteNormedModule)). intros; apply gs_cont. Qed.
Lemma GG_diff x y : GG x - GG y = RInt gs y x.
Proof.
  assert (C := RInt_Chasles gs 0 y x (gs_int _ _) (gs_int _ _)). unfold plus in C; simpl in C. unfold GG. lra.
Qed.
Lemma GG_derive x : is_derive GG x (gs x).
Proof.
  apply (is_derive_RInt gs GG 0 x); [|apply gs_cont]. exists (mkposreal 1 Rlt_0_1). intros y _.
  apply (RInt_correct gs). apply gs_int.
Qed.
Lemma GG_opp x : GG (- x) = - GG x.
Proof.
  unfold GG. apply (is_RInt_unique gs). 
  assert (Z := is_RInt_comp_opp gs 0 (- x) (RInt gs 0 x)). rewrite Ropp_0, Ropp_involutive in Z.
  assert (Y := Z (RInt_correct gs 0 x (gs_int _ _))).
  apply (is_RInt_opp _ _ _ _) in Y. eapply is_RInt_extR; [|exact Y].
  intros u. unfold opp; simpl. rewrite Ropp_involutive. unfold gs. f_equal. ring.
Qed.
Lemma GG_tail x y : y <= x -> 0 <= GG x - GG y <= exp 1 / 2 * exp (- (2 * y)).
Proof.
  intros H. rewrite GG_diff. split.
  - apply RInt_ge_0; [exact H | apply gs_int|]. intros; left; apply exp_pos.
  - assert (I1 : is_RInt (fun v => exp (1 - 2 * v)) y x (minus (- / 2 * exp (1 - 2 * x)) (- / 2 * exp (1 - 2 * y)))).
    { apply (is_RInt_derive (fun v => - / 2 * exp (1 - 2 * v))).
      - intros v _. auto_derive; [exact I|]. unfold Rminus. field.
      - intros v _. apply (ex_derive_continuous (fun v => exp (1 - 2 * v))). auto_derive. exact I. }
    apply (Rle_trans _ (RInt (fun v => exp (1 - 2 * v)) y x)).
    + apply RInt_le; [exact H | apply gs_int | eexists; exact I1|].
      intros v _. apply exp_le. assert (Z := pow2_ge_0 (v - 1)). simpl in *. lra.
    + rewrite (is_RInt_unique _ _ _ _ I1). unfold minus, plus, opp; simpl.
      assert (Z := exp_pos (1 - 2 * x)). replace (exp 1 / 2 * exp (- (2 * y))) with (/ 2 * exp (1 - 2 * y)); [lra|].
      unfold Rminus. rewrite exp_plus. field.
Qed.
Lemma GG_small x : 0 <= x -> 0 <= GG x <= x.
Proof.
  intros H. split.
  - apply RInt_ge_0; [exact H | apply gs_int|]. intros; left; apply exp_pos.
  - assert (Z : Rabs (GG x) <= (x - 0) * 1).
    { apply abs_RInt_le_const; [exact H | apply gs_int|]. intros v _. rewrite Rabs_pos_eq by (left; apply exp_pos).
      rewrite <- exp_0. apply exp_le. assert (Y := pow2_ge_0 v). lra. }
    assert (Y := Rle_abs (GG x)). lra.
Qed.
(** two arguments growing at least linearly *)
Lemma GG_geo (x y : nat -> R) k D : 0 < k -> (forall n, k * INR n - D <= x n) -> (forall n, k * INR n - D <= y n) ->
  geo (fun n => GG (x n) - GG (y n)).
Proof.
  intros Hk Hx Hy. apply (geo_bound _ (2 * k) (2 * D) (exp 1 / 2)); [lra|]. intros n.
  assert (B : forall z, k * INR n - D <= z -> exp 1 / 2 * exp (- (2 * z)) <= exp 1 / 2 * exp (2 * D - 2 * k * INR n)).
  { intros z Hz. apply Rmult_le_compat_l; [assert (Z := exp_pos 1); lra|]. apply exp_le. lra. }
  destruct (Rle_lt_dec (y n) (x n)) as [H|H].
  - destruct (GG_tail _ _ H) as [Z1 Z2]. rewrite Rabs_pos_eq by exact Z1. eapply Rle_trans; [exact Z2|]. apply B, Hy.
  - destruct (GG_tail (y n) (x n) ltac:(lra)) as [Z1 Z2]. rewrite Rabs_minus_sym, Rabs_pos_eq by exact Z1.
    eapply Rle_trans; [exact Z2|]. apply B, Hx.
Qed.

Section MA.
Variables (a b : R). Hypothesis (Ha : 0 < a) (Hb : 0 <= b).
Definition EE (u : R) : R := exp (- (a ^ 2 * u ^ 2) - b ^ 2 / u ^ 2).
Lemma EE_pos u : 0 < EE u. Proof. apply exp_pos. Qed.
Definition cont_pos (f : R -> R) := forall u, 0 < u -> continuous f u.
Lemma int_pos f x y : cont_pos f -> 0 < x -> 0 < y -> ex_RInt f x y.
Proof.
  intros H Hx Hy. apply (ex_RInt_continuous (V := R_CompleteNormedModule)). intros z Hz. apply H. apply (Rmin_pos2 x y _ Hx Hy Hz).
Qed.
Lemma c_k k : cont_pos (fun u => u ^ k * EE u).
Proof. intros u Hu. apply (ex_derive_continuous (fun u => u ^ k * EE u)). unfold EE. auto_derive. assert (u * (u * 1) <> 0) by (apply Rgt_not_eq; nra). simpl. repeat split; auto. Qed.
Lemma c_U : cont_pos (fun u => EE u / u ^ 2).
Proof.
  intros u Hu. apply (ex_derive_continuous (fun u => EE u / u ^ 2)). unfold EE. auto_derive. simpl.
  assert (u * (u * 1) <> 0) by (apply Rgt_not_eq; nra). repeat split; auto.
Qed.
Variables (x y : R). Hypothesis (Hx : 0 < x) (Hy : 0 < y).
Definition Ik k := RInt (fun u => u ^ k * EE u) x y.
Definition IU := RInt (fun u => EE u / u ^ 2) x y.
Lemma Ik_is k : is_RInt (fun u => u ^ k * EE u) x y (Ik k).
Proof. apply (RInt_correct (fun u => u ^ k * EE u)). apply int_pos; auto. apply c_k. Qed.
Lemma IU_is : is_RInt (fun u => EE u / u ^ 2) x y IU.
Proof. apply (RInt_correct (fun u => EE u / u ^ 2)). apply int_pos; auto. apply c_U. Qed.
(** fundamental theorem of calculus on positive reals *)
Lemma ftc (F f : R -> R) (I : R) : (forall u, 0 < u -> is_derive F u (f u)) -> cont_pos f -> is_RInt f x y I -> I = F y - F x.
Proof.
  intros HF Hf HI.
  assert (Z : is_RInt f x y (minus (F y) (F x))).
  { apply (is_RInt_derive F f).
    - intros u Hu. apply HF. apply (Rmin_pos2 x y _ Hx Hy Hu).
    - intros u Hu. apply Hf. apply (Rmin_pos2 x y _ Hx Hy Hu). }
  assert (E1 := is_RInt_unique f _ _ _ Z). assert (E2 := is_RInt_unique f _ _ _ HI). rewrite <- E2, E1. reflexivity.
Qed.
Lemma lin3 (f1 f2 f3 : R -> R) I1 I2 I3 c1 c2 c3 : is_RInt f1 x y I1 -> is_RInt f2 x y I2 -> is_RInt f3 x y I3 ->
  is_RInt (fun u => c1 * f1 u + c2 * f2 u + c3 * f3 u) x y (c1 * I1 + c2 * I2 + c3 * I3).
Proof.
  intros H1 H2 H3. apply (is_RInt_plus (fun u => c1 * f1 u + c2 * f2 u) (fun u => c3 * f3 u)).
  - apply (is_RInt_plus (fun u => c1 * f1 u) (fun u => c2 * f2 u)); [apply (is_RInt_scal f1) | apply (is_RInt_scal f2)]; auto.
  - apply (is_RInt_scal f3); auto.
Qed.
Lemma cont3 (f1 f2 f3 : R -> R) c1 c2 c3 : cont_pos f1 -> cont_pos f2 -> cont_pos f3 ->
  cont_pos (fun u => c1 * f1 u + c2 * f2 u + c3 * f3 u).
Proof.
  intros H1 H2 H3 u Hu. apply (continuous_plus (fun u => c1 * f1 u + c2 * f2 u) (fun u => c3 * f3 u)).
  - apply (continuous_plus (fun u => c1 * f1 u) (fun u => c2 * f2 u)); [apply (continuous_scal_r c1 f1) | apply (continuous_scal_r c2 f2)]; auto.
  - apply (continuous_scal_r c3 f3); auto.
Qed.
Lemma parts1 : Ik 0 + 2 * b ^ 2 * IU - 2 * a ^ 2 * Ik 2 = y * EE y - x * EE x.
Proof.
  replace (Ik 0 + 2 * b ^ 2 * IU - 2 * a ^ 2 * Ik 2) with (1 * Ik 0 + 2 * b ^ 2 * IU + (- (2 * a ^ 2)) * Ik 2) by ring.
  apply (ftc (fun u => u * EE u) (fun u => 1 * (u ^ 0 * EE u) + 2 * b ^ 2 * (EE u / u ^ 2) + - (2 * a ^ 2) * (u ^ 2 * EE u))).
  - intros u Hu. unfold EE. auto_derive; [repeat split; apply Rgt_not_eq; nra|].
    match goal with |- context [exp ?e] => set (E := exp e) end.
    match goal with |- context [exp ?e] => replace (exp e) with E by (unfold E; f_equal; simpl; field; lra) end. field. lra.
  - apply cont3; [apply c_k | apply c_U | apply c_k].
  - apply lin3; [apply Ik_is | apply IU_is | apply Ik_is].
Qed.
Lemma parts3 : 3 * Ik 2 + 2 * b ^ 2 * Ik 0 - 2 * a ^ 2 * Ik 4 = y ^ 3 * EE y - x ^ 3 * EE x.
Proof.
  replace (3 * Ik 2 + 2 * b ^ 2 * Ik 0 - 2 * a ^ 2 * Ik 4) with (3 * Ik 2 + 2 * b ^ 2 * Ik 0 + (- (2 * a ^ 2)) * Ik 4) by ring.
  apply (ftc (fun u => u ^ 3 * EE u) (fun u => 3 * (u ^ 2 * EE u) + 2 * b ^ 2 * (u ^ 0 * EE u) + - (2 * a ^ 2) * (u ^ 4 * EE u))).
  - intros u Hu. unfold EE. auto_derive; [repeat split; apply Rgt_not_eq; nra|].
    match goal with |- context [exp ?e] => set (E := exp e) end.
    match goal with |- context [exp ?e] => replace (exp e) with E by (unfold E; f_equal; simpl; field; lra) end. field. lra.
  - apply cont3; apply c_k.
  - apply lin3; apply Ik_is.
Qed.
Lemma cs_minus : a * Ik 0 + b * IU = exp (- (2 * a * b)) * (GG (a * y - b / y) - GG (a * x - b / x)).
Proof.
  replace (a * Ik 0 + b * IU) with (a * Ik 0 + b * IU + 0 * Ik 0) by ring.
  rewrite Rmult_minus_distr_l.
  apply (ftc (fun u => exp (- (2 * a * b)) * GG (a * u - b / u)) (fun u => a * (u ^ 0 * EE u) + b * (EE u / u ^ 2) + 0 * (u ^ 0 * EE u))).
  - intros u Hu. assert (Z := is_derive_comp GG (fun u => a * u - b / u) u _ _ (GG_derive _) (ltac:(auto_derive; [lra | reflexivity]))).
    apply (is_derive_scal _ u (exp (- (2 * a * b)))) in Z.
    eapply eq_rect; [exact Z|]. unfold scal; simpl; unfold mult; simpl.
    assert (X : EE u = exp (- (2 * a * b)) * gs (a * u - b / u)).
    { unfold EE, gs. rewrite <- exp_plus. f_equal. field. lra. }
    rewrite X. field. lra.
  - apply cont3; [apply c_k | apply c_U | apply c_k].
  - apply lin3; [apply Ik_is | apply IU_is | apply Ik_is].
Qed.
Lemma cs_plus : a * Ik 0 - b * IU = exp (2 * a * b) * (GG (a * y + b / y) - GG (a * x + b / x)).
Proof.
  replace (a * Ik 0 - b * IU) with (a * Ik 0 + (- b) * IU + 0 * Ik 0) by ring.
  rewrite Rmult_minus_distr_l.
  apply (ftc (fun u => exp (2 * a * b) * GG (a * u + b / u)) (fun u => a * (u ^ 0 * EE u) + (- b) * (EE u / u ^ 2) + 0 * (u ^ 0 * EE u))).
  - intros u Hu. assert (Z := is_derive_comp GG (fun u => a * u + b / u) u _ _ (GG_derive _) (ltac:(auto_derive; [lra | reflexivity]))).
    apply (is_derive_scal _ u (exp (2 * a * b))) in Z.
    eapply eq_rect; [exact Z|]. unfold scal; simpl; unfold mult; simpl.
    assert (X : EE u = exp (2 * a * b) * gs (a * u + b / u)).
    { unfold EE, gs. rewrite <- exp_plus. f_equal. field. lra. }
    rewrite X. field. lra.
  - apply cont3; [apply c_k | apply c_U | apply c_k].
  - apply lin3; [apply Ik_is | apply IU_is | apply Ik_is].
Qed.
End MA.

Lemma ee_small n : ee n <= 1.
Proof. rewrite <- exp_0. apply exp_le. assert (Z := pos_INR n). lra. Qed.
Lemma TT_inv n : / TT n = ee n.
Proof. unfold TT, ee. rewrite exp_Ropp. reflexivity. Qed.
Lemma ee_inv n : / ee n = TT n.
Proof. rewrite <- TT_inv, Rinv_inv. reflexivity. Qed.
Lemma geo_ee : geo ee.
Proof. exists 1, 1. split; [lra|]. intros n. rewrite Rabs_pos_eq by (left; apply ee_pos). unfold ee. right. rewrite !Rmult_1_l. reflexivity. Qed.
Lemma geo_0 : geo (fun _ => 0).
Proof. exists 0, 1. split; [lra|]. intros n. rewrite Rabs_R0. lra. Qed.

Section MAlim.
Variables (a b : R). Hypothesis (Ha : 0 < a) (Hb : 0 <= b).
Definition An (b : R) n := Ik a b (ee n) (TT n) 0.
Definition Bn n := Ik a b (ee n) (TT n) 2.
Definition Cn n := Ik a b (ee n) (TT n) 4.
Definition Un n := IU a b (ee n) (TT n).

Lemma EE_le_small k u : 0 < u <= 1 -> 0 <= u ^ S k * EE a b u <= u.
Proof.
  intros Hu. assert (E1 := EE_pos a b u).
  assert (E2 : EE a b u <= 1).
  { rewrite <- exp_0. apply exp_le. assert (0 <= b ^ 2 / u ^ 2) by (apply Rle_mult_inv_pos; [apply pow2_ge_0 | apply pow_lt; lra]).
    assert (0 <= a ^ 2 * u ^ 2) by (apply Rmult_le_pos; apply pow2_ge_0). lra. }
  assert (P : 0 <= u ^ k <= 1). { split; [apply pow_le; lra|]. rewrite <- (pow1 k). apply pow_incr. lra. }
  simpl pow. split; [apply Rmult_le_pos; [apply Rmult_le_pos; lra | lra]|].
  replace (u * u ^ k * EE a b u) with (u * (u ^ k * EE a b u)) by ring. 
  assert (Q : u ^ k * EE a b u <= 1 * 1) by (apply Rmult_le_compat; lra).
  apply (Rle_trans _ (u * 1)); [apply Rmult_le_compat_l; lra | lra].
Qed.
Lemma exp_sq t : 0 <= t -> t ^ 2 / 4 <= exp t.
Proof.
  intros Ht. assert (Z := exp_ineq1_le (t / 2)). assert (E : exp t = exp (t / 2) * exp (t / 2)) by (rewrite <- exp_plus; f_equal; field).
  rewrite E. set (e := exp (t / 2)) in *. clearbody e. clear E.
  assert ((1 + t / 2) * (1 + t / 2) <= e * e) by (apply Rmult_le_compat; lra). simpl. nra.
Qed.
Lemma EE_le_large u : 1 <= u -> 0 <= u * EE a b u <= 4 / a ^ 4 * / u /\ 0 <= u ^ 3 * EE a b u <= 4 / a ^ 4 * / u.
Proof.
  intros Hu. assert (E1 := EE_pos a b u).
  assert (E2 : u ^ 3 * EE a b u <= 4 / a ^ 4 * / u).
  { apply (Rle_trans _ (u ^ 3 * exp (- (a ^ 2 * u ^ 2)))).
    - apply Rmult_le_compat_l; [apply pow_le; lra|]. apply exp_le.
      assert (0 <= b ^ 2 / u ^ 2) by (apply Rle_mult_inv_pos; [apply pow2_ge_0 | apply pow_lt; lra]). lra.
    - rewrite exp_Ropp. assert (Z := exp_sq (a ^ 2 * u ^ 2) ltac:(apply Rmult_le_pos; apply pow2_ge_0)).
      assert (P := exp_pos (a ^ 2 * u ^ 2)). apply (Rmult_le_reg_r (exp (a ^ 2 * u ^ 2))); [exact P|].
      rewrite Rmult_assoc, Rinv_l by lra.
      apply (Rle_trans _ (4 / a ^ 4 * / u * ((a ^ 2 * u ^ 2) ^ 2 / 4))).
      + right. field. split; lra.
      + apply Rmult_le_compat_l; [|exact Z]. apply Rmult_le_pos; [|left; apply Rinv_0_lt_compat; lra].
        left. apply Rdiv_lt_0_compat; [lra | apply pow_lt, Ha]. }
  assert (P3 : u <= u ^ 3) by (simpl; nra).
  split; split.
  - nra.
  - eapply Rle_trans; [|exact E2]. apply Rmult_le_compat_r; lra.
  - apply Rmult_le_pos; [apply pow_le; lra | lra].
  - exact E2.
Qed.
Lemma TT_ge1 n : 1 <= TT n.
Proof. rewrite <- exp_0. apply exp_le, pos_INR. Qed.
Lemma bd1 : geo (fun n => TT n * EE a b (TT n) - ee n * EE a b (ee n)).
Proof.
  apply geo_minus.
  - apply (geo_le _ ee (4 / a ^ 4)); [|left; apply Rdiv_lt_0_compat; [lra | apply pow_lt, Ha] | apply geo_ee].
    intros n. destruct (EE_le_large (TT n) (TT_ge1 n)) as [[Z1 Z2] _]. rewrite !Rabs_pos_eq by (auto; left; apply ee_pos).
    rewrite <- TT_inv. exact Z2.
  - apply (geo_le _ ee 1); [|lra | apply geo_ee]. intros n.
    destruct (EE_le_small 0 (ee n) (conj (ee_pos n) (ee_small n))) as [Z1 Z2]. rewrite pow_1 in Z1, Z2.
    rewrite !Rabs_pos_eq by (auto; left; apply ee_pos). lra.
Qed.
Lemma bd3 : geo (fun n => TT n ^ 3 * EE a b (TT n) - ee n ^ 3 * EE a b (ee n)).
Proof.
  apply geo_minus.
  - apply (geo_le _ ee (4 / a ^ 4)); [|left; apply Rdiv_lt_0_compat; [lra | apply pow_lt, Ha] | apply geo_ee].
    intros n. destruct (EE_le_large (TT n) (TT_ge1 n)) as [_ [Z1 Z2]]. rewrite !Rabs_pos_eq by (auto; left; apply ee_pos).
    rewrite <- TT_inv. exact Z2.
  - apply (geo_le _ ee 1); [|lra | apply geo_ee]. intros n.
    destruct (EE_le_small 2 (ee n) (conj (ee_pos n) (ee_small n))) as [Z1 Z2].
    rewrite !Rabs_pos_eq by (auto; left; apply ee_pos). lra.
Qed.
Lemma linear_growth k D n : 0 < k -> 0 <= D -> k * INR n - D <= k * TT n - D * ee n.
Proof. intros Hk HD. assert (Z := TT_ge n). assert (Y := ee_small n). assert (W := ee_pos n). nra. Qed.
(** G at the upper branch vanishes when b > 0 *)
Lemma Gp_geo : 0 < b -> geo (fun n => GG (a * TT n + b / TT n) - GG (a * ee n + b / ee n)).
Proof.
  intros Pb. apply (GG_geo _ _ (Rmin a b) 0); [apply Rmin_pos; auto| |]; intros n; unfold Rdiv; rewrite ?TT_inv, ?ee_inv;
    assert (Z := TT_ge n); assert (Y := ee_pos n); assert (N := pos_INR n).
  - assert (M := Rmin_l a b). nra.
  - assert (M := Rmin_r a b). nra.
Qed.
Lemma An0 n : a * An 0 n = GG (a * TT n) - GG (a * ee n).
Proof.
  assert (Z := cs_minus a 0 (ee n) (TT n) (ee_pos n) (TT_pos n)). unfold An.
  replace (a * Ik a 0 (ee n) (TT n) 0) with (a * Ik a 0 (ee n) (TT n) 0 + 0 * IU a 0 (ee n) (TT n)) by ring. rewrite Z.
  rewrite Rmult_0_r, Ropp_0, exp_0, Rmult_1_l. unfold Rdiv. rewrite !Rmult_0_l, !Rminus_0_r. reflexivity.
Qed.
Lemma bUA_geo : geo (fun n => b * (b * Un n - a * An b n)).
Proof.
  destruct (Req_dec b 0) as [E|E].
  - eapply geo_ext; [|apply geo_0]. intros n. rewrite E. ring.
  - apply geo_scal. assert (G := geo_scal (- exp (2 * a * b)) _ (Gp_geo ltac:(lra))).
    eapply geo_ext; [|exact G]. intros n. cbv beta.
    assert (Z := cs_plus a b (ee n) (TT n) (ee_pos n) (TT_pos n)). unfold Un, An. lra.
Qed.
Lemma A_geo : geo (fun n => An b n - exp (- (2 * a * b)) * An 0 n).
Proof.
  destruct (Req_dec b 0) as [E|E].
  - eapply geo_ext; [|apply geo_0]. intros n. rewrite E, Rmult_0_r, Ropp_0, exp_0. ring.
  - assert (Pb : 0 < b) by lra.
    assert (G1 : geo (fun n => GG (a * TT n - b / TT n) - GG (a * TT n))).
    { apply (GG_geo _ _ a b); auto; intros n; unfold Rdiv; rewrite ?TT_inv; assert (Z := TT_ge n); assert (Y := ee_small n); assert (W := ee_pos n); nra. }
    assert (G2 : geo (fun n => GG (b / ee n - a * ee n) - GG (a * TT n))).
    { apply (GG_geo _ _ (Rmin a b) a); [apply Rmin_pos; auto| |]; intros n; unfold Rdiv; rewrite ?ee_inv;
      assert (Z := TT_ge n); assert (Y := ee_small n); assert (W := ee_pos n); assert (N := pos_INR n).
      - assert (M := Rmin_r a b). nra.
      - assert (M := Rmin_l a b). nra. }
    assert (G3 : geo (fun n => GG (a * ee n))).
    { apply (geo_le _ ee a); [|lra|apply geo_ee]. intros n. assert (W := ee_pos n).
      destruct (GG_small (a * ee n) ltac:(nra)) as [Z1 Z2]. rewrite Rabs_pos_eq by exact Z1. rewrite Rabs_pos_eq by lra. exact Z2. }
    assert (G4 := Gp_geo Pb).
    set (m := exp (- (2 * a * b))) in *.
    assert (G : geo (fun n => / a * (m / 2 * (((GG (a * TT n - b / TT n) - GG (a * TT n)) + (GG (b / ee n - a * ee n) - GG (a * TT n))) + 2 * GG (a * ee n))
                 + exp (2 * a * b) / 2 * (GG (a * TT n + b / TT n) - GG (a * ee n + b / ee n))))).
    { apply geo_scal. apply geo_plus; [|apply geo_scal, G4]. apply geo_scal. apply geo_plus; [|apply geo_scal, G3]. apply geo_plus; auto. }
    eapply geo_ext; [|exact G]. intros n. cbv beta.
    assert (Z1 := cs_minus a b (ee n) (TT n) (ee_pos n) (TT_pos n)). fold m in Z1.
    assert (Z2 := cs_plus a b (ee n) (TT n) (ee_pos n) (TT_pos n)).
    assert (Z3 := An0 n).
    replace (GG (a * ee n - b / ee n)) with (- GG (b / ee n - a * ee n)) in Z1 by (rewrite <- GG_opp; f_equal; ring).
    apply (Rmult_eq_reg_l a); [|lra]. rewrite <- Rmult_assoc, Rinv_r, Rmult_1_l by lra.
    unfold An in *. assert (m * (a * Ik a 0 (ee n) (TT n) 0) = m * (GG (a * TT n) - GG (a * ee n))) by (rewrite Z3; reflexivity).
    lra.
Qed.
Lemma B_geo : geo (fun n => Bn n - (1 + 2 * (a * b)) / (2 * a ^ 2) * exp (- (2 * a * b)) * An 0 n).
Proof.
  set (m := exp (- (2 * a * b))).
  assert (G : geo (fun n => / (2 * a ^ 2) * ((1 + 2 * (a * b)) * (An b n - m * An 0 n) + 2 * (b * (b * Un n - a * An b n))
     - (TT n * EE a b (TT n) - ee n * EE a b (ee n))))).
  { apply geo_scal. apply geo_minus; [|apply bd1]. apply geo_plus; apply geo_scal; [apply A_geo | apply bUA_geo]. }
  eapply geo_ext; [|exact G]. intros n. cbv beta.
  assert (Z := parts1 a b (ee n) (TT n) (ee_pos n) (TT_pos n)). rewrite <- Z. unfold An, Bn, Un. field. lra.
Qed.
Lemma C_geo : geo (fun n => Cn n - (3 + 6 * (a * b) + 4 * (a * b) ^ 2) / (4 * a ^ 4) * exp (- (2 * a * b)) * An 0 n).
Proof.
  set (m := exp (- (2 * a * b))).
  assert (G : geo (fun n => / (2 * a ^ 2) * (3 * (Bn n - (1 + 2 * (a * b)) / (2 * a ^ 2) * m * An 0 n) + 2 * b ^ 2 * (An b n - m * An 0 n)
     - (TT n ^ 3 * EE a b (TT n) - ee n ^ 3 * EE a b (ee n))))).
  { apply geo_scal. apply geo_minus; [|apply bd3]. apply geo_plus; apply geo_scal; [apply B_geo | apply A_geo]. }
  eapply geo_ext; [|exact G]. intros n. cbv beta.
  assert (Z := parts3 a b (ee n) (TT n) (ee_pos n) (TT_pos n)). rewrite <- Z. unfold An, Bn, Cn. field. lra.
Qed.
End MAlim.

Lemma An0_pos a n : 0 < a -> (0 < n)%nat -> 0 < An a 0 n.
Proof.
  intros Ha Hn. apply RInt_gt_0.
  - apply exp_increasing. assert (0 < INR n) by (apply lt_0_INR; exact Hn). lra.
  - intros x Hx. rewrite pow_O, Rmult_1_l. apply EE_pos.
  - intros x Hx. apply c_k. assert (Z := ee_pos n). lra.
Qed.
Lemma An0_mono a n : 0 < a -> An a 0 1 <= An a 0 (S n).
Proof.
  intros Ha. assert (P1 := ee_pos (S n)). assert (P2 := TT_pos (S n)). assert (P3 := ee_pos 1). assert (P4 := TT_pos 1).
  assert (L1 : ee (S n) <= ee 1). { apply exp_le. rewrite (S_INR n). change (INR 1) with 1. assert (Z := pos_INR n). lra. }
  assert (L2 : TT 1 <= TT (S n)). { apply exp_le. rewrite (S_INR n). change (INR 1) with 1. assert (Z := pos_INR n). lra. }
  unfold An, Ik. set (f := fun u => u ^ 0 * EE a 0 u). assert (Cf : cont_pos f) by apply c_k.
  assert (C1 := RInt_Chasles f (ee (S n)) (ee 1) (TT (S n)) ltac:(apply int_pos; auto) ltac:(apply int_pos; auto)).
  assert (C2 := RInt_Chasles f (ee 1) (TT 1) (TT (S n)) ltac:(apply int_pos; auto) ltac:(apply int_pos; auto)).
  unfold plus in C1, C2; simpl in C1, C2.
  assert (Pf : forall u, 0 <= f u) by (intros u; unfold f; rewrite pow_O, Rmult_1_l; left; apply EE_pos).
  assert (0 <= RInt f (ee (S n)) (ee 1)) by (apply RInt_ge_0; [exact L1 | apply int_pos; auto | intros; apply Pf]).
  assert (0 <= RInt f (TT 1) (TT (S n))) by (apply RInt_ge_0; [exact L2 | apply int_pos; auto | intros; apply Pf]).
  lra.
Qed.
Lemma geo_shift u : geo u -> geo (fun n => u (S n)).
Proof.
  intros (C & b & Hb & G). exists (C * exp (- b)), b. split; [exact Hb|]. intros n. eapply Rle_trans; [apply G|]. right.
  rewrite Rmult_assoc, <- exp_plus. f_equal; f_equal; rewrite S_INR; ring.
Qed.

Lemma is_RInt_extP (f g : R -> R) x y (l : R) : 0 < x -> 0 < y -> (forall u, 0 < u -> f u = g u) ->
  is_RInt f x y l -> is_RInt g x y l.
Proof.
  intros Hx Hy H. apply is_RInt_ext. intros u Hu. apply H. apply (Rmin_pos2 x y u Hx Hy); lra.
Qed.

Theorem mixture_ma d th f : (forall i, 0 <= th i) ->
  (forall l, 0 < l -> 0 <= ev f (sejet d th l)) ->
  0 <= ev f (rjet d th (fun s => (1 + sqrt 5 * sqrt s + 5 / 3 * sqrt s ^ 2) * exp (- sqrt 5 * sqrt s))
                       (fun s => - (5 / 6 * (1 + sqrt 5 * sqrt s) * exp (- sqrt 5 * sqrt s)))
                       (fun s => 25 / 12 * exp (- sqrt 5 * sqrt s))).
Proof.
  intros Hnn Hf. set (a := sqrt 5 / 2).
  assert (S5 : sqrt 5 * sqrt 5 = 5) by (apply sqrt_sqrt; lra).
  assert (P5 : 0 < sqrt 5) by (apply sqrt_lt_R0; lra).
  assert (Ha : 0 < a) by (unfold a; lra).
  assert (a2 : a ^ 2 = 5 / 4) by (unfold a; simpl; nra).
  assert (a4 : a ^ 4 = 25 / 16) by (replace (a ^ 4) with (a ^ 2 * a ^ 2) by ring; rewrite a2; lra).
  set (kap := 12 / 25).
  assert (RAT : forall u L, geo (fun n => u n - L * An a 0 n) ->
     is_lim_seq (fun n => u (S n) / (kap * An a 0 (S n))) (L / kap)).
  { intros u L G. apply geo_shift in G.
    assert (Z := geo_ratio _ (fun n => An a 0 (S n)) L (An a 0 1) (An0_pos a 1 Ha ltac:(lia)) (fun n => An0_mono a (S n) Ha) (fun n => An0_pos a (S n) Ha ltac:(lia)) G).
    apply (is_lim_seq_scal_l _ (/ kap)) in Z. simpl Rbar_mult in Z.
    replace (L / kap) with (/ kap * L) by (unfold Rdiv; ring).
    eapply is_lim_seq_ext; [|exact Z]. intros n. simpl. assert (Y := An0_pos a (S n) Ha ltac:(lia)). unfold kap. field. lra. }
  assert (sq : forall s, 0 <= s -> sqrt s ^ 2 = s) by (intros s Hs; simpl; rewrite Rmult_1_r; apply sqrt_sqrt; exact Hs).
  assert (EX : forall s, exp (- (2 * a * sqrt s)) = exp (- sqrt 5 * sqrt s)) by (intros s; f_equal; unfold a; field).
  assert (EEs : forall s u, 0 <= s -> 0 < u -> EE a (sqrt s) u = exp (- (a ^ 2 * u ^ 2)) * exp (- (/ u ^ 2 * s))).
  { intros s u Hs Hu. unfold EE. rewrite <- exp_plus. f_equal. rewrite (sq s Hs). field. lra. }
  apply (mixture d th Hnn f _ _ _ (fun n => ee (S n)) (fun n => TT (S n)) (fun n => kap * An a 0 (S n))
     (fun u => u ^ 4 * exp (- (a ^ 2 * u ^ 2))) (fun u => / u ^ 2)
     (fun n s => Cn a (sqrt s) (S n)) (fun n s => Bn a (sqrt s) (S n)) (fun n s => An a (sqrt s) (S n)) Hf).
  - intros n. apply ee_le_TT.
  - intros n. apply Rmult_lt_0_compat; [unfold kap; lra | apply An0_pos; [exact Ha | lia]].
  - intros n u Hu. assert (Z := ee_pos (S n)). assert (0 < u) by lra. split.
    + apply Rmult_le_pos; [apply pow_le; lra | left; apply exp_pos].
    + apply Rinv_0_lt_compat, pow_lt. lra.
  - intros n s Hs. eapply is_RInt_extP; [apply ee_pos | apply TT_pos | |apply (Ik_is a (sqrt s) (ee (S n)) (TT (S n)) (ee_pos _) (TT_pos _) 4)].
    intros u Pu.    cbv beta. rewrite (EEs s u Hs Pu). ring.
  - intros n s Hs. eapply is_RInt_extP; [apply ee_pos | apply TT_pos | |apply (Ik_is a (sqrt s) (ee (S n)) (TT (S n)) (ee_pos _) (TT_pos _) 2)].
    intros u Pu.    cbv beta. rewrite (EEs s u Hs Pu). field. lra.
  - intros n s Hs. eapply is_RInt_extP; [apply ee_pos | apply TT_pos | |apply (Ik_is a (sqrt s) (ee (S n)) (TT (S n)) (ee_pos _) (TT_pos _) 0)].
    intros u Pu.    cbv beta. rewrite (EEs s u Hs Pu). field. lra.
  - intros s Hs. assert (Z := RAT _ _ (C_geo a (sqrt s) Ha (sqrt_pos s))). rewrite EX in Z.
    match type of Z with is_lim_seq _ (Finite ?v) => match goal with |- is_lim_seq _ (Finite ?w) => replace w with v; [exact Z|] end end.
    rewrite a4. replace ((a * sqrt s) ^ 2) with (5 / 4 * s) by (rewrite Rpow_mult_distr, a2, (sq s Hs); reflexivity).
    rewrite (sq s Hs). unfold a, kap.
    field.
  - intros s Hs. assert (Z := RAT _ _ (B_geo a (sqrt s) Ha (sqrt_pos s))). rewrite EX in Z.
    match type of Z with is_lim_seq _ (Finite ?v) => match goal with |- is_lim_seq _ (Finite ?w) => replace w with v; [exact Z|] end end.
    rewrite a2. unfold a, kap. field.
  - intros s Hs. assert (Z := RAT _ _ (A_geo a (sqrt s) Ha (sqrt_pos s))). rewrite EX in Z.
    match type of Z with is_lim_seq _ (Finite ?v) => match goal with |- is_lim_seq _ (Finite ?w) => replace w with v; [exact Z|] end end.
    unfold kap. field.
Qed.
