(** Every order of summation has the rounding errors of [Spec/FloatSpec.v]. *)
From Coq Require Import Reals List Arith Bool Permutation Lia Lra Psatz.
From Verif.Base Require Import NpLite NpFacts.
From Verif.Spec Require Import FloatSpec FloatKernSpec.
From Verif.Proofs Require Import FlChol.
Import ListNotations.
Local Open Scope R_scope.

Lemma Rabs_le_both x a : Rabs x <= a -> - a <= x <= a.
Proof. intros H. unfold Rabs in H. destruct (Rcase_abs x); lra. Qed.

Section O.
Variables (u : R) (rnd : R -> R).
Hypothesis Hu : 0 <= u.
Hypothesis Hr : forall x, near u x (rnd x).

Lemma gam_add p q : gam u p * (1 + gam u q) + gam u q = gam u (p + q).
Proof. unfold gam. rewrite pow_add. ring. Qed.
Lemma gam_1 : gam u 1 = u. Proof. unfold gam. cbn. ring. Qed.
Lemma total_perm l l' : Permutation l l' -> total l = total l'.
Proof. unfold total. induction 1; cbn [fold_right]; lra. Qed.
Lemma sp_app l1 l2 : sum_products (l1 ++ l2) = sum_products l1 + sum_products l2.
Proof. unfold sum_products. rewrite map_app. apply total_app. Qed.
Lemma sa_app l1 l2 : sum_abs_products (l1 ++ l2) = sum_abs_products l1 + sum_abs_products l2.
Proof. unfold sum_abs_products. rewrite map_app. apply total_app. Qed.
Lemma sp_cons a b l : sum_products ((a, b) :: l) = a * b + sum_products l. Proof. reflexivity. Qed.
Lemma sa_cons a b l : sum_abs_products ((a, b) :: l) = Rabs (a * b) + sum_abs_products l. Proof. reflexivity. Qed.
Lemma sp_perm l l' : Permutation l l' -> sum_products l = sum_products l'.
Proof. intros H. apply total_perm, Permutation_map, H. Qed.
Lemma sa_perm l l' : Permutation l l' -> sum_abs_products l = sum_abs_products l'.
Proof. intros H. apply total_perm, Permutation_map, H. Qed.
Lemma sa_nonneg l : 0 <= sum_abs_products l.
Proof. induction l as [|(a, b) l IH]; [unfold sum_abs_products, total; cbn; lra|]. rewrite sa_cons. assert (X := Rabs_pos (a * b)). lra. Qed.
Lemma sp_le_sa l : Rabs (sum_products l) <= sum_abs_products l.
Proof.
  induction l as [|(a, b) l IH]; [unfold sum_abs_products, sum_products, total; cbn; rewrite Rabs_R0; lra|]. rewrite sa_cons, sp_cons.
  eapply Rle_trans; [apply Rabs_triang|]. lra.
Qed.

Lemma summed_len l e : summed rnd l e -> (1 <= length l)%nat.
Proof. induction 1; cbn [length]; try lia; [rewrite app_length; lia|]. erewrite <- Permutation_length by eassumption. assumption. Qed.
Lemma summed_err l e : summed rnd l e -> Rabs (e - sum_products l) <= gam u (length l) * sum_abs_products l.
Proof.
  induction 1 as [a b|l1 l2 e1 e2 H1 I1 H2 I2|l a b e H I|l l' e P H I].
  - unfold sum_products, sum_abs_products, total. cbn [map fold_right fst snd length]. rewrite !Rplus_0_r, gam_1. apply Hr.
  - rewrite sp_app, sa_app, app_length. assert (L1 := summed_len _ _ H1). assert (L2 := summed_len _ _ H2).
    destruct (Hr (e1 + e2)) as (N & _). set (e := rnd (e1 + e2)) in *. assert (S1 := sp_le_sa l1). assert (S2 := sp_le_sa l2). assert (T1 := sa_nonneg l1). assert (T2 := sa_nonneg l2).
    set (s1 := sum_products l1) in *. set (s2 := sum_products l2) in *. set (t1 := sum_abs_products l1) in *. set (t2 := sum_abs_products l2) in *.
    assert (M1 : gam u (S (length l1)) <= gam u (length l1 + length l2)) by (apply gam_mono; [exact Hu|lia]).
    assert (M2 : gam u (S (length l2)) <= gam u (length l1 + length l2)) by (apply gam_mono; [exact Hu|lia]). rewrite gam_S in M1, M2.
    set (g1 := gam u (length l1)) in *. set (g2 := gam u (length l2)) in *. set (g := gam u (length l1 + length l2)) in *.
    assert (A1 : Rabs e1 <= (1 + g1) * t1). { replace e1 with ((e1 - s1) + s1) by ring. eapply Rle_trans; [apply Rabs_triang|]. lra. }
    assert (A2 : Rabs e2 <= (1 + g2) * t2). { replace e2 with ((e2 - s2) + s2) by ring. eapply Rle_trans; [apply Rabs_triang|]. lra. }
    assert (A : u * Rabs (e1 + e2) <= u * ((1 + g1) * t1 + (1 + g2) * t2)). { apply Rmult_le_compat_l; [exact Hu|]. eapply Rle_trans; [apply Rabs_triang|]. lra. }
    replace (e - (s1 + s2)) with ((e - (e1 + e2)) + ((e1 - s1) + (e2 - s2))) by ring. eapply Rle_trans; [apply Rabs_triang|]. eapply Rle_trans; [apply Rplus_le_compat_l, Rabs_triang|].
    assert (B1 : (g1 * (1 + u) + u) * t1 <= g * t1) by (apply Rmult_le_compat_r; lra). assert (B2 : (g2 * (1 + u) + u) * t2 <= g * t2) by (apply Rmult_le_compat_r; lra). lra.
  - rewrite sp_cons, sa_cons. cbn [length]. rewrite gam_S. destruct (Hr (e + a * b)) as (N & _). set (e' := rnd (e + a * b)) in *. assert (S1 := sp_le_sa l). assert (T1 := sa_nonneg l).
    assert (G := gam_nonneg u (length l) Hu). set (s := sum_products l) in *. set (t := sum_abs_products l) in *. set (g := gam u (length l)) in *. assert (P := Rabs_pos (a * b)).
    assert (A1 : Rabs e <= (1 + g) * t). { replace e with ((e - s) + s) by ring. eapply Rle_trans; [apply Rabs_triang|]. lra. }
    assert (A : u * Rabs (e + a * b) <= u * ((1 + g) * t + Rabs (a * b))). { apply Rmult_le_compat_l; [exact Hu|]. eapply Rle_trans; [apply Rabs_triang|]. lra. }
    replace (e' - (a * b + s)) with ((e' - (e + a * b)) + (e - s)) by ring. eapply Rle_trans; [apply Rabs_triang|].
    assert (0 <= g * (1 + u) * Rabs (a * b)) by (apply Rmult_le_pos; [apply Rmult_le_pos|]; lra). lra.
  - rewrite <- (sp_perm _ _ P), <- (sa_perm _ _ P), <- (Permutation_length P). exact I.
Qed.
Lemma left_over_err c l e : left_over rnd c l e -> Rabs (c - sum_products l - e) <= gam u (length l) * (Rabs e + sum_abs_products l).
Proof.
  induction 1 as [|l1 l2 e1 e2 H1 I1 H2|l a b e H I|l l' e P H I].
  - unfold sum_products, sum_abs_products, total. cbn [map fold_right length]. rewrite gam_0. replace (c - 0 - c) with 0 by ring. rewrite Rabs_R0. lra.
  - assert (I2 := summed_err _ _ H2). rewrite sp_app, sa_app, app_length. assert (L2 := summed_len _ _ H2).
    destruct (Hr (e1 - e2)) as (_ & N). set (e := rnd (e1 - e2)) in *. assert (S2 := sp_le_sa l2). assert (T1 := sa_nonneg l1). assert (T2 := sa_nonneg l2).
    set (s1 := sum_products l1) in *. set (s2 := sum_products l2) in *. set (t1 := sum_abs_products l1) in *. set (t2 := sum_abs_products l2) in *.
    assert (M1 : gam u (S (length l1)) <= gam u (length l1 + length l2)) by (apply gam_mono; [exact Hu|lia]). rewrite gam_S in M1.
    assert (M0 : gam u (length l1) <= gam u (length l1 + length l2)) by (apply gam_mono; [exact Hu|lia]).
    assert (M2 := gam_add (length l1) (length l2)). assert (G1 := gam_nonneg u (length l1) Hu). assert (G2 := gam_nonneg u (length l2) Hu).
    set (g1 := gam u (length l1)) in *. set (g2 := gam u (length l2)) in *. set (g := gam u (length l1 + length l2)) in *.
    assert (A2 : Rabs e2 <= (1 + g2) * t2). { replace e2 with ((e2 - s2) + s2) by ring. eapply Rle_trans; [apply Rabs_triang|]. lra. }
    assert (A1 : Rabs e1 <= (1 + u) * Rabs e + (1 + g2) * t2).
    { replace e1 with (- (e - (e1 - e2)) + (e + e2)) by ring. eapply Rle_trans; [apply Rabs_triang|]. rewrite Rabs_Ropp. assert (X := Rabs_triang e e2). lra. }
    replace (c - (s1 + s2) - e) with ((c - s1 - e1) + ((e2 - s2) + - (e - (e1 - e2)))) by ring. eapply Rle_trans; [apply Rabs_triang|]. eapply Rle_trans; [apply Rplus_le_compat_l, Rabs_triang|]. rewrite Rabs_Ropp.
    assert (E0 := Rabs_pos e). assert (B : g1 * (Rabs e1 + t1) <= g1 * ((1 + u) * Rabs e + (1 + g2) * t2 + t1)) by (apply Rmult_le_compat_l; lra).
    assert (B1 : (g1 * (1 + u) + u) * Rabs e <= g * Rabs e) by (apply Rmult_le_compat_r; lra). assert (B2 : g1 * t1 <= g * t1) by (apply Rmult_le_compat_r; lra).
    rewrite <- M2. rewrite <- M2 in B1, B2. lra.
  - rewrite sp_cons, sa_cons. cbn [length]. rewrite gam_S. destruct (Hr (e - a * b)) as (_ & N). set (e' := rnd (e - a * b)) in *. assert (T1 := sa_nonneg l).
    assert (G := gam_nonneg u (length l) Hu). set (s := sum_products l) in *. set (t := sum_abs_products l) in *. set (g := gam u (length l)) in *. assert (P := Rabs_pos (a * b)).
    assert (A1 : Rabs e <= (1 + u) * Rabs e' + Rabs (a * b)).
    { replace e with (- (e' - (e - a * b)) + (e' + a * b)) by ring. eapply Rle_trans; [apply Rabs_triang|]. rewrite Rabs_Ropp. assert (X := Rabs_triang e' (a * b)). lra. }
    replace (c - (a * b + s) - e') with ((c - s - e) + - (e' - (e - a * b))) by ring. eapply Rle_trans; [apply Rabs_triang|]. rewrite Rabs_Ropp.
    assert (E0 := Rabs_pos e'). assert (B : g * (Rabs e + t) <= g * ((1 + u) * Rabs e' + Rabs (a * b) + t)) by (apply Rmult_le_compat_l; lra).
    assert (0 <= (g * u + u) * (Rabs (a * b) + t)) by (apply Rmult_le_pos; [apply Rplus_le_le_0_compat; [apply Rmult_le_pos|]|]; lra). lra.
  - rewrite <- (sp_perm _ _ P), <- (sa_perm _ _ P), <- (Permutation_length P). exact I.
Qed.
Lemma near_pow (P x y : R) : 1 <= P -> 0 <= x -> 0 <= y -> y <= P * x -> x <= P * y -> near (P - 1) x y.
Proof.
  intros HP Hx Hy A B. unfold near. rewrite (Rabs_pos_eq x Hx), (Rabs_pos_eq y Hy). assert (C : Rabs (y - x) <= (P - 1) * x /\ Rabs (y - x) <= (P - 1) * y); [|exact C].
  destruct (Rle_dec x y) as [L|L].
  - rewrite Rabs_pos_eq by lra. assert ((P - 1) * x <= (P - 1) * y) by (apply Rmult_le_compat_l; lra). lra.
  - rewrite Rabs_left1 by lra. assert ((P - 1) * y <= (P - 1) * x) by (apply Rmult_le_compat_l; lra). lra.
Qed.
Lemma added_err l e : u < 1 -> added rnd l e -> (forall x, In x l -> 0 <= x) ->
  (1 <= length l)%nat /\ 0 <= total l /\ 0 <= e /\ e <= (1 + u) ^ length l * total l /\ total l <= (1 + u) ^ length l * e.
Proof.
  intros H1. induction 1 as [a|l1 l2 e1 e2 A1 I1 A2 I2|l l' e P A I]; intros HP.
  - assert (0 <= a) by (apply HP; left; reflexivity). unfold total. cbn [fold_right length pow]. repeat split; try lia; nra.
  - destruct (I1 (fun x H => HP x (in_or_app _ _ _ (or_introl H)))) as (L1 & T1 & E1 & X1 & Y1). destruct (I2 (fun x H => HP x (in_or_app _ _ _ (or_intror H)))) as (L2 & T2 & E2 & X2 & Y2).
    rewrite total_app, app_length. destruct (Hr (e1 + e2)) as (N1 & N2). set (e := rnd (e1 + e2)) in *. set (t1 := total l1) in *. set (t2 := total l2) in *.
    assert (M1 : (1 + u) ^ length l1 * (1 + u) <= (1 + u) ^ (length l1 + length l2)). { rewrite Rmult_comm. change (_ * _) with ((1 + u) ^ S (length l1)). apply Rle_pow; [lra|lia]. }
    assert (M2 : (1 + u) ^ length l2 * (1 + u) <= (1 + u) ^ (length l1 + length l2)). { rewrite Rmult_comm. change (_ * _) with ((1 + u) ^ S (length l2)). apply Rle_pow; [lra|lia]. }
    assert (G1 : 1 <= (1 + u) ^ length l1) by (apply pow_R1_Rle; lra). assert (G2 : 1 <= (1 + u) ^ length l2) by (apply pow_R1_Rle; lra).
    set (p1 := (1 + u) ^ length l1) in *. set (p2 := (1 + u) ^ length l2) in *. set (p := (1 + u) ^ (length l1 + length l2)) in *.
    rewrite (Rabs_pos_eq (e1 + e2)) in N1 by lra. apply Rabs_le_both in N1.
    assert (EP : 0 <= e). { destruct (Rle_dec 0 e) as [|W]; [assumption|exfalso]. rewrite (Rabs_left1 e) in N2 by lra. apply Rabs_le_both in N2. nra. }
    rewrite (Rabs_pos_eq e EP) in N2. apply Rabs_le_both in N2. split; [lia|]. split; [lra|]. split; [exact EP|]. split.
    + apply Rle_trans with ((1 + u) * (p1 * t1 + p2 * t2)); [apply Rle_trans with ((1 + u) * (e1 + e2)); [lra|apply Rmult_le_compat_l; lra]|].
      assert (p1 * (1 + u) * t1 <= p * t1) by (apply Rmult_le_compat_r; lra). assert (p2 * (1 + u) * t2 <= p * t2) by (apply Rmult_le_compat_r; lra). lra.
    + set (q := Rmax p1 p2). assert (Q1 := Rmax_l p1 p2). assert (Q2 := Rmax_r p1 p2). fold q in Q1, Q2. assert (Q : q * (1 + u) <= p) by (unfold q; apply Rmax_case; assumption).
      apply Rle_trans with (q * (e1 + e2)). { assert (p1 * e1 <= q * e1) by (apply Rmult_le_compat_r; lra). assert (p2 * e2 <= q * e2) by (apply Rmult_le_compat_r; lra). lra. }
      apply Rle_trans with (q * ((1 + u) * e)); [apply Rmult_le_compat_l; lra|]. rewrite <- Rmult_assoc. apply Rmult_le_compat_r; assumption.
  - rewrite <- (total_perm _ _ P), <- (Permutation_length P). apply I. intros x Hx. apply HP. eapply Permutation_in; eassumption.
Qed.
Lemma added_near l e : u < 1 -> added rnd l e -> (forall x, In x l -> 0 <= x) -> 0 <= e /\ near (gam u (length l)) (total l) e.
Proof.
  intros H1 A HP. destruct (added_err l e H1 A HP) as (_ & T & E & X & Y). split; [exact E|]. apply near_pow; auto. apply pow_R1_Rle. lra.
Qed.
Lemma added_len l e : added rnd l e -> (1 <= length l)%nat.
Proof. induction 1; cbn [length]; try lia; [rewrite app_length; lia|]. erewrite <- Permutation_length by eassumption. assumption. Qed.
Lemma total_abs l : Rabs (total l) <= total (map Rabs l).
Proof. induction l as [|a l IH]; unfold total in *; cbn [map fold_right]; [rewrite Rabs_R0; lra|]. eapply Rle_trans; [apply Rabs_triang|]. lra. Qed.
Lemma added_any l e : added rnd l e -> Rabs (e - total l) <= gam u (length l) * total (map Rabs l).
Proof.
  induction 1 as [a|l1 l2 e1 e2 A1 I1 A2 I2|l l' e P A I].
  - unfold total. cbn [map fold_right length]. rewrite gam_1, !Rplus_0_r, Rminus_eq_0, Rabs_R0. apply Rmult_le_pos; [exact Hu|apply Rabs_pos].
  - rewrite map_app, !total_app, app_length. assert (L1 := added_len _ _ A1). assert (L2 := added_len _ _ A2).
    destruct (Hr (e1 + e2)) as (N & _). set (e := rnd (e1 + e2)) in *. assert (S1 := total_abs l1). assert (S2 := total_abs l2).
    set (s1 := total l1) in *. set (s2 := total l2) in *. set (t1 := total (map Rabs l1)) in *. set (t2 := total (map Rabs l2)) in *.
    assert (T1 : 0 <= t1) by (eapply Rle_trans; [apply Rabs_pos|exact S1]). assert (T2 : 0 <= t2) by (eapply Rle_trans; [apply Rabs_pos|exact S2]).
    assert (M1 : gam u (S (length l1)) <= gam u (length l1 + length l2)) by (apply gam_mono; [exact Hu|lia]).
    assert (M2 : gam u (S (length l2)) <= gam u (length l1 + length l2)) by (apply gam_mono; [exact Hu|lia]). rewrite gam_S in M1, M2.
    set (g1 := gam u (length l1)) in *. set (g2 := gam u (length l2)) in *. set (g := gam u (length l1 + length l2)) in *.
    assert (B1 : Rabs e1 <= (1 + g1) * t1). { replace e1 with ((e1 - s1) + s1) by ring. eapply Rle_trans; [apply Rabs_triang|]. lra. }
    assert (B2 : Rabs e2 <= (1 + g2) * t2). { replace e2 with ((e2 - s2) + s2) by ring. eapply Rle_trans; [apply Rabs_triang|]. lra. }
    assert (B : u * Rabs (e1 + e2) <= u * ((1 + g1) * t1 + (1 + g2) * t2)). { apply Rmult_le_compat_l; [exact Hu|]. eapply Rle_trans; [apply Rabs_triang|]. lra. }
    replace (e - (s1 + s2)) with ((e - (e1 + e2)) + ((e1 - s1) + (e2 - s2))) by ring. eapply Rle_trans; [apply Rabs_triang|]. eapply Rle_trans; [apply Rplus_le_compat_l, Rabs_triang|].
    assert (C1 : (g1 * (1 + u) + u) * t1 <= g * t1) by (apply Rmult_le_compat_r; lra). assert (C2 : (g2 * (1 + u) + u) * t2 <= g * t2) by (apply Rmult_le_compat_r; lra). lra.
  - rewrite <- (total_perm _ _ P), <- (Permutation_length P), <- (total_perm _ _ (Permutation_map Rabs P)). exact I.
Qed.
Lemma near_quo a b y : b <> 0 -> y = rnd (a / b) \/ y = rnd (a * rnd (1 / b)) -> near (gam u 2) (a / b) y.
Proof.
  assert (G : gam u 2 = u * (1 + u) + u) by (unfold gam; ring). intros Hb [-> | ->].
  - destruct (Hr (a / b)) as (N1 & N2). rewrite G. assert (P := Rabs_pos (a / b)). assert (Q := Rabs_pos (rnd (a / b))).
    assert (0 <= u * (1 + u)) by (apply Rmult_le_pos; lra). split; [eapply Rle_trans; [exact N1|]|eapply Rle_trans; [exact N2|]]; apply Rmult_le_compat_r; lra.
  - destruct (Hr (1 / b)) as (N1 & N2). set (r := rnd (1 / b)) in *. destruct (Hr (a * r)) as (K1 & K2). set (y := rnd (a * r)) in *. rewrite G.
    assert (E : a * r - a / b = a * (r - 1 / b)) by (field; exact Hb). assert (PA := Rabs_pos a).
    assert (X1 : Rabs (a * r - a / b) <= u * Rabs (a / b)). { rewrite E, Rabs_mult. replace (a / b) with (a * (1 / b)) by (field; exact Hb). rewrite (Rabs_mult a (1 / b)). assert (Rabs a * Rabs (r - 1 / b) <= Rabs a * (u * Rabs (1 / b))) by (apply Rmult_le_compat_l; assumption). lra. }
    assert (X2 : Rabs (a * r - a / b) <= u * Rabs (a * r)). { rewrite E, !Rabs_mult. assert (Rabs a * Rabs (r - 1 / b) <= Rabs a * (u * Rabs r)) by (apply Rmult_le_compat_l; assumption). lra. }
    assert (T : Rabs (y - a / b) <= Rabs (y - a * r) + Rabs (a * r - a / b)) by (replace (y - a / b) with ((y - a * r) + (a * r - a / b)) by ring; apply Rabs_triang).
    assert (Z1 : Rabs (a * r) <= (1 + u) * Rabs (a / b)). { replace (a * r) with ((a * r - a / b) + a / b) by ring. eapply Rle_trans; [apply Rabs_triang|]. lra. }
    assert (Z2 : Rabs (a * r) <= (1 + u) * Rabs y). { replace (a * r) with (- (y - a * r) + y) by ring. eapply Rle_trans; [apply Rabs_triang|]. rewrite Rabs_Ropp. lra. }
    apply (Rmult_le_compat_l u) in Z1; [|exact Hu]. apply (Rmult_le_compat_l u) in Z2; [|exact Hu]. split; lra.
Qed.

(** every machine that sums in some order has the errors of [rounds] *)
Lemma any_order_rounds ar : any_order rnd ar -> rounds u ar.
Proof.
  intros (H1 & H2 & H3 & H4 & H5 & H6 & H7). constructor.
  - exact Hu.
  - intros a b. rewrite H1. apply Hr.
  - intros a b. rewrite H2. apply Hr.
  - intros a b _. rewrite H3. apply Hr.
  - intros a _. rewrite H4. apply Hr.
  - intros a b Hb. apply near_quo; auto.
  - intros i j c l. apply left_over_err, H6.
  - intros l. destruct (H7 l) as [(-> & ->)|S].
    + unfold sum_products, sum_abs_products, total. cbn [map fold_right]. rewrite Rminus_0_r, Rabs_R0. lra.
    + eapply Rle_trans; [apply summed_err, S|]. apply Rmult_le_compat_r; [apply sa_nonneg|]. apply gam_mono; [exact Hu|lia].
Qed.
End O.

Lemma sequential_any_order rnd : any_order rnd (sequential rnd).
Proof.
  repeat (split; [intros; reflexivity|]). split; [intros; left; reflexivity|]. split.
  - intros i j c l. cbn [sequential f_res].
    enough (G : forall l l0 s, left_over rnd c l0 s -> left_over rnd c (l0 ++ l) (fold_left (fun s p => rnd (s - rnd (fst p * snd p))) l s)) by apply (G l [] c), l_start.
    intros l1. induction l1 as [|(a, b) l1 IH]; intros l0 s H; [rewrite app_nil_r; exact H|]. change ((a, b) :: l1) with ([(a, b)] ++ l1). rewrite app_assoc. cbn [fold_left app]. apply IH. cbn [fst snd]. apply (l_sub rnd c l0 [(a, b)] s (rnd (a * b)) H), s_one.
  - intros [|(a, b) l]; [left; split; reflexivity|right]. cbn [sequential f_dot fst snd].
    enough (G : forall l l0 s, summed rnd l0 s -> summed rnd (l0 ++ l) (fold_left (fun s p => rnd (s + rnd (fst p * snd p))) l s)) by apply (G l [(a, b)]), s_one.
    intros l1. induction l1 as [|(a', b') l1 IH]; intros l0 s H; [rewrite app_nil_r; exact H|]. change ((a', b') :: l1) with ([(a', b')] ++ l1). rewrite app_assoc. cbn [fold_left app]. apply IH. cbn [fst snd]. apply s_add; [exact H|apply s_one].
Qed.
