(** * Facts about Model/StartPts.v *)
From Coq Require Import Reals List Arith Bool Permutation Sorted Lia Lra.
From Verif.Base Require Import NpLite NpFacts.
From Verif.Spec Require Import KernelSpec GpSpec HpSpec StartSpec.
From Verif.Model Require Import KernelSqExp KernelMatern KernelRatQuad KernelDispatch CommonFun WellCond Rescaling GpState Chol Cov MeanFun
  HpInfo HpGrad Lkd OptzLkd History StartPts.
From Verif.Proofs Require Import HpInfoFacts ThetaRescale.
From Verif.Props Require Import HpGradProps.
Import ListNotations.
Local Open Scope R_scope.

(** ** median *)
Lemma rinsert_perm x l : Permutation (x :: l) (rinsert x l).
Proof.
  induction l as [|y t IH]; cbn; [reflexivity|]. destruct (Rle_dec x y); [reflexivity|].
  etransitivity; [apply perm_swap|]. constructor. exact IH.
Qed.
Lemma rsort_perm l : Permutation l (rsort l).
Proof. induction l as [|x t IH]; cbn; [constructor|]. etransitivity; [constructor; exact IH|apply rinsert_perm]. Qed.
Lemma rinsert_sorted x l : StronglySorted Rle l -> StronglySorted Rle (rinsert x l).
Proof.
  induction 1 as [|y t S IH F]; cbn; [repeat constructor|]. destruct (Rle_dec x y) as [L|G].
  - constructor; [constructor; assumption|]. constructor; [exact L|]. rewrite Forall_forall in *. intros z Hz. specialize (F z Hz). lra.
  - constructor; [exact IH|]. rewrite Forall_forall in *. intros z Hz. apply (Permutation_in z (Permutation_sym (rinsert_perm x t))) in Hz.
    destruct Hz as [<-|Hz]; [lra|auto].
Qed.
Lemma rsort_sorted l : StronglySorted Rle (rsort l).
Proof. induction l; cbn; [constructor|apply rinsert_sorted; assumption]. Qed.
Lemma all_real_map {A} (f : A -> fl) l : (forall x, In x l -> exists v, f x = Some v) -> exists r, all_real (map f l) = Some r /\ map f l = map Some r.
Proof.
  induction l as [|a t IH]; intros H; cbn; [exists []; auto|]. destruct (H a (or_introl eq_refl)) as (v & E). rewrite E.
  destruct (IH (fun x I => H x (or_intror I))) as (r & E1 & E2). rewrite E1, E2. exists (v :: r). auto.
Qed.
Lemma median_of {A} (f : A -> fl) l : l <> [] -> (forall x, In x l -> exists v, f x = Some v) ->
  exists r m, map f l = map Some r /\ np_median (map f l) = Some m /\ is_median r m.
Proof.
  intros N H. destruct (all_real_map f l H) as (r & E1 & E2). unfold np_median. rewrite E1. destruct r as [|x t]; [destruct l; [contradiction|discriminate]|].
  exists (x :: t). eexists. split; [exact E2|]. split; [reflexivity|]. split; [discriminate|]. exists (rsort (x :: t)).
  split; [apply rsort_perm|]. split; [apply rsort_sorted|reflexivity].
Qed.
Lemma median_empty : np_median [] = None. Proof. reflexivity. Qed.

(** ** writing *)
Lemma fputs_spec v idx k f : (forall j, In j idx -> (j < fv_len v)%nat) -> NoDup idx ->
  exists v', fputs v idx k f = Ok v' /\ fv_len v' = fv_len v /\
    (forall a j, nth_error idx a = Some j -> fv_at v' j = f (k + a)%nat) /\ (forall j, ~ In j idx -> fv_at v' j = fv_at v j).
Proof.
  revert v k. induction idx as [|j t IH]; intros v k L ND; cbn [fputs].
  - exists v. repeat split; auto. intros [|a] j E; discriminate.
  - unfold fput. assert (X := L j (or_introl eq_refl)). apply Nat.ltb_lt in X. rewrite X. cbn [bind].
    apply NoDup_cons_iff in ND. destruct ND as (NI & ND).
    destruct (IH (mkfv (fv_len v) (fun i => if i =? j then f k else fv_at v i)) (S k)) as (v' & E & LE & H1 & H2); [cbn; intros; apply L; right; auto|exact ND|].
    exists v'. split; [exact E|]. split; [exact LE|]. split.
    + intros [|a] j' EJ; cbn in EJ.
      * injection EJ as <-. rewrite H2 by exact NI. cbn. rewrite Nat.eqb_refl, Nat.add_0_r. reflexivity.
      * rewrite (H1 a j' EJ). f_equal. lia.
    + intros j' NI'. rewrite H2 by (intros C; apply NI'; right; exact C). cbn. destruct (Nat.eqb_spec j' j); [|reflexivity].
      subst. exfalso. apply NI'. left. reflexivity.
Qed.
Definition box_at (b : boxes) (r : nat) : fl * fl * (fl * fl) := (fv_at (b_ll b) r, fv_at (b_lu b) r, (fv_at (b_bl b) r, fv_at (b_bu b) r)).
Definition exp4 (xo : x0opt) (rg : fl * fl) (m : fl) : fl * fl * (fl * fl) :=
  (fmaxf (fdivf m (xo_lf xo)) (fst rg), fminf (fmulf m (xo_lf xo)) (snd rg), (fmaxf (fdivf m (xo_bf xo)) (fst rg), fminf (fmulf m (xo_bf xo)) (snd rg))).
Definition lens (n : nat) (b : boxes) : Prop := fv_len (b_ll b) = n /\ fv_len (b_lu b) = n /\ fv_len (b_bl b) = n /\ fv_len (b_bu b) = n.
Lemma set_box_spec xo rg idx m b n : lens n b -> (forall j, In j idx -> (j < n)%nat) -> NoDup idx ->
  exists b', set_box xo rg idx m b = Ok b' /\ lens n b' /\ (forall a j, nth_error idx a = Some j -> box_at b' j = exp4 xo rg (m a)) /\
    (forall j, ~ In j idx -> box_at b' j = box_at b j).
Proof.
  intros (L1 & L2 & L3 & L4) H ND. unfold set_box.
  destruct (fputs_spec (b_ll b) idx 0 (fun k => fmaxf (fdivf (m k) (xo_lf xo)) (fst rg))) as (v1 & -> & M1 & A1 & B1); [rewrite L1; auto|auto|].
  destruct (fputs_spec (b_lu b) idx 0 (fun k => fminf (fmulf (m k) (xo_lf xo)) (snd rg))) as (v2 & -> & M2 & A2 & B2); [rewrite L2; auto|auto|].
  destruct (fputs_spec (b_bl b) idx 0 (fun k => fmaxf (fdivf (m k) (xo_bf xo)) (fst rg))) as (v3 & -> & M3 & A3 & B3); [rewrite L3; auto|auto|].
  destruct (fputs_spec (b_bu b) idx 0 (fun k => fminf (fmulf (m k) (xo_bf xo)) (snd rg))) as (v4 & -> & M4 & A4 & B4); [rewrite L4; auto|auto|].
  cbn [bind]. eexists. split; [reflexivity|]. split; [unfold lens; cbn; repeat split; congruence|]. unfold box_at, exp4. cbn. split.
  - intros a j E. rewrite (A1 a j E), (A2 a j E), (A3 a j E), (A4 a j E). reflexivity.
  - intros j N. rewrite B1, B2, B3, B4 by exact N. reflexivity.
Qed.

(** the median used for a hyperparameter *)
Definition med (h : hist) (rows : list nat) (s : hslot) : fl := np_median (map (past h s) rows).
Definition med' (xo : x0opt) (h : hist) (rows : list nat) (s : hslot) : fl :=
  match s with HVarF | HVarG => fmaxf (fst (allowed xo s)) (med h rows s) | _ => med h rows s end.

Lemma step_box (present : option nat) xo rg (m : fl) b n : lens n b -> (forall j, present = Some j -> (j < n)%nat) ->
  exists b', (match present with Some j => set_box xo rg [j] (fun _ => m) b | None => Ok b end) = Ok b' /\ lens n b' /\
    (forall j, present = Some j -> box_at b' j = exp4 xo rg m) /\ (forall j, present <> Some j -> box_at b' j = box_at b j).
Proof.
  intros L H. destruct present as [j|].
  - destruct (set_box_spec xo rg [j] (fun _ => m) b n L) as (b' & E & L' & A & B); [intros j' [<-|[]]; auto|repeat constructor; auto|].
    exists b'. split; [exact E|]. split; [exact L'|]. split.
    + intros j' E'. injection E' as <-. apply (A 0%nat j). reflexivity.
    + intros j' N. apply B. intros [<-|[]]. apply N. reflexivity.
  - exists b. repeat split; try apply L; auto. intros; discriminate.
Qed.

Lemma all_boxes_spec o d lo hk hv hf hg info xo h i : set_hp_optz_info o d lo true hk hv hf hg = Ok info -> h_w h Ttheta = o_dim o ->
  exists b, all_boxes xo info h i = Ok b /\ lens (hi_n info) b /\
  forall s r, position info s = Some r -> box_at b r = exp4 xo (allowed xo s) (clampf (allowed xo s) (med' xo h (rows_used h (xo_n_idx xo) i) s)).
Proof.
  intros HI HW. destruct (C21_index_sets_partition _ _ _ _ _ _ _ _ _ HI) as (_ & _ & PS & PL & PB & _ & HT & HK & _).
  destruct HT as (HT & _). destruct (HT eq_refl) as (idx & ET & LT).
  assert (INJ : forall s s' r, position info s = Some r -> position info s' = Some r -> s = s').
  { intros s s' r H1 H2. apply PS in H1. apply PS in H2. congruence. }
  assert (KK : exists ok, hi_kernel info = option_map (fun j => [j]) ok /\ position info HKernel = ok).
  { cbn. destruct hk. - destruct (proj1 HK eq_refl) as (j & ->). exists (Some j). auto.
    - destruct (info_inv _ _ _ _ _ _ _ _ _ HI) as (_ & _ & _ & ->). cbn. exists None. auto. }
  destruct KK as (ok & EK & PK).
  unfold all_boxes. set (rows := rows_used h (xo_n_idx xo) i). rewrite ET, LT, HW, Nat.eqb_refl.
  set (n := hi_n info) in *. set (b0 := mkbx _ _ _ _).
  assert (L0 : lens n b0) by (unfold lens, b0; cbn; auto).
  assert (PT : forall e r, nth_error idx e = Some r -> position info (HTheta e) = Some r) by (intros e r E; cbn; rewrite ET; exact E).
  destruct (set_box_spec xo (xo_theta xo) idx (fun k => clampf (xo_theta xo) (row_median h rows Ttheta k)) b0 n L0) as (b1 & -> & L1 & A1 & B1).
  { intros j Hj. apply In_nth_error in Hj. destruct Hj as (e & Ee). apply (PB (HTheta e)), PT, Ee. }
  { apply NoDup_nth_error. intros a c La Ec. destruct (nth_error idx a) as [r|] eqn:Ea; [|apply nth_error_None in Ea; lia].
    symmetry in Ec. assert (X := INJ _ _ _ (PT a r Ea) (PT c r Ec)). congruence. }
  cbn [bind].
  destruct (step_box ok xo (xo_kernel xo) (clampf (xo_kernel xo) (col_median h rows Qkernel)) b1 n L1) as (b2 & E2 & L2 & A2 & B2).
  { intros j Ej. apply (PB HKernel). rewrite PK. exact Ej. }
  assert (E2' : (match hi_kernel info with Some idx0 => set_box xo (xo_kernel xo) idx0 (fun _ => clampf (xo_kernel xo) (col_median h rows Qkernel)) b1 | None => Ok b1 end) = Ok b2).
  { rewrite EK. destruct ok; exact E2. }
  rewrite E2'. cbn [bind].
  destruct (step_box (hi_varK info) xo (xo_varK xo) (clampf (xo_varK xo) (col_median h rows QvarK)) b2 n L2 (PB HVarK)) as (b3 & -> & L3 & A3 & B3). cbn [bind].
  destruct (step_box (hi_var_fval info) xo (xo_vf xo) (clampf (xo_vf xo) (fmaxf (fst (xo_vf xo)) (col_median h rows Qvar_fval))) b3 n L3 (PB HVarF)) as (b4 & -> & L4 & A4 & B4). cbn [bind].
  destruct (step_box (hi_var_fgrad info) xo (xo_vg xo) (clampf (xo_vg xo) (fmaxf (fst (xo_vg xo)) (col_median h rows Qvar_fgrad))) b4 n L4 (PB HVarG)) as (b5 & -> & L5 & A5 & B5).
  exists b5. split; [reflexivity|]. split; [exact L5|]. intros s r P.
  assert (N5 : s <> HVarG -> box_at b5 r = box_at b4 r) by (intros N; apply B5; intros C; apply N; apply (INJ s HVarG r P C)).
  assert (N4 : s <> HVarF -> box_at b4 r = box_at b3 r) by (intros N; apply B4; intros C; apply N; apply (INJ s HVarF r P C)).
  assert (N3 : s <> HVarK -> box_at b3 r = box_at b2 r) by (intros N; apply B3; intros C; apply N; apply (INJ s HVarK r P C)).
  assert (N2 : s <> HKernel -> box_at b2 r = box_at b1 r) by (intros N; apply B2; intros C; apply N; apply (INJ s HKernel r P); congruence).
  destruct s as [e| | | |].
  - rewrite N5, N4, N3, N2 by discriminate. apply A1. cbn in P. rewrite ET in P. exact P.
  - rewrite N5, N4, N3 by discriminate. apply A2. congruence.
  - rewrite N5, N4 by discriminate. apply A3. exact P.
  - rewrite N5 by discriminate. apply A4. exact P.
  - apply A5. exact P.
Qed.

(** ** numbers *)
Lemma exp4_around xo s lo hi m : allowed xo s = (Some lo, Some hi) -> forall h rows, med h rows s = Some m ->
  exp4 xo (allowed xo s) (clampf (allowed xo s) (med' xo h rows s)) =
  (Some (fst (around m (xo_lf xo) lo hi)), Some (snd (around m (xo_lf xo) lo hi)), (Some (fst (around m (xo_bf xo) lo hi)), Some (snd (around m (xo_bf xo) lo hi)))).
Proof.
  intros EA h rows EM. rewrite EA. unfold med'. rewrite EM.
  assert (X : clampf (Some lo, Some hi) (match s with HVarF | HVarG => fmaxf (fst (allowed xo s)) (Some m) | _ => Some m end) = Some (Rmin (Rmax m lo) hi)).
  { rewrite EA. destruct s; cbn; try reflexivity; do 2 f_equal; rewrite (Rmax_comm lo m), Rmax_left; auto; apply Rmax_r. }
  rewrite X. reflexivity.
Qed.
Lemma around_facts m f lo hi : 0 < lo <= hi -> 1 <= f -> let c := Rmin (Rmax m lo) hi in
  lo <= c <= hi /\ lo <= fst (around m f lo hi) <= c /\ c <= snd (around m f lo hi) <= hi.
Proof.
  intros (L1 & L2) F c. assert (C : lo <= c <= hi). { unfold c. split; [|apply Rmin_r]. apply Rmin_glb; [apply Rmax_r|exact L2]. }
  split; [exact C|]. unfold around. fold c. cbn. split; split.
  - apply Rmax_r.
  - apply Rmax_lub; [|lra]. unfold Rdiv. rewrite <- (Rmult_1_r c) at 2. apply Rmult_le_compat_l; [lra|]. rewrite <- Rinv_1. apply Rinv_le_contravar; lra.
  - apply Rmin_glb; [|lra]. rewrite <- (Rmult_1_r c) at 1. apply Rmult_le_compat_l; lra.
  - apply Rmin_r.
Qed.
Lemma around_nested m f g lo hi : 0 < lo <= hi -> 1 <= f <= g -> fst (around m g lo hi) <= fst (around m f lo hi) /\ snd (around m f lo hi) <= snd (around m g lo hi).
Proof.
  intros H (F & G). destruct (around_facts m f lo hi H F) as (C & _). set (c := Rmin (Rmax m lo) hi) in *. unfold around. fold c. cbn. split.
  - apply Rle_max_compat_r. unfold Rdiv. apply Rmult_le_compat_l; [lra|]. apply Rinv_le_contravar; lra.
  - apply Rle_min_compat_r. apply Rmult_le_compat_l; lra.
Qed.
Lemma coord_le lo s x y : 0 < x <= y -> coord lo s x <= coord lo s y.
Proof.
  intros (H1 & H2). unfold coord. destruct (log_flag lo s); [|exact H2]. unfold Rdiv. apply Rmult_le_compat_r.
  - left. apply Rinv_0_lt_compat. rewrite <- ln_1. apply ln_increasing; lra.
  - destruct H2 as [H2| ->]; [left; apply ln_increasing; lra|right; reflexivity].
Qed.

Lemma log_at_spec b v : List.length b = fv_len v -> (forall r, (r < fv_len v)%nat -> exists x, fv_at v r = Some x /\ 0 < x) ->
  exists v', log_at b v = Ok v' /\ fv_len v' = fv_len v /\
    forall r x, fv_at v r = Some x -> fv_at v' r = Some (if nth r b false then log10 x else x).
Proof.
  intros L H. unfold log_at. rewrite L, Nat.eqb_refl.
  assert (X : forallb (fun j => negb (nth j b false) || log_ok (fv_at v j)) (seq 0 (fv_len v)) = true).
  { apply forallb_forall. intros j Hj. apply in_seq in Hj. destruct (H j ltac:(lia)) as (x & -> & P). apply orb_true_iff. right. cbn. unfold rltb. destruct (Rlt_dec 0 x); [reflexivity|lra]. }
  rewrite X. eexists. split; [reflexivity|]. split; [reflexivity|]. intros r x E. cbn. rewrite E. destruct (nth r b false); reflexivity.
Qed.
Lemma any_gt_false lb ub : (forall r, (r < fv_len lb)%nat -> exists a b, fv_at lb r = Some a /\ fv_at ub r = Some b /\ a <= b) -> any_gt lb ub = false.
Proof.
  intros H. unfold any_gt. destruct (existsb _ _) eqn:E; [|reflexivity]. exfalso. apply existsb_exists in E. destruct E as (j & Hj & E). apply in_seq in Hj.
  destruct (H j ltac:(lia)) as (a & b & E1 & E2 & L). rewrite E1, E2 in E. unfold rltb in E. destruct (Rlt_dec b a); [lra|discriminate].
Qed.
Lemma flin_between a b n k : a <= b -> (k < n)%nat -> exists t, flin (Some a) (Some b) n k = Some t /\ a <= t <= b.
Proof.
  intros H K. eexists. split; [reflexivity|]. assert (N : 0 < INR (n + 1)) by (apply lt_0_INR; lia).
  assert (S1 : 0 <= INR (S k)) by (apply pos_INR). assert (S2 : INR (S k) <= INR (n + 1)) by (apply le_INR; lia).
  assert (0 <= (b - a) / INR (n + 1)) by (apply Rmult_le_pos; [lra|left; apply Rinv_0_lt_compat; lra]). split.
  - assert (0 <= INR (S k) * ((b - a) / INR (n + 1))) by (apply Rmult_le_pos; lra). lra.
  - assert (INR (S k) * ((b - a) / INR (n + 1)) <= INR (n + 1) * ((b - a) / INR (n + 1))) by (apply Rmult_le_compat_r; lra).
    assert (E : INR (n + 1) * ((b - a) / INR (n + 1)) = b - a) by (field; lra). lra.
Qed.
Lemma rows_used_spec h n i r : In r (rows_used h n i) <-> recent h n i r.
Proof. unfold rows_used, recent. rewrite in_seq. lia. Qed.
Lemma rows_used_nodup h n i : NoDup (rows_used h n i). Proof. apply seq_NoDup. Qed.
