(** * C45: get_hp_bounds, bounds around past values *)
From Coq Require Import Reals List Arith Bool Permutation Sorted Lia Lra.
From Verif.Base Require Import NpLite NpFacts.
From Verif.Spec Require Import KernelSpec GpSpec HpSpec StartSpec BoundSpec.
From Verif.Model Require Import KernelSqExp KernelMatern KernelRatQuad KernelDispatch CommonFun WellCond Rescaling GpState Chol Cov MeanFun
  HpInfo HpGrad Lkd OptzLkd History StartPts HpBounds.
From Verif.Proofs Require Import StateFacts HpInfoFacts ThetaRescale StartFacts.
From Verif.Props Require Import HpGradProps OptzProps StartProps.
Import ListNotations.
Local Open Scope R_scope.

(** ** the two arrays *)
Definition pair_at (p : fvec * fvec) (r : nat) : fl * fl := (fv_at (fst p) r, fv_at (snd p) r).
Definition plens (n : nat) (p : fvec * fvec) : Prop := fv_len (fst p) = n /\ fv_len (snd p) = n.
Lemma set_pair_spec idx lh p n : plens n p -> (forall j, In j idx -> (j < n)%nat) -> NoDup idx ->
  exists p', set_pair idx lh p = Ok p' /\ plens n p' /\ (forall j, In j idx -> pair_at p' j = lh) /\ (forall j, ~ In j idx -> pair_at p' j = pair_at p j).
Proof.
  intros (L1 & L2) H ND. unfold set_pair.
  destruct (fputs_spec (fst p) idx 0 (fun _ => fst lh)) as (v1 & -> & M1 & A1 & B1); [rewrite L1; auto|auto|].
  destruct (fputs_spec (snd p) idx 0 (fun _ => snd lh)) as (v2 & -> & M2 & A2 & B2); [rewrite L2; auto|auto|].
  cbn [bind]. eexists. split; [reflexivity|]. split; [split; cbn; congruence|]. unfold pair_at. cbn. split.
  - intros j Hj. apply In_nth_error in Hj. destruct Hj as (a & Ea). rewrite (A1 a j Ea), (A2 a j Ea). destruct lh; reflexivity.
  - intros j N. rewrite B1, B2 by exact N. reflexivity.
Qed.
Lemma step_pair (present : option nat) (v : res (fl * fl)) p n : plens n p -> (forall j, present = Some j -> (j < n)%nat) ->
  (present <> None -> exists lh, v = Ok lh) ->
  exists p', (match present with Some j => lh <- v ;; set_pair [j] lh p | None => Ok p end) = Ok p' /\ plens n p' /\
    (forall j, present = Some j -> exists lh, v = Ok lh /\ pair_at p' j = lh) /\ (forall j, present <> Some j -> pair_at p' j = pair_at p j).
Proof.
  intros L H V. destruct present as [j|].
  - destruct (V ltac:(discriminate)) as (lh & ->). cbn [bind].
    destruct (set_pair_spec [j] lh p n L) as (p' & E & L' & A & B); [intros j' [<-|[]]; auto|repeat constructor; auto|].
    exists p'. split; [exact E|]. split; [exact L'|]. split.
    + intros j' E'. injection E' as <-. exists lh. split; [reflexivity|]. apply A. left. reflexivity.
    + intros j' N. apply B. intros [<-|[]]. apply N. reflexivity.
  - exists p. split; [reflexivity|]. split; [exact L|]. split; [intros; discriminate|reflexivity].
Qed.
(** the pair computed for one hyperparameter *)
Definition slot_val (xo : x0opt) (const_n : nat) (h : hist) (cstr : bool) (i : nat) (frac : R) (s : hslot) : res (fl * fl) :=
  let rows := rows_used h (xo_n_idx xo) i in
  match s with
  | HTheta _ => if cstr then near_theta frac (xo_theta xo) h rows else Ok (xo_theta xo)
  | HKernel => Ok (xo_kernel xo)
  | HVarK => if cstr && (const_n + 1 <? i)%nat then near_column frac (xo_varK xo) h rows QvarK else Ok (xo_varK xo)
  | HVarF => if cstr && (const_n + 1 <? i)%nat then near_column frac (xo_vf xo) h rows Qvar_fval else Ok (xo_vf xo)
  | HVarG => if cstr then near_column frac (xo_vg xo) h rows Qvar_fgrad else Ok (xo_vg xo)
  end.
Lemma pairs_spec o d lo hk hv hf hg info xo cn h cstr i frac : set_hp_optz_info o d lo true hk hv hf hg = Ok info -> (0 < o_dim o)%nat ->
  (forall s r, position info s = Some r -> exists lh, slot_val xo cn h cstr i frac s = Ok lh) ->
  exists p, bound_pairs xo cn info h cstr i frac = Ok p /\ plens (hi_n info) p /\
  forall s r, position info s = Some r -> exists lh, slot_val xo cn h cstr i frac s = Ok lh /\ pair_at p r = lh.
Proof.
  intros HI HD HV. destruct (C21_index_sets_partition _ _ _ _ _ _ _ _ _ HI) as (_ & _ & PS & PL & PB & _ & HT & HK & _).
  destruct HT as (HT & _). destruct (HT eq_refl) as (idx & ET & LT).
  assert (INJ : forall s s' r, position info s = Some r -> position info s' = Some r -> s = s').
  { intros s s' r H1 H2. apply PS in H1. apply PS in H2. congruence. }
  assert (KK : exists ok, hi_kernel info = option_map (fun j => [j]) ok /\ position info HKernel = ok).
  { cbn. destruct hk. - destruct (proj1 HK eq_refl) as (j & ->). exists (Some j). auto.
    - destruct (info_inv _ _ _ _ _ _ _ _ _ HI) as (_ & _ & _ & ->). cbn. exists None. auto. }
  destruct KK as (ok & EK & PK).
  unfold bound_pairs. set (rows := rows_used h (xo_n_idx xo) i). rewrite ET.
  set (n := hi_n info) in *. set (p0 := (_, _)).
  assert (L0 : plens n p0) by (split; reflexivity).
  assert (PT : forall e r, nth_error idx e = Some r -> position info (HTheta e) = Some r) by (intros e r E; cbn; rewrite ET; exact E).
  destruct (nth_error idx 0) as [r0|] eqn:E0; [|apply nth_error_None in E0; lia].
  destruct (HV (HTheta 0) r0 (PT _ _ E0)) as (lt & EV). cbn [slot_val] in EV. fold rows in EV. rewrite EV. cbn [bind].
  destruct (set_pair_spec idx lt p0 n L0) as (b1 & -> & L1 & A1 & B1).
  { intros j Hj. apply In_nth_error in Hj. destruct Hj as (e & Ee). apply (PB (HTheta e)), PT, Ee. }
  { apply NoDup_nth_error. intros a c La Ec. destruct (nth_error idx a) as [r|] eqn:Ea; [|apply nth_error_None in Ea; lia].
    symmetry in Ec. assert (X := INJ _ _ _ (PT a r Ea) (PT c r Ec)). congruence. }
  cbn [bind].
  destruct (step_pair ok (Ok (xo_kernel xo)) b1 n L1) as (b2 & E2 & L2 & A2 & B2).
  { intros j Ej. apply (PB HKernel). rewrite PK. exact Ej. }
  { intros _. eexists. reflexivity. }
  assert (E2' : (match hi_kernel info with Some idx0 => set_pair idx0 (xo_kernel xo) b1 | None => Ok b1 end) = Ok b2).
  { rewrite EK. destruct ok; exact E2. }
  rewrite E2'. cbn [bind].
  assert (VV : forall s, position info s <> None -> exists lh, slot_val xo cn h cstr i frac s = Ok lh).
  { intros s Hs. destruct (position info s) as [r|] eqn:E; [|congruence]. apply (HV s r E). }
  destruct (step_pair (hi_varK info) _ b2 n L2 (PB HVarK) (VV HVarK)) as (b3 & E3 & L3 & A3 & B3). cbn [slot_val] in E3, A3. fold rows in E3, A3. rewrite E3. cbn [bind].
  destruct (step_pair (hi_var_fval info) _ b3 n L3 (PB HVarF) (VV HVarF)) as (b4 & E4 & L4 & A4 & B4). cbn [slot_val] in E4, A4. fold rows in E4, A4. rewrite E4. cbn [bind].
  destruct (step_pair (hi_var_fgrad info) _ b4 n L4 (PB HVarG) (VV HVarG)) as (b5 & E5 & L5 & A5 & B5). cbn [slot_val] in E5, A5. fold rows in E5, A5. rewrite E5.
  exists b5. split; [reflexivity|]. split; [exact L5|]. intros s r P.
  assert (N5 : s <> HVarG -> pair_at b5 r = pair_at b4 r) by (intros N; apply B5; intros C; apply N; apply (INJ s HVarG r P C)).
  assert (N4 : s <> HVarF -> pair_at b4 r = pair_at b3 r) by (intros N; apply B4; intros C; apply N; apply (INJ s HVarF r P C)).
  assert (N3 : s <> HVarK -> pair_at b3 r = pair_at b2 r) by (intros N; apply B3; intros C; apply N; apply (INJ s HVarK r P C)).
  assert (N2 : s <> HKernel -> pair_at b2 r = pair_at b1 r) by (intros N; apply B2; intros C; apply N; apply (INJ s HKernel r P); congruence).
  destruct s as [e| | | |]; cbn [slot_val]; fold rows.
  - exists lt. split; [exact EV|]. rewrite N5, N4, N3, N2 by discriminate. apply A1. cbn in P. rewrite ET in P. eapply nth_error_In. exact P.
  - rewrite N5, N4, N3 by discriminate. apply A2. congruence.
  - rewrite N5, N4 by discriminate. apply A3. exact P.
  - rewrite N5 by discriminate. apply A4. exact P.
  - apply A5. exact P.
Qed.

(** ** the intervals *)
Lemma median_in l m (P : R -> Prop) : is_median l m -> (forall x, In x l -> P x) -> exists x y, P x /\ P y /\ m = (x + y) / 2.
Proof.
  intros (NE & s & Pm & _ & ->) H. assert (0 < List.length s)%nat. { destruct s; [|cbn; lia]. apply Permutation_sym, Permutation_nil in Pm. congruence. }
  assert (A : forall k, (k < List.length s)%nat -> P (nth k s 0)).
  { intros k Hk. apply H. apply (Permutation_in _ (Permutation_sym Pm)). apply nth_In. exact Hk. }
  eexists. eexists. split; [|split; [|reflexivity]]; apply A.
  - assert ((List.length s - 1) / 2 <= List.length s - 1)%nat by (apply Nat.div_le_upper_bound; lia). lia.
  - apply Nat.div_lt; lia.
Qed.
Lemma ln10_pos : 0 < ln 10. Proof. rewrite <- ln_1. apply ln_increasing; lra. Qed.
Lemma log10_lt x y : 0 < x -> x < y -> log10 x < log10 y.
Proof. intros P H. unfold log10, Rdiv. apply Rmult_lt_compat_r; [apply Rinv_0_lt_compat, ln10_pos|apply ln_increasing; assumption]. Qed.
Lemma pow10_lt x y : x < y -> pow10 x < pow10 y.
Proof. intros H. unfold pow10. apply exp_increasing. apply Rmult_lt_compat_r; [apply ln10_pos|exact H]. Qed.
Lemma pow10_le x y : x <= y -> pow10 x <= pow10 y.
Proof. intros [H| ->]; [left; apply pow10_lt, H|right; reflexivity]. Qed.
Lemma near_facts m f a b : 0 < a < b -> 0 < f -> let c := pow10 (Rmin (Rmax m (log10 a)) (log10 b)) in
  a <= fst (near m f a b) <= c /\ c <= snd (near m f a b) <= b /\ fst (near m f a b) < snd (near m f a b).
Proof.
  intros (A & B) F. cbv zeta. unfold near. cbn [fst snd]. assert (L := log10_lt a b A B). set (la := log10 a) in *. set (lb := log10 b) in *.
  assert (W : 0 < f * (lb - la)) by (apply Rmult_lt_0_compat; lra). set (w := f * (lb - la)) in *.
  assert (C : la <= Rmin (Rmax m la) lb <= lb). { unfold Rmin, Rmax. destruct (Rle_dec m la); destruct (Rle_dec _ lb); lra. }
  set (c := Rmin (Rmax m la) lb) in *. assert (EA : a = pow10 la) by (symmetry; apply pow10_log10; exact A). assert (EB : b = pow10 lb) by (symmetry; apply pow10_log10; lra).
  assert (X : la <= Rmax la (c - w) <= c /\ c <= Rmin lb (c + w) <= lb /\ Rmax la (c - w) < Rmin lb (c + w)).
  { unfold Rmin, Rmax. destruct (Rle_dec la (c - w)); destruct (Rle_dec lb (c + w)); lra. }
  destruct X as ((X1 & X2) & (X3 & X4) & X5).
  apply pow10_le in X1, X2, X3, X4. apply pow10_lt in X5. rewrite <- EA in X1. rewrite <- EB in X4. repeat split; assumption.
Qed.
Lemma range_near f a b m : 0 < a -> 0 < b -> calc_hp_range f (Some (log10 a), Some (log10 b)) (Some m) = (Some (fst (near m f a b)), Some (snd (near m f a b))).
Proof. intros A B. unfold calc_hp_range, near. cbn. do 2 f_equal; do 3 f_equal; ring. Qed.
Lemma flog_pos x : 0 < x -> flog10 (Some x) = Ok (Some (log10 x)).
Proof. intros H. unfold flog10. cbn. unfold rltb. destruct (Rlt_dec 0 x); [reflexivity|contradiction]. Qed.
Lemma near_column_spec f s c h rows a b : past h s = h_col h c -> 0 < a < b -> rows <> [] -> (forall r, In r rows -> exists x, past h s r = Some x /\ 0 < x) ->
  exists l v, map (past h s) rows = map Some l /\ is_median l v /\
    near_column f (Some a, Some b) h rows c = Ok (Some (fst (near (log10 v) f a b)), Some (snd (near (log10 v) f a b))).
Proof.
  intros Hc Hab NE HP. destruct (median_of (past h s) rows NE) as (l & v & E1 & E2 & E3). { intros r Hr. destruct (HP r Hr) as (x & -> & _). eauto. }
  exists l, v. split; [exact E1|]. split; [exact E3|]. unfold near_column, col_median. rewrite <- Hc, E2.
  assert (V : 0 < v). { destruct (median_in l v (fun x => 0 < x) E3) as (x & y & X & Y & ->); [|lra]. intros x Hx. apply (in_map Some) in Hx. rewrite <- E1 in Hx. apply in_map_iff in Hx.
    destruct Hx as (r & Er & Hr). destruct (HP r Hr) as (x' & Ex & Px). congruence. }
  rewrite flog_pos by exact V. cbn [bind]. unfold flog_pair. cbn [fst snd]. rewrite !flog_pos by lra. cbn [bind]. rewrite range_near by lra. reflexivity.
Qed.
Lemma rmap_flog l r : map (fun x => x) l = map Some r -> (forall x, In x r -> 0 < x) -> rmap flog10 l = Ok (map (fun x => Some (log10 x)) r).
Proof.
  rewrite map_id. revert r. induction l as [|x l IH]; intros [|y r] E P; try discriminate; [reflexivity|]. cbn in E. injection E as -> E. cbn [rmap map].
  rewrite flog_pos by (apply P; left; reflexivity). cbn [bind]. rewrite (IH r E) by (intros z Hz; apply P; right; exact Hz). reflexivity.
Qed.
Lemma near_theta_spec f h rows a b : 0 < a < b -> theta_entries h rows <> [] -> (forall z, In z (theta_entries h rows) -> exists x, z = Some x /\ 0 < x) ->
  exists l m, theta_entries h rows = map Some l /\ is_median (map log10 l) m /\
    near_theta f (Some a, Some b) h rows = Ok (Some (fst (near m f a b)), Some (snd (near m f a b))).
Proof.
  intros Hab NE HP. destruct (all_real_map (fun z : fl => z) (theta_entries h rows)) as (l & _ & E1). { intros z Hz. destruct (HP z Hz) as (x & -> & _). eauto. }
  assert (P : forall x, In x l -> 0 < x). { intros x Hx. apply (in_map Some) in Hx. rewrite <- E1, map_id in Hx. destruct (HP _ Hx) as (y & [= ->] & Py). exact Py. }
  assert (NL : l <> []). { intros ->. rewrite map_id in E1. apply NE. exact E1. }
  destruct (median_of (fun x => Some (log10 x)) l NL) as (l2 & m & E2 & E3 & E4). { intros; eexists; reflexivity. }
  assert (El : l2 = map log10 l). { clear - E2. revert l2 E2. induction l as [|x l IH]; intros [|y l2] E; try discriminate; [reflexivity|]. cbn in E. injection E as <- E. cbn. f_equal. apply IH. exact E. }
  exists l, m. rewrite map_id in E1. split; [exact E1|]. split; [rewrite <- El; exact E4|]. unfold near_theta. rewrite (rmap_flog _ l) by (rewrite ?map_id; assumption). cbn [bind].
  unfold flog_pair. cbn [fst snd]. rewrite !flog_pos by lra. cbn [bind]. set (q := np_median _). assert (Q : q = Some m) by exact E3. rewrite Q, range_near by lra. reflexivity.
Qed.
Lemma coord_lt lo s x y : 0 < x < y -> coord lo s x < coord lo s y.
Proof. intros (H1 & H2). unfold coord. destruct (log_flag lo s); [|exact H2]. apply (log10_lt x y H1 H2). Qed.

(** ** the theorems *)
(** With positive ranges a < b, and positive past values wherever they are used, the call succeeds.  The bounds of every
    hyperparameter, in the coordinate in which it is optimised, lie within its range, the lower one below the upper one:
    they are the range itself for hyperparameters not restricted by the past, and the part of the range near the
    median of the past values for the others. *)
Theorem C45_bounds :
  forall (o : gpopt) (d : gpdata) (lo : lkopt) (hk hv hf hg : bool) (info : hpinfo) (xo : x0opt) (const_n : nat) (h : hist) (cstr : bool) (i_optz : option nat) (frac : R),
  set_hp_optz_info o d lo true hk hv hf hg = Ok info -> (0 < o_dim o)%nat -> h_w h Ttheta = o_dim o ->
  (cstr = true -> i_optz <> None) -> 0 < frac < 1 ->
  let i := match i_optz with Some i => i | None => O end in
  (forall s, position info s <> None -> exists a b, allowed xo s = (Some a, Some b) /\ 0 < a < b) ->
  (forall s, position info s <> None -> restricted cstr const_n i s = true ->
     (exists r, recent h (xo_n_idx xo) i r) /\ forall r, recent h (xo_n_idx xo) i r -> exists x, past h s r = Some x /\ 0 < x) ->
  exists lb ub, get_hp_bounds xo const_n info h cstr i_optz frac = Ok (lb, ub) /\ fv_len lb = hi_n info /\ fv_len ub = hi_n info /\
  forall s r, position info s = Some r -> exists a b x y, allowed xo s = (Some a, Some b) /\
    fv_at lb r = Some (coord lo s x) /\ fv_at ub r = Some (coord lo s y) /\ a <= x /\ x < y /\ y <= b /\ coord lo s x < coord lo s y /\
    (restricted cstr const_n i s = false -> x = a /\ y = b) /\
    (restricted cstr const_n i s = true -> exists rows l m, NoDup rows /\ (forall k, In k rows <-> recent h (xo_n_idx xo) i k) /\
       past_kind h s rows = map Some l /\ magnitude s l m /\ (x, y) = near m frac a b /\
       x <= pow10 (Rmin (Rmax m (log10 a)) (log10 b)) <= y).
Proof.
  intros o d lo hk hv hf hg info xo cn h cstr io frac HI HD HW HC HF i HA HP.
  destruct (C21_index_sets_partition _ _ _ _ _ _ _ _ _ HI) as (_ & HL & PS & PL & PB & _ & HT & _).
  set (cs := match io with Some O => false | _ => cstr end).
  assert (RS : forall s, restricted cstr cn i s = cs && match s with HKernel => false | HVarK | HVarF => (cn + 1 <? i)%nat | _ => true end).
  { intros s. unfold restricted, cs, i. destruct io as [[|k]|]; cbn [Nat.eqb negb]; rewrite ?andb_false_r, ?andb_true_r; try reflexivity.
    destruct cstr; [|reflexivity]. exfalso. apply HC; reflexivity. }
  set (i' := if cs then i else O).
  assert (EI : (if cs then _ <- assert_ (rltb 0 frac && rltb frac 1) ;; match io with Some i => Ok i | None => Err EType end else Ok O) = Ok i').
  { unfold i', i. destruct cs eqn:Ec; [|reflexivity]. assert (X : rltb 0 frac && rltb frac 1 = true). { unfold rltb. destruct (Rlt_dec 0 frac); [|lra]. destruct (Rlt_dec frac 1); [reflexivity|lra]. }
    rewrite X. cbn [assert_ bind]. destruct io; [reflexivity|]. exfalso. unfold cs in Ec. apply HC; auto. }
  assert (TH : forall e e', (e' < o_dim o)%nat -> position info (HTheta e) <> None -> position info (HTheta e') <> None).
  { intros e e' He' _. cbn. destruct (proj1 HT eq_refl) as (idx & ET & LT). rewrite ET. apply nth_error_Some. lia. }
  (* the pair of one hyperparameter *)
  assert (ONE : forall s, position info s <> None -> exists a b x y, allowed xo s = (Some a, Some b) /\ 0 < a < b /\
    slot_val xo cn h cs i' frac s = Ok (Some x, Some y) /\ a <= x /\ x < y /\ y <= b /\
    (restricted cstr cn i s = false -> x = a /\ y = b) /\
    (restricted cstr cn i s = true -> exists rows l m, NoDup rows /\ (forall k, In k rows <-> recent h (xo_n_idx xo) i k) /\
       past_kind h s rows = map Some l /\ magnitude s l m /\ (x, y) = near m frac a b /\ x <= pow10 (Rmin (Rmax m (log10 a)) (log10 b)) <= y)).
  { intros s Hs. destruct (HA s Hs) as (a & b & EA & Hab). exists a, b.
    assert (FREE : restricted cstr cn i s = false -> slot_val xo cn h cs i' frac s = Ok (Some a, Some b)).
    { intros Hr. rewrite RS in Hr. unfold i'. rewrite <- EA. destruct s; cbn [slot_val allowed]; destruct cs; cbn [andb] in *; try reflexivity; try discriminate; rewrite Hr; reflexivity. }
    destruct (restricted cstr cn i s) eqn:ER; [|exists a, b; split; [exact EA|]; split; [exact Hab|]; split; [auto|]; repeat split; intros; try lra; discriminate].
    destruct (HP s Hs ER) as ((r1 & R1) & HPs). rewrite RS in ER. assert (CS : cs = true) by (destruct cs; [reflexivity|discriminate]).
    assert (NE : rows_used h (xo_n_idx xo) i <> []). { intros C. apply rows_used_spec in R1. rewrite C in R1. destruct R1. }
    assert (FIN : forall m, slot_val xo cn h cs i' frac s = Ok (Some (fst (near m frac a b)), Some (snd (near m frac a b))) ->
      (exists l, past_kind h s (rows_used h (xo_n_idx xo) i) = map Some l /\ magnitude s l m) ->
      exists x y, allowed xo s = (Some a, Some b) /\ 0 < a < b /\
        slot_val xo cn h cs i' frac s = Ok (Some x, Some y) /\ a <= x /\ x < y /\ y <= b /\
        (true = false -> x = a /\ y = b) /\
        (true = true -> exists rows l m, NoDup rows /\ (forall k, In k rows <-> recent h (xo_n_idx xo) i k) /\
           past_kind h s rows = map Some l /\ magnitude s l m /\ (x, y) = near m frac a b /\ x <= pow10 (Rmin (Rmax m (log10 a)) (log10 b)) <= y)).
    { intros m E (l & E1 & E2). destruct (near_facts m frac a b Hab ltac:(lra)) as ((F1 & F2) & (F3 & F4) & F5). do 2 eexists. split; [exact EA|]. split; [exact Hab|]. split; [exact E|].
      split; [exact F1|]. split; [exact F5|]. split; [exact F4|]. split; [discriminate|]. intros _. exists (rows_used h (xo_n_idx xo) i), l, m. split; [apply rows_used_nodup|].
      split; [intros k; apply rows_used_spec|]. split; [exact E1|]. split; [exact E2|]. split; [symmetry; apply surjective_pairing|]. lra. }
    assert (I' : i' = i) by (unfold i'; rewrite CS; reflexivity).
    assert (COL : forall c, past h s = h_col h c -> (match s with HTheta _ => False | _ => True end) -> slot_val xo cn h cs i' frac s = near_column frac (allowed xo s) h (rows_used h (xo_n_idx xo) i) c ->
      exists m, slot_val xo cn h cs i' frac s = Ok (Some (fst (near m frac a b)), Some (snd (near m frac a b))) /\
      (exists l, past_kind h s (rows_used h (xo_n_idx xo) i) = map Some l /\ magnitude s l m)).
    { intros c Hc Hns E. destruct (near_column_spec frac s c h (rows_used h (xo_n_idx xo) i) a b Hc Hab NE) as (l & v & E1 & E2 & E3). { intros r Hr. apply HPs, rows_used_spec, Hr. }
      exists (log10 v). rewrite E, EA. split; [exact E3|]. exists l. split; [destruct s; try contradiction; exact E1|]. destruct s; try contradiction; cbn; exists v; auto. }
    destruct s as [e| | | |]; cbn [slot_val] in *.
    - destruct (near_theta_spec frac h (rows_used h (xo_n_idx xo) i) a b Hab) as (l & m & E1 & E2 & E3).
      { intros C. unfold theta_entries in C. destruct (rows_used h (xo_n_idx xo) i) as [|r rows]; [apply NE; reflexivity|]. cbn in C. apply app_eq_nil in C. destruct C as (C & _). apply map_eq_nil in C.
        rewrite HW in C. destruct (o_dim o); [lia|discriminate]. }
      { intros z Hz. unfold theta_entries in Hz. apply in_flat_map in Hz. destruct Hz as (r & Hr & Hz). apply in_map_iff in Hz. destruct Hz as (e' & <- & He'). apply in_seq in He'.
        destruct (HP (HTheta e') (TH e e' ltac:(lia) Hs)) as (_ & HPe). { rewrite RS, CS. reflexivity. } exact (HPe r (proj1 (rows_used_spec _ _ _ _) Hr)). }
      apply (FIN m); [|exists l; split; [exact E1|exact E2]]. rewrite CS, I'. cbn [allowed] in EA. rewrite EA. exact E3.
    - rewrite andb_false_r in ER. discriminate.
    - destruct (COL QvarK eq_refl I) as (m & M1 & M2); [rewrite I', ER; reflexivity|]. apply (FIN m M1 M2).
    - destruct (COL Qvar_fval eq_refl I) as (m & M1 & M2); [rewrite I', ER; reflexivity|]. apply (FIN m M1 M2).
    - destruct (COL Qvar_fgrad eq_refl I) as (m & M1 & M2); [rewrite I', CS; reflexivity|]. apply (FIN m M1 M2). }
  destruct (pairs_spec o d lo hk hv hf hg info xo cn h cs i' frac HI HD) as (p & EP & (N1 & N2) & AT).
  { intros s r P. destruct (ONE s ltac:(congruence)) as (a & b & x & y & _ & _ & E & _). eauto. }
  assert (AT2 : forall s r, position info s = Some r -> exists a b x y, allowed xo s = (Some a, Some b) /\ 0 < a < b /\ fv_at (fst p) r = Some x /\ fv_at (snd p) r = Some y /\ a <= x /\ x < y /\ y <= b /\
    (restricted cstr cn i s = false -> x = a /\ y = b) /\
    (restricted cstr cn i s = true -> exists rows l m, NoDup rows /\ (forall k, In k rows <-> recent h (xo_n_idx xo) i k) /\
       past_kind h s rows = map Some l /\ magnitude s l m /\ (x, y) = near m frac a b /\ x <= pow10 (Rmin (Rmax m (log10 a)) (log10 b)) <= y)).
  { intros s r P. destruct (ONE s ltac:(congruence)) as (a & b & x & y & E1 & E2 & E3 & E4). destruct (AT s r P) as (lh & F1 & F2). rewrite E3 in F1. injection F1 as <-. injection F2 as F2 F3.
    exists a, b, x, y. auto. }
  assert (POS : forall r, (r < hi_n info)%nat -> exists s, position info s = Some r) by (intros r Hr; destruct (PL r Hr) as (s & P & _); exists s; exact P).
  assert (NN : no_nan (fst p) = true /\ no_nan (snd p) = true).
  { split; apply forallb_forall; intros r Hr; apply in_seq in Hr; [rewrite N1 in Hr|rewrite N2 in Hr]; destruct (POS r ltac:(lia)) as (s & P); destruct (AT2 s r P) as (a & b & x & y & _ & _ & X & Y & _); [rewrite X|rewrite Y]; reflexivity. }
  destruct (log_at_spec (hi_log info) (fst p)) as (lb & ELB & LLB & ALB); [congruence| |].
  { intros r Hr. rewrite N1 in Hr. destruct (POS r Hr) as (s & P). destruct (AT2 s r P) as (a & b & x & y & _ & Hab & X & _ & Q & _). exists x. split; [exact X|lra]. }
  destruct (log_at_spec (hi_log info) (snd p)) as (ub & EUB & LUB & AUB); [congruence| |].
  { intros r Hr. rewrite N2 in Hr. destruct (POS r Hr) as (s & P). destruct (AT2 s r P) as (a & b & x & y & _ & Hab & _ & Y & Q1 & Q2 & _). exists y. split; [exact Y|lra]. }
  exists lb, ub. split. { unfold get_hp_bounds. fold cs. rewrite EI. cbn [bind]. rewrite EP. cbn [bind]. rewrite (proj1 NN), (proj2 NN). cbn [assert_ bind]. rewrite ELB, EUB. reflexivity. }
  split; [congruence|]. split; [congruence|]. intros s r P. destruct (AT2 s r P) as (a & b & x & y & E1 & Hab & X & Y & Q1 & Q2 & Q3 & Q4 & Q5).
  assert (LF : nth r (hi_log info) false = log_flag lo s). { destruct (PL r (PB s r P)) as (s' & P' & U & N). rewrite (U s P). apply nth_error_nth with (d := false) in N. exact N. }
  exists a, b, x, y. split; [exact E1|]. split; [rewrite (ALB r x X), LF; reflexivity|]. split; [rewrite (AUB r y Y), LF; reflexivity|].
  split; [exact Q1|]. split; [exact Q2|]. split; [exact Q3|]. split; [apply coord_lt; lra|]. split; assumption.
Qed.
Print Assumptions C45_bounds.

(** A missing (NaN) past value of a restricted hyperparameter is noticed: the call raises. *)
Lemma all_real_none l : In None l -> all_real l = None.
Proof. induction l as [|[x|] l IH]; intros H; [destruct H| |reflexivity]. destruct H as [H|H]; [discriminate|]. cbn. rewrite IH by exact H. reflexivity. Qed.
Lemma median_none l : In None l -> np_median l = None.
Proof. intros H. unfold np_median. rewrite all_real_none by exact H. reflexivity. Qed.
Lemma range_none f rg : fst (calc_hp_range f rg None) = None.
Proof. unfold calc_hp_range. cbn. destruct (fst rg); reflexivity. Qed.
Lemma rmap_none l l' : rmap flog10 l = Ok l' -> In None l -> In None l'.
Proof.
  revert l'. induction l as [|x l IH]; intros l' E H; cbn [rmap] in E; [destruct H|]. binv E y Ey. binv E t Et. injection E as <-. destruct H as [->|H]; [injection Ey as <-; left; reflexivity|right; auto].
Qed.
Lemma slot_val_none xo cn h i frac s lh k : slot_val xo cn h true i frac s = Ok lh -> restricted true cn i s = true -> In k (rows_used h (xo_n_idx xo) i) ->
  past h s k = None -> (match s with HTheta e => (e < h_w h Ttheta)%nat | _ => True end) -> fst lh = None.
Proof.
  intros E RR Hk P W. unfold restricted in RR. apply andb_true_iff in RR. destruct RR as (_ & RR).
  assert (COL : forall c rg, past h s = h_col h c -> near_column frac rg h (rows_used h (xo_n_idx xo) i) c = Ok lh -> fst lh = None).
  { intros c rg Hc EC. unfold near_column, col_median in EC. rewrite median_none in EC; [|rewrite <- P, Hc; apply in_map; exact Hk]. cbn in EC. binv EC lr El. injection EC as <-. apply range_none. }
  destruct s as [e| | | |]; cbn [slot_val andb] in E; try discriminate; try rewrite RR in E; try (eapply COL; [|exact E]; reflexivity).
  unfold near_theta in E. binv E l El. binv E lr Er. injection E as <-. rewrite median_none; [apply range_none|]. apply (rmap_none _ _ El). unfold theta_entries. apply in_flat_map. exists k. split; [exact Hk|].
  cbn in P. rewrite <- P. apply in_map. apply in_seq. lia.
Qed.
Theorem C45_missing_past_value_raises :
  forall (o : gpopt) (d : gpdata) (lo : lkopt) (hk hv hf hg : bool) (info : hpinfo) (xo : x0opt) (const_n : nat) (h : hist) (i : nat) (frac : R) (s : hslot) (r : nat),
  set_hp_optz_info o d lo true hk hv hf hg = Ok info -> (0 < o_dim o)%nat -> h_w h Ttheta = o_dim o ->
  position info s <> None -> restricted true const_n i s = true -> recent h (xo_n_idx xo) i r -> past h s r = None ->
  exists e, get_hp_bounds xo const_n info h true (Some i) frac = Err e.
Proof.
  intros o d lo hk hv hf hg info xo cn h i frac s r HI HD HW Hs HR Hr HN. destruct (get_hp_bounds xo cn info h true (Some i) frac) as [res|e] eqn:H; [|eauto]. exfalso.
  assert (I0 : i <> O) by (intros ->; discriminate).
  destruct (C21_index_sets_partition _ _ _ _ _ _ _ _ _ HI) as (_ & _ & PS & PL & PB & _ & HT & HK & _).
  unfold get_hp_bounds in H. assert (EC : match i with O => false | Datatypes.S _ => true end = true) by (destruct i; [congruence|reflexivity]).
  destruct i as [|i0]; [congruence|]. set (i := Datatypes.S i0) in *. binv H i' Ei. binv Ei u Eu. injection Ei as <-. binv H p Ep. binv_assert H. clear H.
  assert (V : forall s r, position info s = Some r -> exists lh, slot_val xo cn h true i frac s = Ok lh).
  { unfold bound_pairs in Ep. binv Ep p1 E1. binv Ep p2 E2. binv Ep p3 E3. binv Ep p4 E4. intros s' r' P'. destruct s' as [e| | | |]; cbn [position] in P'; cbn [slot_val].
    - destruct (hi_theta info); [|discriminate]. binv E1 lh El. exists lh. exact El.
    - eexists. reflexivity.
    - rewrite P' in E3. binv E3 lh El. exists lh. exact El.
    - rewrite P' in E4. binv E4 lh El. exists lh. exact El.
    - rewrite P' in Ep. binv Ep lh El. exists lh. exact El. }
  destruct (pairs_spec o d lo hk hv hf hg info xo cn h true i frac HI HD V) as (p' & Ep' & (N1 & N2) & AT). rewrite Ep in Ep'. injection Ep' as <-.
  destruct (position info s) as [k|] eqn:Pk; [|congruence]. destruct (AT s k Pk) as (lh & El & Ek).
  assert (Z := slot_val_none xo cn h i frac s lh r El HR (proj2 (rows_used_spec _ _ _ _) Hr) HN).
  assert (W : match s with HTheta e => (e < h_w h Ttheta)%nat | _ => True end).
  { destruct s as [e| | | |]; auto. cbn in Pk. destruct (proj1 HT eq_refl) as (idx & ET & LT). rewrite ET in Pk. rewrite HW, <- LT. apply nth_error_Some. congruence. }
  specialize (Z W). rewrite <- Ek in Z. cbn in Z. unfold no_nan in HA. rewrite forallb_forall in HA. assert (B := PB s k Pk). specialize (HA k ltac:(apply in_seq; lia)). rewrite Z in HA. discriminate.
Qed.
Print Assumptions C45_missing_past_value_raises.

(** a concrete case: three past iterations, six hyperparameters, the third iteration restricted by the past *)
Example C45_case : exists d info lb ub, set_hp_optz_info hx_opt d lk_default true true true true true = Ok info /\
  (forall s, position info s <> None -> exists a b, allowed (xo_default RatQu) s = (Some a, Some b) /\ 0 < a < b) /\
  restricted true 1 3 HVarK = true /\
  (forall s r, recent past3 (xo_n_idx (xo_default RatQu)) 3 r -> exists x, past past3 s r = Some x /\ 0 < x) /\
  get_hp_bounds (xo_default RatQu) 1 info past3 true (Some 3%nat) (1 / 5) = Ok (lb, ub) /\ hi_n info = 6%nat.
Proof.
  destruct C21_C26_hypotheses_met as (d & info & _ & _ & _ & _ & _ & _ & _ & _ & _ & _ & EI & N).
  assert (A : forall s, position info s <> None -> exists a b, allowed (xo_default RatQu) s = (Some a, Some b) /\ 0 < a < b).
  { intros s _. destruct s; cbn [allowed xo_default xo_theta xo_kernel xo_varK xo_vf xo_vg kernel_range]; do 2 eexists; (split; [reflexivity|]);
      (split; [apply Rinv_0_lt_compat; lra|]); apply Rle_lt_trans with 1; try lra; apply Rmult_le_reg_l with (10 ^ 24); lra || (try lra). }
  assert (P : forall s r, recent past3 (xo_n_idx (xo_default RatQu)) 3 r -> exists x, past past3 s r = Some x /\ 0 < x).
  { intros s r (_ & H & _). apply Nat.ltb_lt in H. assert (0 <= INR r) by apply pos_INR. destruct s; try assert (0 <= INR e) by apply pos_INR; unfold past, past3; cbn [h_tab h_col]; rewrite H; eexists; (split; [reflexivity|]); first [lra | assumption]. }
  destruct (C45_bounds hx_opt d lk_default true true true true info (xo_default RatQu) 1 past3 true (Some 3%nat) (1 / 5) EI) as (lb & ub & E & _).
  { cbn. lia. } { reflexivity. } { discriminate. } { lra. } { exact A. }
  { intros s _ _. split; [exists 1%nat; unfold recent; cbn; lia|]. intros r Hr. apply P. exact Hr. }
  exists d, info, lb, ub. split; [exact EI|]. split; [exact A|]. split; [reflexivity|]. split; [exact P|]. split; [exact E|exact N].
Qed.
