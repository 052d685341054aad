(** * Properties C21 and C26: the vector of optimised hyperparameters and the derivatives of the covariance
    matrix with respect to each of them.  Vocabulary: [Spec/HpSpec.v] (single hyperparameters [hslot], [hp_get],
    [hp_put], their order [slots]), [Spec/KernelSpec.v] ([is_mat_derive]), [Spec/GpSpec.v]. *)
From Coq Require Import Reals List Arith Bool Lia Lra.
From Coquelicot Require Import Coquelicot.
From Verif.Base Require Import NpLite NpFacts Deriv.
From Verif.Spec Require Import KernelSpec LinAlgSpec GpSpec HpSpec.
From Verif.Model Require Import KernelSqExp KernelMatern KernelRatQuad KernelDispatch CommonFun WellCond Rescaling GpState Chol Cov HpInfo HpGrad.
From Verif.Proofs Require Import KernTac ThetaGradMask CovStruct StateFacts NoiseFacts NuggetCond NuggetMain HpInfoFacts HpGradFacts HpGradMain HpGradFree.
From Verif.Props Require Import CondProps.
Import ListNotations.
Local Open Scope R_scope.

(** the covariance matrix that is built (and factorised) for given hyperparameters *)
Definition Kcov_of (o : gpopt) (d : gpdata) (condf : mat -> R) (cc cnd : bool) (hp : hpv) : res mat :=
  out <- calc_all_K_w_chofac o d condf (d_Rt d) hp None cc cnd None false ;; Ok (k_Kcov out).
(** the regularised kernel matrix of the noise-free path *)
Definition Kern_of (o : gpopt) (d : gpdata) (condf : mat -> R) (cc cnd : bool) (hp : hpv) : res mat :=
  out <- calc_Kern_w_chofac o d condf (d_Rt d) hp None cc cnd ;; Ok (k_Kcov out).

Lemma slot_listed o d lo ht hk hv hf hg info r s : set_hp_optz_info o d lo ht hk hv hf hg = Ok info ->
  nth_error (slots (o_dim o) ht hk hv hf hg) r = Some s -> slot_ok o d s.
Proof.
  intros HI Hr. destruct (info_inv _ _ _ _ _ _ _ _ _ HI) as (Ik & If & Ig & _). apply slots_nth in Hr.
  destruct s; cbn [slot_ok]; auto; try tauto.
  - destruct Hr as (-> & _). specialize (Ik eq_refl). destruct (o_kernel o); try discriminate; reflexivity.
Qed.
Lemma slot_pos o hp vK s v : hyper_ok o hp -> noise_pos hp -> hp_varK hp = Some vK -> 0 < vK -> hp_get hp s = Some v -> s <> HKernel \/ o_kernel o = RatQu -> 0 < v.
Proof.
  intros (L & P & K) (P1 & P2) Hv Hp Hg Hk. destruct s; cbn [hp_get] in Hg.
  - destruct (Nat.ltb_spec e (vlen (hp_theta hp))); [|discriminate]. injection Hg as <-. apply P. congruence.
  - destruct Hk as [Hk|Hk]; [congruence|]. rewrite Hk in K. destruct K as (a & E & A). congruence.
  - congruence.
  - auto.
  - auto.
Qed.

(** ** C26.  Every slice of calc_Kcov_grad_hp is the derivative of the covariance matrix in the corresponding
    hyperparameter, for a constant nugget. *)
Theorem C26_covariance_derivatives_partial :
  forall (o : gpopt) (d : gpdata) (lo : lkopt) (condf : mat -> R) (ht hk hv hf hg cc cnd : bool) (info : hpinfo) (hp : hpv) (vK : R),
  opts_ok o -> data_set o d -> (o_well o = Wprecon -> o_use_grad o = true) -> o_eta_const o = true ->
  hyper_ok o hp -> noise_cfg o d hp -> noise_pos hp -> hp_varK hp = Some vK -> 0 < vK ->
  (ht = true -> theta_grad_supported o d hp) ->
  set_hp_optz_info o d lo ht hk hv hf hg = Ok info ->
  exists out T, calc_all_K_w_chofac o d condf (d_Rt d) hp None cc cnd None false = Ok out /\
    calc_Kcov_grad_hp o d info hp (k_Kern out) (d_Rt d) = Ok T /\
    td T = length (slots (o_dim o) ht hk hv hf hg) /\
    forall r s v, nth_error (slots (o_dim o) ht hk hv hf hg) r = Some s -> hp_get hp s = Some v ->
      is_mat_derive (fun t => Kcov_of o d condf cc cnd (hp_put hp s t)) v (d_n_data d) (d_n_data d) (tat T r).
Proof.
  intros o d lo condf ht hk hv hf hg cc cnd info hp vK H1 H2 HP HE Hh Hn Hnp HvK Hp HS HI.
  assert (RD := ready o d H1 H2). destruct (etaK_pos o d RD) as (e & He & Pe).
  assert (EN : d_n_data d = cN o d) by apply (wf_n _ _ (gr_wf _ _ RD)). rewrite EN.
  assert (NA : noise_arg_ok o d hp None).
  { split; [exact Hn|]. destruct Hnp as (A & B). split; intros v E; left; auto. }
  assert (EV : eff_varK hp None false = Some vK) by (unfold eff_varK; rewrite HvK; reflexivity).
  destruct (rok_ex _ _ (kcov_call o d condf cc cnd RD HE HP hp None false vK e Hh NA EV Hp He)) as (out & EO & KO & _).
  destruct (Kcov_grad_ok o d RD lo ht hk hv hf hg info hp e vK HI He HvK Hh HS (k_Kern out) KO) as (T & Dth & Dal & ET & D1 & D2 & T1 & T2).
  exists out, T. split; [exact EO|]. split; [exact ET|]. split; [apply T1|]. intros r s v Hr Hg.
  assert (SO := slot_listed _ _ _ _ _ _ _ _ _ _ _ HI Hr).
  assert (PV : 0 < v).
  { apply (slot_pos o hp vK s v Hh Hnp HvK Hp Hg). destruct s; try (left; discriminate). right; exact SO. }
  set (vf := fun t : R => match s with HVarK => t | _ => vK end).
  assert (C : forall t, Rabs (t - v) < v -> exists K, Kcov_of o d condf cc cnd (hp_put hp s t) = Ok K /\ mspec (cN o d) (cN o d) K (kcovE o d (hp_put hp s t) e (vf t))).
  { intros t Ht. assert (Pt := near_pos v t PV Ht).
    assert (EV' : eff_varK (hp_put hp s t) None false = Some (vf t)) by (unfold eff_varK, vf; destruct s; cbn [hp_put hp_varK]; rewrite ?HvK; reflexivity).
    assert (Pv' : 0 < vf t) by (unfold vf; destruct s; auto).
    destruct (rok_ex _ _ (kcov_call o d condf cc cnd RD HE HP (hp_put hp s t) None false (vf t) e (put_hyper o d hp s t Hh SO Pt) (put_noise o d hp s t NA SO Pt) EV' Pv' He)) as (out' & EO' & _ & KC & _).
    exists (k_Kcov out'). split; [unfold Kcov_of; rewrite EO'; reflexivity|exact KC]. }
  apply (md_intro _ v _ _ _ v (fun t => kcovE o d (hp_put hp s t) e (vf t)) PV C). intros i j Hi Hj. rewrite (T2 r s Hr i j Hi Hj).
  apply slots_nth in Hr.
  apply (kcovE_derive o d RD hp e vK s v Dth Dal Hh SO Hg); auto.
  - intros ->. cbn [hp_get] in Hg. congruence.
  - intros k i' j' -> Hk Hi' Hj'. apply D1; auto. apply Hr.
  - intros i' j' -> Hi' Hj'. apply D2; auto. apply Hr.
Qed.
Print Assumptions C26_covariance_derivatives_partial.

(** noise-free data: the derivatives of the regularised kernel matrix *)
Theorem C26_kernel_matrix_derivatives_partial :
  forall (o : gpopt) (d : gpdata) (lo : lkopt) (condf : mat -> R) (ht hk cc cnd : bool) (info : hpinfo) (hp : hpv),
  opts_ok o -> data_set o d -> (o_well o = Wprecon -> o_use_grad o = true) -> o_eta_const o = true -> d_noisy d = false ->
  hyper_ok o hp -> noise_cfg o d hp -> noise_pos hp ->
  (ht = true -> theta_grad_supported o d hp) ->
  set_hp_optz_info o d lo ht hk false false false = Ok info ->
  exists T, calc_KernGrad_hp o d info hp (d_Rt d) None = Ok T /\
    td T = length (slots (o_dim o) ht hk false false false) /\
    forall r s v, nth_error (slots (o_dim o) ht hk false false false) r = Some s -> hp_get hp s = Some v ->
      is_mat_derive (fun t => Kern_of o d condf cc cnd (hp_put hp s t)) v (d_n_data d) (d_n_data d) (tat T r).
Proof.
  intros o d lo condf ht hk cc cnd info hp H1 H2 HP HE Hnz Hh Hn Hnp HS HI.
  assert (RD := ready o d H1 H2). destruct (etaK_pos o d RD) as (e & He & Pe).
  assert (EN : d_n_data d = cN o d) by apply (wf_n _ _ (gr_wf _ _ RD)). rewrite EN.
  assert (NA : noise_arg_ok o d hp None).
  { split; [exact Hn|]. destruct Hnp as (A & B). split; intros v E; left; auto. }
  destruct (KernGrad_hp_ok o d RD lo ht hk info hp e HI He Hh HS) as (T & Dth & Dal & ET & D1 & D2 & T1 & T2).
  exists T. split; [exact ET|]. split; [apply T1|]. intros r s v Hr Hg.
  assert (SO := slot_listed _ _ _ _ _ _ _ _ _ _ _ HI Hr). assert (Hr' := Hr). apply slots_nth in Hr'.
  assert (PV : 0 < v).
  { destruct Hh as (L & P & K). destruct s; try (destruct Hr'; discriminate); cbn [hp_get] in Hg.
    - destruct (Nat.ltb_spec e0 (vlen (hp_theta hp))); [|discriminate]. injection Hg as <-. apply P. congruence.
    - cbn [slot_ok] in SO. rewrite SO in K. destruct K as (a & E & A). congruence. }
  assert (C : forall t, Rabs (t - v) < v -> exists K, Kern_of o d condf cc cnd (hp_put hp s t) = Ok K /\ mspec (cN o d) (cN o d) K (kcovE o d (hp_put hp s t) e 1)).
  { intros t Ht. assert (Pt := near_pos v t PV Ht).
    destruct (rok_ex _ _ (kcov_call o d condf cc cnd RD HE HP (hp_put hp s t) (Some 1) false 1 e (put_hyper o d hp s t Hh SO Pt) (put_noise o d hp s t NA SO Pt) eq_refl Rlt_0_1 He)) as (out' & EO' & _ & KC & _).
    exists (k_Kcov out'). split; [|exact KC]. unfold Kern_of, calc_Kern_w_chofac. rewrite Hnz. cbn [negb assert_]. rewrite bind_Ok, EO'. reflexivity. }
  apply (md_intro _ v _ _ _ v (fun t => kcovE o d (hp_put hp s t) e 1) PV C). intros i j Hi Hj. rewrite (T2 r s Hr i j Hi Hj).
  assert (Z := kcovE_derive o d RD hp e 1 s v Dth Dal Hh SO Hg).
  destruct s as [k| | | |]; try (destruct Hr'; discriminate); apply Z; auto; try discriminate.
  - intros k' i' j' E Hk Hi' Hj'. apply D1; auto. apply Hr'.
  - intros i' j' E Hi' Hj'. apply D2; auto. apply Hr'.
Qed.
Print Assumptions C26_kernel_matrix_derivatives_partial.

(** With a partial mask and the squared exponential or Matern kernel, calc_Kcov_grad_hp raises (see C06):
    the property is false there. *)
Theorem C26_partial_mask_raises_refuted :
  forall (o : gpopt) (d : gpdata) (lo : lkopt) (hk hv hf hg : bool) (info : hpinfo) (hp : hpv) (vK : R) (m : list bool) (Kern : mat),
  opts_ok o -> data_set o d -> o_use_grad o = true -> o_kernel o <> RatQu -> (2 <= d_n_eval d)%nat ->
  hyper_ok o hp -> hp_kernel hp = None -> hp_varK hp = Some vK ->
  d_bvec d = Some m -> m <> repeat true (d_n_eval d) ->
  set_hp_optz_info o d lo true hk hv hf hg = Ok info ->
  calc_Kcov_grad_hp o d info hp Kern (d_Rt d) = Err EShape.
Proof.
  intros o d lo hk hv hf hg info hp vK m Kern H1 H2 Hu Hk Hn Hh Hkn HvK Hb Hm HI.
  assert (RD := ready o d H1 H2). destruct (gr_pts _ _ RD) as [W1 W2 W3 W4 W5]. destruct Hh as (L & P & K).
  destruct (info_inv _ _ _ _ _ _ _ _ _ HI) as (_ & _ & _ & ->).
  destruct (grad_theta_partial_mask_raises (o_kernel o) (fst (get_scl_x_w_dist d)) (hp_theta hp) m Hk ltac:(congruence) ltac:(rewrite W3; apply (gr_d _ _ RD)) ltac:(congruence)) as (Rt & E1 & E2).
  { rewrite W2. rewrite Hu, Hb in W4. exact W4. }
  { rewrite W2. exact Hm. }
  rewrite W1 in E1. injection E1 as <-.
  unfold calc_Kcov_grad_hp. rewrite HvK. cbn [has assert_ hi_theta]. rewrite bind_Ok.
  unfold calc_Kcov_grad_theta. rewrite HvK. cbn [need]. rewrite bind_Ok. unfold calc_Kern_grad_theta. rewrite Hu, Hkn, Hb, E2. reflexivity.
Qed.
Print Assumptions C26_partial_mask_raises_refuted.

(** ** C21.  Layout of the vector of optimised hyperparameters *)
(** the position the index sets of the returned info give to a hyperparameter *)
Definition position (info : hpinfo) (s : hslot) : option nat :=
  match s with
  | HTheta e => match hi_theta info with Some l => nth_error l e | None => None end
  | HKernel => match hi_kernel info with Some l => nth_error l 0 | None => None end
  | HVarK => hi_varK info | HVarF => hi_var_fval info | HVarG => hi_var_fgrad info
  end.
(** the documented log10 option that applies to a hyperparameter *)
Definition log_flag (lo : lkopt) (s : hslot) : bool :=
  match s with HTheta _ => lk_log_theta lo | HKernel => lk_log_kernel lo | _ => lk_log_var lo end.
(** the coordinate of a hyperparameter with value [x] in the optimisation vector *)
Definition coord (lo : lkopt) (s : hslot) (x : R) : R := if log_flag lo s then ln x / ln 10 else x.

Lemma position_slots o d lo ht hk hv hf hg info s r : set_hp_optz_info o d lo ht hk hv hf hg = Ok info ->
  (position info s = Some r <-> nth_error (slots (o_dim o) ht hk hv hf hg) r = Some s).
Proof.
  intros HI. destruct (info_inv _ _ _ _ _ _ _ _ _ HI) as (_ & _ & _ & ->). rewrite slots_nth.
  destruct s; cbn [position hi_theta hi_kernel hi_varK hi_var_fval hi_var_fgrad].
  - destruct ht; [|split; [discriminate|intros (C & _); discriminate]]. split.
    + intros E. assert (L : (e < length (seq 0 (o_dim o)))%nat) by (apply nth_error_Some; congruence). rewrite seq_length in L.
      rewrite nth_error_nth' with (d := 0%nat) in E by (rewrite seq_length; exact L). rewrite seq_nth in E by exact L. injection E as <-. auto.
    + intros (_ & -> & L). rewrite nth_error_nth' with (d := 0%nat) by (rewrite seq_length; exact L). rewrite seq_nth by exact L. reflexivity.
  - destruct hk; cbn [nth_error]; split; try discriminate; [intros E; injection E as <-; auto|intros (_ & ->); reflexivity|intros (C & _); discriminate].
  - destruct hv; split; try discriminate; [intros E; injection E as <-; auto|intros (_ & ->); reflexivity|intros (C & _); discriminate].
  - destruct hf; split; try discriminate; [intros E; injection E as <-; auto|intros (_ & ->); reflexivity|intros (C & _); discriminate].
  - destruct hg; split; try discriminate; [intros E; injection E as <-; auto|intros (_ & ->); reflexivity|intros (C & _); discriminate].
Qed.

(** the index sets partition 0..n-1 in the documented order, and the log flags are those of the options *)
Theorem C21_index_sets_partition :
  forall (o : gpopt) (d : gpdata) (lo : lkopt) (ht hk hv hf hg : bool) (info : hpinfo),
  set_hp_optz_info o d lo ht hk hv hf hg = Ok info ->
  hi_n info = length (slots (o_dim o) ht hk hv hf hg) /\ length (hi_log info) = hi_n info /\
  (forall s r, position info s = Some r <-> nth_error (slots (o_dim o) ht hk hv hf hg) r = Some s) /\
  (forall r, (r < hi_n info)%nat -> exists s, position info s = Some r /\ (forall s', position info s' = Some r -> s' = s) /\
     nth_error (hi_log info) r = Some (log_flag lo s)) /\
  (forall s r, position info s = Some r -> (r < hi_n info)%nat) /\
  (forall s r r', position info s = Some r -> position info s = Some r' -> r = r') /\
  (ht = true <-> exists l, hi_theta info = Some l /\ length l = o_dim o) /\
  (hk = true <-> exists i, hi_kernel info = Some [i]) /\ (hv = true <-> hi_varK info <> None) /\
  (hf = true <-> hi_var_fval info <> None) /\ (hg = true <-> hi_var_fgrad info <> None).
Proof.
  intros o d lo ht hk hv hf hg info HI. assert (PS := fun s r => position_slots _ _ _ _ _ _ _ _ _ s r HI).
  destruct (info_inv _ _ _ _ _ _ _ _ _ HI) as (_ & _ & _ & EI).
  assert (HN : hi_n info = length (slots (o_dim o) ht hk hv hf hg)) by (rewrite EI, slots_len; reflexivity).
  assert (HL : length (hi_log info) = hi_n info) by (rewrite EI; apply log_list_len).
  split; [exact HN|]. split; [exact HL|]. split; [exact PS|]. split.
  { intros r Hr. rewrite HN in Hr. destruct (nth_error (slots (o_dim o) ht hk hv hf hg) r) as [s|] eqn:E; [|apply nth_error_None in E; lia].
    exists s. split; [apply PS; exact E|]. split; [intros s' Hs'; apply PS in Hs'; congruence|].
    rewrite nth_error_nth' with (d := false) by lia. f_equal. rewrite EI. cbn [hi_log].
    rewrite (log_list_nth o lo ht hk hv hf hg r s E). destruct s; reflexivity. }
  split; [intros s r Hs; apply PS in Hs; rewrite HN; apply nth_error_Some; congruence|]. split; [intros; congruence|].
  rewrite EI. cbn [hi_theta hi_kernel hi_varK hi_var_fval hi_var_fgrad].
  split; [destruct ht; split; intros Q; try discriminate; try (destruct Q as (l & Q & _); discriminate); auto; eexists; split; [reflexivity|apply seq_length]|].
  split; [destruct hk; split; intros Q; try discriminate; try (destruct Q as (l & Q); discriminate); eauto|].
  split; [destruct hv; split; intros; congruence|]. split; [destruct hf; split; intros; congruence|destruct hg; split; intros; congruence].
Qed.
Print Assumptions C21_index_sets_partition.

Lemma log_pow10 x : ln (pow10 x) / ln 10 = x.
Proof. unfold pow10. rewrite ln_exp. field. apply Rgt_not_eq. rewrite <- ln_1. apply ln_increasing; lra. Qed.
Lemma pow10_log x : 0 < x -> pow10 (ln x / ln 10) = x.
Proof. intros H. unfold pow10. replace (ln x / ln 10 * ln 10) with (ln x); [apply exp_ln, H|]. field. apply Rgt_not_eq. rewrite <- ln_1. apply ln_increasing; lra. Qed.

(** vector -> class -> vector: every listed hyperparameter of the result has the coordinate found in the
    vector at its position, the others are unset.  The flags of varK and of the noise variances agree with the
    noise configuration, as they do in the info the library builds. *)
Theorem C21_vector_round_trip :
  forall (o : gpopt) (d : gpdata) (lo : lkopt) (hk hv hf hg : bool) (info : hpinfo) (v : vec),
  set_hp_optz_info o d lo true hk hv hf hg = Ok info ->
  (hv = true -> d_noisy d = true) -> (hf = true -> d_opt_fval d = true) -> (hg = true -> d_opt_fgrad d = true) ->
  vlen v = hi_n info ->
  exists hp, hp_vec2dataclass d info v = Ok hp /\ vlen (hp_theta hp) = o_dim o /\ hp_beta hp = None /\
    (forall s r, position info s = Some r ->
       let x := if log_flag lo s then Rpower 10 (vat v r) else vat v r in hp_get hp s = Some x /\ coord lo s x = vat v r) /\
    (forall s, position info s = None -> hp_get hp s = None).
Proof.
  intros o d lo hk hv hf hg info v HI H1 H2 H3 Lv.
  destruct (C21_index_sets_partition _ _ _ _ _ _ _ _ _ HI) as (HN & HL & PS & PL & PB & _).
  assert (SL := slots_len o true hk hv hf hg).
  destruct (info_inv _ _ _ _ _ _ _ _ _ HI) as (_ & _ & _ & EI).
  unfold hp_vec2dataclass. rewrite HL, Lv, Nat.eqb_refl, bind_Ok.
  set (m := mkvec (hi_n info) (fun i => if nth i (hi_log info) false then pow10 (vat v i) else vat v i)). cbv zeta. fold m.
  assert (M : forall s r, position info s = Some r -> vat m r = (if log_flag lo s then Rpower 10 (vat v r) else vat v r) /\ coord lo s (vat m r) = vat v r).
  { intros s r Hs. assert (B := PB _ _ Hs). destruct (PL _ B) as (s' & _ & U & Lf). rewrite <- (U _ Hs) in Lf.
    cbn [m vat]. rewrite (nth_error_nth _ _ _ Lf). unfold coord. destruct (log_flag lo s); [split; [reflexivity|apply log_pow10]|split; reflexivity]. }
  assert (G : forall s r, position info s = Some r -> vget m r = Ok (vat m r)).
  { intros s r Hs. assert (B := PB _ _ Hs). unfold vget. cbn [m vlen]. destruct (Nat.ltb_spec r (hi_n info)); [reflexivity|lia]. }
  set (D := o_dim o). 
  assert (Eth : vtake m (seq 0 D) = Ok (mkvec D (fun i => match nth_error (seq 0 D) i with Some k => vat m k | None => 0 end))).
  { unfold vtake. rewrite seq_length. replace (forallb _ _) with true; [reflexivity|]. symmetry. apply forallb_forall. intros k Hk.
    apply in_seq in Hk. apply Nat.ltb_lt. cbn [m vlen]. rewrite HN, SL. cbn [b2n]. fold D. lia. }
  assert (Pth : forall e, (e < D)%nat -> position info (HTheta e) = Some e).
  { intros e He. apply PS, slots_nth. auto. }
  set (c1 := (b2n true * D)%nat). set (c2 := (c1 + b2n hk)%nat). set (c3 := (c2 + b2n hv)%nat). set (c4 := (c3 + b2n hf)%nat).
  assert (I1 : hi_theta info = Some (seq 0 D)) by (rewrite EI; reflexivity).
  assert (I2 : hi_kernel info = if hk then Some [c1] else None) by (rewrite EI; reflexivity).
  assert (I3 : hi_varK info = if hv then Some c2 else None) by (rewrite EI; reflexivity).
  assert (I4 : hi_var_fval info = if hf then Some c3 else None) by (rewrite EI; reflexivity).
  assert (I5 : hi_var_fgrad info = if hg then Some c4 else None) by (rewrite EI; reflexivity).
  rewrite I1, I2, I3, I4, I5, Eth, bind_Ok.
  assert (Ek : match (if hk then Some [c1] else None) with Some idx => w <- vtake m idx ;; x <- vget w 0 ;; Ok (Some x) | None => Ok None end = Ok (if hk then Some (vat m c1) else None)).
  { destruct hk; [|reflexivity]. unfold vtake. cbn [forallb length]. destruct (Nat.ltb_spec c1 (vlen m)) as [|C]; [reflexivity|].
    exfalso. cbn [m vlen] in C. rewrite HN, SL in C. cbn [b2n] in C. fold D in C. unfold c1 in C. cbn [b2n] in C. lia. }
  rewrite Ek, bind_Ok.
  assert (Ev : match (if hv then Some c2 else None) with Some i => _ <- assert_ (d_noisy d) ;; x <- vget m i ;; Ok (Some x) | None => Ok None end = Ok (if hv then Some (vat m c2) else None)).
  { destruct hv; [|reflexivity]. rewrite (H1 eq_refl). cbn [assert_]. rewrite bind_Ok. rewrite (G HVarK c2); [reflexivity|]. apply PS, slots_nth. auto. }
  rewrite Ev, bind_Ok.
  assert (Ef : match (if hf then Some c3 else None) with Some i => _ <- assert_ (d_opt_fval d) ;; x <- vget m i ;; Ok (Some x) | None => Ok None end = Ok (if hf then Some (vat m c3) else None)).
  { destruct hf; [|reflexivity]. rewrite (H2 eq_refl). cbn [assert_]. rewrite bind_Ok. rewrite (G HVarF c3); [reflexivity|]. apply PS, slots_nth. auto. }
  rewrite Ef, bind_Ok.
  assert (Eg : match (if hg then Some c4 else None) with Some i => _ <- assert_ (d_opt_fgrad d) ;; x <- vget m i ;; Ok (Some x) | None => Ok None end = Ok (if hg then Some (vat m c4) else None)).
  { destruct hg; [|reflexivity]. rewrite (H3 eq_refl). cbn [assert_]. rewrite bind_Ok. rewrite (G HVarG c4); [reflexivity|]. apply PS, slots_nth. auto. }
  rewrite Eg, bind_Ok. clear Ek Ev Ef Eg Eth.
  eexists. split; [reflexivity|]. split; [reflexivity|]. split; [reflexivity|]. split.
  - intros s r Hs. cbv zeta. destruct (M _ _ Hs) as (E & E'). rewrite <- E. split; [|exact E']. clear E E'. apply PS, slots_nth in Hs. destruct s; cbn [hp_get hp_theta hp_kernel hp_varK hp_var_fval hp_var_fgrad].
    + destruct Hs as (_ & -> & He). cbn [vlen]. fold D in He. destruct (Nat.ltb_spec e D); [|lia]. cbn [vat]. rewrite nth_error_nth' with (d := 0%nat) by (rewrite seq_length; exact He). rewrite seq_nth by exact He. reflexivity.
    + destruct Hs as (-> & ->). reflexivity.
    + destruct Hs as (-> & ->). reflexivity.
    + destruct Hs as (-> & ->). reflexivity.
    + destruct Hs as (-> & ->). reflexivity.
  - intros s Hs. destruct s; cbn [hp_get hp_theta hp_kernel hp_varK hp_var_fval hp_var_fgrad vlen].
    + destruct (Nat.ltb_spec e D) as [He|]; [|reflexivity]. rewrite (Pth e He) in Hs. discriminate.
    + cbn [position] in Hs. rewrite I2 in Hs. destruct hk; [discriminate|reflexivity].
    + cbn [position] in Hs. rewrite I3 in Hs. destruct hv; [discriminate|reflexivity].
    + cbn [position] in Hs. rewrite I4 in Hs. destruct hf; [discriminate|reflexivity].
    + cbn [position] in Hs. rewrite I5 in Hs. destruct hg; [discriminate|reflexivity].
Qed.
Print Assumptions C21_vector_round_trip.

(** class -> vector -> class: the vector of the coordinates of [hp] is converted back to the values of [hp]
    (hyperparameters in log10 coordinates being positive) *)
Theorem C21_class_round_trip :
  forall (o : gpopt) (d : gpdata) (lo : lkopt) (hk hv hf hg : bool) (info : hpinfo) (v : vec) (hp : hpv),
  set_hp_optz_info o d lo true hk hv hf hg = Ok info ->
  (hv = true -> d_noisy d = true) -> (hf = true -> d_opt_fval d = true) -> (hg = true -> d_opt_fgrad d = true) ->
  vlen v = hi_n info ->
  (forall s r, position info s = Some r -> exists x, hp_get hp s = Some x /\ (log_flag lo s = true -> 0 < x) /\ vat v r = coord lo s x) ->
  exists hp', hp_vec2dataclass d info v = Ok hp' /\ forall s r, position info s = Some r -> hp_get hp' s = hp_get hp s.
Proof.
  intros o d lo hk hv hf hg info v hp HI H1 H2 H3 Lv Hc.
  destruct (C21_vector_round_trip _ _ _ _ _ _ _ _ _ HI H1 H2 H3 Lv) as (hp' & E & L & _ & A & _).
  exists hp'. split; [exact E|]. intros s r Hs. destruct (Hc s r Hs) as (x & Ex & Px & Vx).
  destruct (A s r Hs) as (Ey & _). rewrite Ex, Ey, Vx. f_equal. unfold coord.
  destruct (log_flag lo s) eqn:F; [|reflexivity]. apply pow10_log. auto.
Qed.
Print Assumptions C21_class_round_trip.

(** the info built by set_data satisfies these flag conditions for every well-formed object *)
Theorem C21_library_layout :
  forall (o : gpopt) (d : gpdata) (lo : lkopt) (v : vec), opts_ok o -> data_set o d ->
  exists info, setup_hp_idx4optz o d lo = Ok info /\
    hi_n info = length (slots (o_dim o) true (lk_optz_kernel lo && kernel_has_hp (o_kernel o)) (d_noisy d) (d_opt_fval d) (d_opt_fgrad d)) /\
    (vlen v = hi_n info -> exists hp, hp_vec2dataclass d info v = Ok hp /\ vlen (hp_theta hp) = o_dim o /\
      forall s, hp_get hp s = match position info s with Some r => Some (if log_flag lo s then Rpower 10 (vat v r) else vat v r) | None => None end).
Proof.
  intros o d lo v H1 H2. destruct H2 as (x & fv & sf & g & sg & b & Q1 & Q2 & Q3 & Q4).
  assert (F : (d_opt_fval d = true -> d_known_fval d = false) /\ (d_opt_fgrad d = true -> d_known_fgrad d = false)).
  { clear - Q4. induction Q4 as [d Q4|d scale d' _ IH Q4]; [|apply rescale_data_inv in Q4; destruct Q4 as (r & r' & _ & _ & ->); exact IH].
    unfold set_data in Q4. cbv zeta in Q4. binv Q4 ng Eng. binv Q4 stf Estf. binv Q4 stg Estg. binv Q4 fz Efz. binv Q4 gz Egz. binv Q4 eta Eeta. binv Q4 dm Edm.
    binv Q4 scl Escl. binv Q4 Rt ERt. injection Q4 as <-. cbn [d_opt_fval d_opt_fgrad d_known_fval d_known_fgrad].
    split; [destruct stf; [discriminate|reflexivity]|]. destruct (o_use_grad o), stg; try discriminate; reflexivity. }
  destruct F as (F1 & F2). clear Q4.
  destruct (info_total o d lo true (lk_optz_kernel lo && kernel_has_hp (o_kernel o)) (d_noisy d) (d_opt_fval d) (d_opt_fgrad d)) as (info & EI); auto.
  { intros E. apply andb_prop in E. tauto. }
  exists info. split; [exact EI|]. split; [apply (C21_index_sets_partition _ _ _ _ _ _ _ _ _ EI)|]. intros Lv.
  destruct (C21_vector_round_trip o d lo _ _ _ _ info v EI (fun e => e) (fun e => e) (fun e => e) Lv) as (hp & E & L & _ & A & B).
  exists hp. split; [exact E|]. split; [exact L|]. intros s. destruct (position info s) as [r|] eqn:P; [apply A, P|apply B, P].
Qed.
Print Assumptions C21_library_layout.

(** ** Concrete cases meeting the hypotheses: rational quadratic kernel, preconditioned, partial mask, unknown noise,
    every hyperparameter optimised *)
Definition hx_opt : gpopt := gp_init 2 true RatQu Wprecon.
Definition hx_hp : hpv := mkhp None (mkvec 2 (fun i => 1 / 2 + INR i)) (Some 3) (Some 2) (Some 1) (Some (1 / 4)).
Lemma hx_data : exists d, data_set hx_opt d /\ d_known_fval d = false /\ d_known_fgrad d = false /\ d_noisy d = true /\ d_opt_fval d = true /\ d_opt_fgrad d = true /\ d_bvec d = Some [true; false; true].
Proof.
  assert (E : exists d, set_data hx_opt ex_x ex_f SdNone (Some ex_g) SdNone (Some [true; false; true]) = Ok d /\ d_known_fval d = false /\ d_known_fgrad d = false /\ d_noisy d = true /\ d_opt_fval d = true /\ d_opt_fgrad d = true /\ d_bvec d = Some [true; false; true]).
  { eexists. split; [reflexivity|]. repeat split. }
  destruct E as (d & E & R). exists d. split; [|exact R].
  exists ex_x, ex_f, SdNone, (Some ex_g), SdNone, (Some [true; false; true]). split; [simpl; lia|]. split; [reflexivity|]. split; [reflexivity|]. apply after_set; exact E.
Qed.
Example C21_C26_hypotheses_met : exists d info, opts_ok hx_opt /\ data_set hx_opt d /\ (o_well hx_opt = Wprecon -> o_use_grad hx_opt = true) /\ o_eta_const hx_opt = true /\
  hyper_ok hx_opt hx_hp /\ noise_cfg hx_opt d hx_hp /\ noise_pos hx_hp /\ hp_varK hx_hp = Some 2 /\ theta_grad_supported hx_opt d hx_hp /\
  setup_hp_idx4optz hx_opt d lk_default = Ok info /\ set_hp_optz_info hx_opt d lk_default true true true true true = Ok info /\ hi_n info = 6%nat.
Proof.
  destruct hx_data as (d & D & K1 & K2 & K3 & K4 & K5 & K6). exists d.
  destruct (info_total hx_opt d lk_default true true true true true) as (info & EI); auto.
  exists info. split; [split; [simpl; lia|split; simpl; lra]|]. split; [exact D|]. split; [reflexivity|]. split; [reflexivity|].
  split; [split; [reflexivity|]; split; [|exists 3; split; [reflexivity|lra]]; intros i _; simpl; assert (0 <= INR i) by apply pos_INR; lra|].
  split; [split; [rewrite K1; split; [reflexivity|eexists; reflexivity]|]; intros _; rewrite K2; eexists; reflexivity|].
  split; [split; intros v E; injection E as <-; lra|]. split; [reflexivity|]. split; [split; [intros C; exfalso; apply C; reflexivity|discriminate]|].
  split; [unfold setup_hp_idx4optz; rewrite K3, K4, K5; exact EI|]. split; [exact EI|].
  destruct (info_inv _ _ _ _ _ _ _ _ _ EI) as (_ & _ & _ & ->). reflexivity.
Qed.
