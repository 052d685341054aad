(** * Property C50, continued: the likelihood and the order of the data, and concrete cases.  Vocabulary: [Spec/OrderSpec.v], [Spec/LkdSpec.v]. *)
From Coq Require Import Reals List Arith Bool Lia Lra Psatz.
From Coquelicot Require Import Coquelicot.
From Verif.Base Require Import NpLite NpFacts Deriv.
From Verif.Spec Require Import KernelSpec LinAlgSpec GpSpec HpSpec DataSpec LkdSpec RescaleSpec EvalSpec OrderSpec.
From Verif.Model Require Import KernelSqExp KernelMatern KernelRatQuad KernelDispatch CommonFun WellCond Rescaling GpState Chol Cov HpInfo HpGrad MeanFun Lkd EvalModel.
From Verif.Proofs Require Import KernTac KernGradBlocks RadialCalculus KernelExact LinAlg CholCorrect Jets Psd CovStruct ThetaGrad HessX2 StateFacts NoiseFacts DataFacts NuggetCond NuggetMain MinMax RescaleFacts
  LinDeriv LkdCore LkdFacts LkdMain EvalKern EvalFacts EvalMain EvalInterp HpInfoFacts Reorder.
From Verif.Props Require Import CondProps DataProps LkdProps EvalProps EvalProps2 OrderProps.
Import ListNotations.
Local Open Scope R_scope.

(** ** The likelihood, the closed-form hyperparameters and the order of the data *)
Lemma gls_shift n v y A c : nonzero n v -> pdf n A -> gb n v (fun r => y r + v r * c) A = gb n v y A + c /\ gq n v (fun r => y r + v r * c) A = gq n v y A.
Proof.
  intros Hv HK. assert (P := gw_pos n v Hv A HK). assert (B : gb n v (fun r => y r + v r * c) A = gb n v y A + c).
  { unfold gb. replace (dotp n (gw n v A) (fun r => y r + v r * c)) with (dotp n (gw n v A) y + c * dotp n v (gw n v A)).
    - field. lra.
    - unfold dotp. rewrite <- rsum_scal, <- rsum_plus. apply rsum_ext; intros r Hr. ring. }
  split; [exact B|]. unfold gq, gs. rewrite B.
  assert (E : forall r, (r < n)%nat -> gres v (fun r => y r + v r * c) (gb n v y A + c) r = gres v y (gb n v y A) r) by (intros r Hr; unfold gres; ring).
  apply dotp_ext; [exact E|]. intros i Hi. apply ksol_unique; [exact HK| |exact Hi]. intros j Hj. rewrite <- E by exact Hj. apply ksol_ok; [exact HK|exact Hj].
Qed.
Lemma vvar_reidx n f f' c (v1 v2 : vec) : vlen v1 = n -> vlen v2 = n -> (0 < n)%nat -> inverse_below n f f' -> (forall p, (p < n)%nat -> vat v2 (f p) = vat v1 p + c) -> vvar v2 = vvar v1.
Proof.
  intros L1 L2 Hn (F1 & F2) H. unfold vvar, vsum. rewrite L1, L2. assert (Z : INR n <> 0) by (apply not_0_INR; lia).
  assert (M : rsum n (vat v2) = rsum n (vat v1) + INR n * c).
  { rewrite (rsum_reidx n f f' F1 F2). rewrite (rsum_ext n _ (fun p => vat v1 p + c)) by exact H. rewrite rsum_plus, rsum_const. reflexivity. }
  cbv zeta. rewrite M. f_equal. rewrite (rsum_reidx n f f' F1 F2). apply rsum_ext; intros p Hp. rewrite H by exact Hp. f_equal. field. exact Z.
Qed.
(** the matrix of a successful evaluation, with its nugget *)
Definition lkd_nugget_matrix (o : gpopt) (d : gpdata) (hp : hpv) (vK : R) : nat -> nat -> R :=
  if is_precon (o_well o) then kcor (ckf o d hp (fst (get_scl_x_w_dist d))) (noise_fn d hp None) vK else ckf o d hp (fst (get_scl_x_w_dist d)).
Definition lkd_mat (o : gpopt) (d : gpdata) (hp : hpv) (vK e : R) (i j : nat) : R :=
  let k := kn (ckf o d hp (fst (get_scl_x_w_dist d))) (noise_fn d hp None) vK in
  vK * (k i j + dl i j (if is_precon (o_well o) then e * k i i else e)).
Lemma lkd_call_eta la o d lo ht hk hv hf hg info hp cnd adj l :
  lkd_input o d hp -> set_hp_optz_info o d lo ht hk hv hf hg = Ok info ->
  calc_lkd_all la o d lo info hp cnd false adj = Ok (l, true) ->
  exists vK e, 0 < vK /\ (if d_noisy d then hp_varK hp = Some vK else vK = 1) /\ eta_is o d (cN o d) (lkd_nugget_matrix o d hp vK) e /\ pdf (cN o d) (lkd_mat o d hp vK e) /\
    exists T, if d_noisy d then noisy_post o d ht hk hv hf hg (lkd_mat o d hp vK e) false adj T l else free_post o d lo ht hk hv hf hg (lkd_mat o d hp vK e) false adj T l.
Proof.
  intros HI Hi H. assert (RD := li_ready o d hp HI). destruct (li_eta o d hp HI) as (e0 & He & _). assert (NA := li_noise o d hp HI).
  assert (HRt := li_Rt o d hp HI). destruct HI as (H1 & H2 & H3 & H4 & H5 & H6 & H7).
  set (va := if d_noisy d then None else Some 1).
  assert (VK : exists vK, 0 < vK /\ (if d_noisy d then hp_varK hp = Some vK else vK = 1)).
  { destruct (d_noisy d); [destruct (H7 eq_refl) as (v & A & B); eauto|exists 1; split; [lra|reflexivity]]. }
  destruct VK as (vK & VP & HvK).
  assert (EV : eff_varK hp va false = Some vK) by (unfold eff_varK, va; destruct (d_noisy d); rewrite HvK; reflexivity).
  assert (Q : exists out e, calc_all_K_w_chofac o d (la_cond la) (d_Rt d) hp None true cnd va false = Ok out /\ eta_is o d (cN o d) (lkd_nugget_matrix o d hp vK) e /\ mspec (cN o d) (cN o d) (k_Kcov out) (lkd_mat o d hp vK e) /\ pd (k_Kcov out)).
  { unfold lkd_nugget_matrix, lkd_mat. destruct (is_precon (o_well o)) eqn:WP.
    - assert (WE : o_well o = Wprecon) by (destruct (o_well o); try discriminate; reflexivity).
      destruct (rok_ex _ _ (call_precon o d (la_cond la) hp None true cnd va false vK RD H4 NA EV VP WE (H3 WE))) as (out & EO & e & Kc & Kp & Q1 & _ & _ & _ & _ & _ & _ & _ & Q2 & _ & _ & Q3 & _).
      exists out, e. auto.
    - assert (WE : o_well o <> Wprecon) by (intros Z; rewrite Z in WP; discriminate).
      destruct (rok_ex _ _ (call_plain o d (la_cond la) hp None true cnd va false vK RD H4 NA EV VP WE)) as (out & EO & e & Q1 & _ & _ & _ & _ & _ & Q2 & _ & Q3 & _).
      exists out, e. auto. }
  destruct Q as (out & e & EO & Q1 & KC & PD). exists vK, e. split; [exact VP|]. split; [exact HvK|]. split; [exact Q1|]. split; [apply (pd_pdf _ _ _ KC PD)|].
  assert (LO := rok_inv _ _ _ (kcov_any o d (la_cond la) cnd hp va vK RD H3 H4 NA EV VP) EO). unfold va in EO. destruct (d_noisy d) eqn:Hz.
  - destruct (noisy_lkd la o d lo ht hk hv hf hg info e0 RD HRt Hi He hp vK cnd false out _ Hz H4 HvK ltac:(discriminate) EO LO KC) as (T & _ & Q). exists T. apply Q, H.
  - destruct (free_lkd la o d lo ht hk hv hf hg info e0 RD HRt Hi He hp cnd false out _ Hz ltac:(discriminate) H4 ltac:(discriminate) EO LO KC) as (T & _ & Q). exists T. apply Q, H.
Qed.
(** the scaled function values are the first entries of the data vector *)
Lemma nfval_at o d hp p : lkd_input o d hp -> (p < d_n_eval d)%nat -> vlen (nfval d) = d_n_eval d /\ vat (nfval d) p = vat (ydata d) p.
Proof.
  intros HI Hp. assert (RD := li_ready o d hp HI). destruct (data_ok o d RD) as (fv & sf & g & sg & E0 & E1 & _ & LF).
  unfold nfval. rewrite E0. split; [exact LF|]. rewrite <- E1. unfold make_data_vec. destruct g as [G|]; [|reflexivity].
  unfold vcat; cbn [vat]. destruct (Nat.ltb_spec p (vlen fv)) as [C|C]; [reflexivity|lia].
Qed.
Theorem C50_likelihood :
  forall (la : npla) (o : gpopt) (d1 d2 : gpdata) (lo : lkopt) (ht hk hv hf hg : bool) (info1 info2 : hpinfo) (hp1 hp2 : hpv) (cnd1 cnd2 adj1 adj2 : bool) (l1 l2 : lkdinfo) (f h : nat -> nat),
  lkd_input o d1 hp1 -> lkd_input o d2 hp2 -> (forall i, (i < o_dim o)%nat -> 0 < in_scale d1 i) ->
  reordered o d1 d2 f h -> same_factors o d1 d2 -> same_but_beta hp1 hp2 ->
  set_hp_optz_info o d1 lo ht hk hv hf hg = Ok info1 -> set_hp_optz_info o d2 lo ht hk hv hf hg = Ok info2 ->
  calc_lkd_all la o d1 lo info1 hp1 cnd1 false adj1 = Ok (l1, true) -> calc_lkd_all la o d2 lo info2 hp2 cnd2 false adj2 = Ok (l2, true) ->
  l_ln l2 = l_ln l1 /\ l_lndet l2 = l_lndet l1 /\ l_varK l2 = l_varK l1 /\
  exists beta1 beta2, l_beta l1 = Some beta1 /\ l_beta l2 = Some beta2 /\ vlen beta1 = 1%nat /\ vlen beta2 = 1%nat /\
    mean_in_units d2 (vat beta2 0) = mean_in_units d1 (vat beta1 0).
Proof.
  intros la o d1 d2 lo ht hk hv hf hg info1 info2 hp1 hp2 cnd1 cnd2 adj1 adj2 l1 l2 f h L1 L2 SP HR SF SH Hi1 Hi2 H1 H2.
  destruct (lkd_call_eta _ _ _ _ _ _ _ _ _ _ _ _ _ _ L1 Hi1 H1) as (vK & e1 & VP & V1 & ET1 & PD1 & T1 & Q1).
  destruct (lkd_call_eta _ _ _ _ _ _ _ _ _ _ _ _ _ _ L2 Hi2 H2) as (vK2 & e2 & _ & V2 & ET2 & PD2 & T2 & Q2).
  assert (NZ : d_noisy d2 = d_noisy d1) by (apply HR). rewrite NZ in V2, Q2.
  assert (EV : vK2 = vK) by (destruct (d_noisy d1); [rewrite (proj1 (proj2 (proj2 SH))), V1 in V2; injection V2; auto|congruence]). subst vK2.
  set (g1 := mkhp (Some (vconst 1 0)) (hp_theta hp1) (hp_kernel hp1) (Some vK) (hp_var_fval hp1) (hp_var_fgrad hp1)).
  set (g2 := mkhp (Some (vconst 1 0)) (hp_theta hp2) (hp_kernel hp2) (Some vK) (hp_var_fval hp2) (hp_var_fgrad hp2)).
  assert (I1 : eval_input o d1 g1 vK 0).
  { destruct L1 as (A1 & A2 & A3 & A4 & A5 & A6 & _). repeat (split; [assumption|]). split; [reflexivity|]. split; [exact VP|]. split; [exists (vconst 1 0); auto|exact SP]. }
  assert (I2 : eval_input o d2 g2 vK 0).
  { destruct L2 as (A1 & A2 & A3 & A4 & A5 & A6 & _). repeat (split; [assumption|]). split; [reflexivity|]. split; [exact VP|]. split; [exists (vconst 1 0); auto|]. intros i Hi. rewrite (proj2 SF i Hi). apply SP, Hi. }
  assert (SG : same_but_beta g1 g2) by (destruct SH as (S1 & S2 & _ & S4 & S5); repeat split; assumption).
  assert (HO : observations_in o d1 d2 f h) by apply HR.
  assert (EN := ro_N o d1 d2 g1 g2 vK 0 0 f h I1 I2 HR). set (N := cN o d1) in *.
  destruct (ro_surj o d1 d2 g1 g2 vK 0 0 f h I1 I2 HR) as (tau & U1 & U2). fold N in U1, U2. set (sg := sig d1 d2 f h) in *.
  assert (KF := sig_kf o d1 d2 g1 g2 vK 0 0 f h I1 I2 HO SF SG). assert (KN := sig_noise o d1 d2 g1 g2 vK 0 0 f h I1 I2 HO SF SG). fold N sg in KF, KN.
  change (ckf o d1 g1) with (ckf o d1 hp1) in KF. change (ckf o d2 g2) with (ckf o d2 hp2) in KF. change (noise_fn d1 g1) with (noise_fn d1 hp1) in KN. change (noise_fn d2 g2) with (noise_fn d2 hp2) in KN.
  assert (DL : forall r s x, (r < N)%nat -> (s < N)%nat -> dl (sg r) (sg s) x = dl r s x).
  { intros r s x Hr Hs. unfold dl. destruct (Nat.eqb_spec (sg r) (sg s)) as [E|E], (Nat.eqb_spec r s) as [E'|E']; try reflexivity; [|subst; congruence].
    exfalso. apply E'. rewrite <- (proj2 (U1 r Hr)), E. apply U1, Hs. }
  assert (KK : forall r s, (r < N)%nat -> (s < N)%nat -> kn (ckf o d2 hp2 (fst (get_scl_x_w_dist d2))) (noise_fn d2 hp2 None) vK (sg r) (sg s) = kn (ckf o d1 hp1 (fst (get_scl_x_w_dist d1))) (noise_fn d1 hp1 None) vK r s).
  { intros r s Hr Hs. unfold kn. rewrite KF, KN, DL by assumption. reflexivity. }
  assert (NM : forall r s, (r < N)%nat -> (s < N)%nat -> lkd_nugget_matrix o d2 hp2 vK (sg r) (sg s) = lkd_nugget_matrix o d1 hp1 vK r s).
  { intros r s Hr Hs. unfold lkd_nugget_matrix. destruct (is_precon (o_well o)); [|apply KF; assumption]. unfold kcor. rewrite !KK by assumption. reflexivity. }
  assert (EE : e2 = e1).
  { rewrite EN in ET2. unfold eta_is in ET1, ET2. destruct (o_eta_const o).
    - destruct (etaK_of o d1 ltac:(apply I1)) as (k1 & q1 & A1 & B1). destruct (etaK_of o d2 ltac:(apply I2)) as (k2 & q2 & A2 & B2). destruct HR as (_ & EL & _). rewrite EL, A1 in A2. injection A2 as <- <-. congruence.
    - assert (RS : forall r, (r < N)%nat -> rsum N (fun j => Rabs (lkd_nugget_matrix o d2 hp2 vK (sg r) j)) = rsum N (fun j => Rabs (lkd_nugget_matrix o d1 hp1 vK r j))).
      { intros r Hr. rewrite (rsum_reidx N sg tau U1 U2). apply rsum_ext; intros j Hj. rewrite NM by assumption. reflexivity. }
      destruct ET1 as (i & Hi & -> & M1), ET2 as (j & Hj & -> & M2). f_equal. apply Rle_antisym.
      + destruct (U2 j Hj) as (A & B). rewrite <- B, RS by exact A. apply M1, A.
      + rewrite <- (RS i Hi). apply M2. apply U1, Hi. }
  subst e2. rewrite EN in PD2.
  assert (KM : forall r s, (r < N)%nat -> (s < N)%nat -> lkd_mat o d2 hp2 vK e1 (sg r) (sg s) = lkd_mat o d1 hp1 vK e1 r s).
  { intros r s Hr Hs. unfold lkd_mat. cbv zeta. rewrite DL, !KK by assumption. reflexivity. }
  assert (LD := lndet_reidx N sg tau _ _ U1 U2 KM PD2).
  set (c := (out_shift d1 - out_shift d2) * out_scale d1).
  assert (HY := sig_y o d1 d2 g1 g2 vK 0 0 f h I1 I2 HO SF). fold N sg c in HY.
  assert (HB := sig_basis o d1 d2 g1 g2 vK 0 0 f h I1 I2 HO). fold N sg in HB.
  destruct (gls_reidx N sg tau U1 U2 _ _ KM PD2 (basis d1) (basis d2) (fun r => vat (ydata d1) r + basis d1 r * c) (vat (ydata d2)) HB HY) as (G1 & G2).
  assert (NV := basis_nz o d1 (li_ready o d1 hp1 L1)). destruct (gls_shift N (basis d1) (vat (ydata d1)) _ c NV PD1) as (G3 & G4). rewrite G3 in G1. rewrite G4 in G2.
  assert (VF : vvar (nfval d2) = vvar (nfval d1)).
  { destruct HR as (_ & EL & (f' & HF) & _). assert (NE : (0 < d_n_eval d1)%nat) by (apply (gr_n _ _ (li_ready o d1 hp1 L1))).
    apply (vvar_reidx (d_n_eval d1) f f' c); auto.
    - apply (nfval_at o d1 hp1 0 L1 NE).
    - rewrite <- EL. apply (nfval_at o d2 hp2 0 L2). lia.
    - intros p Hp. destruct HF as (HF & _). destruct (HF p Hp) as (FP & _). rewrite (proj2 (nfval_at o d1 hp1 p L1 Hp)). rewrite (proj2 (nfval_at o d2 hp2 (f p) L2 ltac:(lia))).
      assert (PN : (p < N)%nat) by (unfold N, cN; lia). specialize (HY p PN). unfold sg, sig, unradr in HY. destruct (Nat.ltb_spec p (d_n_eval d1)) as [C|C]; [|lia]. rewrite HY. unfold basis.
      destruct (Nat.ltb_spec p (d_n_eval d1)) as [C'|C']; [ring|lia]. }
  assert (OP : 0 < out_scale d1) by (apply (out_scale_pos o); apply I1).
  assert (MU : forall x, mean_in_units d2 (x + c) = mean_in_units d1 x) by (intros x; unfold mean_in_units, c; rewrite (proj1 SF); field; lra).
  unfold noisy_post, free_post in Q1, Q2. rewrite EN in Q2. fold N in Q1. destruct (d_noisy d1).
  - destruct Q1 as (-> & -> & -> & _ & (be1 & -> & B1 & B2) & _). destruct Q2 as (-> & -> & -> & _ & (be2 & -> & B3 & B4) & _). rewrite LD, G2.
    repeat (split; [reflexivity|]). exists be1, be2. repeat (split; [reflexivity || assumption|]). rewrite B2, B4 by lia. rewrite G1. apply MU.
  - destruct Q1 as (-> & -> & -> & (be1 & -> & B1 & B2) & _). destruct Q2 as (-> & -> & -> & (be2 & -> & B3 & B4) & _). unfold nlkd, nvarK. rewrite EN. fold N. rewrite LD, G2.
    unfold calc_lkd_varK_pnlt. rewrite VF.
    repeat (split; [reflexivity|]). exists be1, be2. repeat (split; [reflexivity || assumption|]). rewrite B2, B4 by lia. rewrite G1. apply MU.
Qed.
Print Assumptions C50_likelihood.

(** ** Concrete cases *)
Definition ro_x : mat := mkmat 3 2 (fun p j => mat_at ex_x (nth p [1; 2; 0]%nat 0%nat) j).
Definition ro_f : vec := mkvec 3 (fun p => vat ex_f (nth p [1; 2; 0]%nat 0%nat)).
Definition ro_g : mat := mkmat 2 2 (fun q j => mat_at ex_g (nth q [1; 0]%nat 0%nat) j).
Definition ro_fm (p : nat) : nat := nth p [2; 0; 1]%nat 0%nat.
Definition ro_hm (q : nat) : nat := nth q [1; 0]%nat 0%nat.
Lemma ro_data k w : w = Wbase \/ w = Wprecon -> exists d1 d2, 
  set_data (gp_init 2 true k w) ex_x ex_f SdNone (Some ex_g) SdNone (Some [true; false; true]) = Ok d1 /\
  set_data (gp_init 2 true k w) ro_x ro_f SdNone (Some ro_g) SdNone (Some [false; true; true]) = Ok d2 /\
  eval_input (gp_init 2 true k w) d1 ev_hp 2 (1 / 3) /\ eval_input (gp_init 2 true k w) d2 ev_hp 2 (1 / 3) /\
  reordered (gp_init 2 true k w) d1 d2 ro_fm ro_hm /\ same_factors (gp_init 2 true k w) d1 d2 /\ d_scl d1 = None /\ d_scl d2 = None /\ d_known_fval d1 = false /\ d_known_fgrad d1 = false /\ d_known_fval d2 = false /\ d_known_fgrad d2 = false.
Proof.
  intros Hw.
  assert (E1 : exists d, set_data (gp_init 2 true k w) ex_x ex_f SdNone (Some ex_g) SdNone (Some [true; false; true]) = Ok d /\ d_known_fval d = false /\ d_known_fgrad d = false /\ d_scl d = None /\
     d_bvec d = Some [true; false; true] /\ d_n_eval d = 3%nat /\ d_noisy d = true /\ d_x d = ex_x /\ d_fval d = ex_f /\ d_grad d = Some ex_g /\ d_std_fval d = None /\ d_std_grad d = None).
  { destruct Hw as [-> | ->]; eexists; (split; [reflexivity|]); repeat split. }
  assert (E2 : exists d, set_data (gp_init 2 true k w) ro_x ro_f SdNone (Some ro_g) SdNone (Some [false; true; true]) = Ok d /\ d_known_fval d = false /\ d_known_fgrad d = false /\ d_scl d = None /\
     d_bvec d = Some [false; true; true] /\ d_n_eval d = 3%nat /\ d_noisy d = true /\ d_x d = ro_x /\ d_fval d = ro_f /\ d_grad d = Some ro_g /\ d_std_fval d = None /\ d_std_grad d = None).
  { destruct Hw as [-> | ->]; eexists; (split; [reflexivity|]); repeat split. }
  destruct E1 as (d1 & E1 & K1 & K2 & K3 & K4 & K5 & K6 & K7 & K8 & K9 & K10 & K11). destruct E2 as (d2 & E2 & L1 & L2 & L3 & L4 & L5 & L6 & L7 & L8 & L9 & L10 & L11). exists d1, d2.
  assert (EI : forall d x fv g m, set_data (gp_init 2 true k w) x fv SdNone (Some g) SdNone m = Ok d -> vlen fv = 3%nat -> nr x = 3%nat -> nc x = 2%nat -> d_known_fval d = false -> d_known_fgrad d = false -> d_scl d = None -> eval_input (gp_init 2 true k w) d ev_hp 2 (1 / 3)).
  { intros d x fv g m E M1 M2 M3 M4 M5 M6. split; [destruct Hw as [-> | ->]; (split; [simpl; lia|split; simpl; lra])|].
    split. { exists x, fv, SdNone, (Some g), SdNone, m. rewrite M1, M2, M3. split; [lia|]. split; [reflexivity|]. split; [destruct Hw as [-> | ->]; reflexivity|]. apply after_set; exact E. }
    split; [destruct Hw as [-> | ->]; reflexivity|]. split.
    { split; [destruct Hw as [-> | ->]; reflexivity|]. split; [intros i _; simpl; assert (0 <= INR i) by apply pos_INR; lra|]. destruct Hw as [-> | ->]; (destruct k; simpl; try exact I; exists 3; split; [reflexivity|lra]). }
    split. { split; [rewrite M4; split; [destruct Hw as [-> | ->]; reflexivity|eexists; reflexivity]|]. intros _. rewrite M5. eexists; reflexivity. }
    split; [split; intros v Ev; injection Ev as <-; lra|]. split; [reflexivity|]. split; [lra|]. split; [exists (vconst 1 (1 / 3)); repeat split|].
    intros i _. unfold in_scale. rewrite M6. lra. }
  split; [exact E1|]. split; [exact E2|]. split; [eapply EI; eauto|]. split; [eapply EI; eauto|].
  split; [|split; [|auto 12]].
  - assert (U1 : n_used (d_n_eval d1) (d_bvec d1) = 2%nat) by (rewrite K4, K5; reflexivity). assert (U2 : n_used (d_n_eval d2) (d_bvec d2) = 2%nat) by (rewrite L4, L5; reflexivity).
    split; [|split; [congruence|split; [|intros _; split; [congruence|]]]].
    + constructor.
      * rewrite K5, L5, K7, K8, L7, L8. intros [|[|[|p]]] Hp; [| | |lia]; (split; [unfold ro_fm; cbn; lia|]); split; reflexivity.
      * rewrite K5. intros [|[|[|p]]] [|[|[|q]]] Hp Hq; unfold ro_fm; cbn; lia.
      * rewrite K10, L10. exact I.
      * intros _. rewrite U1, U2, K4, K5, L4, L5. intros [|[|q]] Hq; [| |lia]; (split; [unfold ro_hm; cbn; lia|reflexivity]).
      * intros _. rewrite U1. intros [|[|p]] [|[|q]] Hp Hq; unfold ro_hm; cbn; lia.
      * intros _. rewrite K9, L9, U1. cbn [OrderSpec.both]. intros [|[|q]] i Hq Hi; [| |lia]; reflexivity.
      * intros _. rewrite K11, L11. exact I.
      * congruence.
    + rewrite K5. exists (fun p => nth p [1; 2; 0]%nat 0%nat). split; intros [|[|[|p]]] Hp; unfold ro_fm; cbn; lia.
    + rewrite U1. exists ro_hm. split; intros [|[|q]] Hq; unfold ro_hm; cbn; lia.
  - unfold same_factors, out_scale, in_scale. rewrite K3, L3. auto.
Qed.
Example C50_hypotheses_met : exists d1 d2 su1 su2, eval_input ex_opt d1 ev_hp 2 (1 / 3) /\ eval_input ex_opt d2 ev_hp 2 (1 / 3) /\ 
  reordered ex_opt d1 d2 ro_fm ro_hm /\ same_factors ex_opt d1 d2 /\ same_but_beta ev_hp ev_hp /\ mean_in_units d2 (1 / 3) = mean_in_units d1 (1 / 3) /\
  set_up ex_opt d1 (fun _ => 1) ev_hp true su1 /\ set_up ex_opt d2 (fun _ => 1) ev_hp true su2 /\ ro_fm 0 <> 0%nat /\ ro_hm 0 <> 0%nat.
Proof.
  destruct (ro_data Ma5f2 Wprecon (or_intror eq_refl)) as (d1 & d2 & E1 & E2 & I1 & I2 & HR & SF & S1 & S2 & F1 & F2 & F3 & F4).
  destruct (C30_setup_succeeds ex_opt d1 (fun _ => 1) ev_hp 2 (1 / 3) true I1) as (su1 & _ & HS1). destruct (C30_setup_succeeds ex_opt d2 (fun _ => 1) ev_hp 2 (1 / 3) true I2) as (su2 & _ & HS2).
  exists d1, d2, su1, su2. split; [exact I1|]. split; [exact I2|]. split; [exact HR|]. split; [exact SF|]. split; [repeat split|].
  split; [unfold mean_in_units, out_scale, out_shift; rewrite S1, S2; reflexivity|]. split; [apply HS1; left; reflexivity|]. split; [apply HS2; left; reflexivity|]. split; vm_compute; discriminate.
Qed.
Example C50_likelihood_hypotheses_met : exists d1 d2 info1 info2, lkd_input ex_opt d1 ev_hp /\ lkd_input ex_opt d2 ev_hp /\ (forall i, (i < o_dim ex_opt)%nat -> 0 < in_scale d1 i) /\
  reordered ex_opt d1 d2 ro_fm ro_hm /\ same_factors ex_opt d1 d2 /\ same_but_beta ev_hp ev_hp /\
  set_hp_optz_info ex_opt d1 lk_default true false true true true = Ok info1 /\ set_hp_optz_info ex_opt d2 lk_default true false true true true = Ok info2 /\
  forall la, exists l1 l2, calc_lkd_all la ex_opt d1 lk_default info1 ev_hp false false false = Ok (l1, true) /\ calc_lkd_all la ex_opt d2 lk_default info2 ev_hp false false false = Ok (l2, true).
Proof.
  destruct (ro_data Ma5f2 Wprecon (or_intror eq_refl)) as (d1 & d2 & E1 & E2 & I1 & I2 & HR & SF & S1 & S2 & F1 & F2 & F3 & F4).
  assert (LI : forall d, eval_input ex_opt d ev_hp 2 (1 / 3) -> lkd_input ex_opt d ev_hp).
  { intros d (A1 & A2 & A3 & A4 & A5 & A6 & _). repeat (split; [assumption|]). intros _. exists 2. split; [reflexivity|lra]. }
  destruct (info_total ex_opt d1 lk_default true false true true true) as (i1 & J1); auto; try discriminate.
  destruct (info_total ex_opt d2 lk_default true false true true true) as (i2 & J2); auto; try discriminate.
  exists d1, d2, i1, i2. split; [apply LI, I1|]. split; [apply LI, I2|]. split; [apply I1|]. split; [exact HR|]. split; [exact SF|]. split; [repeat split|]. split; [exact J1|]. split; [exact J2|].
  intros la. destruct (C23_evaluation_succeeds la ex_opt d1 lk_default _ _ _ _ _ i1 ev_hp false (LI _ I1) J1) as (l1 & P1). destruct (C23_evaluation_succeeds la ex_opt d2 lk_default _ _ _ _ _ i2 ev_hp false (LI _ I2) J2) as (l2 & P2).
  exists l1, l2. auto.
Qed.

(** C51: gradients in addition *)
Definition mg_g : mat := mkmat 1 2 (mat_at ex_g).
Example C51_hypotheses_met : exists d1 d2 su1 su2, o_eta_const ex_opt = true /\ d_n_eval d2 = d_n_eval d1 /\ eval_input ex_opt d1 ev_hp 2 (1 / 3) /\ eval_input ex_opt d2 ev_hp 2 (1 / 3) /\
  mask_supported ex_opt d1 /\ mask_supported ex_opt d2 /\ observations_in ex_opt d1 d2 (fun p => p) (fun q => q) /\ same_factors ex_opt d1 d2 /\ same_but_beta ev_hp ev_hp /\
  set_up ex_opt d1 (fun _ => 1) ev_hp true su1 /\ set_up ex_opt d2 (fun _ => 1) ev_hp true su2 /\ n_used (d_n_eval d1) (d_bvec d1) = 1%nat /\ n_used (d_n_eval d2) (d_bvec d2) = 2%nat.
Proof.
  assert (E1 : exists d, set_data ex_opt ex_x ex_f SdNone (Some mg_g) SdNone (Some [true; false; false]) = Ok d /\ d_known_fval d = false /\ d_known_fgrad d = false /\ d_scl d = None /\
     d_bvec d = Some [true; false; false] /\ d_n_eval d = 3%nat /\ d_noisy d = true /\ d_x d = ex_x /\ d_fval d = ex_f /\ d_grad d = Some mg_g /\ d_std_fval d = None /\ d_std_grad d = None).
  { eexists; (split; [reflexivity|]); repeat split. }
  assert (E2 : exists d, set_data ex_opt ex_x ex_f SdNone (Some ex_g) SdNone (Some [true; false; true]) = Ok d /\ d_known_fval d = false /\ d_known_fgrad d = false /\ d_scl d = None /\
     d_bvec d = Some [true; false; true] /\ d_n_eval d = 3%nat /\ d_noisy d = true /\ d_x d = ex_x /\ d_fval d = ex_f /\ d_grad d = Some ex_g /\ d_std_fval d = None /\ d_std_grad d = None).
  { eexists; (split; [reflexivity|]); repeat split. }
  destruct E1 as (d1 & E1 & K1 & K2 & K3 & K4 & K5 & K6 & K7 & K8 & K9 & K10 & K11). destruct E2 as (d2 & E2 & L1 & L2 & L3 & L4 & L5 & L6 & L7 & L8 & L9 & L10 & L11).
  assert (EI : forall d x fv g m, set_data ex_opt x fv SdNone (Some g) SdNone m = Ok d -> vlen fv = 3%nat -> nr x = 3%nat -> nc x = 2%nat -> d_known_fval d = false -> d_known_fgrad d = false -> d_scl d = None -> eval_input ex_opt d ev_hp 2 (1 / 3)).
  { intros d x fv g m E M1 M2 M3 M4 M5 M6. split; [split; [simpl; lia|split; simpl; lra]|].
    split. { exists x, fv, SdNone, (Some g), SdNone, m. rewrite M1, M2, M3. split; [lia|]. split; [reflexivity|]. split; [reflexivity|]. apply after_set; exact E. }
    split; [reflexivity|]. split.
    { split; [reflexivity|]. split; [intros i _; simpl; assert (0 <= INR i) by apply pos_INR; lra|exact I]. }
    split. { split; [rewrite M4; split; [reflexivity|eexists; reflexivity]|]. intros _. rewrite M5. eexists; reflexivity. }
    split; [split; intros v Ev; injection Ev as <-; lra|]. split; [reflexivity|]. split; [lra|]. split; [exists (vconst 1 (1 / 3)); repeat split|].
    intros i _. unfold in_scale. rewrite M6. lra. }
  assert (I1 : eval_input ex_opt d1 ev_hp 2 (1 / 3)) by (eapply EI; eauto). assert (I2 : eval_input ex_opt d2 ev_hp 2 (1 / 3)) by (eapply EI; eauto).
  destruct (C30_setup_succeeds ex_opt d1 (fun _ => 1) ev_hp 2 (1 / 3) true I1) as (su1 & _ & HS1). destruct (C30_setup_succeeds ex_opt d2 (fun _ => 1) ev_hp 2 (1 / 3) true I2) as (su2 & _ & HS2).
  exists d1, d2, su1, su2. split; [reflexivity|]. split; [congruence|]. split; [exact I1|]. split; [exact I2|]. split; [intros _ C; discriminate|]. split; [intros _ C; discriminate|].
  assert (U1 : n_used (d_n_eval d1) (d_bvec d1) = 1%nat) by (rewrite K4, K5; reflexivity). assert (U2 : n_used (d_n_eval d2) (d_bvec d2) = 2%nat) by (rewrite L4, L5; reflexivity).
  split; [|split; [|split; [repeat split|split; [apply HS1; left; reflexivity|split; [apply HS2; left; reflexivity|auto]]]]].
  - constructor.
    + rewrite K5, L5, K7, K8, L7, L8. auto.
    + intros p q _ _ E; exact E.
    + rewrite K10, L10. exact I.
    + intros _. rewrite U1, U2, K4, K5, L4, L5. intros [|q] Hq; [split; [lia|reflexivity]|lia].
    + intros _ p q _ _ E; exact E.
    + intros _. rewrite K9, L9, U1. cbn [OrderSpec.both]. intros q i Hq Hi. reflexivity.
    + intros _. rewrite K11, L11. exact I.
    + congruence.
  - unfold same_factors, out_scale, in_scale. rewrite K3, L3. auto.
Qed.

(** The nugget of the default method grows with the number of points: one more point may increase the predicted
    standard deviation. *)
Definition ap_opt : gpopt := gp_init 1 false SqExp Wbase.
Definition ap_hp (t : R) : hpv := mkhp (Some (vconst 1 0)) (vconst 1 t) None (Some 1) None None.
Definition ap_x (n : nat) : mat := mkmat n 1 (fun p _ => INR p).
Lemma ap_data n t : (0 < n)%nat -> 0 < t -> exists d, set_data ap_opt (ap_x n) (vconst n 0) (SdOk (vconst n 0)) None SdNone None = Ok d /\ eval_input ap_opt d (ap_hp t) 1 0 /\
  d_scl d = None /\ d_n_eval d = n /\ d_n_grad d = 0%nat /\ d_bvec d = None /\ d_noisy d = false /\ d_x d = ap_x n /\ d_fval d = vconst n 0 /\ d_std_fval d = Some (vconst n 0) /\ d_etaK d = Some (INR n / (10 ^ 10 - 1)) /\ d_fval_zero d && d_fgrad_zero d = true.
Proof.
  intros Hn Ht.
  assert (P : 0 < / 10 ^ 10) by (apply Rinv_0_lt_compat, pow_lt; lra).
  destruct (C36_accepts_consistent_data ap_opt (ap_x n) (vconst n 0) (SdOk (vconst n 0)) None SdNone None) as (d & E).
  - split; [simpl; lia|split; simpl; lra].
  - intros C; discriminate.
  - exact Hn.
  - split; reflexivity.
  - split; [intros s Es; injection Es as <-; reflexivity|]. split; reflexivity.
  - intros s Es; discriminate.
  - discriminate.
  - destruct (C36_rejects_inconsistent_data _ _ _ _ _ _ _ _ E) as (_ & _ & _ & _ & Eb & ES & _). destruct (C36_noise_flags _ _ _ _ _ _ _ _ E) as (F1 & _ & _ & _ & F5).
    assert (J := set_data_inv _ _ _ _ _ _ _ _ E). destruct J as (J1 & J2 & J3 & J4 & _ & (ek & eg & J5 & _ & _ & J6) & J7 & _ & _ & (Xs & _ & _ & _ & _ & J8) & _ & J9 & _).
    assert (K1 : d_known_fval d = true) by (apply F1; discriminate).
    assert (NZ : d_noisy d = false) by (apply F5; split; [exists (vconst n 0); split; [reflexivity|]; intros i Hi; simpl; exact P|discriminate]). destruct (J8 eq_refl) as (_ & NS).
    exists d. split; [exact E|]. split.
    + split; [split; [simpl; lia|split; simpl; lra]|]. split; [do 6 eexists; split; [|split; [|split; [|apply after_set; exact E]]]; simpl; auto|].
      split; [discriminate|]. split; [split; [reflexivity|split; [intros i _; exact Ht|exact I]]|].
      split; [split; [rewrite K1; reflexivity|discriminate]|]. split; [split; intros v Ev; discriminate|]. split; [reflexivity|]. split; [lra|]. split; [exists (vconst 1 0); repeat split|].
      intros i _. unfold in_scale. rewrite NS. lra.
    + split; [exact NS|]. split; [exact J1|]. split; [exact J7|]. split; [exact J3|]. split; [exact NZ|].
      split; [exact J2|]. split; [exact J4|]. split; [exact ES|]. split; [rewrite J6; simpl in J5; injection J5 as <- <-; reflexivity|]. rewrite NZ in J9. destruct (d_fval_zero d && d_fgrad_zero d); [reflexivity|discriminate].
Qed.
(** the predicted standard deviation at the first point *)
Definition ap_p : mat := mkmat 1 1 (fun _ _ => 0).
Lemma ap_kf n t d r s : 0 < t -> d_scl d = None -> d_n_eval d = n -> d_n_grad d = 0%nat -> d_x d = ap_x n -> d_fval_zero d && d_fgrad_zero d = true -> (r < n)%nat -> (s < n)%nat ->
  ckf ap_opt d (ap_hp t) (fst (get_scl_x_w_dist d)) r s = exp (- (t * (INR r - INR s) ^ 2)) /\ kxf ap_opt d (ap_hp t) (fun _ => 0) r = exp (- (t * (INR r - 0) ^ 2)) /\ noise_fn d (ap_hp t) None r = 0.
Proof.
  intros Ht A1 A2 A3 A4 A5 Hr Hs. unfold kxf, ckf, cobs, rowobs, noise_fn, unradr, noise_row, get_scl_x_w_dist. rewrite A1, A2, A4, A5. cbn [fst].
  destruct (Nat.ltb_spec r n) as [_|C]; [|lia]. destruct (Nat.ltb_spec s n) as [_|C]; [|lia]. 
  split; [|split; [|reflexivity]]; cbn; unfold se0; f_equal; ring.
Qed.
Lemma ap_sig n t d su : (0 < n)%nat -> 0 < t -> eval_input ap_opt d (ap_hp t) 1 0 -> set_up ap_opt d (fun _ => 1) (ap_hp t) false su ->
  d_scl d = None -> d_n_eval d = n -> d_n_grad d = 0%nat -> d_x d = ap_x n -> d_fval_zero d && d_fgrad_zero d = true -> d_etaK d = Some (INR n / (10 ^ 10 - 1)) ->
  exists ev, eval_model ap_opt d (ap_hp t) su ap_p false false = Ok ev /\ vlen (e_sig ev) = 1%nat /\
    let A := fun i j => exp (- (t * (INR i - INR j) ^ 2)) + (if (i =? j)%nat then INR n / (10 ^ 10 - 1) else 0) in
    let k := fun i => exp (- (t * (INR i - 0) ^ 2)) in
    forall z, (forall i, (i < n)%nat -> rsum n (fun j => A i j * z j) = k i) -> vat (e_sig ev) 0 = sqrt (1 - rsum n (fun i => k i * z i)).
Proof.
  intros Hn Ht HI SU A1 A2 A3 A4 A5 A6.
  destruct (ei_main ap_opt d (ap_hp t) 1 0 HI _ false su SU) as (e & c & inv & Q1 & Q2 & Q3 & Q4 & Q5 & Q6 & Q7 & Q8 & Q9).
  destruct (ei_eval ap_opt d (ap_hp t) 1 0 HI (fun _ => 1) false su e c inv ap_p false false SU ltac:(intros C; discriminate) Q1 Q3 Q4 Q5 Q6 Q7 Q8 Q9 eq_refl ltac:(simpl; lia) ltac:(discriminate)) as (ev & E & _ & (V1 & W1) & _).
  exists ev. split; [exact E|]. split; [exact V1|]. cbv zeta. intros z Hz. rewrite W1 by (simpl; lia).
  assert (EE : e = INR n / (10 ^ 10 - 1)). { assert (Z := setup_eta _ _ _ _ _ _ _ _ HI (proj1 SU)). unfold eta_is in Z. cbn [o_eta_const ap_opt gp_init] in Z. cbn in Z. rewrite A6, Q2 in Z. injection Z as <-. reflexivity. }
  assert (NN : cN ap_opt d = n) by (unfold cN; rewrite A2, A3; lia).
  unfold Si, Psig, Pv, pv, out_scale. rewrite A1, sqrt_1. rewrite NN in *. unfold Rdiv. rewrite Rinv_1, !Rmult_1_r. f_equal. f_equal.
  assert (KX : forall r, (r < n)%nat -> kxf ap_opt d (ap_hp t) (to_scl d (rows_of ap_p 0)) r = exp (- (t * (INR r - 0) ^ 2))).
  { intros r Hr. rewrite <- (proj1 (proj2 (ap_kf n t d r r Ht A1 A2 A3 A4 A5 Hr Hr))). unfold kxf. f_equal. f_equal. apply FunctionalExtensionality.functional_extensionality; intros i. unfold to_scl, in_shift, in_scale, rows_of. rewrite A1. cbn. ring. }
  apply dotp_ext; [exact KX|]. intros i Hi. unfold pz. symmetry. apply ksol_unique; [exact Q3| |exact Hi]. intros r Hr. unfold mv. rewrite KX by exact Hr. rewrite <- Hz by exact Hr. apply rsum_ext; intros s Hs.
  f_equal. unfold smat, sdiag. destruct (ap_kf n t d r s Ht A1 A2 A3 A4 A5 Hr Hs) as (-> & _ & ->). cbn [o_well ap_opt gp_init set_wellcond_mtd is_precon]. rewrite EE. destruct (r =? s)%nat; cbn; lra.
Qed.
Theorem C51_additional_point_refuted :
  exists (o : gpopt) (d1 d2 : gpdata) (hp : hpv) (vK b : R) (su1 su2 : surr) (f h : nat -> nat) (x2 : mat) (ev1 ev2 : evo),
  eval_input o d1 hp vK b /\ eval_input o d2 hp vK b /\ mask_supported o d1 /\ mask_supported o d2 /\
  observations_in o d1 d2 f h /\ same_factors o d1 d2 /\ same_but_beta hp hp /\
  set_up o d1 (fun _ => 1) hp false su1 /\ set_up o d2 (fun _ => 1) hp false su2 /\ nc x2 = o_dim o /\ (0 < nr x2)%nat /\
  eval_model o d1 hp su1 x2 false false = Ok ev1 /\ eval_model o d2 hp su2 x2 false false = Ok ev2 /\
  vat (e_sig ev1) 0 < vat (e_sig ev2) 0.
Proof.
  destruct (ap_data 1 1 ltac:(lia) Rlt_0_1) as (d1 & E1 & I1 & A1 & A2 & A3 & A4 & A5 & A6 & A7 & A8 & A9 & A10).
  destruct (ap_data 2 1 ltac:(lia) Rlt_0_1) as (d2 & E2 & I2 & B1 & B2 & B3 & B4 & B5 & B6 & B7 & B8 & B9 & B10).
  destruct (C30_setup_succeeds ap_opt d1 (fun _ => 1) (ap_hp 1) 1 0 false I1) as (su1 & _ & HS1). destruct (C30_setup_succeeds ap_opt d2 (fun _ => 1) (ap_hp 1) 1 0 false I2) as (su2 & _ & HS2).
  specialize (HS1 (or_intror (or_introl eq_refl))). specialize (HS2 (or_intror (or_introl eq_refl))).
  destruct (ap_sig 1 1 d1 su1 ltac:(lia) Rlt_0_1 I1 HS1 A1 A2 A3 A6 A10 A9) as (ev1 & V1 & _ & W1). destruct (ap_sig 2 1 d2 su2 ltac:(lia) Rlt_0_1 I2 HS2 B1 B2 B3 B6 B10 B9) as (ev2 & V2 & _ & W2).
  exists ap_opt, d1, d2, (ap_hp 1), 1, 0, su1, su2, (fun p => p), (fun q => q), ap_p, ev1, ev2.
  split; [exact I1|]. split; [exact I2|]. split; [intros C; discriminate|]. split; [intros C; discriminate|]. split.
  { constructor; try discriminate.
    - rewrite A2, B2, A6, A7, B6, B7. intros p Hp. split; [lia|]. split; reflexivity.
    - intros p q _ _ E; exact E.
    - rewrite A8, B8. cbn [OrderSpec.both]. reflexivity.
    - congruence. }
  split; [unfold same_factors, out_scale, in_scale; rewrite A1, B1; auto|]. split; [repeat split|]. split; [exact HS1|]. split; [exact HS2|]. split; [reflexivity|]. split; [simpl; lia|]. split; [exact V1|]. split; [exact V2|].
  set (T := 10 ^ 10 - 1) in *. assert (TP : 0 < T) by (unfold T; lra). clearbody T. set (w := / T) in *. assert (WP : 0 < w) by (apply Rinv_0_lt_compat, TP).
  cbv zeta in W1, W2. set (q := exp (- (1 * (1 - 0) ^ 2))) in *. assert (QP : 0 < q) by apply exp_pos.
  assert (Q1 : q < exp 0) by (unfold q; apply exp_increasing; lra). rewrite exp_0 in Q1.
  assert (X0 : exp (- (1 * (0 - 0) ^ 2)) = 1) by (replace (- (1 * (0 - 0) ^ 2)) with 0 by ring; apply exp_0).
  assert (X1 : exp (- (1 * (0 - 1) ^ 2)) = q) by (unfold q; f_equal; ring). assert (X2 : exp (- (1 * (1 - 1) ^ 2)) = 1) by (replace (- (1 * (1 - 1) ^ 2)) with 0 by ring; apply exp_0).
  assert (D1 : 1 + w <> 0) by lra. set (a := 1 + 2 * w). assert (D2 : 0 < a ^ 2 - q ^ 2) by (unfold a; nra).
  rewrite (W1 (fun _ => 1 / (1 + w))), (W2 (fun i => match i with 0%nat => (a - q ^ 2) / (a ^ 2 - q ^ 2) | _ => 2 * w * q / (a ^ 2 - q ^ 2) end)).
  - cbn [rsum INR]. rewrite X0. fold q. apply sqrt_lt_1_alt. split.
    + replace (1 - (0 + 1 * (1 / (1 + w)))) with (w / (1 + w)) by (field; exact D1). apply Rlt_le, Rdiv_lt_0_compat; lra.
    + replace (1 - (0 + 1 * (1 / (1 + w)))) with (w / (1 + w)) by (field; exact D1).
      replace (1 - (0 + 1 * ((a - q ^ 2) / (a ^ 2 - q ^ 2)) + q * (2 * w * q / (a ^ 2 - q ^ 2)))) with (2 * w * (a - q ^ 2) / (a ^ 2 - q ^ 2)) by (unfold a in *; field; lra).
      apply (Rmult_lt_reg_r ((1 + w) * (a ^ 2 - q ^ 2))); [apply Rmult_lt_0_compat; lra|].
      replace (w / (1 + w) * ((1 + w) * (a ^ 2 - q ^ 2))) with (w * (a ^ 2 - q ^ 2)) by (field; exact D1).
      replace (2 * w * (a - q ^ 2) / (a ^ 2 - q ^ 2) * ((1 + w) * (a ^ 2 - q ^ 2))) with (w * (2 * (a - q ^ 2) * (1 + w))) by (field; lra).
      apply Rmult_lt_compat_l; [exact WP|]. unfold a. assert (0 < (1 + 2 * w) * (1 - q ^ 2)) by (apply Rmult_lt_0_compat; nra). nra.
  - intros [|[|i]] Hi; [| |lia]; cbn [rsum INR Nat.eqb]; rewrite ?X0, ?X1, ?X2; fold q; unfold Rdiv; fold w; unfold a in *; field; lra.
  - intros i Hi. replace i with 0%nat by lia. cbn [rsum INR Nat.eqb]. rewrite X0. unfold Rdiv; fold w. field. exact D1.
Qed.
Print Assumptions C51_additional_point_refuted.
