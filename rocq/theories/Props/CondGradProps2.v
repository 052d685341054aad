(** * C40 and C38 above the limit: two observations whose variances differ by twenty orders of magnitude *)
From Coq Require Import Reals List Arith Bool Lia Lra Psatz.
From Coquelicot Require Import Coquelicot.
From Verif.Base Require Import NpLite NpFacts Deriv.
From Verif.Spec Require Import KernelSpec LinAlgSpec GpSpec HpSpec DataSpec LkdSpec OptzSpec CondSpec.
From Verif.Model Require Import KernelSqExp KernelMatern KernelRatQuad KernelDispatch CommonFun WellCond Rescaling GpState Chol Cov HpInfo HpGrad MeanFun Lkd OptzLkd.
From Verif.Proofs Require Import RadialCalculus KernGradBlocks Jets KernelExact Psd KernTac LinAlg CholCorrect Det CovStruct StateFacts NoiseFacts NuggetCond NuggetMain HpInfoFacts HpGradFacts HpGradMain HpGradFree LinDeriv LkdCore LkdFacts LkdMain CondGrad CondFro CondLkd.
From Verif.Props Require Import CondProps DataProps HpGradProps LkdProps OptzProps OptzProps2 ReportProps CondGradProps.
Import ListNotations.
Local Open Scope R_scope.

(** ** eigenvalues and eigenvectors of a 2 x 2 symmetric matrix that is not diagonal *)
Definition disc (a b c : R) : R := sqrt (((a - c) / 2) ^ 2 + b ^ 2).
Definition lam (sg a b c : R) : R := (a + c) / 2 + sg * disc a b c.
Definition evec (l a b : R) (i : nat) : R := (if (i =? 0)%nat then b else l - a) / sqrt (b ^ 2 + (l - a) ^ 2).
Definition eig2 (A : mat) : vec * mat :=
  let a := mat_at A 0 0 in let b := mat_at A 0 1 in let c := mat_at A 1 1 in
  let l := fun k => lam (if (k =? 0)%nat then 1 else -1) a b c in
  (mkvec 2 l, mkmat 2 2 (fun i k => evec (l k) a b i)).
Definition la2 : npla := mknpla cond2 cond2 eig2 false.
Lemma disc_sq a b c : disc a b c * disc a b c = ((a - c) / 2) ^ 2 + b ^ 2.
Proof. apply sqrt_sqrt. assert (H := pow2_ge_0 ((a - c) / 2)). assert (H' := pow2_ge_0 b). lra. Qed.
Lemma lam_char sg a b c : sg * sg = 1 -> (lam sg a b c - a) * (lam sg a b c - c) = b ^ 2.
Proof. intros H. unfold lam. assert (D := disc_sq a b c). set (q := disc a b c) in *. replace ((_ - a) * (_ - c)) with (sg * sg * (q * q) - ((a - c) / 2) ^ 2) by field. rewrite H, D. field. Qed.
Lemma disc_ge a b c : Rabs ((a - c) / 2) <= disc a b c.
Proof. unfold disc. rewrite <- sqrt_Rsqr_abs. apply sqrt_le_1_alt. unfold Rsqr. assert (H := pow2_ge_0 b). simpl in *. lra. Qed.
Lemma q2 A v : nr A = 2%nat -> symmetric A -> qform A v = mat_at A 0 0 * v 0%nat ^ 2 + 2 * mat_at A 0 1 * v 0%nat * v 1%nat + mat_at A 1 1 * v 1%nat ^ 2.
Proof. intros E (S1 & S2). unfold qform. rewrite <- S1, E. cbn [rsum]. rewrite (S2 1%nat 0%nat) by (rewrite E; lia). ring. Qed.
Lemma d2 v : dotp 2 v v = v 0%nat ^ 2 + v 1%nat ^ 2. Proof. unfold dotp. cbn [rsum]. ring. Qed.
Lemma eig2_ok A : nr A = 2%nat -> symmetric A -> mat_at A 0 1 <> 0 -> eigensystem A (eig2 A).
Proof.
  intros E SY NB. assert (SY' := SY). destruct SY' as (S1 & S2). unfold eigensystem, eig2. cbv zeta. rewrite E. cbn [vlen nr nc].
  set (a := mat_at A 0 0). set (b := mat_at A 0 1) in *. set (c := mat_at A 1 1).
  split; [reflexivity|]. split; [reflexivity|]. split; [reflexivity|].
  assert (Q := fun v => q2 A v E SY). fold a b c in Q. assert (DG := disc_ge a b c).
  assert (B2 : 0 < b ^ 2) by (apply pow2_gt_0, NB).
  split; [|split].
  - intros k Hk. set (sg := if (k =? 0)%nat then 1 else -1). assert (SG : sg * sg = 1) by (unfold sg; destruct (k =? 0)%nat; lra). set (l := lam sg a b c).
    assert (CH := lam_char sg a b c SG). fold l in CH.
    set (m := sqrt (b ^ 2 + (l - a) ^ 2)). assert (MP : 0 < b ^ 2 + (l - a) ^ 2) by (assert (Z := pow2_ge_0 (l - a)); lra). assert (M1 : 0 < m) by (apply sqrt_lt_R0, MP).
    assert (MM : m * m = b ^ 2 + (l - a) ^ 2) by (apply sqrt_sqrt; lra).
    split.
    + rewrite d2. unfold column, evec. cbn [mat_at Nat.eqb]. fold sg l m. replace ((b / m) ^ 2 + ((l - a) / m) ^ 2) with ((b ^ 2 + (l - a) ^ 2) / (m * m)) by (field; lra). rewrite MM. field. lra.
    + intros i Hi. unfold mv, column, evec. cbn [mat_at vat]. rewrite <- S1, E. cbn [rsum]. fold sg l m. cbn [Nat.eqb].
      destruct i as [|[|i]]; [| |lia]; cbn [Nat.eqb]; fold a b c.
      * field. lra.
      * rewrite (S2 1%nat 0%nat) by (rewrite E; lia). fold b. apply Rmult_eq_reg_r with m; [|lra]. transitivity (b ^ 2 + c * (l - a)); [field; lra|]. rewrite <- CH. field. lra.
  - intros lo HL v. rewrite d2, Q. assert (H1 := HL 1%nat ltac:(lia)). cbn [vat Nat.eqb] in H1. set (l := lam (-1) a b c) in *.
    assert (CH := lam_char (-1) a b c ltac:(ring)). fold l in CH. set (x := v 0%nat). set (y := v 1%nat).
    assert (LA : l <= a) by (unfold l, lam; unfold Rabs in DG; destruct (Rcase_abs _); lra).
    assert (P : 0 <= (a - l) * x ^ 2 + 2 * b * x * y + (c - l) * y ^ 2).
    { destruct (Req_dec (a - l) 0) as [Z|Z]. { exfalso. replace (l - a) with 0 in CH by lra. lra. }
      apply Rmult_le_reg_l with (a - l); [lra|]. rewrite Rmult_0_r. replace ((a - l) * _) with (((a - l) * x + b * y) ^ 2 + ((l - a) * (l - c) - b ^ 2) * y ^ 2) by ring. rewrite CH. replace (b ^ 2 - b ^ 2) with 0 by ring. assert (Z' := pow2_ge_0 ((a - l) * x + b * y)). lra. }
    assert (Z1 := pow2_ge_0 x). assert (Z2 := pow2_ge_0 y). assert (Z3 : lo * (x ^ 2 + y ^ 2) <= l * (x ^ 2 + y ^ 2)) by (apply Rmult_le_compat_r; lra). lra.
  - intros hi HL v. rewrite d2, Q. assert (H1 := HL 0%nat ltac:(lia)). cbn [vat Nat.eqb] in H1. set (l := lam 1 a b c) in *.
    assert (CH := lam_char 1 a b c ltac:(ring)). fold l in CH. set (x := v 0%nat). set (y := v 1%nat).
    assert (LA : a <= l) by (unfold l, lam; unfold Rabs in DG; destruct (Rcase_abs _); lra).
    assert (P : 0 <= (l - a) * x ^ 2 - 2 * b * x * y + (l - c) * y ^ 2).
    { destruct (Req_dec (l - a) 0) as [Z|Z]. { exfalso. rewrite Z in CH. lra. }
      apply Rmult_le_reg_l with (l - a); [lra|]. rewrite Rmult_0_r. replace ((l - a) * _) with (((l - a) * x - b * y) ^ 2 + ((l - a) * (l - c) - b ^ 2) * y ^ 2) by ring. rewrite CH. replace (b ^ 2 - b ^ 2) with 0 by ring. assert (Z' := pow2_ge_0 ((l - a) * x - b * y)). lra. }
    assert (Z1 := pow2_ge_0 x). assert (Z2 := pow2_ge_0 y). assert (Z3 : l * (x ^ 2 + y ^ 2) <= hi * (x ^ 2 + y ^ 2)) by (apply Rmult_le_compat_r; lra). lra.
Qed.
(** numpy's routines behave as they should on every such matrix *)
Lemma la2_ok A : nr A = 2%nat -> symmetric A -> mat_at A 0 1 <> 0 -> numpy_ok la2 A.
Proof. intros E S N. split; [reflexivity|]. split; [reflexivity|]. apply eig2_ok; assumption. Qed.
(** the condition number of a positive definite 2 x 2 matrix *)
Lemma cond2_two A : nr A = 2%nat -> pd A -> mat_at A 0 1 <> 0 -> let a := mat_at A 0 0 in let b := mat_at A 0 1 in let c := mat_at A 1 1 in
  0 < lam (-1) a b c /\ cond2 A = lam 1 a b c / lam (-1) a b c.
Proof.
  intros E PD NB a b c. assert (SY := proj1 PD). assert (H := eig2_ok A E SY NB). unfold eigensystem, eig2 in H. cbv zeta in H. rewrite E in H. destruct H as (_ & _ & _ & HV & HL & HU). cbn [vat] in HV, HL, HU. fold a b c in HV, HL, HU.
  destruct (HV 0%nat ltac:(lia)) as (U0 & V0). destruct (HV 1%nat ltac:(lia)) as (U1 & V1). cbn [Nat.eqb] in U0, V0, U1, V1.
  assert (DP : 0 <= disc a b c) by apply sqrt_pos. assert (LE : lam (-1) a b c <= lam 1 a b c) by (unfold lam; lra).
  set (M := mkmat 2 2 (fun i k => evec (lam (if (k =? 0)%nat then 1 else -1) a b c) a b i)) in *.
  assert (EQ : forall k l, dotp 2 (column M k) (column M k) = 1 -> (forall i, (i < 2)%nat -> mv A (column M k) i = l * column M k i) -> qform A (column M k) = l).
  { intros k l H1 H2. rewrite (cg_qmv 2 A E PD). transitivity (dotp 2 (column M k) (fun i => l * column M k i)); [apply dotp_ext; [reflexivity|exact H2]|]. rewrite dotp_scal_r, H1. ring. }
  assert (Q0 := EQ 0%nat _ U0 V0). assert (Q1 := EQ 1%nat _ U1 V1).
  split.
  - rewrite <- Q1. apply PD. rewrite E. destruct (nonzero_dec 2 (column M 1)) as [Z|Z]; [exact Z|]. exfalso. rewrite d2, !Z in U1 by lia. lra.
  - rewrite <- Q0, <- Q1. apply (cond2_extreme 2 A E PD ltac:(lia) (column M 0) (column M 1) U0 U1).
    + intros v. rewrite Q1. apply HL. intros k Hk. destruct k as [|[|k]]; [| |lia]; cbn [Nat.eqb]; lra.
    + intros v. rewrite Q0. apply HU. intros k Hk. destruct k as [|[|k]]; [| |lia]; cbn [Nat.eqb]; lra.
Qed.

(** ** two observations at 0 and 10, in one dimension, without gradients; the standard deviations are known *)
Definition o2 : gpopt := gp_init 1 false SqExp Wbase.
Definition x2 : mat := mkmat 2 1 (fun i _ => 10 * INR i).
Definition f2 : vec := mkvec 2 INR.
Definition sd2 (s0 s1 : R) : vec := mkvec 2 (fun i => if (i =? 0)%nat then s0 else s1).
Definition eta2 : R := INR 2 / (10 ^ 10 - 1).
Definition hp2 (th vK : R) : hpv := mkhp None (vconst 1 th) None (Some vK) None None.
Definition k2 (th : R) : R := exp (- (th * 100)).
Lemma data2 s0 s1 : 0 <= s0 -> 1 <= s1 -> exists d, set_data o2 x2 f2 (SdOk (sd2 s0 s1)) None SdNone None = Ok d /\
  d_n_eval d = 2%nat /\ d_n_grad d = 0%nat /\ d_x d = x2 /\ d_bvec d = None /\ d_scl d = None /\ d_known_fval d = true /\ d_std_fval d = Some (sd2 s0 s1) /\ d_noisy d = true /\ d_fval_zero d = false /\
  d_opt_fval d = false /\ d_opt_fgrad d = false /\ d_etaK d = Some eta2 /\ forall hp th vK, vlen (hp_theta hp) = 1%nat -> vat (hp_theta hp) 0 = th -> hp_varK hp = Some vK -> hp_kernel hp = None -> hp_var_fval hp = None -> hp_var_fgrad hp = None -> 0 < th -> 0 < vK -> lkd_input o2 d hp.
Proof.
  intros H0 H1. assert (E : exists d, set_data o2 x2 f2 (SdOk (sd2 s0 s1)) None SdNone None = Ok d /\ d_n_grad d = 0%nat /\ d_opt_fval d = false /\ d_opt_fgrad d = false /\ d_etaK d = Some eta2 /\ d_noisy d = negb (d_fval_zero d && true)) by (eexists; split; [reflexivity|]; repeat split).
  destruct E as (d & E & G0 & Fo & Go & Ee & EZ). exists d. split; [exact E|].
  destruct (C36_rejects_inconsistent_data _ _ _ _ _ _ _ _ E) as (_ & Ex & Ef & _ & Eb & Es & _ & En & _).
  destruct (C36_noise_flags _ _ _ _ _ _ _ _ E) as (F1 & _ & _ & _ & F5).
  assert (K1 : d_known_fval d = true) by (apply F1; discriminate).
  assert (NS : d_scl d = None). { apply set_data_inv in E. destruct E as (_ & _ & _ & _ & _ & _ & _ & _ & _ & (Xs & _ & _ & _ & _ & H) & _). apply H. reflexivity. }
  split; [exact En|]. split; [exact G0|]. split; [exact Ex|]. split; [exact Eb|]. split; [exact NS|]. split; [exact K1|]. split; [exact Es|].
  assert (NY : d_noisy d = true).
  { destruct (d_noisy d) eqn:EN; [reflexivity|]. exfalso. destruct (proj1 F5 eq_refl) as ((s & Hs & Ht) & _). injection Hs as <-.
    assert (X := Ht 1%nat ltac:(simpl; lia)). simpl in X. assert (/ 10 ^ 10 < 1) by (apply Rmult_lt_reg_r with (10 ^ 10); [apply pow_lt; lra|]; rewrite Rinv_l by (apply pow_nonzero; lra); simpl; lra). lra. }
  split; [exact NY|]. split; [rewrite NY in EZ; destruct (d_fval_zero d); [discriminate|reflexivity]|]. split; [exact Fo|]. split; [exact Go|]. split; [exact Ee|].
  intros hp th vK T0 T1 T2 T3 T4 T5 Pt Pv.
  split; [split; [simpl; lia|split; simpl; lra]|]. split; [do 6 eexists; split; [|split; [|split; [|apply after_set; exact E]]]; simpl; try lia; reflexivity|].
  split; [discriminate|]. split; [split; [rewrite T0; reflexivity|split; [|exact I]]|].
  { intros i Hi. change (o_dim o2) with 1%nat in Hi. replace i with 0%nat by lia. rewrite T1. exact Pt. }
  split; [split; [rewrite K1, T4; reflexivity|discriminate]|]. split; [split; intros v Ev; congruence|]. intros _. exists vK. split; [exact T2|exact Pv].
Qed.
(** the covariance matrix of these observations *)
Definition K2 (s0 s1 th vK : R) (i j : nat) : R :=
  if (i =? j)%nat then vK + (if (i =? 0)%nat then s0 else s1) ^ 2 + vK * eta2 else vK * k2 th.
Lemma matrix2 s0 s1 d la th vK hp : 0 <= s0 -> 1 <= s1 -> set_data o2 x2 f2 (SdOk (sd2 s0 s1)) None SdNone None = Ok d -> 0 < th -> 0 < vK ->
  vlen (hp_theta hp) = 1%nat -> vat (hp_theta hp) 0 = th -> hp_varK hp = Some vK -> hp_kernel hp = None -> hp_var_fval hp = None -> hp_var_fgrad hp = None ->
  exists A, lkd_matrix o2 d (la_cond la) true hp = Ok A /\ pd A /\ mspec 2 2 A (K2 s0 s1 th vK).
Proof.
  intros H0 H1 E Pt Pv T0 T1 T2 T3 T4 T5. destruct (data2 s0 s1 H0 H1) as (d' & E' & En & G0 & Ex & Eb & NS & K1 & Es & EN & FZ & Fo & Go & Ee & HI). assert (d' = d) by congruence. subst d'. clear E'.
  assert (LI := HI hp th vK T0 T1 T2 T3 T4 T5 Pt Pv). clear HI. assert (RD := li_ready _ _ _ LI). assert (NA := li_noise _ _ _ LI). destruct LI as (_ & _ & HP & HY & _).
  assert (EV : eff_varK hp None false = Some vK) by (unfold eff_varK; rewrite T2; reflexivity).
  destruct (rok_ex _ _ (kcov_call o2 d (la_cond la) true true RD eq_refl HP hp None false vK eta2 HY NA EV Pv Ee)) as (out & EO & _ & KC & PD & _).
  assert (CN : cN o2 d = 2%nat) by (unfold cN; rewrite En, G0; reflexivity). rewrite CN in KC.
  exists (k_Kcov out). split; [unfold lkd_matrix, Kcov_of; rewrite EN; unfold calc_all_K_w_chofac in *; rewrite EO; reflexivity|]. split; [exact PD|].
  eapply mspec_ext; [exact KC|]. intros i j Hi Hj. cbv beta. unfold kcovE, K2, dl. change (o_well o2) with Wbase. cbv beta iota.
  assert (X : fst (get_scl_x_w_dist d) = x2) by (unfold get_scl_x_w_dist; rewrite NS, Ex; reflexivity). rewrite X.
  unfold noise_fn, noise_row, ckf, cobs. rewrite FZ, En, G0, T3. cbn [andb].
  change (o_kernel o2) with SqExp. change (o_dim o2) with 1%nat.
  assert (KJ : forall p q, (p < 2)%nat -> (q < 2)%nat -> Psd.kjet SqExp (hp_val None) 1 (Psd.cut 1 (vat (hp_theta hp))) (Psd.rowobs 2 0 (rows_of x2) (KernGradBlocks.osel (d_bvec d)) p) (Psd.rowobs 2 0 (rows_of x2) (KernGradBlocks.osel (d_bvec d)) q) = exp (- (th * (10 * INR p - 10 * INR q) ^ 2))).
  { intros p q Hp Hq. unfold Psd.rowobs, unradr. destruct (Nat.ltb_spec p 2); [|lia]. destruct (Nat.ltb_spec q 2); [|lia].
    unfold Psd.kjet, obs_at, rjet, KernelExact.phi0, rows_of, x2, sqd, Psd.cut. cbn [rsum vat mat_at Nat.ltb Nat.leb]. rewrite T1. unfold se0. f_equal. ring. }
  assert (FV : forall p, noise_fval d hp p = (if (p =? 0)%nat then s0 else s1) ^ 2).
  { intros p. unfold noise_fval, std_scale. rewrite Es, NS. unfold sd2. cbn [vat]. destruct (p =? 0)%nat; ring. }
  rewrite KJ by assumption.
  destruct i as [|[|i]]; [| |lia]; (destruct j as [|[|j]]; [| |lia]); cbn [Nat.eqb unradr Nat.ltb Nat.leb INR]; rewrite ?FV; cbn [Nat.eqb]; unfold k2; rewrite ?Rplus_0_r.
  - replace (- (th * (10 * 0 - 10 * 0) ^ 2)) with 0 by ring. rewrite exp_0. ring.
  - f_equal. f_equal. ring.
  - f_equal. f_equal. ring.
  - replace (- (th * (10 * 1 - 10 * 1) ^ 2)) with 0 by ring. rewrite exp_0. ring.
Qed.

(** ** its hyperparameters theta, varK, on a log10 scale; the condition number as an explicit function of them *)
Definition info2 : hpinfo := mkhi 2 (Some [0%nat]) None (Some 1%nat) None None [true; true].
Definition cc2 (s0 s1 th vK : R) : R :=
  let a := vK + s0 ^ 2 + vK * eta2 in let c := vK + s1 ^ 2 + vK * eta2 in let b := vK * k2 th in lam 1 a b c / lam (-1) a b c.
Lemma info2_ok d : d_noisy d = true -> d_opt_fval d = false -> d_opt_fgrad d = false ->
  setup_hp_idx4optz o2 d lk_default = Ok info2 /\ set_hp_optz_info o2 d lk_default true false true false false = Ok info2.
Proof. intros H1 H2 H3. unfold setup_hp_idx4optz. rewrite H1, H2, H3. split; reflexivity. Qed.
Lemma decode2 d w : d_noisy d = true -> vlen w = 2%nat -> exists hp, hp_vec2dataclass d info2 w = Ok hp /\
  vlen (hp_theta hp) = 1%nat /\ vat (hp_theta hp) 0 = pow10 (vat w 0) /\ hp_varK hp = Some (pow10 (vat w 1)) /\ hp_kernel hp = None /\ hp_var_fval hp = None /\ hp_var_fgrad hp = None.
Proof. intros H L. destruct w as [n f]. cbn [vlen] in L. subst n. unfold hp_vec2dataclass. rewrite H. eexists. split; [reflexivity|]. repeat split. Qed.
Lemma pow10_pos x : 0 < pow10 x. Proof. apply exp_pos. Qed.
Lemma k2_pos th : 0 < k2 th. Proof. apply exp_pos. Qed.
Lemma eta2_b : 0 < eta2 < / 10 ^ 9.
Proof. unfold eta2. split; [apply Rdiv_lt_0_compat; simpl; lra|]. apply Rlt_div_l; [simpl; lra|]. replace (10 ^ 10) with (10 ^ 9 * 10) by (simpl; ring). replace (/ 10 ^ 9 * (10 ^ 9 * 10 - 1)) with (10 - / 10 ^ 9) by (field; simpl; lra). assert (/ 10 ^ 9 <= / 1) by (apply Rinv_le_contravar; simpl; lra). simpl INR. lra. Qed.
Lemma call2 s0 s1 d la w : 0 <= s0 -> 1 <= s1 -> set_data o2 x2 f2 (SdOk (sd2 s0 s1)) None SdNone None = Ok d -> vlen w = 2%nat ->
  exists hp A, hp_vec2dataclass d info2 w = Ok hp /\ lkd_input o2 d hp /\ noise_pos hp /\ theta_grad_supported o2 d hp /\ lkd_matrix o2 d (la_cond la) true hp = Ok A /\ numpy_ok la2 A /\ pd A /\
    mspec 2 2 A (K2 s0 s1 (pow10 (vat w 0)) (pow10 (vat w 1))) /\ cond2 A = cc2 s0 s1 (pow10 (vat w 0)) (pow10 (vat w 1)).
Proof.
  intros H0 H1 E L. destruct (data2 s0 s1 H0 H1) as (d' & E' & En & G0 & Ex & Eb & NS & K1 & Es & EN & FZ & Fo & Go & Ee & HI). assert (d' = d) by congruence. subst d'. clear E'.
  destruct (decode2 d w EN L) as (hp & ED & T0 & T1 & T2 & T3 & T4 & T5).
  destruct (matrix2 s0 s1 d la _ _ hp H0 H1 E (pow10_pos _) (pow10_pos _) T0 T1 T2 T3 T4 T5) as (A & EA & PD & MA).
  assert (MA' := MA). destruct MA' as (M1 & M2 & M3). assert (NB : mat_at A 0 1 <> 0) by (rewrite M3 by lia; unfold K2; cbn [Nat.eqb]; apply Rgt_not_eq, Rmult_lt_0_compat; [apply pow10_pos|apply k2_pos]).
  exists hp, A. split; [exact ED|]. split; [exact (HI hp _ _ T0 T1 T2 T3 T4 T5 (pow10_pos _) (pow10_pos _))|]. split; [split; intros v Hv; congruence|]. split; [discriminate|].
  split; [exact EA|]. split; [apply la2_ok; [exact M1|apply PD|exact NB]|]. split; [exact PD|]. split; [exact MA|].
  rewrite (proj2 (cond2_two A M1 PD NB)). rewrite !M3 by lia. reflexivity.
Qed.
Lemma eig_low s0 s1 th vK A : 0 <= s0 -> 1 <= s1 -> mspec 2 2 A (K2 s0 s1 th vK) -> symmetric A -> k2 th <= 1 / 2 -> / 2 < vK -> eigenvalues_at_least A (/ 10 ^ 16).
Proof.
  intros H0 H1 (M1 & M2 & M3) S HK HV v. rewrite q2 by assumption. rewrite M1, d2. rewrite !M3 by lia. unfold K2. cbn [Nat.eqb].
  assert (I : / 10 ^ 16 <= / 4) by (apply Rinv_le_contravar; simpl; lra).
  set (x := v 0%nat). set (y := v 1%nat). assert (X := pow2_ge_0 x). assert (Y := pow2_ge_0 y). assert (XY := pow2_ge_0 (x + y)).
  assert (KP := k2_pos th). assert (EP := proj1 eta2_b). set (k := k2 th) in *.
  apply Rle_trans with (/ 4 * (x ^ 2 + y ^ 2)); [apply Rmult_le_compat_r; lra|].
  assert (VE : 0 <= vK * eta2) by (apply Rmult_le_pos; lra). assert (S0 := pow2_ge_0 s0). assert (S1 := pow2_ge_0 s1).
  assert (Z1 : 0 <= (s0 ^ 2 + vK * eta2) * x ^ 2) by (apply Rmult_le_pos; lra).
  assert (Z2 : 0 <= (s1 ^ 2 + vK * eta2) * y ^ 2) by (apply Rmult_le_pos; lra).
  assert (Z3 : 0 <= vK * k * (x + y) ^ 2) by (apply Rmult_le_pos; [apply Rmult_le_pos; lra|lra]).
  assert (Z4 : / 4 * (x ^ 2 + y ^ 2) <= vK * (1 - k) * (x ^ 2 + y ^ 2)).
  { apply Rmult_le_compat_r; [lra|]. assert (Q : / 2 * (/ 2) <= vK * (1 - k)) by (apply Rmult_le_compat; lra). lra. }
  replace (_ + _ + _) with ((s0 ^ 2 + vK * eta2) * x ^ 2 + (s1 ^ 2 + vK * eta2) * y ^ 2 + vK * k * (x + y) ^ 2 + vK * (1 - k) * (x ^ 2 + y ^ 2)) by ring. lra.
Qed.
Lemma k2_one : k2 1 <= 1 / 2.
Proof. unfold k2. rewrite exp_Ropp. assert (H := exp_ineq1 (1 * 100) ltac:(lra)). apply Rle_trans with (/ 2); [|lra]. apply Rinv_le_contravar; lra. Qed.
Lemma pow10_0 : pow10 0 = 1. Proof. unfold pow10. rewrite Rmult_0_l. apply exp_0. Qed.

(** ** standard deviations 0 and 10^10 *)
Definition big : R := 10 ^ 10.
Definition PP (u : R) : R := u * (1 + eta2) + big ^ 2 / 2.
Definition QQ (k u : R) : R := sqrt ((big ^ 2 / 2) ^ 2 + (u * k) ^ 2).
Lemma cc2_big th vK : cc2 0 big th vK = (PP vK + QQ (k2 th) vK) / (PP vK - QQ (k2 th) vK).
Proof.
  unfold cc2, lam. cbv zeta. assert (D : disc (vK + 0 ^ 2 + vK * eta2) (vK * k2 th) (vK + big ^ 2 + vK * eta2) = QQ (k2 th) vK).
  { unfold disc, QQ. f_equal. field. }
  rewrite D. unfold PP. replace (vK * (1 + eta2) + big ^ 2 / 2) with ((vK + 0 ^ 2 + vK * eta2 + (vK + big ^ 2 + vK * eta2)) / 2) by field. rewrite Rmult_1_l. replace (-1 * QQ (k2 th) vK) with (- QQ (k2 th) vK) by ring. reflexivity.
Qed.
Lemma QQ_sq k u : QQ k u * QQ k u = (big ^ 2 / 2) ^ 2 + (u * k) ^ 2.
Proof. apply sqrt_sqrt. assert (H := pow2_ge_0 (big ^ 2 / 2)). assert (H' := pow2_ge_0 (u * k)). lra. Qed.
Lemma QQ_pos k u : 0 < QQ k u.
Proof. apply sqrt_lt_R0. assert (H : 0 < (big ^ 2 / 2) ^ 2) by (apply pow_lt; unfold big; simpl; lra). assert (H' := pow2_ge_0 (u * k)). lra. Qed.
Lemma QQ_low k u : big ^ 2 / 2 <= QQ k u.
Proof. unfold QQ. rewrite <- (sqrt_pow2 (big ^ 2 / 2)) at 1 by (unfold big; simpl; lra). apply sqrt_le_1_alt. assert (H' := pow2_ge_0 (u * k)). lra. Qed.
Lemma PQ_pos k u : 0 < k <= 1 / 2 -> 0 < u -> 0 < PP u - QQ k u.
Proof.
  intros Hk Hu. assert (B : 0 < big ^ 2) by (unfold big; simpl; lra). assert (E := proj1 eta2_b).
  assert (L : QQ k u < PP u); [|lra]. assert (PU : 0 < u * (1 + eta2)) by (apply Rmult_lt_0_compat; lra). unfold QQ. rewrite <- (sqrt_pow2 (PP u)) by (unfold PP; lra). apply sqrt_lt_1_alt.
  split; [assert (H := pow2_ge_0 (big ^ 2 / 2)); assert (H' := pow2_ge_0 (u * k)); lra|].
  unfold PP. assert (K : (u * k) ^ 2 < (u * (1 + eta2)) ^ 2).
  { rewrite <- !Rsqr_pow2. apply Rsqr_incrst_1; [apply Rmult_lt_compat_l; lra|apply Rmult_le_pos; lra|lra]. }
  assert (M : 0 < u * (1 + eta2) * big ^ 2) by (apply Rmult_lt_0_compat; assumption). nra.
Qed.
Lemma cc2_above k u : 0 < k <= 1 / 2 -> 0 < u < 2 -> 10 ^ 16 < (PP u + QQ k u) / (PP u - QQ k u).
Proof.
  intros Hk Hu. assert (D := PQ_pos k u Hk (proj1 Hu)). assert (QL := QQ_low k u). assert (E := eta2_b).
  assert (E2 : eta2 < 1) by (assert (/ 10 ^ 9 <= / 1) by (apply Rinv_le_contravar; simpl; lra); lra).
  apply (Rlt_div_r (10 ^ 16) (PP u + QQ k u) (PP u - QQ k u)); [exact D|]. assert (U : u * (1 + eta2) < 4) by (apply Rlt_trans with (2 * (1 + eta2)); [apply Rmult_lt_compat_r; lra|lra]).
  assert (U0 : 0 < u * (1 + eta2)) by (apply Rmult_lt_0_compat; lra).
  assert (D2 : PP u - QQ k u < 4) by (unfold PP in *; lra). apply Rlt_trans with (10 ^ 16 * 4); [apply Rmult_lt_compat_l; [apply pow_lt; lra|exact D2]|].
  unfold PP in *. assert (B : 10 ^ 16 * 4 < big ^ 2) by (unfold big; simpl; lra). lra.
Qed.
(** the condition number decreases with varK *)
Lemma cc2_derive k : 0 < k <= 1 / 2 -> exists c, c < 0 /\ is_derive (fun u => (PP u + QQ k u) / (PP u - QQ k u)) 1 c.
Proof.
  intros Hk. assert (D := PQ_pos k 1 Hk ltac:(lra)). assert (QP := QQ_pos k 1). assert (SQ := QQ_sq k 1). assert (EP := proj1 eta2_b).
  assert (B : 4 < big ^ 2) by (unfold big; simpl; lra).
  exists (2 * (k ^ 2 / QQ k 1 * PP 1 - (1 + eta2) * QQ k 1) / (PP 1 - QQ k 1) ^ 2). split.
  - replace (2 * (k ^ 2 / QQ k 1 * PP 1 - (1 + eta2) * QQ k 1) / (PP 1 - QQ k 1) ^ 2) with (- ((2 * ((1 + eta2) * (QQ k 1 * QQ k 1) - k ^ 2 * PP 1)) / (QQ k 1 * (PP 1 - QQ k 1) ^ 2))) by (field; lra).
    apply Ropp_lt_gt_0_contravar, Rdiv_lt_0_compat; [|apply Rmult_lt_0_compat; [exact QP|apply pow_lt, D]].
    rewrite SQ. unfold PP. rewrite Rmult_1_l. replace (2 * _) with (big ^ 2 * ((1 + eta2) * (big ^ 2 / 2) - k ^ 2)) by field.
    apply Rmult_lt_0_compat; [lra|]. assert (K1 : k ^ 2 <= 1) by (rewrite <- (pow1 2); apply pow_incr; lra).
    assert (1 * (big ^ 2 / 2) <= (1 + eta2) * (big ^ 2 / 2)) by (apply Rmult_le_compat_r; lra). lra.
  - assert (DP : is_derive PP 1 (1 + eta2)).
    { unfold PP. eapply dR_val; [apply dR_plus; [apply dR_mult; [apply dR_id|apply dR_const]|apply dR_const]|]. cbv beta. ring. }
    assert (DQ : is_derive (QQ k) 1 (k ^ 2 / QQ k 1)).
    { assert (W : is_derive (fun u => (big ^ 2 / 2) ^ 2 + u * u * k ^ 2) 1 (2 * k ^ 2)).
      { eapply dR_val; [apply dR_plus; [apply dR_const|apply dR_mult; [apply dR_mult; apply dR_id|apply dR_const]]|]. cbv beta. ring. }
      apply (dR_ext (fun u => sqrt ((big ^ 2 / 2) ^ 2 + u * u * k ^ 2))); [intros t; unfold QQ; f_equal; ring|].
      assert (V : (big ^ 2 / 2) ^ 2 + 1 * 1 * k ^ 2 = (big ^ 2 / 2) ^ 2 + (1 * k) ^ 2) by ring.
      assert (PV : 0 < (big ^ 2 / 2) ^ 2 + 1 * 1 * k ^ 2) by (rewrite V, <- SQ; apply Rmult_lt_0_compat; exact QP).
      eapply dR_val; [apply (dR_comp sqrt _ 1 _ _ W (dR_sqrt _ PV))|]. rewrite V. fold (QQ k 1). field. lra. }
    unfold Rdiv at 1. eapply dR_val; [apply dR_mult; [apply dR_plus; [exact DP|exact DQ]|apply dR_inv; [apply dR_minus; [exact DP|exact DQ]|lra]]|]. cbv beta. field. lra.
Qed.
Definition v2 : vec := mkvec 2 (fun _ => 0).
Lemma dpow10 : is_derive pow10 0 (ln 10).
Proof. unfold pow10. eapply dR_val; [apply (dR_comp exp (fun x => x * ln 10) 0 (exp (0 * ln 10)) (ln 10)); [|apply dR_exp]|]. { eapply dR_val; [apply dR_mult; [apply dR_id|apply dR_const]|]. cbv beta. ring. } cbv beta. rewrite Rmult_0_l, exp_0. ring. Qed.
Lemma pow10_near : exists del, 0 < del /\ forall t, Rabs (t - 0) < del -> / 2 < pow10 t < 2.
Proof.
  assert (C : continuous pow10 0) by (apply (ex_derive_continuous (V := R_NormedModule)); exists (ln 10); apply dpow10).
  assert (P : 0 < / 2) by lra.
  destruct (C (fun y => / 2 < y < 2)) as (del & Hd).
  { rewrite pow10_0. exists (mkposreal _ P). intros y Hy. unfold ball in Hy. cbn in Hy. unfold AbsRing_ball, abs, minus, plus, opp in Hy. cbn in Hy. apply Rabs_def2 in Hy. lra. }
  exists del. split; [apply cond_pos|]. intros t Ht. apply Hd. unfold ball. cbn. unfold AbsRing_ball, abs, minus, plus, opp. cbn. rewrite <- Rminus_def || idtac. exact Ht.
Qed.
Lemma ln10_gt1 : 1 < ln 10.
Proof. rewrite <- (ln_exp 1). apply ln_increasing; [apply exp_pos|]. assert (H := exp_le_3). lra. Qed.
Lemma big_ge1 : 1 <= big. Proof. unfold big. simpl. lra. Qed.
(** what the optimiser is told about the points around v2 *)
Lemma above2 d t w : vlen w = 2%nat -> vat w 0 = 0 -> vat w 1 = t -> set_data o2 x2 f2 (SdOk (sd2 0 big)) None SdNone None = Ok d -> / 2 < pow10 t < 2 ->
  let s := new_obj o2 lk_default d info2 in let c := cc2 0 big 1 (pow10 t) in
  o_cond_max_abs o2 < c /\ constraint la2 o2 d info2 w = Some c /\ snd (return_optz_val la2 s w) = Ok c /\
  exists g g', snd (return_cond_grad la2 s w) = Ok (Some g) /\ snd (return_optz_grad la2 s w) = Ok g' /\ vlen g = 2%nat /\ vlen g' = 2%nat /\ (forall r, vat g' r = vat g r) /\
    forall dc, is_derivative_of (fun t' => constraint la2 o2 d info2 (vset w 1 t')) t dc -> dc = vat g 1 * (pow10 t * ln 10).
Proof.
  intros W1 W2 W3 E HT s c. destruct (data2 0 big ltac:(lra) big_ge1) as (d' & E' & En & G0 & Ex & Eb & NS & K1 & Es & EN & FZ & Fo & Go & Ee & HI). assert (d' = d) by congruence. subst d'. clear E'.
  destruct (info2_ok d EN Fo Go) as (_ & IO).
  destruct (call2 0 big d la2 w ltac:(lra) big_ge1 E W1) as (hp & A & ED & LI & NP & TS & EA & NO & PD & MA & EC). rewrite W2, W3, pow10_0 in EC, MA. fold c in EC.
  assert (EL := eig_low 0 big 1 (pow10 t) A ltac:(lra) big_ge1 MA (proj1 PD) k2_one (proj1 HT)).
  assert (CM : o_cond_max_abs o2 < cond2 A). { rewrite EC. unfold c. rewrite cc2_big. apply (cc2_above (k2 1) (pow10 t)); [split; [apply k2_pos|apply k2_one]|lra]. }
  destruct (C40_above_the_limit la2 o2 lk_default d info2 [] false true false false w hp A IO ltac:(intros _; exact EN) ltac:(discriminate) ltac:(discriminate) ltac:(cbn; congruence) ED LI eq_refl NP TS ltac:(discriminate) eq_refl EA NO EL CM) as (V1 & _ & V2 & g & G1 & (g' & G2 & G3 & G4) & G5 & G6).
  cbn [do_events fold_left g_opt g_data g_lk g_info new_obj] in *. change (do_events la2 (new_obj o2 lk_default d info2) []) with s in *. rewrite EC in V1, V2, CM.
  split; [exact CM|]. split; [exact V2|]. split; [exact V1|]. exists g, g'. split; [exact G1|]. split; [exact G2|]. split; [exact G5|]. split; [rewrite G3; exact G5|]. split; [exact G4|].
  intros dc HD. assert (L1 : (1 < hi_n info2)%nat) by (cbn; lia). rewrite <- W3 in HD. destruct (G6 1%nat dc L1 HD) as (sl & _ & ->). rewrite W3. unfold chain_factor. destruct sl; reflexivity.
Qed.
(** The condition number is above the limit in a neighbourhood; the optimiser is given it as the value of the
    objective and of the constraint, but for both a gradient that is not its gradient: for varK = 10^x at x = 0 it is
    too small by the factor ln 10. *)
Theorem C40_gradient_above_the_limit_refuted :
  exists (la : npla) (o : gpopt) (lo : lkopt) (d : gpdata) (info : hpinfo) (v : vec) (hp : hpv) (A : mat),
  let s := new_obj o lo d info in
  setup_hp_idx4optz o d lo = Ok info /\ hp_vec2dataclass d info v = Ok hp /\
  lkd_input o d hp /\ o_eta_const o = true /\ noise_pos hp /\ theta_grad_supported o d hp /\ o_well o <> Wprecon /\ la_fro la = false /\
  lkd_matrix o d (la_cond la) true hp = Ok A /\ numpy_ok la A /\ eigenvalues_at_least A (/ 10 ^ 16) /\
  exists r dc g g', (r < hi_n info)%nat /\ snd (return_optz_val la s v) = Ok (cond2 A) /\
    snd (return_cond_grad la s v) = Ok (Some g) /\ snd (return_optz_grad la s v) = Ok g' /\
    is_derivative_of (fun t => constraint la o d info (vset v r t)) (vat v r) dc /\
    is_derivative_of (fun t => match snd (return_optz_val la s (vset v r t)) with Ok y => Some y | Err _ => None end) (vat v r) dc /\
    vat g r <> dc /\ vat g' r <> dc.
Proof.
  destruct (data2 0 big ltac:(lra) big_ge1) as (d & E & En & G0 & Ex & Eb & NS & K1 & Es & EN & FZ & Fo & Go & Ee & HI).
  destruct (info2_ok d EN Fo Go) as (IO & _).
  destruct (call2 0 big d la2 v2 ltac:(lra) big_ge1 E eq_refl) as (hp & A & ED & LI & NP & TS & EA & NO & PD & MA & EC). cbn [v2 vat] in EC, MA. rewrite pow10_0 in EC, MA.
  assert (EL := eig_low 0 big 1 1 A ltac:(lra) big_ge1 MA (proj1 PD) k2_one ltac:(lra)).
  exists la2, o2, lk_default, d, info2, v2, hp, A. cbv zeta.
  do 11 (split; [first [exact IO|exact ED|exact LI|reflexivity|exact NP|exact TS|discriminate|exact EA|exact NO|exact EL]|]).
  destruct (cc2_derive (k2 1) (conj (k2_pos 1) k2_one)) as (c & Hc & HD). destruct pow10_near as (del & Hdel & HN).
  assert (DC : is_derive (fun t => cc2 0 big 1 (pow10 t)) 0 (c * ln 10)).
  { apply (dR_ext (fun t => (PP (pow10 t) + QQ (k2 1) (pow10 t)) / (PP (pow10 t) - QQ (k2 1) (pow10 t)))); [intros t; symmetry; apply cc2_big|].
    eapply dR_val; [apply (dR_comp (fun u => (PP u + QQ (k2 1) u) / (PP u - QQ (k2 1) u)) pow10 0 c (ln 10) dpow10)|ring]. rewrite pow10_0. exact HD. }
  assert (DK : is_derivative_of (fun t => constraint la2 o2 d info2 (vset v2 1 t)) 0 (c * ln 10)).
  { exists del, (fun t => cc2 0 big 1 (pow10 t)). split; [exact Hdel|]. split; [|exact DC]. intros t Ht. apply (above2 d t (vset v2 1 t) eq_refl eq_refl eq_refl E (HN t Ht)). }
  assert (DO : is_derivative_of (fun t => match snd (return_optz_val la2 (new_obj o2 lk_default d info2) (vset v2 1 t)) with Ok y => Some y | Err _ => None end) 0 (c * ln 10)).
  { exists del, (fun t => cc2 0 big 1 (pow10 t)). split; [exact Hdel|]. split; [|exact DC]. intros t Ht. destruct (above2 d t (vset v2 1 t) eq_refl eq_refl eq_refl E (HN t Ht)) as (_ & _ & V & _). rewrite V. reflexivity. }
  destruct (above2 d 0 v2 eq_refl eq_refl eq_refl E (HN 0 ltac:(rewrite Rminus_0_r, Rabs_R0; exact Hdel))) as (_ & _ & V & g & g' & G1 & G2 & _ & _ & G3 & G4).
  rewrite pow10_0 in V. rewrite <- EC in V. exists 1%nat, (c * ln 10), g, g'. split; [cbn; lia|]. split; [exact V|]. split; [exact G1|]. split; [exact G2|]. split; [exact DK|]. split; [exact DO|].
  specialize (G4 _ DK). rewrite pow10_0 in G4. assert (LN := ln10_gt1). assert (GC : vat g 1 = c) by (apply Rmult_eq_reg_r with (ln 10); lra).
  assert (NE : c <> c * ln 10) by (assert (c * ln 10 < c * 1) by (apply Rmult_lt_gt_compat_neg_l; lra); lra).
  rewrite (G3 1%nat), GC. split; exact NE.
Qed.
Print Assumptions C40_gradient_above_the_limit_refuted.

(** ** the report of an optimisation started there *)
Lemma fresh2 s0 s1 d : 0 <= s0 -> 1 <= s1 -> set_data o2 x2 f2 (SdOk (sd2 s0 s1)) None SdNone None = Ok d ->
  exists st y c, fresh_likelihood la2 (new_obj o2 lk_default d info2) v2 false true = Ok st /\ s_val st = Some y /\ s_cond st = Some c /\ c = cc2 s0 s1 1 1.
Proof.
  intros H0 H1 E. destruct (data2 s0 s1 H0 H1) as (d' & E' & En & G0 & Ex & Eb & NS & K1 & Es & EN & FZ & Fo & Go & Ee & HI). assert (d' = d) by congruence. subst d'. clear E'.
  destruct (info2_ok d EN Fo Go) as (_ & IO).
  destruct (call2 s0 s1 d la2 v2 H0 H1 E eq_refl) as (hp & A & ED & LI & NP & TS & EA & NO & PD & MA & EC). cbn [v2 vat] in EC, MA. rewrite pow10_0 in EC, MA.
  assert (EL := eig_low s0 s1 1 1 A H0 H1 MA (proj1 PD) k2_one ltac:(lra)).
  destruct (constraint_core la2 o2 lk_default d info2 false true false false v2 hp A IO ltac:(intros _; exact EN) ltac:(discriminate) ltac:(discriminate) ltac:(congruence) ED LI eq_refl NP TS ltac:(discriminate) eq_refl EA NO EL) as (st & gn & FR & SC & _ & _ & C1 & C2).
  exists st. destruct (Rle_lt_dec (cond2 A) (o_cond_max_abs o2)) as [L|L].
  - destruct (C1 L) as (_ & y & _ & _ & SV & _). exists y, (cond2 A). repeat (split; [assumption|]). exact EC.
  - destruct (C2 L) as (_ & SV & _). exists (- cond2 A), (cond2 A). repeat (split; [assumption|]). exact EC.
Qed.
Lemma select_one c f : or_fun (c_res c) = Some f -> select_best [c] = Ok c.
Proof. intros H. unfold select_best. cbn [existsb filter]. destruct (c_good c); cbn; rewrite H; reflexivity. Qed.
Lemma optz2 s0 s1 d : 0 <= s0 -> 1 <= s1 -> set_data o2 x2 f2 (SdOk (sd2 s0 s1)) None SdNone None = Ok d ->
  exists cond rep, snd (optz_hp_max_lkd la2 (fun x0 => ODone x0 (Some 0) true 3) (new_obj o2 lk_default d info2) [v2]) = Ok (v2, cond, rep).
Proof.
  intros H0 H1 E. destruct (fresh2 s0 s1 d H0 H1 E) as (st & y & c & FR & SV & SC & _).
  destruct (data2 s0 s1 H0 H1) as (d' & E' & En & G0 & Ex & Eb & NS & K1 & Es & EN & FZ & Fo & Go & Ee & HI). assert (d' = d) by congruence. subst d'. clear E'.
  destruct (call2 s0 s1 d la2 v2 H0 H1 E eq_refl) as (hp & A & ED & LI & NP & TS & EA & NO & PD & MA & EC).
  destruct (decode2 d v2 EN eq_refl) as (hp' & ED' & T0 & T1 & T2 & T3 & T4 & T5). assert (hp' = hp) by congruence. subst hp'.
  assert (RD := li_ready _ _ _ LI). assert (NA := li_noise _ _ _ LI). assert (HR := li_Rt _ _ _ LI). destruct LI as (_ & _ & HP & HY & _).
  assert (EV : eff_varK hp None false = Some 1) by (unfold eff_varK; rewrite T2; cbn [v2 vat]; rewrite pow10_0; reflexivity).
  destruct (rok_ex _ _ (kcov_call o2 d (la_cond la2) false true RD eq_refl HP hp None false 1 eta2 HY NA EV ltac:(lra) Ee)) as (out & EO & _).
  assert (UC : b_use_cond_cstr o2 = true) by reflexivity.
  assert (ST : forall s, g_opt s = o2 -> g_lk s = lk_default -> g_data s = d -> g_info s = info2 -> array_equal v2 (g_last s) = false -> calc_store_likelihood la2 s v2 false true = (with_store s st, Ok st)).
  { intros s Z1 Z2 Z3 Z4 Z5. unfold calc_store_likelihood. rewrite Z5. replace (fresh_likelihood la2 s v2 false true) with (Ok st); [reflexivity|]. rewrite <- FR. unfold fresh_likelihood, new_obj. rewrite Z1, Z2, Z3, Z4. reflexivity. }
  unfold optz_hp_max_lkd, optz_all, optz_one. cbn [g_opt new_obj]. rewrite UC.
  rewrite (ST (new_obj o2 lk_default d info2)) by reflexivity. cbn [bind]. rewrite SV, SC. cbn [bind run_opt or_x fst snd].
  unfold return_cond_val, lift_st. rewrite (ST (with_last _ _)) by reflexivity. cbn [bind fst snd]. rewrite SC. cbn [bind fst snd].
  rewrite (select_one _ 0) by reflexivity. cbn [bind c_res or_x g_data g_info new_obj]. rewrite ED. cbn [bind]. rewrite EN, HR, EO. cbn [bind].
  do 2 eexists. reflexivity.
Qed.
(** The largest condition number at a start point and the number of start points whose factorisation failed are
    constants in the report (C38_constant_entries): here the only start point has a finite condition number, its
    factorisation does fail, and a largest number that is not a number and no failure at all are reported. *)
Theorem C38_largest_condition_number_and_failures_refuted :
  exists (la : npla) (o : gpopt) (lo : lkopt) (d : gpdata) (info : hpinfo) (mini : vec -> optimiser) (x0 best : vec) (hp : hpv) (A : mat) (cond : option R) (rep : optzinfo),
  let s := new_obj o lo d info in
  setup_hp_idx4optz o d lo = Ok info /\ hp_vec2dataclass d info x0 = Ok hp /\ lkd_input o d hp /\ lkd_matrix o d (la_cond la) true hp = Ok A /\ numpy_ok la A /\
  snd (optz_hp_max_lkd la mini s [x0]) = Ok (best, cond, rep) /\
  snd (return_cond_val la s x0) = Ok (Some (cond2 A)) /\
  (exists l, calc_lkd_all la o d lo info hp true true (lk_adj lo) = Ok (l, false)) /\
  is_fail (oi_init rep) = 0%nat /\ is_max (oi_init rep) = None.
Proof.
  destruct (data2 0 big ltac:(lra) big_ge1) as (d & E & En & G0 & Ex & Eb & NS & K1 & Es & EN & FZ & Fo & Go & Ee & HI).
  destruct (info2_ok d EN Fo Go) as (IO & IO').
  destruct (call2 0 big d la2 v2 ltac:(lra) big_ge1 E eq_refl) as (hp & A & ED & LI & NP & TS & EA & NO & PD & MA & EC). cbn [v2 vat] in EC, MA. rewrite pow10_0 in EC, MA.
  assert (EL := eig_low 0 big 1 1 A ltac:(lra) big_ge1 MA (proj1 PD) k2_one ltac:(lra)).
  destruct (optz2 0 big d ltac:(lra) big_ge1 E) as (cond & rep & EO). destruct (fresh2 0 big d ltac:(lra) big_ge1 E) as (st & y & c & FR & SV & SC & Ec).
  exists la2, o2, lk_default, d, info2, (fun x0 => ODone x0 (Some 0) true 3%nat), v2, v2, hp, A, cond, rep. cbv zeta.
  split; [exact IO|]. split; [exact ED|]. split; [exact LI|]. split; [exact EA|]. split; [exact NO|]. split; [exact EO|].
  split; [unfold return_cond_val, lift_st, calc_store_likelihood; cbn [array_equal new_obj g_last]; fold (new_obj o2 lk_default d info2); rewrite FR; cbn [snd bind]; rewrite SC; congruence|].
  split; [|exact (C38_constant_entries la2 [] o2 lk_default d info2 _ [v2] v2 cond rep EO)].
  destruct (C40_condition_number_and_gradient la2 o2 d lk_default true false true false false info2 hp (lk_adj lk_default) A LI eq_refl NP ltac:(discriminate) (fun _ => TS) ltac:(congruence) IO' eq_refl EA NO EL) as (l & b & EQ & HB & _).
  exists l. destruct b; [|exact EQ]. exfalso. assert (L := proj1 HB eq_refl). rewrite EC, cc2_big in L. assert (B := cc2_above (k2 1) 1 (conj (k2_pos 1) k2_one) ltac:(lra)). change (o_cond_max_abs o2) with (10 ^ 16) in L. lra.
Qed.
Print Assumptions C38_largest_condition_number_and_failures_refuted.

(** ** standard deviations 1 and 1: the hypotheses of the theorems on C25, C38 and C40 are met *)
Lemma cc2_one : 1 < cc2 1 1 1 1 <= o_cond_max_abs o2.
Proof.
  unfold cc2, lam. cbv zeta. assert (KP := k2_pos 1). assert (KO := k2_one). set (k := k2 1) in *. assert (EB := eta2_b).
  assert (E2 : eta2 < 1) by (assert (/ 10 ^ 9 <= / 1) by (apply Rinv_le_contravar; simpl; lra); lra).
  replace (disc _ _ _) with k. 2:{ unfold disc. replace (((_ - _) / 2) ^ 2 + (1 * k) ^ 2) with (k ^ 2) by field. rewrite sqrt_pow2; lra. }
  set (a := (_ + _) / 2). assert (HA : 2 < a < 4) by (unfold a; lra). change (o_cond_max_abs o2) with (10 ^ 16). split.
  - apply Rlt_div_r; lra.
  - apply Rle_div_l; [lra|]. apply Rle_trans with (10 ^ 16 * 1); [|apply Rmult_le_compat_l; [apply pow_le|]; lra]. simpl. lra.
Qed.
Example C40_hypotheses_met : exists d hp A, set_data o2 x2 f2 (SdOk (sd2 1 1)) None SdNone None = Ok d /\ setup_hp_idx4optz o2 d lk_default = Ok info2 /\
  set_hp_optz_info o2 d lk_default true false true false false = Ok info2 /\ d_noisy d = true /\
  hp_vec2dataclass d info2 v2 = Ok hp /\ lkd_input o2 d hp /\ o_eta_const o2 = true /\ noise_pos hp /\ theta_grad_supported o2 d hp /\ o_well o2 <> Wprecon /\
  la_fro la2 = false /\ lkd_matrix o2 d (la_cond la2) true hp = Ok A /\ numpy_ok la2 A /\ eigenvalues_at_least A (/ 10 ^ 16) /\ 1 < cond2 A <= o_cond_max_abs o2.
Proof.
  destruct (data2 1 1 ltac:(lra) ltac:(lra)) as (d & E & En & G0 & Ex & Eb & NS & K1 & Es & EN & FZ & Fo & Go & Ee & HI).
  destruct (info2_ok d EN Fo Go) as (IO & IO').
  destruct (call2 1 1 d la2 v2 ltac:(lra) ltac:(lra) E eq_refl) as (hp & A & ED & LI & NP & TS & EA & NO & PD & MA & EC). cbn [v2 vat] in EC, MA. rewrite pow10_0 in EC, MA.
  assert (EL := eig_low 1 1 1 1 A ltac:(lra) ltac:(lra) MA (proj1 PD) k2_one ltac:(lra)).
  exists d, hp, A. do 14 (split; [first [assumption|reflexivity|discriminate]|]). rewrite EC. apply cc2_one.
Qed.
Example C25_optimiser_hypotheses_met : exists d hp l g, setup_hp_idx4optz o2 d lk_default = Ok info2 /\ set_hp_optz_info o2 d lk_default true false true false false = Ok info2 /\
  d_noisy d = true /\ hp_vec2dataclass d info2 v2 = Ok hp /\ lkd_input o2 d hp /\ noise_pos hp /\ theta_grad_supported o2 d hp /\
  calc_lkd_all la2 o2 d lk_default info2 hp (b_use_cond_cstr o2) true (lk_adj lk_default) = Ok (l, true) /\
  snd (return_optz_grad la2 (new_obj o2 lk_default d info2) v2) = Ok g /\ vlen g = 2%nat.
Proof.
  destruct C40_hypotheses_met as (d & hp & A & E & IO & IO' & EN & ED & LI & HE & NP & TS & HW & LF & EA & NO & EL & CL).
  destruct (C40_condition_number_and_gradient la2 o2 d lk_default true false true false false info2 hp (lk_adj lk_default) A LI eq_refl NP HW (fun _ => TS) ltac:(congruence) IO' eq_refl EA NO EL) as (l & b & EQ & HB & _).
  assert (b = true) by (apply HB, CL). subst b.
  destruct (constraint_core la2 o2 lk_default d info2 false true false false v2 hp A IO' ltac:(intros _; exact EN) ltac:(discriminate) ltac:(discriminate) ltac:(congruence) ED LI eq_refl NP TS HW eq_refl EA NO EL) as (st & gn & FR & SC & _ & _ & C1 & _).
  destruct (C1 (proj2 CL)) as (_ & y & g1 & _ & SV & SG & _).
  assert (EG : snd (return_optz_grad la2 (new_obj o2 lk_default d info2) v2) = Ok (vmap Ropp g1)).
  { unfold return_optz_grad, lift_st, calc_store_likelihood. cbn [array_equal new_obj g_last]. fold (new_obj o2 lk_default d info2). rewrite FR. cbn [snd bind]. rewrite SG. reflexivity. }
  exists d, hp, l, (vmap Ropp g1). do 9 (split; [first [assumption|exact EQ]|]).
  destruct (C25_value_and_gradient_given_to_the_optimiser_partial la2 o2 lk_default d info2 [] false true false false v2 (vmap Ropp g1) hp l true IO' ltac:(intros _; exact EN) ltac:(discriminate) ltac:(discriminate) ltac:(cbn; congruence) ED LI eq_refl NP TS EQ ltac:(cbn; congruence) EG) as (_ & L & _). exact L.
Qed.
Example C38_hypotheses_met : exists d cond rep, set_data o2 x2 f2 (SdOk (sd2 1 1)) None SdNone None = Ok d /\ setup_hp_idx4optz o2 d lk_default = Ok info2 /\
  snd (optz_hp_max_lkd la2 (fun x0 => ODone x0 (Some 0) true 3%nat) (new_obj o2 lk_default d info2) [v2]) = Ok (v2, cond, rep).
Proof.
  destruct C40_hypotheses_met as (d & hp & A & E & IO & _). destruct (optz2 1 1 d ltac:(lra) ltac:(lra) E) as (cond & rep & EO). exists d, cond, rep. split; [exact E|]. split; [exact IO|exact EO].
Qed.
