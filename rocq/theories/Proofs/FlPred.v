(** Rounding errors of the preconditioner and of the covariances with an evaluation point; factorisations that read half of a matrix. *)
From Coq Require Import Reals List Arith Bool Lia Lra Psatz.
From Verif.Base Require Import NpLite NpFacts.
From Verif.Spec Require Import KernelSpec LinAlgSpec GpSpec FloatSpec FloatKernSpec.
From Verif.Model Require Import KernelSqExp KernelMatern KernelRatQuad KernelDispatch CommonFun WellCond Rescaling GpState Chol CholFl Cov EvalModel EvalFl KernFl.
From Verif.Proofs Require Import CondBound KernGradBlocks KernelExact RadialCalculus Jets Psd StateFacts NoiseFacts LinAlg CholCorrect FlChol FlMargin FlSolve FlSol FlTarget FlFac FlKern FlCov FlCovMain CovStruct NuggetCond NuggetMain CondMain EvalFacts.
Import ListNotations.
Local Open Scope R_scope.

Section P.
Variables (u : R) (m : machine).
Hypothesis Hm : machine_rounds u m.
Variables (o : gpopt) (d : gpdata) (hp : hpv).
Hypothesis HR : gp_ready o d.
Hypothesis Hh : hyper_ok o hp.
Hypothesis Hk : o_kernel o <> RatQu.
Hypothesis HG : (1 + u) ^ (o_dim o + 5) <= 11 / 10.
Notation X := (fst (get_scl_x_w_dist d)).
Notation kf := (ckf o d hp X).
Notation N := (cN o d).
Notation th := (vat (hp_theta hp)).
Notation rp := (row_point (d_n_eval d) (d_n_grad d) (d_bvec d)).
Notation rd := (row_dir (d_n_eval d) (d_n_grad d)).
Let Hu := ro_u _ _ (mr_ar _ _ Hm).

(** ** the covariances with the value at a point *)
Lemma kxf_entry x r : (r < N)%nat -> kxf o d hp x r = entry_ex (o_dim o) th (fun i => mat_at X (rp r) i - x i) (o_kernel o) (rd r) None.
Proof.
  intros Hr. assert (D1 := rd_ok o d r Hr). unfold kxf, cobs, rowobs, unradr, row_dir, row_point in *.
  assert (PH : forall a x, phi0 (o_kernel o) a x = phi0 (o_kernel o) 0 x /\ phi1 (o_kernel o) a x = phi1 (o_kernel o) 0 x /\ phi2 (o_kernel o) a x = phi2 (o_kernel o) 0 x) by (intros; destruct (o_kernel o); [auto|auto|congruence]).
  assert (SL : forall l q, osel (Some l) q = nth q (true_idx l) 0%nat) by reflexivity.
  destruct (r <? d_n_eval d)%nat; cbn [obs_at kjet rjet entry_ex dir_ok] in *; unfold kjet; cbn [rjet]; rewrite ?sqd_cut, ?cut_lt by assumption; unfold sqd, rows_of;
    match goal with |- context [phi0 _ ?a ?x] => destruct (PH a x) as (P0 & P1 & P2) | |- context [phi1 _ ?a ?x] => destruct (PH a x) as (P0 & P1 & P2) end; rewrite ?P0, ?P1, ?P2; destruct (d_bvec d); rewrite ?SL; reflexivity.
Qed.
Lemma cross_err x r : (r < N)%nat -> Rabs (cross_fl m o d hp x r - kxf o d hp x r) <= kern_err u (o_dim o) * sqrt (kf r r).
Proof.
  intros Hr. assert (S2 := Hs2 u m Hm o HG). rewrite (kxf_entry x r Hr), <- (osize_sqrt o d hp Hh Hk r Hr). unfold cross_fl. cbv zeta.
  assert (TP := th_pos o hp Hh).
  assert (DF : forall q, (q < o_dim o)%nat -> fac u 1 (mat_at X (rp r) q - x q) (f_sub (m_ar m) (mat_at X (rp r) q) (x q))).
  { intros q _. apply near_fac; [exact Hu|apply (u1 u m Hm S2)|apply (ro_sub _ _ (mr_ar _ _ Hm))]. }
  assert (E := entry_err u m Hm S2 (o_dim o) th _ _ TP DF HG (o_kernel o) (rd r) None Hk (rd_ok o d r Hr) I).
  cbn [osize] in E. rewrite Rmult_1_r in E. exact E.
Qed.

(** ** the preconditioner *)
Variables (condf : mat -> R) (noise : option vec) (cc cnd : bool) (varK : option R) (bn : bool) (vK : R).
Hypothesis Hno : noise_arg_ok o d hp noise.
Hypothesis Hv : eff_varK hp varK bn = Some vK.
Hypothesis Hvp : 0 < vK.
Notation f := (noise_fn d hp noise).
Notation K := (data_kern_fl m o d hp).
Notation cal := (calc_all_K_w_chofac o d condf (d_Rt d) hp noise cc cnd varK bn).
Lemma precon_pvec nzh : o_well o = Wprecon -> o_use_grad o = true -> (forall i, (i < N)%nat -> near u (f i) (nzh i)) ->
  rok cal (fun out => forall Kp p, k_Kprec out = Some Kp -> (forall i, (i < N)%nat -> 0 < p i) ->
    (forall i, (i < N)%nat -> mat_at (k_Kcov out) i i = p i * p i * mat_at Kp i i) ->
    forall i, (i < N)%nat -> fac u ((o_dim o + 16) / 2 + 1) (p i) (pvec_fl m K nzh vK i)).
Proof.
  intros Hw Hug HZ. assert (S2 := Hs2 u m Hm o HG). eapply rok_mono; [apply (call_precon o d condf hp noise cc cnd varK bn vK HR Hh Hno Hv Hvp Hw Hug)|].
  intros out (e & Kc & Kp & H1 & H2 & H3 & H4 & H5 & H6 & H7 & H8 & H9 & H10 & H11 & H12 & _) Kp' p E Pp Ed i Hi. rewrite H7 in E. injection E as <-.
  destruct (noise_vector o d hp HR Hh noise Hno) as (nv & _ & HN).
  assert (HZ' : forall i, (i < N)%nat -> fac u 1 (f i) (nzh i)) by (intros; apply (near0_fac u m Hm o HG), HZ; assumption).
  assert (PF : forall i, (i < N)%nat -> 0 <= f i) by (intros; apply HN; assumption).
  assert (KPos : forall i, (i < N)%nat -> 0 < kf i i) by (intros; apply ckf_pos; assumption).
  assert (KD : kcor kf f vK i i = 1) by (apply (kcor_diag N); auto).
  assert (KNP := kn_pos N kf f vK KPos PF Hvp i Hi).
  assert (EP : p i = sqrt (kn kf f vK i i)).
  { destruct H8 as (_ & _ & P8). destruct H9 as (_ & _ & P9). assert (E := Ed i Hi). rewrite P8, P9, KD in E by assumption. unfold dl in E. rewrite Nat.eqb_refl in E.
    assert (V : 0 < vK * (1 + e)) by (apply Rmult_lt_0_compat; lra).
    assert (Q : p i * p i = kn kf f vK i i). { apply (Rmult_eq_reg_r (vK * (1 + e))); [|lra]. rewrite <- E. ring. }
    rewrite <- Q, sqrt_square by (left; apply Pp, Hi). reflexivity. }
  rewrite EP. unfold pvec_fl. apply (sqt_fac u m Hm S2); [lra|].
  apply (fac_mono u Hu (o_dim o + 15)); [apply hf_lo|].
  apply (knh_diag u m Hm S2 N (o_dim o) kf K f nzh vK KPos (data_kern_diag u m Hm o d hp Hh Hk HG) PF HZ' Hvp i Hi).
Qed.
End P.

(** ** a matrix scaled by a preconditioner with rounding errors *)
Lemma pd_unscale A B p : pd A -> nr A = nr B -> nr B = nc B -> (forall i, (i < nr A)%nat -> 0 < p i) ->
  (forall i j, (i < nr A)%nat -> (j < nr A)%nat -> mat_at A i j = p i * p j * mat_at B i j) -> pd B.
Proof.
  intros HP E1 E2 Hp E. assert (SA := pd_square A HP). split.
  - split; [exact E2|]. rewrite <- E1. intros i j Hi Hj. assert (Y := proj2 (proj1 HP) i j Hi Hj). rewrite !E in Y by assumption. assert (P := Hp i Hi). assert (Q := Hp j Hj).
    apply (Rmult_eq_reg_l (p i * p j)); [rewrite Y; ring|]. assert (0 < p i * p j) by (apply Rmult_lt_0_compat; assumption). lra.
  - intros v (i & Hi & Hv). rewrite <- E1 in Hi. assert (Q : 0 < qform A (fun k => v k / p k)).
    { apply HP. exists i. split; [exact Hi|]. assert (P := Hp i Hi). intros Z. apply Hv. unfold Rdiv in Z. apply Rmult_integral in Z. destruct Z as [Z|Z]; [exact Z|]. assert (0 < / p i) by (apply Rinv_0_lt_compat; exact P). lra. }
    rewrite qform_bform in * by congruence. rewrite <- E1. replace (bform (nr A) (mat_at B) v v) with (bform (nr A) (mat_at A) (fun k => v k / p k) (fun k => v k / p k)); [exact Q|].
    unfold bform. apply rsum_ext; intros r Hr. apply rsum_ext; intros s Hs. rewrite E by assumption. assert (P1 := Hp r Hr). assert (P2 := Hp s Hs). field. lra.
Qed.
(** the error in relation to a matrix that is scaled with the rounded preconditioner *)
Definition scl_err (u e : R) (n : nat) : R := (1 + e) * (1 + gam u (2 * n)) - 1.
Lemma rescaled_factor : forall (u e k : R) (ar : arith) (A B Bh : mat) (p ph : nat -> R) (n : nat),
  0 <= u -> pd A -> pd B -> nr A = nr B -> (forall i, (i < nr A)%nat -> 0 < p i) ->
  (forall i j, (i < nr A)%nat -> (j < nr A)%nat -> mat_at A i j = p i * p j * mat_at B i j) ->
  scaled_cond_le B k -> computed e B Bh -> 0 <= e ->
  (forall i, (i < nr A)%nat -> fac u n (p i) (ph i)) ->
  exists B', pd B' /\ nr A = nr B' /\ (forall i, (i < nr A)%nat -> 0 < ph i) /\
  (forall i j, (i < nr A)%nat -> (j < nr A)%nat -> mat_at A i j = ph i * ph j * mat_at B' i j) /\
  scaled_cond_le B' k /\ computed (scl_err u e n) B' Bh.
Proof.
  intros u e k ar A B Bh p ph n Hu HPA HPB EN Hp EA HC (C1 & C2 & C3 & C4) He HF.
  assert (Php : forall i, (i < nr A)%nat -> 0 < ph i) by (intros i Hi; apply (fac_pos u Hu n (p i)); auto).
  set (B' := mkmat (nr A) (nr A) (fun i j => mat_at A i j / (ph i * ph j))). assert (SB := pd_square B HPB). assert (SA := pd_square A HPA).
  assert (EB : forall i j, (i < nr A)%nat -> (j < nr A)%nat -> mat_at A i j = ph i * ph j * mat_at B' i j).
  { intros i j Hi Hj. unfold B'. cbn [mat_at]. assert (P := Php i Hi). assert (Q := Php j Hj). field. lra. }
  assert (PB' : pd B') by (apply (pd_unscale A B' ph); auto).
  assert (EQ : forall i j, (i < nr A)%nat -> (j < nr A)%nat -> mat_at B' i j = (p i / ph i) * (p j / ph j) * mat_at B i j).
  { intros i j Hi Hj. unfold B'. cbn [mat_at]. rewrite EA by assumption. assert (P := Php i Hi). assert (Q := Php j Hj). field. lra. }
  assert (RP : forall i, (i < nr A)%nat -> 0 < p i / ph i) by (intros i Hi; apply Rdiv_lt_0_compat; auto).
  exists B'. split; [exact PB'|]. split; [reflexivity|]. split; [exact Php|]. split; [exact EB|]. split.
  - apply (scaled_cond_diag B' B (fun i => p i / ph i)); auto; cbn [B' nr nc]; congruence.
  - split; [cbn [B' nr]; congruence|]. split; [cbn [B' nc]; congruence|]. split; [exact C3|]. cbn [B' nr]. intros i j Hi Hj.
    assert (Hi' := Hi). assert (Hj' := Hj). rewrite EN in Hi', Hj'. assert (X := C4 i j Hi' Hj').
    assert (PD : forall q, (q < nr A)%nat -> 0 < mat_at B q q) by (intros q Hq; apply pd_diag; [exact HPB|congruence]).
    assert (SZ : forall q, (q < nr A)%nat -> sqrt (mat_at B' q q) = p q / ph q * sqrt (mat_at B q q)).
    { intros q Hq. rewrite EQ by assumption. assert (R := RP q Hq). rewrite sqrt_mult_alt by nra. rewrite sqrt_square by lra. reflexivity. }
    destruct (HF i Hi) as (fi & Ei & Fi), (HF j Hj) as (fj & Ej & Fj). assert (Pi := Hp i Hi). assert (Pj := Hp j Hj). assert (Qi := rng_pos u Hu _ _ Fi). assert (Qj := rng_pos u Hu _ _ Fj).
    assert (Ri : p i / ph i = / fi) by (rewrite Ei; field; lra). assert (Rj : p j / ph j = / fj) by (rewrite Ej; field; lra).
    unfold size_ij. rewrite !SZ, EQ by assumption. rewrite Ri, Rj. change (mat_at B i j) with (mat_at B i j). set (s := sqrt (mat_at B i i) * sqrt (mat_at B j j)).
    assert (CS : Rabs (mat_at B i j) <= s).
    { apply (psd_cs (nr B) (mat_at B)); auto; try (apply PD; assumption). intros; apply HPB; assumption. apply psd_of, HPB. }
    fold (size_ij B i j) in s. assert (Fij := rng_mult u Hu _ _ _ _ Fi Fj). assert (G := rng_err u Hu _ _ Fij). replace (n + n)%nat with (2 * n)%nat in * by lia. destruct Fij as (_ & G2).
    assert (S0 : 0 <= s) by (unfold s, size_ij; apply Rmult_le_pos; apply sqrt_pos).
    replace (mat_at Bh i j - / fi * / fj * mat_at B i j) with (/ fi * / fj * ((mat_at Bh i j - mat_at B i j) * (fi * fj) + mat_at B i j * (fi * fj - 1))) by (field; lra).
    rewrite Rabs_mult, (Rabs_right (/ fi * / fj)) by (apply Rle_ge; left; apply Rmult_lt_0_compat; apply Rinv_0_lt_compat; assumption).
    replace (scl_err u e n * (/ fi * sqrt (mat_at B i i) * (/ fj * sqrt (mat_at B j j)))) with (/ fi * / fj * (scl_err u e n * s)) by (unfold s, size_ij; ring).
    apply Rmult_le_compat_l; [left; apply Rmult_lt_0_compat; apply Rinv_0_lt_compat; assumption|].
    eapply Rle_trans; [apply Rabs_triang|]. rewrite !Rabs_mult, (Rabs_right fi), (Rabs_right fj) by lra.
    assert (FF : 0 <= fi * fj <= 1 + gam u (2 * n)) by (split; [apply Rmult_le_pos; lra|unfold gam; lra]).
    assert (T1 : Rabs (mat_at Bh i j - mat_at B i j) * (fi * fj) <= e * s * (1 + gam u (2 * n))) by (apply Rmult_le_compat; [apply Rabs_pos|lra|exact X|lra]).
    assert (T2 : Rabs (mat_at B i j) * Rabs (fi * fj - 1) <= s * gam u (2 * n)) by (apply Rmult_le_compat; [apply Rabs_pos|apply Rabs_pos|exact CS|exact G]).
    unfold scl_err. lra.
Qed.
