(** * C70: the covariance matrix in floating-point arithmetic

    Vocabulary: [Spec/FloatSpec.v], [Spec/FloatKernSpec.v] (rounding errors).
    The theorems are about the kernels 'SqExp' and 'Ma5f2'. *)
From Coq Require Import Reals List Arith Bool Lia Lra Psatz.
From Verif.Base Require Import NpLite NpFacts.
From Verif.Spec Require Import KernelSpec LinAlgSpec GpSpec FloatSpec FloatKernSpec.
From Verif.Model Require Import KernelSqExp KernelMatern KernelRatQuad KernelDispatch CommonFun WellCond Rescaling GpState Chol CholFl Cov KernFl.
From Verif.Proofs Require Import CondBound CovStruct StateFacts NoiseFacts LinAlg CholCorrect FlChol FlMargin FlSolve FlSol FlTarget FlFac FlKern FlCov FlCovMain Det NuggetCond NuggetMain CondMain.
From Verif.Props Require Import CondProps FloatProps.
Import ListNotations.
Local Open Scope R_scope.

(** ** The kernel matrix.  Whatever the scaled points and the theta (small or large), every entry of the kernel matrix computed
    by the formulas of the code, with a rounding error in every operation, is right up to [kern_err] in relation to the
    diagonal: there is no cancellation that would make an entry useless. *)
Theorem C70_kernel_matrix_entries :
  forall (o : gpopt) (d : gpdata) (hp : hpv) (u : R) (m : machine),
  opts_ok o -> data_set o d -> hyper_ok o hp -> o_kernel o <> RatQu ->
  machine_rounds u m -> (1 + u) ^ (o_dim o + 5) <= 11 / 10 ->
  exists K, calc_Kern (o_use_grad o) (o_kernel o) (d_Rt d) (hp_theta hp) (hp_kernel hp) (d_bvec d) (d_bvec d) = Ok K /\
    nr K = d_n_data d /\ nc K = d_n_data d /\
    forall i j, (i < d_n_data d)%nat -> (j < d_n_data d)%nat ->
      Rabs (data_kern_fl m o d hp i j - mat_at K i j) <= kern_err u (o_dim o) * size_ij K i j.
Proof.
  intros o d hp u m H1 H2 H3 Hk Hm HG. assert (RD := ready o d H1 H2). assert (EC : d_n_data d = cN o d) by apply (wf_n _ _ (gr_wf _ _ RD)). rewrite EC.
  destruct (kern_ok o d hp _ (gr_pts _ _ RD) H3) as (K & EK & E1 & E2 & E3). exists K. split; [exact EK|]. split; [exact E1|]. split; [exact E2|].
  intros i j Hi Hj. unfold size_ij. rewrite !E3 by assumption. apply (data_kern_err u m Hm); assumption.
Qed.
Print Assumptions C70_kernel_matrix_entries.

(** the same factor whether the matrix is symmetric or only one half of it is correct *)
Definition same_triangle (c c' : mat * bool) : Prop :=
  nr (fst c) = nr (fst c') /\ nc (fst c) = nc (fst c') /\ snd c = snd c' /\ forall i j, (j <= i)%nat -> chol_read c i j = chol_read c' i j.
Lemma read_half_factor ar A lower c' : nr A = nc A -> cho_factor_fl ar (read_half lower A) lower = Ok c' -> exists c, cho_factor_fl ar A lower = Ok c /\ same_triangle c c'.
Proof.
  intros SQ. unfold cho_factor_fl. cbn [read_half nr nc mat_at]. rewrite <- SQ, Nat.eqb_refl. cbv zeta.
  set (a' := fun i j : nat => if lower then _ else _). set (a := fun i j : nat => if lower then (if (j <=? i)%nat then mat_at A i j else mat_at A j i) else (if (i <=? j)%nat then mat_at A i j else mat_at A j i)).
  assert (EA : a' = a).
  { apply FunctionalExtensionality.functional_extensionality; intros i. apply FunctionalExtensionality.functional_extensionality; intros j. unfold a', a.
    destruct lower; destruct (Nat.leb_spec j i), (Nat.leb_spec i j); try reflexivity; try lia; replace j with i by lia; reflexivity. }
  rewrite EA. destruct (chol_steps_fl ar (nr A) 0 a (fun _ _ => 0)) as [L|]; cbn [bind]; [|discriminate]. intros E. injection E as <-. eexists. split; [reflexivity|].
  repeat (split; [reflexivity|]). intros i j Hij. unfold chol_read. cbn [snd fst mat_at]. apply Nat.leb_le in Hij. destruct lower; rewrite Hij; reflexivity.
Qed.
Lemma fsub_fl_ext ar L L' b n : (forall i j, (j <= i)%nat -> L i j = L' i j) -> forall k, (k <= n)%nat -> fsub_fl ar L b k = fsub_fl ar L' b k.
Proof.
  intros H. induction k as [|k IH]; intros Hk; [reflexivity|]. cbn [fsub_fl]. rewrite IH by lia. cbv zeta. rewrite (H k k) by lia.
  rewrite (pairs_ext (L k) (fsub_fl ar L' b k) (L' k) (fsub_fl ar L' b k) k); [reflexivity|]. intros j Hj. split; [apply H; lia|reflexivity].
Qed.
Lemma bsub_fl_ext ar L L' y n : (forall i j, (j <= i)%nat -> L i j = L' i j) -> forall k x, bsub_fl ar L y n k x = bsub_fl ar L' y n k x.
Proof.
  intros H. induction k as [|k IH]; intros x; [reflexivity|]. cbn [bsub_fl]. rewrite IH, (H k k) by lia.
  erewrite (pairs_ext (fun j => L (S k + j)%nat k) _ (fun j => L' (S k + j)%nat k)); [reflexivity|]. intros j Hj. split; [apply H; lia|reflexivity].
Qed.
Lemma same_solve ar c c' b : same_triangle c c' -> cho_solve_fl ar c b = cho_solve_fl ar c' b.
Proof.
  intros (E1 & _ & _ & E3). unfold cho_solve_fl. rewrite E1. cbv zeta. rewrite (fsub_fl_ext ar _ _ b (nr (fst c')) E3) by lia. apply bsub_fl_ext, E3.
Qed.

(** ** The matrix that is factored, with 'precon': [nz] are the noise variances, right up to one rounding (std**2); the points
    and hyperparameters are exact.  Everything else is computed: kernel matrix, noise, preconditioner, nugget. *)
Theorem C70_precon_matrix :
  forall (o : gpopt) (d : gpdata) (condf : mat -> R) (hp : hpv) (noise : option vec) (varK : option R) (bn : bool) (vK : R) (calc_chofac calc_cond : bool) (u : R) (m : machine),
  o_well o = Wprecon -> o_use_grad o = true -> o_kernel o <> RatQu ->
  opts_ok o -> data_set o d -> hyper_ok o hp -> noise_arg_ok o d hp noise -> eff_varK hp varK bn = Some vK -> 0 < vK ->
  machine_rounds u m -> (1 + u) ^ (o_dim o + 5) <= 11 / 10 ->
  exists out Kp nv, calc_all_K_w_chofac o d condf (d_Rt d) hp noise calc_chofac calc_cond varK bn = Ok out /\
    k_Kprec out = Some Kp /\ nr Kp = d_n_data d /\ match noise with Some v => Ok v | None => calc_noise_vec o d hp end = Ok nv /\
    forall nz, (forall i, (i < d_n_data d)%nat -> near u (vat nv i) (nz i)) ->
    exists Kh, factored_fl m o d hp nz vK = Ok Kh /\
      computed (cov_err u (o_dim o) (if o_eta_const o then 0 else eta_err u (o_dim o) (d_n_data d) * (INR (d_n_data d) / (o_target o - 1)))) Kp (read_half true Kh).
Proof.
  intros o d condf hp noise varK bn vK cc cnd u m Hw Hu Hk H5 H6 H7 H8 H9 H10 Hm HG. assert (RD := ready o d H5 H6).
  assert (EC : d_n_data d = cN o d) by apply (wf_n _ _ (gr_wf _ _ RD)). rewrite EC. destruct (noise_vector o d hp RD H7 noise H8) as (nv & EN & HN).
  destruct (rok_ex _ _ (call_precon o d condf hp noise cc cnd varK bn vK RD H7 H8 H9 H10 Hw Hu)) as (out & EO & e & Kc & Kp & _ & _ & _ & _ & _ & _ & E7 & (E8 & _) & _).
  exists out, Kp, nv. split; [exact EO|]. split; [exact E7|]. split; [exact E8|]. split; [exact EN|]. intros nz HZ.
  assert (HZ' : forall i, (i < cN o d)%nat -> near u (noise_fn d hp noise i) (nz i)) by (intros i Hi; destruct (HN i Hi) as (<- & _); apply HZ, Hi).
  destruct (rok_inv _ _ _ (precon_computed u m Hm o d hp RD H7 Hk HG condf noise cc cnd varK bn vK H8 H9 H10 nz Hw Hu HZ') EO) as (Kp' & Kh & P1 & _ & P3 & _ & _ & P4).
  rewrite E7 in P1. injection P1 as <-. exists Kh. split; [exact P3|]. exact P4.
Qed.
Print Assumptions C70_precon_matrix.

(** ** Without preconditioning. *)
Theorem C70_plain_matrix :
  forall (o : gpopt) (d : gpdata) (condf : mat -> R) (hp : hpv) (noise : option vec) (varK : option R) (bn : bool) (vK : R) (calc_chofac calc_cond : bool) (u : R) (m : machine),
  o_well o <> Wprecon -> o_kernel o <> RatQu ->
  opts_ok o -> data_set o d -> hyper_ok o hp -> noise_arg_ok o d hp noise -> eff_varK hp varK bn = Some vK -> 0 < vK ->
  machine_rounds u m -> (1 + u) ^ (o_dim o + 5) <= 11 / 10 ->
  exists out nv, calc_all_K_w_chofac o d condf (d_Rt d) hp noise calc_chofac calc_cond varK bn = Ok out /\
    nr (k_Kcov out) = d_n_data d /\ match noise with Some v => Ok v | None => calc_noise_vec o d hp end = Ok nv /\
    forall nz, (forall i, (i < d_n_data d)%nat -> near u (vat nv i) (nz i)) ->
    exists Kh, factored_fl m o d hp nz vK = Ok Kh /\
      computed (cov_err u (o_dim o) (if o_eta_const o then 0 else eta_err u (o_dim o) (d_n_data d))) (k_Kcov out) (read_half false Kh).
Proof.
  intros o d condf hp noise varK bn vK cc cnd u m Hw Hk H5 H6 H7 H8 H9 H10 Hm HG. assert (RD := ready o d H5 H6).
  assert (EC : d_n_data d = cN o d) by apply (wf_n _ _ (gr_wf _ _ RD)). rewrite EC. destruct (noise_vector o d hp RD H7 noise H8) as (nv & EN & HN).
  destruct (rok_ex _ _ (call_plain o d condf hp noise cc cnd varK bn vK RD H7 H8 H9 H10 Hw)) as (out & EO & e & _ & _ & _ & _ & _ & _ & (E8 & _) & _).
  exists out, nv. split; [exact EO|]. split; [exact E8|]. split; [exact EN|]. intros nz HZ.
  assert (HZ' : forall i, (i < cN o d)%nat -> near u (noise_fn d hp noise i) (nz i)) by (intros i Hi; destruct (HN i Hi) as (<- & _); apply HZ, Hi).
  destruct (rok_inv _ _ _ (plain_computed u m Hm o d hp RD H7 Hk HG condf noise cc cnd varK bn vK H8 H9 H10 nz Hw HZ') EO) as (Kh & _ & P3 & _ & _ & P4).
  exists Kh. split; [exact P3|]. exact P4.
Qed.
Print Assumptions C70_plain_matrix.
