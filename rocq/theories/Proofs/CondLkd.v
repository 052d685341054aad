(** * The condition number and its gradient as returned with the likelihood *)
From Coq Require Import Reals List Arith Bool Lia Lra.
From Coquelicot Require Import Coquelicot.
From Verif.Base Require Import NpLite NpFacts Deriv.
From Verif.Spec Require Import KernelSpec LinAlgSpec GpSpec HpSpec DataSpec LkdSpec CondSpec.
From Verif.Model Require Import KernelSqExp KernelMatern KernelRatQuad KernelDispatch CommonFun WellCond Rescaling GpState Chol Cov HpInfo HpGrad MeanFun Lkd.
From Verif.Proofs Require Import KernTac LinAlg CholCorrect Det CovStruct StateFacts NoiseFacts NuggetCond NuggetMain HpInfoFacts HpGradFacts HpGradMain HpGradFree LinDeriv LkdCore LkdFacts LkdMain CondGrad.
Import ListNotations.
Local Open Scope R_scope.

(** calc_cond_L2_w_grad *)
Lemma L2_spec la o A T D n : nr A = n -> nc A = n -> (0 < n)%nat -> symmetric A -> tspec D n n T (tat T) -> o_well o <> Wprecon -> eigensystem A (la_eig la A) ->
  exists u w g, dotp n u u = 1 /\ dotp n w w = 1 /\ (forall v, qform A w * dotp n v v <= qform A v) /\ (forall v, qform A v <= qform A u * dotp n v v) /\
    calc_cond_L2_w_grad la o A (Some T) = Ok (la_cond2 la A, Some g) /\ vlen g = D /\
    forall r, (r < D)%nat -> vat g r = (bform n (tat T r) u u - la_cond2 la A * bform n (tat T r) w w) / Rmax (qform A w) (/ 10 ^ 16).
Proof.
  intros EA EC NP SY (T1 & T2 & T3 & _) W HE. unfold calc_cond_L2_w_grad. cbv zeta. destruct (la_eig la A) as [ev E]. cbn [eigensystem] in HE. rewrite EA in HE. destruct HE as (L1 & L2 & L3 & HV & HL & HU).
  destruct (rok_ex _ _ (argmax_ok ev ltac:(rewrite L1; exact NP))) as (a & Ea & Ha & Ma).
  destruct (rok_ex _ _ (argmax_ok (vmap Ropp ev) ltac:(cbn [vmap vlen]; rewrite L1; exact NP))) as (b & Eb & Hb & Mb). cbn [vmap vlen vat] in Hb, Mb.
  rewrite L1 in Ha, Hb, Ma, Mb.
  destruct (HV a Ha) as (UA & VA), (HV b Hb) as (UB & VB).
  assert (Q : forall k, (k < n)%nat -> dotp n (column E k) (column E k) = 1 -> (forall i, (i < n)%nat -> mv A (column E k) i = vat ev k * column E k i) -> qform A (column E k) = vat ev k).
  { intros k _ H1 H2. rewrite qform_bform by congruence. rewrite EA, bform_dotp. transitivity (dotp n (column E k) (fun i => vat ev k * column E k i)).
    - apply dotp_ext; [reflexivity|]. intros i Hi. rewrite <- H2 by exact Hi. unfold mv. rewrite EC. reflexivity.
    - rewrite dotp_scal_r, H1. ring. }
  assert (QA := Q a Ha UA VA). assert (QB := Q b Hb UB VB).
  rewrite EA, T2, T3, Nat.eqb_refl. cbn [andb assert_]. unfold argmin. rewrite Ea, Eb, !bind_Ok.
  replace (match o_well o with Wprecon => _ | _ => _ end) with
    (imin <- Ok b;; Dm <- msub (vouter (mkvec (nr E) (fun i => mat_at E i a)) (mkvec (nr E) (fun i => mat_at E i a))) (mscal (la_cond2 la A) (vouter (mkvec (nr E) (fun i => mat_at E i b)) (mkvec (nr E) (fun i => mat_at E i b)))) ;;
      g <- einsum_ijk_jk T Dm ;; Ok (la_cond2 la A, Some (vmap (fun x => x / Rmax (vat ev b) (/ 10 ^ 16)) g))); [|destruct (o_well o); solve [reflexivity|exfalso; congruence]].
  rewrite bind_Ok.
  assert (M1 : forall k, mspec n n (vouter (mkvec (nr E) (fun i => mat_at E i k)) (mkvec (nr E) (fun i => mat_at E i k))) (fun i j => column E k i * column E k j)).
  { intros k. split; [exact L2|]. split; [exact L2|]. reflexivity. }
  destruct (rok_ex _ _ (mzip_ok Rminus n n _ _ _ _ (M1 a) (mscal_spec n n _ _ (la_cond2 la A) (M1 b)))) as (Dm & ED & D1 & D2 & D3).
  unfold msub. rewrite ED, bind_Ok. unfold einsum_ijk_jk. rewrite D1, D2, T2, T3, Nat.eqb_refl. cbn [andb]. rewrite bind_Ok.
  exists (column E a), (column E b). eexists. split; [exact UA|]. split; [exact UB|]. split; [|split; [|split; [reflexivity|split; [cbn [vmap vlen]; exact T1|]]]].
  - intros v. rewrite QB. apply HL. intros k Hk. specialize (Mb k Hk). lra.
  - intros v. rewrite QA. apply HU. intros k Hk. apply (Ma k Hk).
  - intros r Hr. cbn [vmap vat]. rewrite QB. f_equal. unfold bform. rewrite <- rsum_scal, <- rsum_minus. apply rsum_ext. intros i Hi. rewrite <- rsum_scal, <- rsum_minus. apply rsum_ext. intros j Hj.
    rewrite D3 by assumption. ring.
Qed.

Section M.
Variables (la : npla) (o : gpopt) (d : gpdata) (lo : lkopt) (ht hk hv hf hg : bool) (info : hpinfo) (e : R).
Hypothesis HR : gp_ready o d.
Hypothesis HRt : snd (get_scl_x_w_dist d) = d_Rt d.
Hypothesis HI : set_hp_optz_info o d lo ht hk hv hf hg = Ok info.
Hypothesis He : d_etaK d = Some e.
Notation N := (cN o d).
Notation X := (fst (get_scl_x_w_dist d)).
Notation sl := (slots (o_dim o) ht hk hv hf hg).

Lemma noisy_slices hp vK Kern : hyper_ok o hp -> hp_varK hp = Some vK -> (ht = true -> theta_grad_supported o d hp) -> mspec N N Kern (ckf o d hp X) ->
  exists T, calc_Kcov_grad_hp o d info hp Kern (d_Rt d) = Ok T /\ slices_ok o d ht hk hv hf hg e hp vK T.
Proof.
  intros Hh HvK HS KO.
  destruct (Kcov_grad_ok o d HR lo ht hk hv hf hg info hp e vK HI He HvK Hh HS Kern KO) as (T & Dth & Dal & ET & D1 & D2 & T1 & T2).
  exists T. split; [exact ET|]. split; [exact T1|]. intros r s t Hr Hg.
  assert (SO : slot_ok o d s).
  { destruct (info_inv _ _ _ _ _ _ _ _ _ HI) as (Ik & If & Ig & _). apply slots_nth in Hr. destruct s; cbn [slot_ok]; auto; try tauto.
    destruct Hr as (-> & _). specialize (Ik eq_refl). destruct (o_kernel o); try discriminate; reflexivity. }
  split; [exact SO|]. intros i j Hi Hj. rewrite (T2 r s Hr i j Hi Hj). assert (Hr' := Hr). apply slots_nth in Hr'.
  apply (kcovE_derive o d HR hp e vK s t Dth Dal Hh SO Hg); auto.
  - intros ->. cbn [hp_get] in Hg. congruence.
  - intros k i' j' -> Hk Hi' Hj'. apply D1; auto. apply Hr'.
  - intros i' j' -> Hi' Hj'. apply D2; auto. apply Hr'.
Qed.
Lemma free_slices hp : hyper_ok o hp -> hv = false /\ hf = false /\ hg = false -> (ht = true -> theta_grad_supported o d hp) ->
  exists T, calc_KernGrad_hp o d info hp (d_Rt d) None = Ok T /\ slices_ok o d ht hk hv hf hg e hp 1 T.
Proof.
  intros Hh (E1 & E2 & E3) HS. revert HI. unfold slices_ok. rewrite E1, E2, E3. intros HI'.
  destruct (KernGrad_hp_ok o d HR lo ht hk info hp e HI' He Hh HS) as (T & Dth & Dal & ET & D1 & D2 & T1 & T2).
  exists T. split; [exact ET|]. split; [exact T1|]. intros r s t Hr Hg.
  assert (Hr' := Hr). apply slots_nth in Hr'.
  assert (SO : slot_ok o d s).
  { destruct (info_inv _ _ _ _ _ _ _ _ _ HI') as (Ik & If & Ig & _). destruct s; cbn [slot_ok]; try (destruct Hr'; discriminate); [tauto|].
    destruct Hr' as (-> & _). specialize (Ik eq_refl). destruct (o_kernel o); try discriminate; reflexivity. }
  split; [exact SO|]. intros i j Hi Hj. rewrite (T2 r s Hr i j Hi Hj).
  apply (kcovE_derive o d HR hp e 1 s t Dth Dal Hh SO Hg); auto.
  - intros ->. destruct Hr'; discriminate.
  - intros k i' j' -> Hk Hi' Hj'. apply D1; auto. apply Hr'.
  - intros i' j' -> Hi' Hj'. apply D2; auto. apply Hr'.
Qed.
End M.

(** without the preconditioner a condition number above the limit stops the factorisation, and nothing else does *)
Lemma chofac_iff o d condf Rt hp varK bn out : o_well o <> Wprecon -> calc_all_K_w_chofac o d condf Rt hp None true true varK bn = Ok out ->
  k_cond out = Some (condf (k_Kcov out)) /\ (o_cond_max_abs o < condf (k_Kcov out) -> k_chofac out = None).
Proof.
  intros W H. unfold calc_all_K_w_chofac in H. cbv zeta in H. binv H x1 E1. binv H x2 E2. binv H x3 E3. binv H x4 E4. binv H x5 E5. binv H x6 E6.
  assert (H' : exists S x7, Ok (mkkout x5 None None (mscal x3 S) (if (if Rlt_dec (o_cond_max_abs o) (condf (mscal x3 S)) then false else true) then match cho_factor (mscal x3 S) false with Ok c => Some c | Err _ => None end else None) (Some (condf (mscal x3 S))) (fst x7) (snd x7)) = Ok out).
  { destruct (o_well o); try (exfalso; congruence); binv H x7 E7; destruct x7 as [a b]; binv H x8 E8; exists x8, (a, b); exact H. }
  destruct H' as (S & x7 & H'). injection H' as <-. cbn [k_cond k_Kcov k_chofac]. split; [reflexivity|]. intros L. destruct (Rlt_dec (o_cond_max_abs o) (condf (mscal x3 S))); [reflexivity|contradiction].
Qed.
