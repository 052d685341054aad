(** * Property C42: evaluations asked for by the optimiser, and a whole optimisation, do not raise. *)
From Coq Require Import Reals List Arith Bool Lia Lra.
From Coquelicot Require Import Coquelicot.
From Verif.Base Require Import NpLite NpFacts.
From Verif.Spec Require Import KernelSpec LinAlgSpec GpSpec HpSpec DataSpec LkdSpec OptzSpec RescaleSpec EvalSpec CondSpec StartSpec.
From Verif.Model Require Import KernelSqExp KernelMatern KernelRatQuad KernelDispatch CommonFun WellCond Rescaling GpState Chol Cov HpInfo HpGrad MeanFun Lkd OptzLkd RescaleLoop History StartPts OptzHp.
From Verif.Proofs Require Import KernTac LinAlg CholCorrect Det CovStruct StateFacts NoiseFacts NuggetCond NuggetMain HpInfoFacts HpGradFacts HpGradMain LinDeriv LkdCore LkdFacts LkdMain CondGrad CondFro CondLkd OptzHpFacts.
From Verif.Props Require Import CondProps DataProps HpGradProps LkdProps EvalProps EvalProps2 OptzProps CondGradProps OptzHpProps.
Import ListNotations.
Local Open Scope R_scope.

(** np.linalg.eig returns as many values and vectors as the matrix has rows *)
Definition eig_shapes (la : npla) : Prop := forall A, nr A = nc A -> let (ev, E) := la_eig la A in vlen ev = nr A /\ nr E = nr A /\ nc E = nr A.
Lemma L2_total la o A T D n : nr A = n -> nc A = n -> (0 < n)%nat -> tspec D n n T (tat T) -> o_well o <> Wprecon -> eig_shapes la ->
  exists g, calc_cond_L2_w_grad la o A (Some T) = Ok (la_cond2 la A, Some g) /\ vlen g = D.
Proof.
  intros EA EC NP (T1 & T2 & T3 & T4) W HE. unfold calc_cond_L2_w_grad. cbv zeta. specialize (HE A ltac:(congruence)). destruct (la_eig la A) as [ev E]. rewrite EA in HE. destruct HE as (L1 & L2 & L3).
  destruct (rok_ex _ _ (argmax_ok ev ltac:(rewrite L1; exact NP))) as (a & Ea & Ha & _).
  destruct (rok_ex _ _ (argmax_ok (vmap Ropp ev) ltac:(cbn; rewrite L1; exact NP))) as (b & Eb & Hb & _).
  assert (X : exists g, (_ <- assert_ ((nr A =? tr T) && (tr T =? tc T)) ;; imax <- argmax ev ;; imin <- argmin ev ;;
          D0 <- msub (vouter (mkvec (nr E) (fun i => mat_at E i imax)) (mkvec (nr E) (fun i => mat_at E i imax)))
                    (mscal (la_cond2 la A) (vouter (mkvec (nr E) (fun i => mat_at E i imin)) (mkvec (nr E) (fun i => mat_at E i imin)))) ;;
          g <- einsum_ijk_jk T D0 ;; Ok (la_cond2 la A, Some (vmap (fun x => x / Rmax (vat ev imin) (/ 10 ^ 16)) g))) = Ok (la_cond2 la A, Some g) /\ vlen g = D).
  { rewrite EA, T2, T3, Nat.eqb_refl. cbn [andb assert_]. rewrite bind_Ok, Ea, bind_Ok. unfold argmin. rewrite Eb, bind_Ok. rewrite L2.
    match goal with |- context [msub ?x ?y] => destruct (rok_ex _ _ (mzip_ok Rminus n n x y (mat_at x) (mat_at y) (conj eq_refl (conj eq_refl (fun _ _ _ _ => eq_refl))) (conj eq_refl (conj eq_refl (fun _ _ _ _ => eq_refl))))) as (Dm & ED & DM) end.
    unfold msub. rewrite ED, bind_Ok. destruct (rok_ex _ _ (einsum2_ok n D Dm T _ (tat T) DM (conj T1 (conj T2 (conj T3 T4))))) as (g & Eg & G1 & _). rewrite Eg, bind_Ok. eexists. split; [reflexivity|]. exact G1. }
  destruct X as (g & X & LG). exists g. split; [|exact LG]. destruct (o_well o); try (exfalso; congruence); exact X.
Qed.

(** the first diagonal entry of the covariance matrix: varK (1 + nugget) + noise variance of the first value *)
Lemma first_entry la o d hp vK cnd A : lkd_input o d hp -> o_well o <> Wprecon -> lkd_matrix o d (la_cond la) cnd hp = Ok A ->
  (if d_noisy d then hp_varK hp = Some vK else vK = 1) -> exists e, 0 < e /\ mat_at A 0 0 = vK * (1 + e) + noise_fn d hp None 0 /\ 0 <= noise_fn d hp None 0 /\ (o_eta_const o = true -> d_etaK d = Some e).
Proof.
  intros HI HW EA HvK. assert (RD := li_ready o d hp HI). assert (NA := li_noise o d hp HI). assert (NP := call_N o d RD). assert (NN := gr_n _ _ RD).
  destruct HI as (H1 & H2 & H3 & H4 & H5 & H6 & H7). set (va := if d_noisy d then None else Some 1).
  assert (EV : eff_varK hp va false = Some vK) by (unfold eff_varK, va; destruct (d_noisy d); rewrite HvK; reflexivity).
  assert (VP : 0 < vK) by (destruct (d_noisy d); [destruct (H7 eq_refl) as (v' & E1 & E2); congruence|lra]).
  destruct (rok_ex _ _ (call_plain o d (la_cond la) hp None true cnd va false vK RD H4 NA EV VP HW)) as (out & EO & e & EI & EP & _ & _ & _ & _ & (M1 & M2 & M3) & _).
  assert (A = k_Kcov out).
  { revert EA. unfold lkd_matrix, va in *. destruct (d_noisy d) eqn:Hz; [unfold Kcov_of; rewrite EO|unfold Kern_of, calc_Kern_w_chofac; rewrite Hz; cbn [negb assert_]; rewrite bind_Ok, EO]; cbn [bind]; intros [= <-]; reflexivity. }
  subst A. exists e. split; [exact EP|]. split.
  - rewrite M3 by exact NP. unfold kn. rewrite (ckf_diag o d hp _ 0%nat NP). assert (U := unradr_F d 0%nat). destruct (unradr (d_n_eval d) (d_n_grad d) 0); [|lia]. unfold dl. cbn [Nat.eqb]. field. lra.
  - split; [unfold noise_fn; apply noise_row_nn; apply NA|]. intros EC. unfold eta_is in EI. rewrite EC in EI. exact EI.
Qed.
Lemma fro_total o A T D n cf : nr A = n -> nc A = n -> (0 < n)%nat -> pd A -> tspec D n n T (tat T) -> o_well o <> Wprecon -> 1 < mat_at A 0 0 -> chol_of cf A ->
  exists c g, calc_cond_fronorm_w_grad o A (Some cf) (Some T) = Ok (c, Some g) /\ vlen g = D.
Proof.
  intros N1 N2 NP PD ST W G CO. assert (KA : mspec n n A (mat_at A)) by (split; [exact N1|split; [exact N2|reflexivity]]). assert (HK := pd_pdf _ _ _ KA PD).
  unfold calc_cond_fronorm_w_grad. rewrite N1, N2. destruct (Nat.eqb_spec n 0); [lia|]. cbn [orb]. destruct (Rlt_dec 1 (mat_at A 0 0)); [|contradiction]. cbn [assert_]. rewrite bind_Ok.
  destruct (rok_ex _ _ (einv_ok n A (mat_at A) cf KA HK CO)) as (W1 & EW & WM). rewrite EW, bind_Ok. cbv zeta.
  destruct (rok_ex _ _ (csolve_mat n A (mat_at A) cf KA HK CO n W1 _ WM)) as (W2 & EW2 & WM2). destruct (rok_ex _ _ (csolve_mat n A (mat_at A) cf KA HK CO n W2 _ WM2)) as (W3 & EW3 & WM3).
  destruct (rok_ex _ _ (mzip_ok Rminus n n _ _ _ _ (mscal_spec n n _ _ (fro_norm W1 / fro_norm A) KA) (mmap_spec n n _ _ (fun x => x / (fro_norm W1 / fro_norm A)) WM3))) as (Dm & ED & DM).
  destruct (rok_ex _ _ (einsum2_ok n D Dm T _ (tat T) DM ST)) as (g & Eg & G1 & _).
  exists (fro_norm A * fro_norm W1), g. split; [|exact G1]. rewrite EW2, bind_Ok, EW3, bind_Ok. unfold msub. rewrite ED, bind_Ok, Eg, bind_Ok. destruct (o_well o); try (exfalso; congruence); reflexivity.
Qed.

(** what numpy has to provide: shapes, and the spectral norm unless the condition number is not used or the data are
    free of noise (with the Frobenius norm and noise evaluations can raise, see C42_frobenius_norm_refuted) *)
Definition numpy_total (la : npla) (o : gpopt) (d : gpdata) : Prop := eig_shapes la /\ (la_fro la = false \/ o_well o = Wprecon \/ d_noisy d = false).
(** a vector of the right length; the gradient with respect to the length scales is supported there (with the kernel
    Ma5f2 and gradients: no two scaled points closer than 1e-16, see C25) *)
Definition askable (s : gpobj) (v : vec) : Prop :=
  vlen v = hi_n (g_info s) /\ forall hp, hp_vec2dataclass (g_data s) (g_info s) v = Ok hp -> theta_grad_supported (g_opt s) (g_data s) hp.
(** no optimised noise variance for data without noise *)
Lemma noise_free_flags o d : opts_ok o -> data_set o d -> d_noisy d = false -> d_noisy d = false /\ d_opt_fval d = false /\ d_opt_fgrad d = false.
Proof.
  intros H1 H2 Z. split; [exact Z|]. destruct (opt_flags o d H2) as (F1 & F2). rewrite F1, F2. assert (W := gr_wf _ _ (ready o d H1 H2)).
  assert (DN : d_noisy d = negb (d_fval_zero d && d_fgrad_zero d)). { destruct H2 as (x & fv & sf & g & sg & b & _ & _ & _ & H). apply data_after_inv in H. apply H. }
  rewrite DN in Z. apply negb_false_iff, andb_true_iff in Z. destruct Z as (Z1 & Z2). rewrite (wf_zf _ _ W Z1). split; [reflexivity|]. destruct (o_use_grad o) eqn:U; [|reflexivity]. rewrite (wf_zg _ _ W Z2 U). reflexivity.
Qed.
Definition total_stored (s : gpobj) (st : stored) : Prop :=
  exists y g, s_val st = Some y /\ s_grad st = Some g /\ vlen g = hi_n (g_info s) /\
    (b_use_cond_cstr (g_opt s) = true -> exists c cg, s_cond st = Some c /\ s_cgrad st = Some cg /\ vlen cg = hi_n (g_info s)).
Lemma fresh_total la s v : optz_ready s -> numpy_total la (g_opt s) (g_data s) -> askable s v ->
  exists st, fresh_likelihood la s v false true = Ok st /\ total_stored s st.
Proof.
  intros (H1 & H2 & H3 & H4 & H5 & H6 & HI) (ES & LF) (LV & TS).
  destruct (C21_vector_round_trip _ _ _ _ _ _ _ _ v HI (fun e => e) (fun e => e) (fun e => e) LV) as (hp & ED & _). specialize (TS hp ED).
  destruct (decoded_ok _ _ _ _ v hp H1 H2 H3 H4 H5 H6 HI ED) as (LI & _). assert (HF := fun Z => noise_free_flags _ _ H1 H2 Z).
  destruct (C21_index_sets_partition _ _ _ _ _ _ _ _ _ HI) as (HN & HL & _).
  unfold fresh_likelihood. rewrite ED, bind_Ok. cbv zeta. unfold setup_hp_idx4optz in HI.
  set (o := g_opt s) in *. set (d := g_data s) in *. set (lo := g_lk s) in *. set (info := g_info s) in *.
  assert (LN : forall cnd l, calc_lkd_all la o d lo info hp cnd true (lk_adj lo) = Ok (l, true) -> exists y g1, l_ln l = Some y /\ l_ln_grad l = Some g1 /\ vlen g1 = hi_n info).
  { intros cnd l EL. destruct (lkd_call _ _ _ _ _ _ _ _ _ _ _ _ true _ _ LI HI (fun _ _ => TS) (fun _ Z => HF Z) EL) as (A' & _ & _ & _ & _ & T & HP).
    destruct (d_noisy d); [destruct HP as (X & _ & _ & _ & _ & (g1 & E1 & G1 & _) & _)|destruct HP as (X & _ & _ & _ & (g1 & E1 & G1 & _) & _)]; rewrite HN; eauto. }
  assert (CH : forall g, vlen g = hi_n info -> exists g', log_chain (hi_log info) v (Some g) = Ok (Some g') /\ vlen g' = hi_n info).
  { intros g Lg. unfold log_chain. rewrite HL, LV, Lg, Nat.eqb_refl. cbn [andb]. eexists. split; reflexivity. }
  destruct (wmtd_precon (o_well o)) as [W|W].
  - assert (UC : b_use_cond_cstr o = false) by (unfold b_use_cond_cstr; rewrite W; reflexivity). rewrite UC. cbn [orb].
    destruct (C25_evaluation_with_gradient_succeeds la o d lo _ _ _ _ _ info hp (lk_adj lo) LI (fun _ => TS) HF HI) as (l & EL). rewrite EL, bind_Ok. cbn [fst snd].
    destruct (LN _ _ EL) as (y & g1 & -> & -> & Lg). destruct (CH g1 Lg) as (g' & -> & Lg'). rewrite !bind_Ok. eexists. split; [reflexivity|]. exists y, g'. split; [reflexivity|]. split; [reflexivity|]. split; [exact Lg'|]. unfold o in UC. rewrite UC. discriminate.
  - assert (UC : b_use_cond_cstr o = true) by (unfold b_use_cond_cstr; destruct (o_well o); try (exfalso; congruence); reflexivity). rewrite UC. cbn [orb].
    destruct (li_eta o d hp LI) as (e & He & _).
    assert (VK : exists vK, if d_noisy d then hp_varK hp = Some vK else vK = 1).
    { destruct LI as (_ & _ & _ & _ & _ & _ & H7). destruct (d_noisy d); [destruct (H7 eq_refl) as (v0 & E & _); eauto|eauto]. }
    destruct VK as (vK & HvK).
    destruct (cond_call_any la o d lo _ _ _ _ _ info hp e vK LI W HI He (fun _ => TS) HF HvK) as (A & T & EA & N1 & N2 & PD & ST & Q). destruct (Q (lk_adj lo)) as (Q1 & Q2 & Q3).
    assert (NP := call_N o d (li_ready _ _ _ LI)).
    destruct (L2_total la o A T _ _ N1 N2 NP (proj1 ST) W ES) as (g2 & EL2 & LG2).
    assert (FT : d_noisy d = false -> forall cf, chol_of cf A -> exists c g, calc_cond_fronorm_w_grad o A (Some cf) (Some T) = Ok (c, Some g) /\ vlen g = length (slots (o_dim o) true (lk_optz_kernel lo && kernel_has_hp (o_kernel o)) (d_noisy d) (d_opt_fval d) (d_opt_fgrad d))).
    { intros Z cf CO. apply (fro_total o A T _ _ cf N1 N2 NP PD (proj1 ST) W); [|exact CO]. destruct (first_entry la o d hp vK true A LI W EA HvK) as (e0 & P0 & F0 & F1 & _). rewrite Z in HvK. subst vK. lra. }
    assert (EX : exists l b, calc_lkd_all la o d lo info hp true true (lk_adj lo) = Ok (l, b)).
    { destruct (la_fro la) eqn:LF'; [|exact (Q2 _ eq_refl EL2)]. destruct LF as [LF|[LF|LF]]; [discriminate|contradiction|]. apply Q3; auto; [eauto|]. intros cf CO. destruct (FT LF cf CO) as (c & g & E & _). eauto. }
    destruct EX as (l & b & EL). rewrite EL, bind_Ok. cbn [fst snd].
    assert (CG : exists c g, l_cond l = Some c /\ l_cond_grad l = Some g /\ vlen g = hi_n info).
    { rewrite HN. destruct (Q1 l b EL) as (_ & QL). destruct (la_fro la && b) eqn:FB.
      - apply andb_true_iff in FB. destruct FB as (FB & _). destruct LF as [LF|[LF|LF]]; [congruence|contradiction|]. destruct QL as (cf & c & CO & Ec & QL1 & QL2). destruct (FT LF cf CO) as (c' & g' & E' & L'). rewrite E' in Ec. injection Ec as <-. cbn [fst snd] in *. eauto.
      - destruct QL as (c & Ec & QL1 & QL2). rewrite EL2 in Ec. injection Ec as <-. cbn [fst snd] in *. eauto. }
    destruct CG as (cd & g & QL1 & QL2 & LG'). rewrite QL1, QL2.
    destruct b.
    + destruct (LN _ _ EL) as (y & g1 & -> & -> & Lg). destruct (CH g1 Lg) as (g' & -> & Lg'). destruct (CH g LG') as (g'' & -> & Lg''). rewrite !bind_Ok. eexists. split; [reflexivity|]. exists y, g'. split; [reflexivity|]. split; [reflexivity|]. split; [exact Lg'|]. intros _. do 2 eexists. split; [reflexivity|]. split; [reflexivity|exact Lg''].
    + cbn [neg_R neg_vec]. rewrite !bind_Ok. eexists. split; [reflexivity|]. do 2 eexists. split; [reflexivity|]. split; [reflexivity|]. split; [exact LG'|]. intros _. do 2 eexists. split; [reflexivity|]. split; [reflexivity|exact LG'].
Qed.

(** the optimiser asks only for vectors of [P], ends with one, and with a number *)
Inductive ends_in (P : vec -> Prop) : optimiser -> Prop :=
| ends_done x f b n : P x -> ends_in P (ODone x (Some f) b n)
| ends_val v k : P v -> (forall a, ends_in P (k a)) -> ends_in P (OVal v k)
| ends_grad v k : P v -> (forall a, ends_in P (k a)) -> ends_in P (OGrad v k)
| ends_cond v k : P v -> (forall a, ends_in P (k a)) -> ends_in P (OCond v k)
| ends_cgrad v k : P v -> (forall a, ends_in P (k a)) -> ends_in P (OCondGrad v k).
Lemma numpy_same la s s' : same_data s s' -> numpy_total la (g_opt s) (g_data s) -> numpy_total la (g_opt s') (g_data s').
Proof. intros (E1 & E2 & E3 & E4). rewrite E1, E3. auto. Qed.
Lemma ready_same s s' : same_data s s' -> optz_ready s -> optz_ready s'.
Proof. intros (E1 & E2 & E3 & E4). unfold optz_ready. rewrite E1, E2, E3, E4. auto. Qed.
Lemma askable_same s s' v : same_data s s' -> askable s v -> askable s' v.
Proof. intros (E1 & E2 & E3 & E4). unfold askable. rewrite E1, E3, E4. auto. Qed.
Lemma eval_total la s v : optz_ready s -> numpy_total la (g_opt s) (g_data s) -> clean s -> askable s v ->
  exists st, snd (calc_store_likelihood la s v false true) = Ok st /\ total_stored s st.
Proof. intros HR NT C A. destruct (eval_clean la s v false true C) as (E & _). rewrite E. apply fresh_total; assumption. Qed.
Lemma run_total la p : forall s0, numpy_total la (g_opt s0) (g_data s0) -> ends_in (askable s0) p -> forall s, optz_ready s -> clean s -> same_data s0 s ->
  exists r, snd (run_opt la s p) = Ok r /\ askable s0 (or_x r) /\ exists f, or_fun r = Some f.
Proof.
  intros s0 NT H.
  assert (STEP : forall (s : gpobj) v, optz_ready s -> clean s -> same_data s0 s -> askable s0 v ->
    exists s' st, calc_store_likelihood la s v false true = (s', Ok st) /\ total_stored s st /\ optz_ready s' /\ clean s' /\ same_data s0 s').
  { intros s v HR C SD A. destruct (eval_total la s v HR (numpy_same _ _ _ SD NT) C (askable_same _ _ _ SD A)) as (st & E & TS). destruct (eval_clean la s v false true C) as (_ & C' & SD').
    destruct (calc_store_likelihood la s v false true) as [s' r]. cbn [fst snd] in *. subst r. exists s', st. split; [reflexivity|]. split; [exact TS|]. split; [apply (ready_same s s'); assumption|]. split; [exact C'|]. eapply same_trans; eassumption. }
  induction H as [x f b n Px|v k Pv Hk IH|v k Pv Hk IH|v k Pv Hk IH|v k Pv Hk IH]; intros s HR C SD; cbn [run_opt].
  - eexists. split; [reflexivity|]. cbn [or_x or_fun]. split; [exact Px|eauto].
  - destruct (STEP s v HR C SD Pv) as (s' & st & E & (y & g & V & G & _) & B1 & B3 & B4). unfold return_optz_val, lift_st. rewrite E. cbn [fst snd bind]. rewrite V. cbn [neg_R]. apply IH; assumption.
  - destruct (STEP s v HR C SD Pv) as (s' & st & E & (y & g & V & G & _) & B1 & B3 & B4). unfold return_optz_grad, lift_st. rewrite E. cbn [fst snd bind]. rewrite G. cbn [neg_vec]. apply IH; assumption.
  - destruct (STEP s v HR C SD Pv) as (s' & st & E & _ & B1 & B3 & B4). unfold return_cond_val, lift_st. rewrite E. cbn [fst snd bind]. apply IH; assumption.
  - destruct (STEP s v HR C SD Pv) as (s' & st & E & _ & B1 & B3 & B4). unfold return_cond_grad, lift_st. rewrite E. cbn [fst snd bind]. apply IH; assumption.
Qed.
Lemma one_total la mini x0 st s : numpy_total la (g_opt s) (g_data s) -> optz_ready s -> clean s -> askable s x0 -> ends_in (askable s) (mini x0) ->
  exists c st', snd (optz_one la mini x0 s st) = Ok (c, st') /\ askable s (or_x (c_res c)) /\ exists f, or_fun (c_res c) = Some f.
Proof.
  intros NT HR C A HM. unfold optz_one. cbv zeta. set (use := b_use_cond_cstr (g_opt s)) in *.
  match goal with |- context [let (_, _) := ?p in _] => set (P := p) end.
  assert (Q : exists t st1, P = (t, Ok st1) /\ clean t /\ same_data s t).
  { unfold P. destruct use eqn:Eu; [|exists s, st; split; [reflexivity|]; split; [exact C|apply same_refl]].
    destruct (eval_total la s x0 HR NT C A) as (x & E & (y & g & V & G & _ & TC)). destruct (TC Eu) as (c & cg & TC1 & _).
    destruct (eval_clean la s x0 false true C) as (_ & C' & SD'). destruct (calc_store_likelihood la s x0 false true) as [s' r]. cbn [fst snd] in *. subst r. cbn [bind]. rewrite V, TC1. eauto. }
  destruct Q as (t & st1 & -> & C1 & S1).
  assert (S1' : same_data s (with_last t (L2nan (vlen x0)))) by exact S1.
  destruct (run_total la (mini x0) s NT HM (with_last t (L2nan (vlen x0))) (ready_same _ _ S1' HR) I S1') as (r & ER & AR & f & EF).
  destruct (run_agree la (mini x0) _ _ (I : clean (with_last t (L2nan (vlen x0)))) (I : clean (with_last t (L2nan (vlen x0)))) (same_refl _)) as (_ & R2 & _ & R4 & _).
  destruct (run_opt la (with_last t (L2nan (vlen x0))) (mini x0)) as [s2 r2]. cbn [fst snd] in *. subst r2.
  assert (S2 : same_data s s2) by (eapply same_trans; eassumption).
  destruct use eqn:Eu.
  - destruct (eval_total la s2 (or_x r) (ready_same _ _ S2 HR) (numpy_same _ _ _ S2 NT) R2 (askable_same _ _ _ S2 AR)) as (x & E & (y & g & V & G & _ & TC)).
    destruct TC as (c & cg & TC1 & _); [destruct S2 as (<- & _); exact Eu|]. unfold return_cond_val, lift_st. rewrite E. cbn [fst snd bind]. rewrite TC1. cbn [snd bind]. do 2 eexists. split; [reflexivity|]. cbn [c_res]. eauto.
  - cbn [snd]. do 2 eexists. split; [reflexivity|]. cbn [c_res]. eauto.
Qed.
Lemma all_total la mini x0s : forall s0, numpy_total la (g_opt s0) (g_data s0) -> forall st s, optz_ready s -> clean s -> same_data s0 s ->
  (forall x0, In x0 x0s -> askable s0 x0 /\ ends_in (askable s0) (mini x0)) ->
  exists l st', snd (optz_all la mini x0s s st) = Ok (l, st') /\ length l = length x0s /\ (forall c, In c l -> askable s0 (or_x (c_res c)) /\ exists f, or_fun (c_res c) = Some f).
Proof.
  intros s0 NT. induction x0s as [|x0 t IH]; intros st s HR C SD HP; cbn [optz_all].
  - exists [], st. split; [reflexivity|]. split; [reflexivity|]. intros c [].
  - destruct (HP x0 (or_introl eq_refl)) as (A & M). assert (M' : ends_in (askable s) (mini x0)).
    { clear - M SD. induction M; constructor; auto; apply (askable_same _ _ _ SD); assumption. }
    destruct (one_total la mini x0 st s (numpy_same _ _ _ SD NT) HR C (askable_same _ _ _ SD A) M') as (c & st1 & E & AC & F). destruct (one_agree la mini x0 st s s C C (same_refl s)) as (_ & C1 & _ & S1 & _).
    destruct (optz_one la mini x0 s st) as [s1 r1]. cbn [fst snd] in *. subst r1.
    destruct (IH st1 s1 (ready_same _ _ S1 HR) C1 (same_trans _ _ _ SD S1) (fun x Hx => HP x (or_intror Hx))) as (l & st2 & E2 & L & Q).
    destruct (optz_all la mini t s1 st1) as [s2 r2]. cbn [snd] in *. subst r2. cbn [bind fst snd]. exists (c :: l), st2. split; [reflexivity|]. split; [cbn; congruence|].
    intros c' [<-|Hc]; [split; [apply (askable_same s s0 _ (same_sym _ _ SD) AC)|exact F]|apply Q, Hc].
Qed.
Lemma optz_total la mini s0 s x0s : numpy_total la (g_opt s0) (g_data s0) -> optz_ready s -> clean s -> same_data s0 s -> x0s <> [] ->
  (forall x0, In x0 x0s -> askable s0 x0 /\ ends_in (askable s0) (mini x0)) ->
  exists best cond inf, snd (optz_hp_max_lkd la mini s x0s) = Ok (best, cond, inf) /\ askable s0 best.
Proof.
  intros NT HR C SD NE HP. unfold optz_hp_max_lkd. destruct (all_total la mini x0s s0 NT (mkis 0 0 None) s HR C SD HP) as (l & st & E & L & Q).
  destruct (optz_all la mini x0s s (mkis 0 0 None)) as [s1 r1]. cbn [snd] in *. subst r1. cbn [bind].
  assert (NL : exists c0, In c0 l). { destruct l as [|c0 l0]; [destruct x0s; [congruence|discriminate]|exists c0; left; reflexivity]. }
  assert (SB : exists c, select_best l = Ok c).
  { destruct (existsb c_good l) eqn:X.
    - assert (X' := X). apply existsb_exists in X'. destruct X' as (c & I1 & I2). destruct (Q c I1) as (_ & f & F). apply (select_best_total l c f I1); [intros _; exact I2|exact F].
    - destruct NL as (c0 & I0). destruct (Q c0 I0) as (_ & f & F). apply (select_best_total l c0 f I0); [|exact F]. intros (c' & J1 & J2). assert (existsb c_good l = true) by (apply existsb_exists; eauto). congruence. }
  destruct SB as (c & Ec). rewrite Ec. cbn [bind]. destruct (select_best_spec l c Ec) as (I1 & _). destruct (Q c I1) as (A & _).
  destruct (askable_same _ _ _ SD A) as (LV & _). destruct HR as (H1 & H2 & H3 & H4 & H5 & H6 & HI).
  destruct (C21_vector_round_trip _ _ _ _ _ _ _ _ (or_x (c_res c)) HI (fun e => e) (fun e => e) (fun e => e) LV) as (hp & ED & _). rewrite ED. cbn [bind].
  destruct (decoded_ok _ _ _ _ _ hp H1 H2 H3 H4 H5 H6 HI ED) as (LI & _).
  assert (EX : forall va vK, eff_varK hp va false = Some vK -> 0 < vK -> exists k, calc_all_K_w_chofac (g_opt s) (g_data s) (la_cond la) (snd (get_scl_x_w_dist (g_data s))) hp None false true va false = Ok k).
  { intros va vK V P. rewrite (li_Rt _ _ _ LI). destruct (wmtd_precon (o_well (g_opt s))) as [W|W].
    - destruct (rok_ex _ _ (call_precon _ _ (la_cond la) hp None false true va false vK (li_ready _ _ _ LI) ltac:(apply LI) (li_noise _ _ _ LI) V P W (H3 W))) as (k' & E' & _). eauto.
    - destruct (rok_ex _ _ (call_plain _ _ (la_cond la) hp None false true va false vK (li_ready _ _ _ LI) ltac:(apply LI) (li_noise _ _ _ LI) V P W)) as (k' & E' & _). eauto. }
  destruct (d_noisy (g_data s)) eqn:Z.
  - destruct LI as (_ & _ & _ & _ & _ & _ & H7). destruct (H7 Z) as (vK & V1 & V2). destruct (EX None vK ltac:(unfold eff_varK; rewrite V1; reflexivity) V2) as (k & ->). cbn [bind]. eauto 6.
  - unfold calc_Kern_w_chofac. rewrite Z. cbn [negb assert_]. rewrite bind_Ok. destruct (EX (Some 1) 1 eq_refl Rlt_0_1) as (k & ->). cbn [bind]. eauto 6.
Qed.
