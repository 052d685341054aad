(** * C40: the condition number that constrains the optimisation, and its gradient *)
From Coq Require Import Reals List Arith Bool Lia Lra.
From Coquelicot Require Import Coquelicot.
From Verif.Base Require Import NpLite NpFacts Deriv.
From Verif.Spec Require Import KernelSpec LinAlgSpec GpSpec HpSpec DataSpec LkdSpec OptzSpec CondSpec.
From Verif.Model Require Import KernelSqExp KernelMatern KernelRatQuad KernelDispatch CommonFun WellCond Rescaling GpState Chol Cov HpInfo HpGrad MeanFun Lkd OptzLkd.
From Verif.Proofs Require Import KernTac LinAlg CholCorrect Det CovStruct StateFacts NoiseFacts NuggetCond NuggetMain HpInfoFacts HpGradFacts HpGradMain HpGradFree LinDeriv LkdCore LkdFacts LkdMain CondGrad CondFro CondLkd.
From Verif.Props Require Import CondProps DataProps HpGradProps LkdProps OptzProps OptzProps2.
Import ListNotations.
Local Open Scope R_scope.

(** an evaluation with the condition number and gradients, without the preconditioner *)
Lemma cond_call_any la o d lo ht hk hv hf hg info hp e vK :
  lkd_input o d hp -> o_well o <> Wprecon -> set_hp_optz_info o d lo ht hk hv hf hg = Ok info -> d_etaK d = Some e ->
  (ht = true -> theta_grad_supported o d hp) -> (d_noisy d = false -> hv = false /\ hf = false /\ hg = false) ->
  (if d_noisy d then hp_varK hp = Some vK else vK = 1) ->
  exists A T, lkd_matrix o d (la_cond la) true hp = Ok A /\ nr A = cN o d /\ nc A = cN o d /\ pd A /\
    slices_ok o d ht hk hv hf hg e hp vK T /\
    forall adj,
      (forall l b, calc_lkd_all la o d lo info hp true true adj = Ok (l, b) ->
        (b = true <-> la_cond la A <= o_cond_max_abs o) /\
        if la_fro la && b then exists cf c, chol_of cf A /\ calc_cond_fronorm_w_grad o A (Some cf) (Some T) = Ok c /\ l_cond l = Some (fst c) /\ l_cond_grad l = snd c
        else exists c, calc_cond_L2_w_grad la o A (Some T) = Ok c /\ l_cond l = Some (fst c) /\ l_cond_grad l = snd c) /\
      (forall c, la_fro la = false -> calc_cond_L2_w_grad la o A (Some T) = Ok c -> exists l b, calc_lkd_all la o d lo info hp true true adj = Ok (l, b)) /\
      (la_fro la = true -> d_noisy d = false -> (exists c, calc_cond_L2_w_grad la o A (Some T) = Ok c) ->
        (forall cf, chol_of cf A -> exists c, calc_cond_fronorm_w_grad o A (Some cf) (Some T) = Ok c) -> exists l b, calc_lkd_all la o d lo info hp true true adj = Ok (l, b)).
Proof.
  intros HI HW Hi He HS HF HvK. assert (RD := li_ready o d hp HI). assert (NA := li_noise o d hp HI). assert (HRt := li_Rt o d hp HI).
  destruct HI as (H1 & H2 & H3 & H4 & H5 & H6 & H7). set (va := if d_noisy d then None else Some 1).
  assert (EV : eff_varK hp va false = Some vK) by (unfold eff_varK, va; destruct (d_noisy d); rewrite HvK; reflexivity).
  assert (VP : 0 < vK) by (destruct (d_noisy d); [destruct (H7 eq_refl) as (v' & E1 & E2); congruence|lra]).
  destruct (rok_ex _ _ (kcov_any o d (la_cond la) true hp va vK RD H3 H4 NA EV VP)) as (out & EO & KO & N1 & N2 & PD & CF & CG).
  assert (KC : mspec (cN o d) (cN o d) (k_Kcov out) (mat_at (k_Kcov out))) by (split; [exact N1|split; [exact N2|reflexivity]]).
  destruct (chofac_iff o d (la_cond la) (d_Rt d) hp va false out HW EO) as (_ & NO).
  assert (CI : (exists cf, k_chofac out = Some cf) <-> la_cond la (k_Kcov out) <= o_cond_max_abs o).
  { split; [|intros L; destruct (CG (fun _ _ => L)) as (c & Hc & _); eauto]. intros (c & Hc). destruct (Rle_lt_dec (la_cond la (k_Kcov out)) (o_cond_max_abs o)) as [L|L]; [exact L|]. rewrite (NO L) in Hc. discriminate. }
  assert (HK : pdf (cN o d) (mat_at (k_Kcov out))) by (apply (pd_pdf _ _ _ KC PD)).
  exists (k_Kcov out). unfold lkd_matrix, va in *. destruct (d_noisy d) eqn:Hz.
  - destruct (noisy_slices o d lo ht hk hv hf hg info e RD Hi He hp vK _ H4 HvK HS KO) as (T & ET & ST). exists T.
    split; [unfold Kcov_of; rewrite EO; reflexivity|]. split; [exact N1|]. split; [exact N2|]. split; [exact PD|]. split; [exact ST|]. intros adj.
    unfold calc_lkd_all. rewrite Hz, HRt, EO. cbv zeta. rewrite !bind_Ok, ET, !bind_Ok. cbn [andb].
    destruct (k_chofac out) as [cf|] eqn:EC.
    + destruct (rok_ex _ _ (lkd_noise_ok o d RD (k_Kcov out) _ cf KC HK (CF cf eq_refl) (length (slots (o_dim o) ht hk hv hf hg)) (Some T) (tat T) adj (proj1 ST))) as (l0 & El0 & _).
      rewrite El0, !bind_Ok. cbn [fst snd]. split.
      * intros l b H. binv H c Ec. injection H as <- <-. split; [split; [intros _; apply CI; eauto|reflexivity]|]. unfold calc_cond_w_grad in Ec. rewrite andb_true_r. destruct (la_fro la).
        -- exists cf, c. split; [apply CF; reflexivity|]. split; [exact Ec|]. split; reflexivity.
        -- exists c. split; [exact Ec|]. split; reflexivity.
      * split; [|discriminate]. intros c F Hc. unfold calc_cond_w_grad. rewrite F, Hc, bind_Ok. eauto.
    + split.
      * intros l b H. binv H r Er. binv Er c0 Ec0. injection Er as <-. cbn [fst snd] in H. binv H c Ec. injection H as <- <-.
        split; [split; [discriminate|intros L; apply CI in L; destruct L; discriminate]|]. rewrite andb_false_r. unfold calc_cond_w_grad in Ec. destruct (la_fro la).
        -- exfalso. unfold calc_cond_fronorm_w_grad in Ec. binv Ec z Ez. discriminate.
        -- exists c. split; [exact Ec|]. split; reflexivity.
      * split; [|discriminate]. intros c F Hc. rewrite Hc, !bind_Ok. unfold calc_cond_w_grad. rewrite F, Hc, bind_Ok. eauto.
  - subst vK. destruct (free_slices o d lo ht hk hv hf hg info e RD Hi He hp H4 (HF eq_refl) HS) as (T & ET & ST). exists T.
    split; [unfold Kern_of, calc_Kern_w_chofac; rewrite Hz; cbn [negb assert_]; rewrite bind_Ok, EO; reflexivity|]. split; [exact N1|]. split; [exact N2|]. split; [exact PD|]. split; [exact ST|]. intros adj.
    unfold calc_lkd_all, calc_Kern_w_chofac. rewrite Hz, HRt, EO. cbv zeta. cbn [negb assert_]. rewrite !bind_Ok, ET, !bind_Ok. cbn [andb].
    destruct (k_chofac out) as [cf|] eqn:EC.
    + destruct (rok_ex _ _ (lkd_wo_noise_ok o d RD (k_Kcov out) _ cf KC HK (CF cf eq_refl) (length (slots (o_dim o) ht hk hv hf hg)) (Some T) (tat T) lo adj (proj1 ST))) as (l0 & El0 & _).
      rewrite El0, !bind_Ok. cbn [fst snd]. split.
      * intros l b H. binv H c Ec. injection H as <- <-. split; [split; [intros _; apply CI; eauto|reflexivity]|]. unfold calc_cond_w_grad in Ec. rewrite andb_true_r. destruct (la_fro la).
        -- exists cf, c. split; [apply CF; reflexivity|]. split; [exact Ec|]. split; reflexivity.
        -- exists c. split; [exact Ec|]. split; reflexivity.
      * split; [intros c F Hc; unfold calc_cond_w_grad; rewrite F, Hc, bind_Ok; eauto|]. intros F _ _ HC. destruct (HC cf (CF cf eq_refl)) as (c & Hc). unfold calc_cond_w_grad. rewrite F, Hc, bind_Ok. eauto.
    + split.
      * intros l b H. binv H c Ec. injection H as <- <-.
        split; [split; [discriminate|intros L; apply CI in L; destruct L; discriminate]|]. rewrite andb_false_r.
        exists c. split; [exact Ec|]. split; reflexivity.
      * split; [intros c F Hc; rewrite Hc, !bind_Ok; eauto|]. intros F _ (c & Hc) _. rewrite Hc, !bind_Ok. eauto.
Qed.

Lemma cond_call la o d lo ht hk hv hf hg info hp e vK :
  lkd_input o d hp -> o_eta_const o = true -> o_well o <> Wprecon -> set_hp_optz_info o d lo ht hk hv hf hg = Ok info -> d_etaK d = Some e ->
  (ht = true -> theta_grad_supported o d hp) -> (d_noisy d = false -> hv = false /\ hf = false /\ hg = false) ->
  (if d_noisy d then hp_varK hp = Some vK else vK = 1) ->
  exists A T, lkd_matrix o d (la_cond la) true hp = Ok A /\ nr A = cN o d /\ nc A = cN o d /\ pd A /\ mspec (cN o d) (cN o d) A (kcovE o d hp e vK) /\
    slices_ok o d ht hk hv hf hg e hp vK T /\
    forall adj,
      (forall l b, calc_lkd_all la o d lo info hp true true adj = Ok (l, b) ->
        (b = true <-> la_cond la A <= o_cond_max_abs o) /\
        if la_fro la && b then exists cf c, chol_of cf A /\ calc_cond_fronorm_w_grad o A (Some cf) (Some T) = Ok c /\ l_cond l = Some (fst c) /\ l_cond_grad l = snd c
        else exists c, calc_cond_L2_w_grad la o A (Some T) = Ok c /\ l_cond l = Some (fst c) /\ l_cond_grad l = snd c) /\
      (forall c, la_fro la = false -> calc_cond_L2_w_grad la o A (Some T) = Ok c -> exists l b, calc_lkd_all la o d lo info hp true true adj = Ok (l, b)).
Proof.
  intros HI HE HW Hi He HS HF HvK. destruct (cond_call_any la o d lo ht hk hv hf hg info hp e vK HI HW Hi He HS HF HvK) as (A & T & EA & N1 & N2 & PD & ST & Q).
  exists A, T. split; [exact EA|]. split; [exact N1|]. split; [exact N2|]. split; [exact PD|]. split; [|split; [exact ST|intros adj; destruct (Q adj) as (Qa & Qb & _); exact (conj Qa Qb)]].
  assert (RD := li_ready o d hp HI). assert (NA := li_noise o d hp HI). destruct HI as (H1 & H2 & H3 & H4 & H5 & H6 & H7).
  set (va := if d_noisy d then None else Some 1).
  assert (EV : eff_varK hp va false = Some vK) by (unfold eff_varK, va; destruct (d_noisy d); rewrite HvK; reflexivity).
  assert (VP : 0 < vK) by (destruct (d_noisy d); [destruct (H7 eq_refl) as (v' & E1 & E2); congruence|lra]).
  destruct (rok_ex _ _ (kcov_call o d (la_cond la) true true RD HE H3 hp va false vK e H4 NA EV VP He)) as (out & EO & _ & KC & _).
  replace A with (k_Kcov out); [exact KC|]. unfold lkd_matrix, Kcov_of, Kern_of, calc_Kern_w_chofac in EA. unfold va in EO. destruct (d_noisy d); cbn [negb assert_] in EA; rewrite ?bind_Ok, EO in EA; cbn [bind] in EA; congruence.
Qed.

(** the condition number of the matrix of the likelihood, as a function of the hyperparameters *)
Definition cond_of (la : npla) (o : gpopt) (d : gpdata) (hp : hpv) : option R :=
  match lkd_matrix o d (la_cond la) true hp with Ok A => Some (cond2 A) | Err _ => None end.
Lemma near_matrix la o d hp e vK s v :
  lkd_input o d hp -> o_eta_const o = true -> d_etaK d = Some e -> slot_ok o d s -> hp_get hp s = Some v -> 0 < v ->
  (if d_noisy d then hp_varK hp = Some vK else vK = 1 /\ s <> HVarK) ->
  forall t, 0 < t -> exists A, lkd_matrix o d (la_cond la) true (hp_put hp s t) = Ok A /\ pd A /\
    mspec (cN o d) (cN o d) A (kcovE o d (hp_put hp s t) e (match s with HVarK => t | _ => vK end)).
Proof.
  intros HI HE He SO Hg Hv HvK t Ht. assert (RD := li_ready o d hp HI). assert (NA := li_noise o d hp HI).
  destruct HI as (H1 & H2 & H3 & H4 & H5 & H6 & H7).
  assert (VT : 0 < (match s with HVarK => t | _ => vK end)).
  { destruct s; auto; (destruct (d_noisy d); [destruct (H7 eq_refl) as (v' & E1 & E2); congruence|lra]). }
  set (va := if d_noisy d then None else Some 1).
  assert (EV : eff_varK (hp_put hp s t) va false = Some (match s with HVarK => t | _ => vK end)).
  { unfold eff_varK, va. destruct (d_noisy d).
    - destruct s; cbn [hp_put hp_varK]; rewrite ?HvK; reflexivity.
    - destruct HvK as (-> & Q). destruct s; try reflexivity. congruence. }
  destruct (rok_ex _ _ (kcov_call o d (la_cond la) true true RD HE H3 (hp_put hp s t) va false _ e (put_hyper o d hp s t H4 SO Ht) (put_noise o d hp s t NA SO Ht) EV VT He)) as (out & EO & _ & KC & PD & _).
  exists (k_Kcov out). split; [|split; [exact PD|exact KC]]. unfold lkd_matrix, Kcov_of, Kern_of, calc_Kern_w_chofac, va in *. destruct (d_noisy d); cbn [negb assert_]; rewrite ?bind_Ok, EO; reflexivity.
Qed.
Lemma slot_value_pos o d lo ht hk hv hf hg info hp r s v :
  lkd_input o d hp -> noise_pos hp -> (d_noisy d = false -> hv = false /\ hf = false /\ hg = false) -> set_hp_optz_info o d lo ht hk hv hf hg = Ok info ->
  nth_error (slots (o_dim o) ht hk hv hf hg) r = Some s -> hp_get hp s = Some v -> slot_ok o d s -> 0 < v /\ (d_noisy d = false -> s <> HVarK).
Proof.
  intros HI Hnp HF Hi Hr Hg SO.
  assert (NV : d_noisy d = false -> s <> HVarK). { intros Z ->. apply slots_nth in Hr. destruct (HF Z) as (-> & _). destruct Hr; discriminate. }
  split; [|exact NV]. destruct (d_noisy d) eqn:Hz.
  - destruct HI as (_ & _ & _ & H4 & _ & _ & H7). destruct (H7 Hz) as (vK' & E1 & E2). apply (slot_pos o hp vK' s v H4 Hnp E1 E2 Hg). destruct s; try (left; discriminate). right; exact SO.
  - destruct HI as (_ & _ & _ & (L & P0 & K) & _). destruct s; cbn [hp_get] in Hg; cbn [slot_ok] in SO.
    + destruct (Nat.ltb_spec e (vlen (hp_theta hp))); [|discriminate]. injection Hg as <-. apply P0. congruence.
    + rewrite SO in K. destruct K as (a & E & A). congruence.
    + exfalso. apply NV; reflexivity.
    + apply Hnp in Hg. exact Hg.
    + apply Hnp in Hg. exact Hg.
Qed.

Lemma near_derivative la o d lo ht hk hv hf hg info hp e vK A T r s v :
  lkd_input o d hp -> o_eta_const o = true -> noise_pos hp -> (d_noisy d = false -> hv = false /\ hf = false /\ hg = false) ->
  set_hp_optz_info o d lo ht hk hv hf hg = Ok info -> d_etaK d = Some e -> (if d_noisy d then hp_varK hp = Some vK else vK = 1) ->
  slices_ok o d ht hk hv hf hg e hp vK T -> lkd_matrix o d (la_cond la) true hp = Ok A ->
  nth_error (slots (o_dim o) ht hk hv hf hg) r = Some s -> hp_get hp s = Some v ->
  0 < v /\ exists M : R -> mat, M v = A /\ (forall t, 0 < t -> lkd_matrix o d (la_cond la) true (hp_put hp s t) = Ok (M t) /\ nr (M t) = cN o d /\ pd (M t)) /\
    forall i j, (i < cN o d)%nat -> (j < cN o d)%nat -> is_derive (fun t => mat_at (M t) i j) v (tat T r i j).
Proof.
  intros HI HE Hnp HF Hi He HvK (_ & ST) EA Hr Hg. destruct (ST r s v Hr Hg) as (SO & DD).
  destruct (slot_value_pos _ _ _ _ _ _ _ _ _ _ _ _ _ HI Hnp HF Hi Hr Hg SO) as (PV & NV). split; [exact PV|].
  assert (HvK' : if d_noisy d then hp_varK hp = Some vK else vK = 1 /\ s <> HVarK) by (destruct (d_noisy d); auto).
  assert (NM := near_matrix la o d hp e vK s v HI HE He SO Hg PV HvK').
  exists (fun t => match lkd_matrix o d (la_cond la) true (hp_put hp s t) with Ok B => B | Err _ => A end).
  split; [rewrite (hp_put_get hp s v Hg), EA; reflexivity|]. split.
  - intros t Ht. destruct (NM t Ht) as (B & EB & PB & (B1 & _)). rewrite EB. auto.
  - intros i j Hij Hj. apply (dR_ext_near (fun t => kcovE o d (hp_put hp s t) e (match s with HVarK => t | _ => vK end) i j) _ v _ v PV); [|apply DD; assumption].
    intros t Ht. assert (Pt := near_pos v t PV Ht). destruct (NM t Pt) as (B & EB & PB & (_ & _ & B3)). rewrite EB. symmetry. apply B3; assumption.
Qed.

(** The condition number returned with the likelihood is that of the matrix, and each entry of its gradient is the derivative
    with respect to the hyperparameter whenever the condition number is differentiable there. *)
Theorem C40_condition_number_and_gradient :
  forall (la : npla) (o : gpopt) (d : gpdata) (lo : lkopt) (ht hk hv hf hg : bool) (info : hpinfo) (hp : hpv) (adj : bool) (A : mat),
  lkd_input o d hp -> o_eta_const o = true -> noise_pos hp -> o_well o <> Wprecon ->
  (ht = true -> theta_grad_supported o d hp) -> (d_noisy d = false -> hv = false /\ hf = false /\ hg = false) ->
  set_hp_optz_info o d lo ht hk hv hf hg = Ok info ->
  la_fro la = false -> lkd_matrix o d (la_cond la) true hp = Ok A -> numpy_ok la A -> eigenvalues_at_least A (/ 10 ^ 16) ->
  exists l b, calc_lkd_all la o d lo info hp true true adj = Ok (l, b) /\
  (b = true <-> cond2 A <= o_cond_max_abs o) /\ l_cond l = Some (cond2 A) /\
  exists g, l_cond_grad l = Some g /\ vlen g = length (slots (o_dim o) ht hk hv hf hg) /\
    forall r s v dc, nth_error (slots (o_dim o) ht hk hv hf hg) r = Some s -> hp_get hp s = Some v ->
      is_derivative_of (fun t => cond_of la o d (hp_put hp s t)) v dc -> vat g r = dc.
Proof.
  intros la o d lo ht hk hv hf hg info hp adj A HI HE Hnp HW HS HF Hi LF EA (NC2 & NC & NE) HM.
  destruct (li_eta o d hp HI) as (e & He & _).
  assert (VK : exists vK, if d_noisy d then hp_varK hp = Some vK else vK = 1).
  { destruct HI as (_ & _ & _ & _ & _ & _ & H7). destruct (d_noisy d); [destruct (H7 eq_refl) as (v & E & _); eauto|eauto]. }
  destruct VK as (vK & HvK).
  destruct (cond_call la o d lo ht hk hv hf hg info hp e vK HI HE HW Hi He HS HF HvK) as (A' & T & EA' & N1 & N2 & PD & KC & ST & Q). assert (A' = A) by congruence. subst A'.
  destruct (Q adj) as (Q1 & Q2). clear Q. assert (RD := li_ready o d hp HI). assert (NP := call_N o d RD).
  destruct (L2_spec la o A T _ _ N1 N2 NP (proj1 PD) (proj1 ST) HW NE) as (u & w & g & Hu & Hw & HL & HU & EL2 & LG & HG).
  destruct (Q2 _ LF EL2) as (l & b & EL). exists l, b. split; [exact EL|]. destruct (Q1 l b EL) as (QB & QL). rewrite LF in QL. cbn [andb] in QL. destruct QL as (c & Ec & QL1 & QL2).
  rewrite EL2 in Ec. injection Ec as <-. cbn [fst snd] in QL1, QL2. rewrite (NC LF) in QB. rewrite NC2 in QL1, HG. split; [exact QB|]. split; [exact QL1|].
  exists g. split; [exact QL2|]. split; [exact LG|]. intros r s v dc Hr Hg (del & F & D1 & D2 & D3).
  assert (Lr : (r < length (slots (o_dim o) ht hk hv hf hg))%nat) by (apply nth_error_Some; congruence).
  destruct (near_derivative la o d lo ht hk hv hf hg info hp e vK A T r s v HI HE Hnp HF Hi He HvK ST EA Hr Hg) as (PV & M & MV & MN & MD).
  assert (P0 : 0 < Rmin del v) by (apply Rmin_glb_lt; assumption).
  assert (DC : is_derive (fun t => cond2 (M t)) v dc).
  { apply (dR_ext_near F _ v dc (Rmin del v) P0); [|exact D3]. intros t Ht.
    assert (T1 : Rabs (t - v) < del) by (eapply Rlt_le_trans; [exact Ht|apply Rmin_l]). assert (T2 : Rabs (t - v) < v) by (eapply Rlt_le_trans; [exact Ht|apply Rmin_r]).
    assert (Z := D2 t T1). unfold cond_of in Z. destruct (MN t (near_pos v t PV T2)) as (EM & _). rewrite EM in Z. injection Z as Z. symmetry. exact Z. }
  rewrite <- MV in HL, HU.
  rewrite (cond2_derivative (cN o d) M (tat T r) v u w dc v NP PV) with (1 := fun t Ht => proj2 (MN t (near_pos v t PV Ht))) (2 := MD) (3 := Hu) (4 := Hw) (5 := HL) (6 := HU) (7 := DC).
  rewrite HG by exact Lr. rewrite MV. f_equal. apply Rmax_left. specialize (HM w). rewrite N1, Hw in HM. lra.
Qed.
Print Assumptions C40_condition_number_and_gradient.

(** ** The Frobenius norm *)
Lemma fro_norm_spec N A K : mspec N N A K -> fro_norm A = frob N K.
Proof. intros (A1 & A2 & A3). unfold fro_norm, frob. rewrite A1, A2. f_equal. apply rsum_ext. intros i Hi. apply rsum_ext. intros j Hj. rewrite A3 by assumption. reflexivity. Qed.
Lemma kinv_inverse N K : pdf N K -> inverse_of N K (kinv N K).
Proof. intros HK i j Hi Hj. apply (ksol_ok N K (fun k => if (k =? j)%nat then 1 else 0) HK i Hi). Qed.
Lemma pd_cond_fro N A : nr A = N -> pd A -> cond_frobenius A (frob N (mat_at A) * frob N (kinv N (mat_at A))).
Proof. intros E PD. exists (kinv N (mat_at A)). rewrite E. split; [|reflexivity]. apply kinv_inverse, (cg_pdf N A E PD). Qed.

(** With cond_norm = 'fro': the condition number in the Frobenius norm and its derivatives, where the matrix is
    factorised (the code asserts that its first entry is above one). *)
Theorem C40_frobenius_condition_number_and_gradient :
  forall (la : npla) (o : gpopt) (d : gpdata) (lo : lkopt) (ht hk hv hf hg : bool) (info : hpinfo) (hp : hpv) (adj : bool) (A : mat) (l : lkdinfo),
  lkd_input o d hp -> o_eta_const o = true -> noise_pos hp -> o_well o <> Wprecon ->
  (ht = true -> theta_grad_supported o d hp) -> (d_noisy d = false -> hv = false /\ hf = false /\ hg = false) ->
  set_hp_optz_info o d lo ht hk hv hf hg = Ok info ->
  la_fro la = true -> lkd_matrix o d (la_cond la) true hp = Ok A -> calc_lkd_all la o d lo info hp true true adj = Ok (l, true) ->
  exists c g, l_cond l = Some c /\ cond_frobenius A c /\ l_cond_grad l = Some g /\ vlen g = length (slots (o_dim o) ht hk hv hf hg) /\
    forall r s v, nth_error (slots (o_dim o) ht hk hv hf hg) r = Some s -> hp_get hp s = Some v ->
      exists F, F v = c /\ (forall t, Rabs (t - v) < v -> exists At, lkd_matrix o d (la_cond la) true (hp_put hp s t) = Ok At /\ cond_frobenius At (F t)) /\ is_derive F v (vat g r).
Proof.
  intros la o d lo ht hk hv hf hg info hp adj A l HI HE Hnp HW HS HF Hi LF EA EL.
  destruct (li_eta o d hp HI) as (e & He & _).
  assert (VK : exists vK, if d_noisy d then hp_varK hp = Some vK else vK = 1).
  { destruct HI as (_ & _ & _ & _ & _ & _ & H7). destruct (d_noisy d); [destruct (H7 eq_refl) as (v & E & _); eauto|eauto]. }
  destruct VK as (vK & HvK).
  destruct (cond_call la o d lo ht hk hv hf hg info hp e vK HI HE HW Hi He HS HF HvK) as (A' & T & EA' & N1 & N2 & PD & KC & ST & Q). assert (A' = A) by congruence. subst A'.
  destruct (Q adj) as (Q1 & _). clear Q. assert (RD := li_ready o d hp HI). assert (NP := call_N o d RD).
  destruct (Q1 l true EL) as (_ & QL). rewrite LF in QL. cbn [andb] in QL. destruct QL as (cf & c & CO & Ec & QL1 & QL2). clear Q1.
  set (N := cN o d) in *. assert (KA : mspec N N A (mat_at A)) by (split; [exact N1|split; [exact N2|reflexivity]]). assert (HK := cg_pdf N A N1 PD).
  unfold calc_cond_fronorm_w_grad in Ec. binv Ec z Ez. rewrite N1 in Ec.
  destruct (rok_ex _ _ (einv_ok N A (mat_at A) cf KA HK CO)) as (W & EW & WM). rewrite EW, bind_Ok in Ec. cbv zeta in Ec.
  assert (Ec' : exists c', W2 <- cho_solve_mat cf W ;; W3 <- cho_solve_mat cf W2 ;; D <- msub (mscal (fro_norm W / fro_norm A) A) (mmap (fun x => x / (fro_norm W / fro_norm A)) W3) ;; g <- einsum_ijk_jk T D ;; Ok (fro_norm A * fro_norm W, Some g) = Ok c' /\ c = c').
  { exists c. split; [|reflexivity]. destruct (o_well o); try (exfalso; congruence); exact Ec. }
  destruct Ec' as (c' & E' & <-). clear Ec.
  destruct (rok_ex _ _ (csolve_mat N A (mat_at A) cf KA HK CO N W _ WM)) as (W2 & EW2 & WM2). rewrite EW2, bind_Ok in E'.
  destruct (rok_ex _ _ (csolve_mat N A (mat_at A) cf KA HK CO N W2 _ WM2)) as (W3 & EW3 & WM3). rewrite EW3, bind_Ok in E'.
  rewrite (fro_norm_spec N A _ KA), (fro_norm_spec N W _ WM) in E'. set (nK := frob N (mat_at A)) in *. set (nW := frob N (kinv N (mat_at A))) in *.
  destruct (rok_ex _ _ (mzip_ok Rminus N N _ _ _ _ (mscal_spec N N _ _ (nW / nK) KA) (mmap_spec N N _ _ (fun x => x / (nW / nK)) WM3))) as (Dm & ED & DM). unfold msub in E'. rewrite ED, bind_Ok in E'.
  destruct (rok_ex _ _ (einsum2_ok N (length (slots (o_dim o) ht hk hv hf hg)) Dm T _ (tat T) DM (proj1 ST))) as (g & Eg & G1 & G2). rewrite Eg, bind_Ok in E'. injection E' as <-. cbn [fst snd] in QL1, QL2.
  exists (nK * nW), g. split; [exact QL1|]. split; [apply pd_cond_fro; assumption|]. split; [exact QL2|]. split; [exact G1|]. intros r s v Hr Hg.
  assert (Lr : (r < length (slots (o_dim o) ht hk hv hf hg))%nat) by (apply nth_error_Some; congruence).
  destruct (near_derivative la o d lo ht hk hv hf hg info hp e vK A T r s v HI HE Hnp HF Hi He HvK ST EA Hr Hg) as (PV & M & MV & MN & MD). fold N in MN, MD.
  exists (fun t => frob N (mat_at (M t)) * frob N (kinv N (mat_at (M t)))). split; [rewrite MV; reflexivity|]. split.
  - intros t Ht. destruct (MN t (near_pos v t PV Ht)) as (E1 & E2 & E3). exists (M t). split; [exact E1|]. apply pd_cond_fro; assumption.
  - rewrite G2 by exact Lr. assert (LP : locally v (fun t => pdf N (mat_at (M t)))).
    { generalize (ball_pos v PV). apply filter_imp. intros t (Ht & _). destruct (MN t Ht) as (_ & E2 & E3). apply (cg_pdf N (M t) E2 E3). }
    destruct (fro_derive N v (fun t => mat_at (M t)) (tat T r) NP LP MD) as (_ & _ & DD). rewrite MV in DD. exact DD.
Qed.
Print Assumptions C40_frobenius_condition_number_and_gradient.

(** ** In the coordinates of the optimiser *)
(** the constrained quantity as a function of the vector of the optimisation *)
Definition constraint (la : npla) (o : gpopt) (d : gpdata) (info : hpinfo) (w : vec) : option R :=
  match hp_vec2dataclass d info w with Ok hp => cond_of la o d hp | Err _ => None end.
(** derivative of the decoding of one entry *)
Definition chain_factor (lo : lkopt) (s : hslot) (x : R) : R := if log_flag lo s then Rpower 10 x * ln 10 else 1.
Lemma chain_pos lo s x : 0 < chain_factor lo s x.
Proof. unfold chain_factor. destruct (log_flag lo s); [|lra]. apply Rmult_lt_0_compat; [apply exp_pos|]. rewrite <- ln_1. apply ln_increasing; lra. Qed.
Lemma undecode lo s x (f : R -> option R) dc : is_derivative_of (fun t => f (decoded lo s t)) x dc -> is_derivative_of f (decoded lo s x) (dc / chain_factor lo s x).
Proof.
  assert (LP : 0 < ln 10) by (rewrite <- ln_1; apply ln_increasing; lra).
  unfold decoded, chain_factor. destruct (log_flag lo s).
  - intros H. assert (PX : 0 < Rpower 10 x) by apply exp_pos.
    assert (EX : ln (Rpower 10 x) / ln 10 = x) by (unfold Rpower; rewrite ln_exp; field; lra).
    assert (D : is_derive (fun y => ln y / ln 10) (Rpower 10 x) (/ Rpower 10 x * / ln 10)).
    { unfold Rdiv. eapply dR_val; [apply dR_mult; [apply dR_ln, PX|apply dR_const]|]. cbv beta. ring. }
    rewrite <- EX in H at 1. apply (is_derivative_compose _ (fun y => ln y / ln 10) (Rpower 10 x) _ _ D) in H.
    destruct H as (del & F & H1 & H2 & H3). exists (Rmin del (Rpower 10 x)), F. split; [apply Rmin_glb_lt; assumption|]. split.
    + intros y Hy. assert (Y1 : Rabs (y - Rpower 10 x) < del) by (eapply Rlt_le_trans; [exact Hy|apply Rmin_l]). assert (Y2 : Rabs (y - Rpower 10 x) < Rpower 10 x) by (eapply Rlt_le_trans; [exact Hy|apply Rmin_r]).
      assert (PY := near_pos _ y PX Y2). rewrite <- (H2 y Y1). f_equal. unfold Rpower. replace (ln y / ln 10 * ln 10) with (ln y) by (field; lra). rewrite exp_ln by exact PY. reflexivity.
    + eapply dR_val; [exact H3|]. cbv beta. field. lra.
  - intros H. replace (dc / 1) with dc by field. exact H.
Qed.

Lemma constraint_core :
  forall (la : npla) (o : gpopt) (lo : lkopt) (d : gpdata) (info : hpinfo) (hk hv hf hg : bool) (v : vec) (hp : hpv) (A : mat),
  set_hp_optz_info o d lo true hk hv hf hg = Ok info ->
  (hv = true -> d_noisy d = true) -> (hf = true -> d_opt_fval d = true) -> (hg = true -> d_opt_fgrad d = true) ->
  (d_noisy d = false -> hf = false /\ hg = false) ->
  hp_vec2dataclass d info v = Ok hp ->
  lkd_input o d hp -> o_eta_const o = true -> noise_pos hp -> theta_grad_supported o d hp -> o_well o <> Wprecon ->
  la_fro la = false -> lkd_matrix o d (la_cond la) true hp = Ok A -> numpy_ok la A -> eigenvalues_at_least A (/ 10 ^ 16) ->
  exists st gn, fresh_likelihood la (new_obj o lo d info) v false true = Ok st /\ s_cond st = Some (cond2 A) /\ vlen gn = hi_n info /\
    (forall r dc, (r < hi_n info)%nat -> is_derivative_of (fun t => constraint la o d info (vset v r t)) (vat v r) dc ->
       exists s, position info s = Some r /\ dc = vat gn r * chain_factor lo s (vat v r)) /\
    (cond2 A <= o_cond_max_abs o -> exists g y g1, s_cgrad st = Some g /\ s_val st = Some y /\ s_grad st = Some g1 /\ vlen g = hi_n info /\ forall r s, position info s = Some r -> vat g r = vat gn r * chain_factor lo s (vat v r)) /\
    (o_cond_max_abs o < cond2 A -> s_cgrad st = Some gn /\ s_val st = Some (- cond2 A) /\ s_grad st = Some (vmap Ropp gn)).
Proof.
  intros la o lo d info hk hv hf hg v hp A HI H1 H2 H3 HF HV LI HE NP TS HW LF EA NO HM.
  assert (HF' : d_noisy d = false -> hv = false /\ hf = false /\ hg = false).
  { intros Z. destruct (HF Z). split; [|auto]. destruct hv; [|reflexivity]. rewrite (H1 eq_refl) in Z. discriminate. }
  destruct (C40_condition_number_and_gradient la o d lo true hk hv hf hg info hp (lk_adj lo) A LI HE NP HW (fun _ => TS) HF' HI LF EA NO HM) as (l & b & EL & QB & QC & gn & EG & LG & DG).
  destruct (C21_index_sets_partition _ _ _ _ _ _ _ _ _ HI) as (HN & HL & PS & PL & PB & _).
  assert (LV : vlen v = hi_n info).
  { assert (HV' := HV). unfold hp_vec2dataclass in HV'. binv HV' u Eu. destruct (Nat.eqb_spec (length (hi_log info)) (vlen v)); [congruence|discriminate]. }
  assert (UC : b_use_cond_cstr o = true) by (unfold b_use_cond_cstr; destruct (o_well o); try (exfalso; congruence); reflexivity).
  assert (DD : forall r dc, (r < hi_n info)%nat -> is_derivative_of (fun t => constraint la o d info (vset v r t)) (vat v r) dc ->
       exists s, position info s = Some r /\ dc = vat gn r * chain_factor lo s (vat v r)).
  { intros r dc Hr HD. destruct (PL r Hr) as (sl & P & _ & _). exists sl. split; [exact P|].
    destruct (decode_put o d lo hk hv hf hg info v hp sl r 0 HI H1 H2 H3 HV P) as (GS & _).
    assert (HD' : is_derivative_of (fun t => cond_of la o d (hp_put hp sl (decoded lo sl t))) (vat v r) dc).
    { destruct HD as (del & F & D1 & D2 & D3). exists del, F. split; [exact D1|]. split; [|exact D3]. intros t Ht. rewrite <- (D2 t Ht). unfold constraint.
      destruct (decode_put o d lo hk hv hf hg info v hp sl r t HI H1 H2 H3 HV P) as (_ & ->). reflexivity. }
    apply (undecode lo sl (vat v r) (fun y => cond_of la o d (hp_put hp sl y)) dc) in HD'.
    rewrite (DG r sl _ _ (proj1 (PS sl r) P) GS HD'). assert (CP := chain_pos lo sl (vat v r)). field. lra. }
  assert (FR : fresh_likelihood la (new_obj o lo d info) v false true = (if b then
      g <- log_chain (hi_log info) v (l_ln_grad l) ;; cg <- log_chain (hi_log info) v (Some gn) ;; Ok (mkst (l_ln l) g (Some (cond2 A)) cg)
    else Ok (mkst (Some (- cond2 A)) (Some (vmap Ropp gn)) (Some (cond2 A)) (Some gn)))).
  { unfold fresh_likelihood. cbn [new_obj g_opt g_data g_info g_lk]. rewrite HV, bind_Ok, UC. cbn [orb]. rewrite EL, bind_Ok. cbn [fst snd]. rewrite QC, EG. destruct b; reflexivity. }
  rewrite FR. destruct b.
  - destruct (lkd_call _ _ _ _ _ _ _ _ _ _ _ _ true _ _ LI HI (fun _ _ => TS) (fun _ => HF') EL) as (A' & _ & _ & _ & _ & T & HP).
    assert (LG1 : exists y g1, l_ln l = Some y /\ l_ln_grad l = Some g1 /\ vlen g1 = hi_n info).
    { destruct (d_noisy d); [destruct HP as (X & _ & _ & _ & _ & (g1 & E1 & G1 & _) & _)|destruct HP as (X & _ & _ & _ & (g1 & E1 & G1 & _) & _)]; rewrite HN; eauto. }
    destruct LG1 as (y & g1 & Ey & Eg1 & Lg1). rewrite Eg1. unfold log_chain. rewrite HL, LV, LG, Lg1, <- HN, Nat.eqb_refl. cbn [andb]. rewrite !bind_Ok. eexists. exists gn.
    split; [reflexivity|]. cbn [s_cond s_cgrad s_val s_grad]. split; [reflexivity|]. split; [congruence|]. split; [exact DD|].
    split; [|intros Z; assert (cond2 A <= o_cond_max_abs o) by (apply QB; reflexivity); lra]. intros _. eexists. exists y. eexists. split; [reflexivity|]. split; [exact Ey|]. split; [reflexivity|]. cbn [vlen vat]. split; [reflexivity|].
    intros r s P. destruct (PL r (PB s r P)) as (s0 & _ & U & LFL). rewrite <- (U s P) in LFL. rewrite (nth_error_nth _ _ _ LFL). unfold chain_factor, pow10, Rpower. destruct (log_flag lo s); ring.
  - eexists. exists gn. split; [reflexivity|]. cbn [s_cond s_cgrad s_val s_grad]. split; [reflexivity|]. split; [congruence|]. split; [exact DD|].
    split; [intros Z; apply QB in Z; discriminate|]. intros _. auto.
Qed.

(** For an object with any past: where the condition number of the matrix is within the limit up to which it is
    factorised, the constraint value handed to the optimiser is the condition number at the vector, and its
    gradient is that with respect to the entries of the vector, where it is differentiable. *)
Theorem C40_constraint_given_to_the_optimiser :
  forall (la : npla) (o0 : gpopt) (lo0 : lkopt) (d0 : gpdata) (info0 : hpinfo) (past : list event) (hk hv hf hg : bool) (v : vec) (hp : hpv) (A : mat),
  let s := do_events la (new_obj o0 lo0 d0 info0) past in let o := g_opt s in let d := g_data s in let lo := g_lk s in let info := g_info s in
  set_hp_optz_info o d lo true hk hv hf hg = Ok info ->
  (hv = true -> d_noisy d = true) -> (hf = true -> d_opt_fval d = true) -> (hg = true -> d_opt_fgrad d = true) ->
  (d_noisy d = false -> hf = false /\ hg = false) ->
  hp_vec2dataclass d info v = Ok hp ->
  lkd_input o d hp -> o_eta_const o = true -> noise_pos hp -> theta_grad_supported o d hp -> o_well o <> Wprecon ->
  la_fro la = false -> lkd_matrix o d (la_cond la) true hp = Ok A -> numpy_ok la A -> eigenvalues_at_least A (/ 10 ^ 16) ->
  cond2 A <= o_cond_max_abs o ->
  snd (return_cond_val la s v) = Ok (Some (cond2 A)) /\ constraint la o d info v = Some (cond2 A) /\
  exists g, snd (return_cond_grad la s v) = Ok (Some g) /\ vlen g = hi_n info /\
    forall r dc, (r < hi_n info)%nat -> is_derivative_of (fun t => constraint la o d info (vset v r t)) (vat v r) dc -> vat g r = dc.
Proof.
  intros la o0 lo0 d0 info0 past hk hv hf hg v hp A s o d lo info HI H1 H2 H3 HF HV LI HE NP TS HW LF EA NO HM HC.
  destruct (C27_never_stale la past o0 lo0 d0 info0) as (_ & _ & _ & Q3 & Q4 & _). fold s in Q3, Q4. rewrite Q3, Q4. fold o d lo info.
  destruct (constraint_core la o lo d info hk hv hf hg v hp A HI H1 H2 H3 HF HV LI HE NP TS HW LF EA NO HM) as (st & gn & FR & SC & LN & DD & GD & _).
  destruct (GD HC) as (g & y & g1 & SG & _ & _ & LG & HG).
  unfold return_cond_val, return_cond_grad, lift_st, calc_store_likelihood. cbn [array_equal new_obj g_last]. fold (new_obj o lo d info). rewrite FR. cbn [snd bind]. rewrite SC, SG.
  split; [reflexivity|]. split; [unfold constraint, cond_of; rewrite HV, EA; reflexivity|]. exists g. split; [reflexivity|]. split; [exact LG|].
  intros r dc Hr HD. destruct (DD r dc Hr HD) as (sl & P & ->). apply HG, P.
Qed.
Print Assumptions C40_constraint_given_to_the_optimiser.

(** Above the limit the matrix is not factorised: the objective handed to the optimiser is then the condition
    number, and the gradients handed to it, of the objective and of the constraint, are those with respect to the
    hyperparameters, without the factor 10^x ln 10 of the entries on a log10 scale. *)
Theorem C40_above_the_limit :
  forall (la : npla) (o0 : gpopt) (lo0 : lkopt) (d0 : gpdata) (info0 : hpinfo) (past : list event) (hk hv hf hg : bool) (v : vec) (hp : hpv) (A : mat),
  let s := do_events la (new_obj o0 lo0 d0 info0) past in let o := g_opt s in let d := g_data s in let lo := g_lk s in let info := g_info s in
  set_hp_optz_info o d lo true hk hv hf hg = Ok info ->
  (hv = true -> d_noisy d = true) -> (hf = true -> d_opt_fval d = true) -> (hg = true -> d_opt_fgrad d = true) ->
  (d_noisy d = false -> hf = false /\ hg = false) ->
  hp_vec2dataclass d info v = Ok hp ->
  lkd_input o d hp -> o_eta_const o = true -> noise_pos hp -> theta_grad_supported o d hp -> o_well o <> Wprecon ->
  la_fro la = false -> lkd_matrix o d (la_cond la) true hp = Ok A -> numpy_ok la A -> eigenvalues_at_least A (/ 10 ^ 16) ->
  o_cond_max_abs o < cond2 A ->
  snd (return_optz_val la s v) = Ok (cond2 A) /\ snd (return_cond_val la s v) = Ok (Some (cond2 A)) /\ constraint la o d info v = Some (cond2 A) /\
  exists g, snd (return_cond_grad la s v) = Ok (Some g) /\ (exists g', snd (return_optz_grad la s v) = Ok g' /\ vlen g' = vlen g /\ forall r, vat g' r = vat g r) /\ vlen g = hi_n info /\
    forall r dc, (r < hi_n info)%nat -> is_derivative_of (fun t => constraint la o d info (vset v r t)) (vat v r) dc ->
      exists sl, position info sl = Some r /\ dc = vat g r * chain_factor lo sl (vat v r).
Proof.
  intros la o0 lo0 d0 info0 past hk hv hf hg v hp A s o d lo info HI H1 H2 H3 HF HV LI HE NP TS HW LF EA NO HM HC.
  destruct (C27_never_stale la past o0 lo0 d0 info0) as (_ & Q1 & Q2 & Q3 & Q4 & _). fold s in Q1, Q2, Q3, Q4. rewrite Q1, Q2, Q3, Q4. fold o d lo info.
  destruct (constraint_core la o lo d info hk hv hf hg v hp A HI H1 H2 H3 HF HV LI HE NP TS HW LF EA NO HM) as (st & gn & FR & SC & LN & DD & _ & GD).
  destruct (GD HC) as (SG & SV & SO).
  unfold return_optz_val, return_optz_grad, return_cond_val, return_cond_grad, lift_st, calc_store_likelihood. cbn [array_equal new_obj g_last]. fold (new_obj o lo d info). rewrite FR. cbn [snd bind]. rewrite SC, SG, SV, SO. cbn [neg_R neg_vec].
  split; [f_equal; ring|]. split; [reflexivity|]. split; [unfold constraint, cond_of; rewrite HV, EA; reflexivity|]. exists gn. split; [reflexivity|]. split.
  { eexists. split; [reflexivity|]. split; [reflexivity|]. intros r. cbn [vmap vat]. ring. }
  split; [exact LN|exact DD].
Qed.
Print Assumptions C40_above_the_limit.
