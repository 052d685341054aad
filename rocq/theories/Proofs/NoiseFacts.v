(** The noise vector: length, sign, layout. *)
From Coq Require Import Reals List Arith Bool Lia Lra Psatz.
From Verif.Base Require Import NpLite NpFacts.
From Verif.Spec Require Import KernelSpec LinAlgSpec.
From Verif.Model Require Import KernelSqExp KernelMatern KernelRatQuad KernelDispatch CommonFun WellCond Rescaling GpState Chol Cov.
From Verif.Spec Require Import GpSpec.
From Verif.Proofs Require Import KernTac KernGradBlocks KernelExact CovStruct StateFacts.
Import ListNotations.
Local Open Scope R_scope.

Lemma vslice_lo_inv v b w r : vslice_set_lo v b w = Ok r -> vlen w = Nat.min b (vlen v) /\
  vlen r = vlen v /\ forall i, vat r i = if (i <? b)%nat then vat w i else vat v i.
Proof. unfold vslice_set_lo. destruct (Nat.eqb_spec (vlen w) (Nat.min b (vlen v))); [|discriminate]. intros H. injection H as <-. auto. Qed.
Lemma vslice_hi_inv v a w r : vslice_set v a w = Ok r -> vlen w = (vlen v - a)%nat /\
  vlen r = vlen v /\ forall i, vat r i = if (i <? a)%nat then vat v i else vat w (i - a)%nat.
Proof. unfold vslice_set. destruct (Nat.eqb_spec (vlen w) (vlen v - a)); [|discriminate]. intros H. injection H as <-. auto. Qed.

(** the scaled standard deviations in force *)
Definition std_scale (d : gpdata) : R := match d_scl d with Some r => r_obj_scale r | None => 1 end.
Definition stdg_scale (d : gpdata) (j : nat) : R :=
  match d_scl d with Some r => 1 / vat (r_scale r) j * r_obj_scale r | None => 1 end.

Lemma get_scl_inv d fv sf g sg : get_scl_eval_data d = Ok (fv, sf, g, sg) ->
  (d_known_fval d = true -> forall s, d_std_fval d = Some s -> exists s', sf = Some s' /\ vlen s' = vlen s /\ forall i, vat s' i = vat s i * std_scale d) /\
  (d_known_fgrad d = true -> forall s, d_std_grad d = Some s -> 
     (forall r, d_scl d = Some r -> vlen (r_scale r) = nc s) ->
     exists s', sg = Some s' /\ nr s' = nr s /\ nc s' = nc s /\
     forall i j, (i < nr s)%nat -> (j < nc s)%nat -> mat_at s' i j = mat_at s i j * stdg_scale d j) /\
  (d_known_fval d = false -> sf = None) /\ (d_known_fgrad d = false -> sg = None).
Proof.
  unfold get_scl_eval_data, std_scale, stdg_scale. cbv zeta. intros H. binv H s Es. injection H as _ <- _ <-.
  split; [|split; [|split; intros ->; reflexivity]].
  - intros -> v Hv. destruct (d_scl d) as [r|].
    + unfold scl_objdata in Es. binv Es g1 Eg1. binv Es g2 Eg2. injection Es as <-. cbn [ob_std]. rewrite Hv. cbn [option_map].
      eexists; split; [reflexivity|]. split; reflexivity.
    + injection Es as <-. cbn [ob_std]. rewrite Hv. eexists; split; [reflexivity|]. split; [reflexivity|]. intros; ring.
  - intros -> v Hv Hr. destruct (d_scl d) as [r|].
    + unfold scl_objdata in Es. binv Es g1 Eg1. binv Es g2 Eg2. injection Es as <-. cbn [ob_stdg ob_grad] in *.
      rewrite Hv in Eg2. simpl in Eg2. binv Eg2 s' Es'. injection Eg2 as <-. exists s'. split; [reflexivity|].
      assert (Z := rok_inv _ _ _ (mrow_ok Rmult (nr v) (nc v) v (mat_at v) (scl_grad_vec (r_scale r) (r_obj_scale r))
        (fun j => 1 / vat (r_scale r) j * r_obj_scale r) (mspec_refl v)
        (conj (Hr r eq_refl) (fun i _ => eq_refl))) Es').
      destruct Z as (Z1 & Z2 & Z3). split; [exact Z1|]. split; [exact Z2|]. exact Z3.
    + injection Es as <-. cbn [ob_stdg]. exists v. repeat split; auto. intros; ring.
Qed.

(** entry r of the noise vector *)
Definition noise_fval (d : gpdata) (hp : hpv) (p : nat) : R :=
  match d_std_fval d with Some s => (vat s p * std_scale d) ^ 2 | None => match hp_var_fval hp with Some v => v | None => 0 end end.
Definition noise_fgrad (d : gpdata) (hp : hpv) (i p : nat) : R :=
  match d_std_grad d with Some s => (mat_at s p i * stdg_scale d i) ^ 2 | None => match hp_var_fgrad hp with Some v => v | None => 0 end end.

Record wf_data (o : gpopt) (d : gpdata) : Prop := mkwf {
  wf_n : d_n_data d = (d_n_eval d + d_n_grad d * o_dim o)%nat;
  wf_g0 : o_use_grad o = false -> d_n_grad d = 0%nat;
  wf_std : forall s, d_std_fval d = Some s -> vlen s = d_n_eval d;
  wf_stdg : forall s, d_std_grad d = Some s -> nr s = d_n_grad d /\ nc s = o_dim o;
  wf_kf : d_known_fval d = (match d_std_fval d with Some _ => true | None => false end);
  wf_kg : d_known_fgrad d = (match d_std_grad d with Some _ => true | None => false end);
  wf_zf : d_fval_zero d = true -> d_known_fval d = true;
  wf_zg : d_fgrad_zero d = true -> o_use_grad o = true -> d_known_fgrad d = true;
  wf_scl : forall r, d_scl d = Some r -> vlen (r_scale r) = o_dim o /\ vlen (r_shift r) = o_dim o;
  wf_grad : forall g, d_grad d = Some g -> nr g = d_n_grad d /\ nc g = o_dim o;
  wf_ug : o_use_grad o = true -> exists g, d_grad d = Some g;
  wf_fv : vlen (d_fval d) = d_n_eval d }.

Lemma set_data_wf o x fval sf G sg b d : nc x = o_dim o -> data_after o x fval sf G sg b d -> wf_data o d.
Proof.
  intros Hx H. assert (I := data_after_inv _ _ _ _ _ _ _ _ H).
  destruct I as (I1 & I2 & I3 & I4 & I5 & _ & I6 & I7 & I8 & _ & I9 & _ & I10 & I11 & I12 & I13 & I14).
  assert (ZZ : (d_fval_zero d = true -> d_known_fval d = true) /\ (d_fgrad_zero d = true -> o_use_grad o = true -> d_known_fgrad d = true)).
  { clear - H. induction H as [d H|d scale d' _ IH H]; [|apply rescale_data_inv in H; destruct H as (r & r' & _ & _ & ->); exact IH].
    unfold set_data in H. cbv zeta in H. binv H ng Eng. binv H stf Estf. binv H stg Estg. binv H fz Efz. binv H gz Egz. binv H eta Eeta. binv H dm Edm.
    binv H scl Escl. binv H Rt ERt. injection H as <-. cbn [d_fval_zero d_known_fval d_fgrad_zero d_known_fgrad]. split.
    - intros ->. destruct stf; [reflexivity|discriminate].
    - intros ->. intros E. rewrite E in Egz. destruct stg; [reflexivity|discriminate]. }
  constructor; try tauto.
  - rewrite I1. exact I7.
  - intros E. rewrite E in I6. exact I6.
  - rewrite I1. exact I11.
  - intros r Hr. destruct (I9 r Hr) as (Z1 & Z2 & Z3 & _). rewrite <- Hx. auto.
  - rewrite I5. intros g ->. destruct (o_use_grad o); [|discriminate]. destruct I10 as (Gm & E & A & B). injection E as ->. auto.
  - rewrite I5. intros E. rewrite E in I10. destruct I10 as (Gm & -> & _). eauto.
  - rewrite I1, I4. reflexivity.
Qed.

Lemma get_scl_ok o d : wf_data o d -> rok (get_scl_eval_data d) (fun r => let '(fv, sf, g, sg) := r in
   vspec (d_n_eval d) fv (fun p => (vat (d_fval d) p - match d_scl d with Some r => r_obj_shift r | None => 0 end) * std_scale d) /\
   (match d_std_fval d with None => sf = None | Some s => exists s', sf = Some s' /\ vspec (d_n_eval d) s' (fun p => vat s p * std_scale d) end) /\
   (match d_grad d with None => g = None | Some s => exists s', g = Some s' /\ mspec (d_n_grad d) (o_dim o) s' (fun p i => mat_at s p i * stdg_scale d i) end) /\
   (match d_std_grad d with None => sg = None | Some s => exists s', sg = Some s' /\ mspec (d_n_grad d) (o_dim o) s' (fun p i => mat_at s p i * stdg_scale d i) end)).
Proof.
  intros W. unfold get_scl_eval_data. cbv zeta. rewrite (wf_kf _ _ W), (wf_kg _ _ W).
  assert (Wf := wf_fv _ _ W).
  assert (GG : forall r s, d_scl d = Some r -> nr s = d_n_grad d /\ nc s = o_dim o ->
     rok (obj_grad_2_scl (r_scale r) (r_obj_scale r) s) (fun s' => mspec (d_n_grad d) (o_dim o) s' (fun p i => mat_at s p i * stdg_scale d i))).
  { intros r s Hr (A & B). unfold obj_grad_2_scl, stdg_scale. rewrite Hr. destruct (wf_scl _ _ W r Hr) as (L1 & _).
    eapply mrow_ok; [split; [exact A|split; [exact B|intros; reflexivity]]|].
    split; [exact L1|]. intros; reflexivity. }
  assert (GO : forall r os, d_scl d = Some r -> (forall s, os = Some s -> nr s = d_n_grad d /\ nc s = o_dim o) ->
     rok (omap (obj_grad_2_scl (r_scale r) (r_obj_scale r)) os) (fun os' => match os with None => os' = None | Some s =>
       exists s', os' = Some s' /\ mspec (d_n_grad d) (o_dim o) s' (fun p i => mat_at s p i * stdg_scale d i) end)).
  { intros r [s|] Hr Hs; simpl; [|reflexivity]. eapply rok_bind; [apply GG; auto|]. intros s' Hs'. simpl. eauto. }
  unfold std_scale. destruct (d_scl d) as [r|] eqn:Er.
  - unfold scl_objdata. cbn [ob_grad ob_stdg ob_val ob_std].
    eapply rok_bind; [|intros s Hs; exact Hs].
    eapply rok_bind; [apply (GO r (d_grad d) eq_refl); apply (wf_grad _ _ W)|]. intros g1 Hg1. cbv beta in Hg1.
    eapply rok_bind; [apply (GO r (d_std_grad d) eq_refl); apply (wf_stdg _ _ W)|]. intros g2 Hg2. cbv beta in Hg2.
    cbn [rok ob_grad ob_stdg ob_val ob_std]. split; [split; [exact Wf|intros; reflexivity]|]. split.
    + destruct (d_std_fval d) as [s|] eqn:Es; [|reflexivity]. simpl. eexists; split; [reflexivity|]. split; [exact (wf_std _ _ W s Es)|intros; reflexivity].
    + split; [exact Hg1|]. destruct (d_std_grad d); [exact Hg2|reflexivity].
  - cbn [bind rok ob_grad ob_stdg ob_val ob_std].
    assert (S1 : forall s i, stdg_scale d i * s = s) by (intros; unfold stdg_scale; rewrite Er; ring).
    split; [split; [exact Wf|intros; ring]|]. split; [|split].
    + destruct (d_std_fval d) as [s|] eqn:Es; [|reflexivity]. exists s. split; [reflexivity|]. split; [exact (wf_std _ _ W s Es)|intros; ring].
    + destruct (d_grad d) as [s|] eqn:Es; [|reflexivity]. exists s. split; [reflexivity|]. destruct (wf_grad _ _ W s Es) as (A & B).
      split; [exact A|]. split; [exact B|]. intros; rewrite Rmult_comm, S1; reflexivity.
    + destruct (d_std_grad d) as [s|] eqn:Es; [|reflexivity]. exists s. split; [reflexivity|]. destruct (wf_stdg _ _ W s Es) as (A & B).
      split; [exact A|]. split; [exact B|]. intros; rewrite Rmult_comm, S1; reflexivity.
Qed.

Definition noise_row (d : gpdata) (hp : hpv) (a : rix) : R :=
  if d_fval_zero d && d_fgrad_zero d then 0
  else match a with F p => noise_fval d hp p | G i p => noise_fgrad d hp i p end.
Lemma need_ok o v : o = Some v -> need o = Ok v. Proof. intros ->; reflexivity. Qed.

Lemma reshape_entry g A i p : nr A = g -> (p < g)%nat -> vat (reshape_f A) (i * g + p) = mat_at A p i.
Proof.
  intros E Hp. unfold reshape_f. cbn [vat]. rewrite E.
  rewrite Nat.add_comm, Nat.mod_add, Nat.mod_small, Nat.div_add, Nat.div_small by lia. reflexivity.
Qed.

Lemma noise_vec_ok o d hp : wf_data o d -> noise_cfg o d hp ->
  rok (calc_noise_vec o d hp) (fun nv => vspec (d_n_eval d + d_n_grad d * o_dim o) nv
     (fun r => noise_row d hp (unradr (d_n_eval d) (d_n_grad d) r))).
Proof.
  intros W (C1 & C2). set (n := d_n_eval d) in *. set (g := d_n_grad d) in *. set (D := o_dim o) in *.
  unfold calc_noise_vec.
  assert (SS : rok (if d_fval_zero d && d_fgrad_zero d then Ok (Some (vconst (d_n_eval d) 0), Some (mconst (d_n_grad d) (o_dim o) 0))
         else s <- get_scl_eval_data d ;; let '(_, sf, _, sg) := s in Ok (sf, sg)) (fun ss =>
      (d_known_fval d = true -> exists s, fst ss = Some s /\ vlen s = n /\ forall p, (p < n)%nat -> vat s p ^ 2 = noise_row d hp (F p)) /\
      (o_use_grad o = true -> d_known_fgrad d = true -> exists s, snd ss = Some s /\ nr s = g /\ nc s = D /\ forall p i, (p < g)%nat -> (i < D)%nat -> mat_at s p i ^ 2 = noise_row d hp (G i p)))).
  { destruct (d_fval_zero d && d_fgrad_zero d) eqn:EZ.
    - cbn [rok fst snd]. unfold noise_row. rewrite EZ. split.
      + intros _. eexists; split; [reflexivity|]. split; [reflexivity|]. intros; simpl; ring.
      + intros _ _. eexists; split; [reflexivity|]. repeat split. intros; simpl; ring.
    - eapply rok_bind; [apply get_scl_ok; exact W|]. intros (((fv & sf) & gg) & sg) (_ & Hf & _ & Hg). cbn [rok fst snd].
      unfold noise_row, noise_fval, noise_fgrad. rewrite EZ. split.
      + intros Hk. rewrite (wf_kf _ _ W) in Hk. destruct (d_std_fval d) as [s|]; [|discriminate]. destruct Hf as (s' & -> & L & Hs').
        exists s'. split; [reflexivity|]. split; [exact L|]. intros p Hp. rewrite Hs' by exact Hp. reflexivity.
      + intros _ Hk. rewrite (wf_kg _ _ W) in Hk. destruct (d_std_grad d) as [s|]; [|discriminate]. destruct Hg as (s' & -> & A & B & Hs').
        exists s'. repeat split; auto. intros p i Hp Hi. rewrite Hs' by auto. reflexivity. }
  eapply rok_bind; [exact SS|]. intros (sf & sg) (S1 & S2). cbn [fst snd] in S1, S2. clear SS.
  assert (NF : d_known_fval d = false -> forall v, hp_var_fval hp = Some v -> forall p, noise_row d hp (F p) = v).
  { intros Hk v Hv p. unfold noise_row. destruct (d_fval_zero d) eqn:Z; [rewrite (wf_zf _ _ W Z) in Hk; discriminate|]. simpl.
    unfold noise_fval. rewrite (wf_kf _ _ W) in Hk. destruct (d_std_fval d); [discriminate|]. rewrite Hv. reflexivity. }
  assert (NG : o_use_grad o = true -> d_known_fgrad d = false -> forall v, hp_var_fgrad hp = Some v -> forall i p, noise_row d hp (G i p) = v).
  { intros Hu Hk v Hv i p. unfold noise_row. destruct (d_fgrad_zero d) eqn:Z; [rewrite (wf_zg _ _ W Z Hu) in Hk; discriminate|]. rewrite andb_false_r.
    unfold noise_fgrad. rewrite (wf_kg _ _ W) in Hk. destruct (d_std_grad d); [discriminate|]. rewrite Hv. reflexivity. }
  destruct (o_use_grad o) eqn:Hu; cbn [negb].
  - specialize (S2 eq_refl). specialize (C2 eq_refl). specialize (NG eq_refl). cbv zeta.
    assert (EN : d_n_data d = (n + g * D)%nat) by apply (wf_n _ _ W).
    eapply (rok_bind _ _ (fun z => vlen z = (n + g * D)%nat /\ forall p, (p < n)%nat -> vat z p = noise_row d hp (F p))).
    { fold n. destruct (d_known_fval d) eqn:Hk.
      - rewrite C1. destruct (S1 eq_refl) as (s & -> & L & Hs). simpl. unfold vslice_set_lo. simpl.
        rewrite L, EN. replace (Nat.min n (n + g * D)) with n by lia. rewrite Nat.eqb_refl. simpl. split; [reflexivity|].
        intros p Hp. destruct (Nat.ltb_spec p n); [|lia]. apply Hs, Hp.
      - destruct C1 as (_ & v & Hv). rewrite (need_ok _ _ Hv). simpl. unfold vslice_set_lo. simpl. rewrite EN.
        replace (Nat.min n (n + g * D)) with n by lia. rewrite Nat.eqb_refl. simpl. split; [reflexivity|].
        intros p Hp. destruct (Nat.ltb_spec p n); [|lia]. symmetry. apply NF; auto. }
    intros z (Lz & Hz). fold n.
    assert (FIN : forall w, vlen w = (g * D)%nat -> (forall i p, (p < g)%nat -> (i < D)%nat -> vat w (i * g + p) = noise_row d hp (G i p)) ->
       rok (vslice_set z n w) (fun nv => vspec (n + g * D) nv (fun r => noise_row d hp (unradr n g r)))).
    { intros w Lw Hw. unfold vslice_set. rewrite Lw, Lz. replace (n + g * D - n)%nat with (g * D)%nat by lia. rewrite Nat.eqb_refl. simpl.
      split; [reflexivity|]. cbn [vat]. intros r Hr. destruct (unradr_ok n g D r Hr) as (V & E).
      destruct (Nat.ltb_spec r n) as [Hlt|Hge].
      - rewrite Hz by exact Hlt. unfold unradr. destruct (Nat.ltb_spec r n); [reflexivity|lia].
      - destruct (unradr n g r) as [p|i p]; simpl in V, E; [lia|]. rewrite <- E. replace (n + i * g + p - n)%nat with (i * g + p)%nat by lia. apply Hw; tauto. }
    destruct (d_known_fgrad d) eqn:Hk.
    + rewrite C2. destruct (S2 eq_refl) as (s & -> & A & B & Hs). unfold assert_. rewrite bind_Ok. apply FIN.
      * simpl. rewrite A, B. reflexivity.
      * intros i p Hp Hi. rewrite (reshape_entry g) by (simpl; auto). simpl. rewrite <- (Hs p i Hp Hi). simpl. reflexivity.
    + destruct C2 as (v & Hv). rewrite (need_ok _ _ Hv). rewrite bind_Ok. apply FIN.
      * simpl. rewrite Lz. lia.
      * intros i p Hp Hi. simpl. symmetry. apply NG; auto.
  - assert (g = 0)%nat as Eg by (apply (wf_g0 _ _ W); exact Hu).
    destruct (d_known_fval d) eqn:Hk; [|destruct C1; discriminate].
    rewrite C1. destruct (S1 eq_refl) as (s & -> & L & Hs). simpl. rewrite Eg. simpl. rewrite Nat.add_0_r.
    split; [exact L|]. intros r Hr. simpl. unfold unradr. destruct (Nat.ltb_spec r n); [|lia]. rewrite <- Hs by exact Hr. simpl. reflexivity.
Qed.
(** ... and the configuration is necessary *)
Lemma noise_cfg_needed o d hp nv : wf_data o d -> calc_noise_vec o d hp = Ok nv -> noise_cfg o d hp.
Proof.
  intros W H. unfold calc_noise_vec in H. binv H ss ES. destruct ss as (sf, sg). unfold noise_cfg.
  assert (K0 : d_known_fval d = false -> sf = None).
  { intros Hk. assert (d_fval_zero d = false) by (destruct (d_fval_zero d) eqn:Z; [rewrite (wf_zf _ _ W Z) in Hk; discriminate|reflexivity]).
    rewrite H0 in ES. simpl in ES. binv ES s Es. destruct s as (((fv & sf') & gg) & sg'). injection ES as <- <-.
    apply (get_scl_inv _ _ _ _ _ Es); exact Hk. }
  destruct (o_use_grad o); cbn [negb] in H.
  - cbv zeta in H. binv H z Ez. destruct (d_known_fval d).
    + binv_assert Ez. split; [destruct (hp_var_fval hp); [discriminate|reflexivity]|]. intros _.
      destruct (d_known_fgrad d); [binv_assert H; destruct (hp_var_fgrad hp); [discriminate|reflexivity]|].
      binv H v Ev. destruct (hp_var_fgrad hp); [eauto|discriminate].
    + binv Ez v0 Ev0. split; [split; [reflexivity|destruct (hp_var_fval hp); [eauto|discriminate]]|]. intros _.
      destruct (d_known_fgrad d); [binv_assert H; destruct (hp_var_fgrad hp); [discriminate|reflexivity]|].
      binv H v Ev. destruct (hp_var_fgrad hp); [eauto|discriminate].
  - split; [|discriminate]. destruct (d_known_fval d); [binv_assert H; destruct (hp_var_fval hp); [discriminate|reflexivity]|].
    rewrite (K0 eq_refl) in H. discriminate.
Qed.
Lemma noise_row_nn d hp a : noise_nn hp -> 0 <= noise_row d hp a.
Proof.
  intros (H1 & H2). unfold noise_row. destruct (_ && _); [lra|]. destruct a; unfold noise_fval, noise_fgrad.
  - destruct (d_std_fval d); [apply pow2_ge_0|]. destruct (hp_var_fval hp); [auto|lra].
  - destruct (d_std_grad d); [apply pow2_ge_0|]. destruct (hp_var_fgrad hp); [auto|lra].
Qed.
