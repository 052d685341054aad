(** What a successful set_data / rescaling guarantees. *)
From Coq Require Import Reals List Arith Bool Lia Lra Psatz.
From Verif.Base Require Import NpLite NpFacts.
From Verif.Spec Require Import KernelSpec LinAlgSpec.
From Verif.Model Require Import KernelSqExp KernelMatern KernelRatQuad KernelDispatch CommonFun WellCond Rescaling GpState Chol Cov.
From Verif.Spec Require Import GpSpec.
From Verif.Proofs Require Import KernTac KernGradBlocks KernelExact.
Import ListNotations.
Local Open Scope R_scope.

Lemma bind_inv {A B} (m : res A) (k : A -> res B) r : bind m k = Ok r -> exists a, m = Ok a /\ k a = Ok r.
Proof. destruct m as [a|]; simpl; intros H; [eauto | discriminate]. Qed.
Lemma assert_inv b u : assert_ b = Ok u -> b = true.
Proof. destruct b; [reflexivity | discriminate]. Qed.
Tactic Notation "binv" hyp(H) ident(x) ident(E) := apply bind_inv in H; destruct H as (x & E & H); cbv beta in H.
Tactic Notation "binv_assert" hyp(H) := let E := fresh "HA" in let u := fresh "u" in apply bind_inv in H; destruct H as (u & E & H); apply assert_inv in E; clear u.

Lemma mrow_ok h n m X f v g : mspec n m X f -> vspec m v g ->
  rok (mzip h X (rowmat v)) (fun B => mspec n m B (fun i j => h (f i j) (g j))).
Proof.
  intros (X1 & X2 & HX) (V1 & HV). unfold mzip, rowmat. cbn [nr nc mat_at]. rewrite X1, X2, V1.
  assert (E : bdim n 1 = Ok n).
  { unfold bdim. destruct (Nat.eqb_spec n 1) as [->|]; [reflexivity|]. simpl.
    reflexivity. }
  rewrite E, bdim_same. simpl. split; [reflexivity|]. split; [reflexivity|]. cbn [mat_at]. intros i j Hi Hj.
  rewrite !bix_lt by assumption. rewrite HX, HV by assumption. reflexivity.
Qed.
Lemma x_scl_ok n m shift scale X f s c : mspec n m X f -> vspec m shift s -> vspec m scale c ->
  rok (x_init_2_scl shift scale X) (fun B => mspec n m B (fun i j => (f i j - s j) * c j)).
Proof.
  intros HX Hs Hc. unfold x_init_2_scl. eapply rok_bind; [eapply mrow_ok; eassumption|].
  intros T HT. exact (mrow_ok Rmult n m T _ scale c HT Hc).
Qed.

(** facts about the scaling object *)
Definition resc_ok (r : resc) (X : mat) : Prop :=
  r_x r = X /\ vlen (r_shift r) = nc X /\ vlen (r_scale r) = nc X /\
  mspec (nr X) (nc X) (r_xscl r) (fun i j => (mat_at X i j - vat (r_shift r) j) * vat (r_scale r) j) /\
  calc_Rtensor (r_xscl r) (r_xscl r) = Ok (r_Rt r).

Lemma calc_x_shift_n_scale_inv X best us m dist shi sci sh sc :
  calc_x_shift_n_scale X best us m dist shi sci = Ok (sh, sc) ->
  vlen sh = nc X /\ vlen sc = nc X.
Proof.
  unfold calc_x_shift_n_scale. cbv zeta. intros H. binv H s1 E1. binv H s2 E2. binv H X1 E3. binv H cf E4. injection H as <- <-.
  split.
  - destruct shi; [binv_assert E1; discriminate|]. destruct us; [|injection E1 as <-; reflexivity].
    destruct (best <? nr X)%nat; [|discriminate]. injection E1 as <-. reflexivity.
  - simpl. destruct sci; [|injection E2 as <-; reflexivity].
    binv_assert E2. binv_assert E2. injection E2 as <-. apply Nat.eqb_eq. exact HA.
Qed.
Lemma set_xscale_data_inv r shi sci r' : set_xscale_data r shi sci = Ok r' ->
  resc_ok r' (r_x r) /\ calc_x_shift_n_scale (r_x r) (r_best r) (r_use_shift r) (r_mtd r) (r_dist r) shi sci = Ok (r_shift r', r_scale r') /\
  r_obj r' = r_obj r /\ r_obj_shift r' = r_obj_shift r /\ r_obj_scale r' = r_obj_scale r.
Proof.
  unfold set_xscale_data. intros H. binv H ss E1. destruct ss as (sh, sc). binv H xs E2. binv H Rt E3. binv H os E4.
  binv H u E5. binv H bs E6. binv H ls E7. injection H as <-. cbn [r_x r_shift r_scale r_xscl r_Rt r_obj r_obj_shift r_obj_scale].
  destruct (calc_x_shift_n_scale_inv _ _ _ _ _ _ _ _ _ E1) as (L1 & L2).
  repeat split; auto; unfold resc_ok; simpl.
  - assert (Z := rok_inv _ _ _ (x_scl_ok _ _ sh sc (r_x r) _ _ _ (mspec_refl _) (conj L1 (fun i _ => eq_refl)) (conj L2 (fun i _ => eq_refl))) E2).
    apply Z.
  - assert (Z := rok_inv _ _ _ (x_scl_ok _ _ sh sc (r_x r) _ _ _ (mspec_refl _) (conj L1 (fun i _ => eq_refl)) (conj L2 (fun i _ => eq_refl))) E2).
    apply Z.
  - assert (Z := rok_inv _ _ _ (x_scl_ok _ _ sh sc (r_x r) _ _ _ (mspec_refl _) (conj L1 (fun i _ => eq_refl)) (conj L2 (fun i _ => eq_refl))) E2).
    apply Z.
Qed.
Lemma set_obj_data_inv r ob us dm r' : set_obj_data r ob us dm = Ok r' ->
  r_x r' = r_x r /\ r_shift r' = r_shift r /\ r_scale r' = r_scale r /\ r_xscl r' = r_xscl r /\ r_Rt r' = r_Rt r /\
  nr (r_x r) = vlen (ob_val ob) /\ r_obj r' = Some ob /\
  calc_obj_scaling (r_best r) us dm (ob_val ob) = Ok (r_obj_shift r', r_obj_scale r').
Proof.
  unfold set_obj_data. intros H. binv_assert H. binv H ss E1. destruct ss as (sh, sc). binv H os E2. injection H as <-.
  apply Nat.eqb_eq in HA. repeat split; auto.
Qed.

Lemma set_data_inv o x fval sf G sg b d : set_data o x fval sf G sg b = Ok d ->
  d_n_eval d = vlen fval /\ d_x d = x /\ d_bvec d = b /\ d_fval d = fval /\ d_grad d = G /\
  (exists ek eg, calc_nugget (o_ncfg o) (vlen fval) = Ok (ek, eg) /\ d_eta_Kbase d = ek /\ d_eta_Kgrad d = eg /\
      d_etaK d = if o_use_grad o then eg else Some ek) /\
  d_n_grad d = (if o_use_grad o then opt_count (vlen fval) b else 0%nat) /\
  d_n_data d = (vlen fval + d_n_grad d * o_dim o)%nat /\
  (if o_use_grad o then mask_ok (vlen fval) b else b = None) /\
  (exists Xs, calc_Rtensor Xs Xs = Ok (d_Rt d) /\ nr Xs = nr x /\ nc Xs = nc x /\ Xs = fst (get_scl_x_w_dist d) /\
     (o_use_scl o = false -> Xs = x /\ d_scl d = None)) /\
  (forall r, d_scl d = Some r -> resc_ok r x) /\
  d_noisy d = negb (d_fval_zero d && d_fgrad_zero d) /\
  (if o_use_grad o then exists Gm, G = Some Gm /\ nr Gm = d_n_grad d /\ nc Gm = o_dim o else G = None) /\
  (forall s, d_std_fval d = Some s -> vlen s = vlen fval) /\
  (forall s, d_std_grad d = Some s -> nr s = d_n_grad d /\ nc s = o_dim o) /\
  d_known_fval d = (match d_std_fval d with Some _ => true | None => false end) /\
  d_known_fgrad d = (match d_std_grad d with Some _ => true | None => false end).
Proof.
  unfold set_data. cbv zeta. intros H.
  binv H ng Eng. binv H stf Estf. binv H stg Estg. binv H fz Efz. binv H gz Egz. binv H eta Eeta. binv H dm Edm.
  binv H scl Escl. binv H Rt ERt. injection H as <-. cbn [d_n_eval d_x d_bvec d_fval d_grad d_eta_Kbase d_eta_Kgrad d_etaK d_n_grad d_n_data d_Rt d_noisy
    d_fval_zero d_fgrad_zero d_std_fval d_std_grad d_known_fval d_known_fgrad d_scl].
  split; [reflexivity|]. split; [reflexivity|]. split; [reflexivity|]. split; [reflexivity|]. split; [reflexivity|].
  split; [exists (fst eta), (snd eta); rewrite <- surjective_pairing; auto|].
  split.
  { destruct (o_use_grad o); [|binv_assert Eng; injection Eng as <-; reflexivity].
    destruct b as [b|]; [|injection Eng as <-; reflexivity].
    binv_assert Eng. destruct G; [|discriminate]. binv_assert Eng. injection Eng as <-. reflexivity. }
  split; [reflexivity|].
  split.
  { destruct (o_use_grad o); [|binv_assert Eng; destruct b; [discriminate|reflexivity]].
    destruct b as [b|]; [|exact I]. binv_assert Eng. apply Nat.eqb_eq. exact HA. }
  assert (SC : forall r, scl = Some r -> resc_ok r x).
  { intros r ->. destruct (o_use_scl o); [|discriminate]. binv Escl md Emd. binv Escl r1 Er1. binv Escl r2 Er2.
    injection Escl as ->. destruct (set_obj_data_inv _ _ _ _ _ Er2) as (Z1 & Z2 & Z3 & Z4 & Z5 & _).
    apply set_xscale_data_inv in Er1. destruct Er1 as (Er1 & _). unfold resc_ok in Er1 |- *. rewrite Z1, Z2, Z3, Z4, Z5.
    cbn [r_x] in Er1. exact Er1. }
  split.
  { unfold get_scl_x_w_dist. cbn [d_scl d_x d_Rt]. destruct scl as [r|].
    - destruct (SC r eq_refl) as (Z1 & Z2 & Z3 & (Z4 & Z4' & _) & Z5). injection ERt as <-.
      exists (r_xscl r). split; [exact Z5|]. split; [exact Z4|]. split; [exact Z4'|]. split; [reflexivity|]. intros E. rewrite E in Escl. discriminate.
    - exists x. split; [exact ERt|]. split; [reflexivity|]. split; [reflexivity|]. split; [reflexivity|]. intros _. split; reflexivity. }
  split; [exact SC|]. split; [reflexivity|].
  split.
  { destruct G as [Gm|].
    - binv_assert Estg. binv_assert Estg. apply andb_true_iff in HA0. destruct HA0 as (A1 & A2). apply Nat.eqb_eq in A1, A2.
      rewrite HA. exists Gm. auto.
    - binv_assert Estg. destruct (o_use_grad o); [discriminate|]. reflexivity. }
  split.
  { intros s ->. destruct sf; try discriminate. binv_assert Estf. injection Estf as <-. apply Nat.eqb_eq in HA. auto. }
  split; [|split; reflexivity].
  intros s ->. destruct G as [Gm|]; [|binv_assert Estg; discriminate].
  binv_assert Estg. binv_assert Estg. destruct sg; try discriminate. binv_assert Estg. injection Estg as <-.
  apply andb_true_iff in HA0, HA1. destruct HA0 as (A1 & A2), HA1 as (A3 & A4). apply Nat.eqb_eq in A1, A2, A3, A4. split; congruence.
Qed.

(** the same after a change of scale *)
Lemma rescale_data_inv d scale d' : rescale_data d scale = Ok d' -> exists r r', d_scl d = Some r /\ set_xscale_data r None (Some scale) = Ok r' /\ d' = with_scl d r'.
Proof. unfold rescale_data. destruct (d_scl d) as [r|]; [|discriminate]. intros H. binv H r' E. injection H as <-. eauto. Qed.
Lemma data_after_inv o x fval sf G sg b d : data_after o x fval sf G sg b d ->
  d_n_eval d = vlen fval /\ d_x d = x /\ d_bvec d = b /\ d_fval d = fval /\ d_grad d = G /\
  (exists ek eg, calc_nugget (o_ncfg o) (vlen fval) = Ok (ek, eg) /\ d_eta_Kbase d = ek /\ d_eta_Kgrad d = eg /\
      d_etaK d = if o_use_grad o then eg else Some ek) /\
  d_n_grad d = (if o_use_grad o then opt_count (vlen fval) b else 0%nat) /\
  d_n_data d = (vlen fval + d_n_grad d * o_dim o)%nat /\
  (if o_use_grad o then mask_ok (vlen fval) b else b = None) /\
  (exists Xs, calc_Rtensor Xs Xs = Ok (d_Rt d) /\ nr Xs = nr x /\ nc Xs = nc x /\ Xs = fst (get_scl_x_w_dist d) /\
     (o_use_scl o = false -> Xs = x /\ d_scl d = None)) /\
  (forall r, d_scl d = Some r -> resc_ok r x) /\
  d_noisy d = negb (d_fval_zero d && d_fgrad_zero d) /\
  (if o_use_grad o then exists Gm, G = Some Gm /\ nr Gm = d_n_grad d /\ nc Gm = o_dim o else G = None) /\
  (forall s, d_std_fval d = Some s -> vlen s = vlen fval) /\
  (forall s, d_std_grad d = Some s -> nr s = d_n_grad d /\ nc s = o_dim o) /\
  d_known_fval d = (match d_std_fval d with Some _ => true | None => false end) /\
  d_known_fgrad d = (match d_std_grad d with Some _ => true | None => false end).
Proof.
  induction 1 as [d H|d scale d' _ IH H]; [exact (set_data_inv _ _ _ _ _ _ _ _ H)|].
  apply rescale_data_inv in H. destruct H as (r & r' & E & H & ->).
  destruct IH as (I1 & I2 & I3 & I4 & I5 & I6 & I7 & I8 & I9 & (Xs & _ & X2 & X3 & _ & X5) & I11 & I12).
  apply set_xscale_data_inv in H. destruct H as (R & _). assert (Ex : r_x r = x) by (apply (I11 r E)). rewrite Ex in R.
  unfold with_scl. cbn [d_n_eval d_x d_bvec d_fval d_grad d_eta_Kbase d_eta_Kgrad d_etaK d_n_grad d_n_data d_Rt d_noisy d_fval_zero d_fgrad_zero d_std_fval d_std_grad d_known_fval d_known_fgrad d_scl].
  split; [exact I1|]. split; [exact I2|]. split; [exact I3|]. split; [exact I4|]. split; [exact I5|]. split; [exact I6|]. split; [exact I7|]. split; [exact I8|]. split; [exact I9|].
  split; [|split; [|exact I12]].
  - destruct R as (_ & _ & _ & (R1 & R2 & _) & R3). exists (r_xscl r'). split; [exact R3|]. split; [exact R1|]. split; [exact R2|]. split; [reflexivity|].
    intros U. destruct (X5 U) as (_ & N). congruence.
  - intros r0 Z. injection Z as <-. exact R.
Qed.
