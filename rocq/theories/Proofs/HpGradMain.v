(** calc_Kcov_grad_hp and calc_KernGrad_hp, slice by slice. *)
From Coq Require Import Reals List Arith Bool Lia Lra.
From Coquelicot Require Import Coquelicot.
From Verif.Base Require Import NpLite NpFacts Deriv.
From Verif.Spec Require Import KernelSpec LinAlgSpec GpSpec HpSpec.
From Verif.Model Require Import KernelSqExp KernelMatern KernelRatQuad KernelDispatch CommonFun WellCond Rescaling GpState Chol Cov HpInfo HpGrad.
From Verif.Proofs Require Import KernTac KernelExact ThetaGrad ThetaGradBase ThetaGradMask AlphaGrad LinAlg CholCorrect Psd CovStruct StateFacts DataFacts RowSum
  NoiseFacts CondBound NuggetCond NuggetMain Precon HpInfoFacts HpGradFacts.
Import ListNotations.
Local Open Scope R_scope.

(** dK/ds given the theta and alpha derivatives of the kernel entries *)
Definition pre {A} (o : gpopt) (a b : A) : A := match o_well o with Wprecon => a | _ => b end.
Lemma pre_yes {A} o (a b : A) : o_well o = Wprecon -> pre o a b = a. Proof. unfold pre; intros ->; reflexivity. Qed.
Lemma pre_no {A} o (a b : A) : o_well o <> Wprecon -> pre o a b = b. Proof. unfold pre; destruct (o_well o); congruence. Qed.
Definition hD (o : gpopt) (d : gpdata) (hp : hpv) (e vK : R) (Dth : nat -> nat -> nat -> R) (Dal : nat -> nat -> R) (s : hslot) (i j : nat) : R :=
  let X := fst (get_scl_x_w_dist d) in
  match s with
  | HTheta k => vK * Dth k i j + dl i j (pre o (e * (vK * Dth k i i)) 0)
  | HKernel => vK * Dal i j + dl i j (pre o (e * (vK * Dal i i)) 0)
  | HVarK => ckf o d hp X i j + dl i j (pre o (e * ckf o d hp X i i) e)
  | HVarF => pre o (1 + e) 1 * dl i j (if (i <? d_n_eval d)%nat then 1 else 0)
  | HVarG => pre o (1 + e) 1 * dl i j (if (i <? d_n_eval d)%nat then 0 else 1)
  end.
Definition slot_ok (o : gpopt) (d : gpdata) (s : hslot) : Prop :=
  match s with HTheta e => (e < o_dim o)%nat | HKernel => o_kernel o = RatQu | HVarK => True
  | HVarF => d_known_fval d = false | HVarG => d_known_fgrad d = false end.

Lemma tspec_ext D n m T f g : tspec D n m T f -> (forall k i j, (k < D)%nat -> (i < n)%nat -> (j < m)%nat -> f k i j = g k i j) -> tspec D n m T g.
Proof. intros (A & B & C & E) H. split; [exact A|split; [exact B|split; [exact C|]]]. intros. rewrite E, H by auto. reflexivity. Qed.

Section M.
Variables (o : gpopt) (d : gpdata).
Hypothesis HR : gp_ready o d.
Notation N := (cN o d).
Notation X := (fst (get_scl_x_w_dist d)).

Lemma unradr_F r : match unradr (d_n_eval d) (d_n_grad d) r with F _ => (r < d_n_eval d)%nat | G _ _ => (d_n_eval d <= r)%nat end.
Proof. unfold unradr. destruct (Nat.ltb_spec r (d_n_eval d)); auto. Qed.
Lemma noise_varF hp t r : d_known_fval d = false -> noise_fn d (hp_put hp HVarF t) None r = if (r <? d_n_eval d)%nat then t else noise_fn d hp None r.
Proof.
  intros Hk. assert (W := gr_wf _ _ HR). unfold noise_fn, noise_row.
  destruct (d_fval_zero d) eqn:Z; [rewrite (wf_zf _ _ W Z) in Hk; discriminate|]. cbn [andb].
  assert (U := unradr_F r). destruct (unradr _ _ r); destruct (Nat.ltb_spec r (d_n_eval d)); try lia; [|reflexivity].
  unfold noise_fval. rewrite (wf_kf _ _ W) in Hk. destruct (d_std_fval d); [discriminate|]. reflexivity.
Qed.
Lemma noise_varG hp t r : (r < N)%nat -> d_known_fgrad d = false -> noise_fn d (hp_put hp HVarG t) None r = if (r <? d_n_eval d)%nat then noise_fn d hp None r else t.
Proof.
  intros Hr Hk. assert (W := gr_wf _ _ HR). assert (U := unradr_F r).
  destruct (o_use_grad o) eqn:Hu.
  2:{ assert (G0 := wf_g0 _ _ W Hu). unfold cN in Hr. rewrite G0 in Hr. unfold noise_fn, noise_row.
      destruct (unradr _ _ r); destruct (Nat.ltb_spec r (d_n_eval d)); try lia; reflexivity. }
  unfold noise_fn, noise_row.
  destruct (d_fgrad_zero d) eqn:Z; [rewrite (wf_zg _ _ W Z Hu) in Hk; discriminate|]. rewrite andb_false_r.
  destruct (unradr _ _ r); destruct (Nat.ltb_spec r (d_n_eval d)); try lia; [reflexivity|].
  unfold noise_fgrad. rewrite (wf_kg _ _ W) in Hk. destruct (d_std_grad d); [discriminate|]. reflexivity.
Qed.

(** the hypotheses are stable under a small change of one hyperparameter *)
Lemma put_hyper hp s t : hyper_ok o hp -> slot_ok o d s -> 0 < t -> hyper_ok o (hp_put hp s t).
Proof. intros H S Ht. destruct s; [apply hyper_put_theta; auto|apply hyper_put_kernel; auto| | |]; exact H. Qed.
Lemma put_noise hp s t : noise_arg_ok o d hp None -> slot_ok o d s -> 0 < t -> noise_arg_ok o d (hp_put hp s t) None.
Proof.
  intros ((C1 & C2) & (P1 & P2)) S Ht. destruct s; try (split; split; assumption).
  - cbn [slot_ok] in S. rewrite S in C1. split; split; cbn [hp_put hp_var_fval hp_var_fgrad]; auto.
    + rewrite S. split; [apply C1|eauto].
    + intros v E; injection E as <-; lra.
  - cbn [slot_ok] in S. split; split; cbn [hp_put hp_var_fval hp_var_fgrad]; auto.
    + intros U. rewrite S. eauto.
    + intros v E; injection E as <-; lra.
Qed.

Lemma dl_derive i j (f : R -> R) x a : is_derive f x a -> is_derive (fun t => dl i j (f t)) x (dl i j a).
Proof. intros H. unfold dl. destruct (i =? j)%nat; [exact H|apply dR_const]. Qed.
Lemma pre_derive (f g : R -> R) x a b : is_derive f x a -> is_derive g x b -> is_derive (fun t => pre o (f t) (g t)) x (pre o a b).
Proof. unfold pre; intros; destruct (o_well o); auto. Qed.
Definition vK_of (hp : hpv) : R := match hp_varK hp with Some v => v | None => 1 end.
Lemma kcovE_pre hp e vK i j : kcovE o d hp e vK i j =
  vK * ckf o d hp X i j + dl i j (noise_fn d hp None i) + dl i j (pre o (e * (vK * ckf o d hp X i i + noise_fn d hp None i)) (vK * e)).
Proof. reflexivity. Qed.

Lemma kcovE_derive hp e vK s v (Dth : nat -> nat -> nat -> R) (Dal : nat -> nat -> R) :
  hyper_ok o hp -> slot_ok o d s -> hp_get hp s = Some v -> (s = HVarK -> vK = v) ->
  (forall k i j, s = HTheta k -> (k < o_dim o)%nat -> (i < N)%nat -> (j < N)%nat -> is_derive (fun t => ckf o d (hp_put hp (HTheta k) t) X i j) (vat (hp_theta hp) k) (Dth k i j)) ->
  (forall i j, s = HKernel -> (i < N)%nat -> (j < N)%nat -> is_derive (fun t => ckf o d (hp_put hp HKernel t) X i j) v (Dal i j)) ->
  forall i j, (i < N)%nat -> (j < N)%nat ->
  is_derive (fun t => kcovE o d (hp_put hp s t) e (match s with HVarK => t | _ => vK end) i j) v (hD o d hp e vK Dth Dal s i j).
Proof.
  intros Hh Hs Hg HvK HT HA i j Hi Hj.
  assert (KL : forall (f : nat -> nat -> R -> R) (D : nat -> nat -> R) x, (forall a b, (a < N)%nat -> (b < N)%nat -> is_derive (f a b) x (D a b)) ->
    is_derive (fun t => vK * f i j t + dl i j (noise_fn d hp None i) + dl i j (pre o (e * (vK * f i i t + noise_fn d hp None i)) (vK * e))) x
      (vK * D i j + dl i j (pre o (e * (vK * D i i)) 0))).
  { intros f D x HD. eapply dR_val; [apply dR_plus; [apply dR_plus; [apply dR_scal, HD; auto|apply dR_const]|apply dl_derive, pre_derive]|].
    - apply (dR_scal (fun t => vK * f i i t + noise_fn d hp None i) e). apply dR_plus; [apply dR_scal, HD; auto|apply dR_const].
    - apply dR_const.
    - unfold dl. destruct (i =? j)%nat; unfold pre; destruct (o_well o); ring. }
  destruct s as [k| | | |]; cbn [slot_ok hp_get] in Hs, Hg.
  - destruct (k <? vlen (hp_theta hp)); [|discriminate Hg]. injection Hg as <-.
    apply (KL (fun a b t => ckf o d (hp_put hp (HTheta k) t) X a b) (Dth k)). intros; apply HT; auto.
  - apply (KL (fun a b t => ckf o d (hp_put hp HKernel t) X a b) Dal). intros; apply HA; auto.
  - cbn [hD]. rewrite <- (HvK eq_refl).
    apply (dR_ext (fun t => t * ckf o d hp X i j + dl i j (noise_fn d hp None i) + dl i j (pre o (e * (t * ckf o d hp X i i + noise_fn d hp None i)) (t * e)))); [reflexivity|].
    eapply dR_val; [apply dR_plus; [apply dR_plus; [apply dR_mult; [apply dR_id|apply dR_const]|apply dR_const]|apply dl_derive, pre_derive]|].
    + apply (dR_scal (fun t => t * ckf o d hp X i i + noise_fn d hp None i) e). apply dR_plus; [apply dR_mult; [apply dR_id|apply dR_const]|apply dR_const].
    + apply dR_mult; [apply dR_id|apply dR_const].
    + unfold dl. destruct (i =? j)%nat; unfold pre; destruct (o_well o); ring.
  - cbn [hD]. set (g := fun t => if (i <? d_n_eval d)%nat then t else noise_fn d hp None i).
    apply (dR_ext (fun t => vK * ckf o d hp X i j + dl i j (g t) + dl i j (pre o (e * (vK * ckf o d hp X i i + g t)) (vK * e)))).
    { intros t. unfold g. rewrite <- (noise_varF hp t i Hs). reflexivity. }
    assert (Dg : is_derive g v (if (i <? d_n_eval d)%nat then 1 else 0)).
    { unfold g. destruct (i <? d_n_eval d)%nat; [apply dR_id|apply dR_const]. }
    eapply dR_val; [apply dR_plus; [apply dR_plus; [apply dR_const|apply dl_derive, Dg]|apply dl_derive, pre_derive; [apply (dR_scal (fun t => vK * ckf o d hp X i i + g t) e); apply dR_plus; [apply dR_const|exact Dg]|apply dR_const]]|].
    unfold dl. destruct (i =? j)%nat, (i <? d_n_eval d)%nat; unfold pre; destruct (o_well o); ring.
  - cbn [hD]. set (g := fun t => if (i <? d_n_eval d)%nat then noise_fn d hp None i else t).
    apply (dR_ext (fun t => vK * ckf o d hp X i j + dl i j (g t) + dl i j (pre o (e * (vK * ckf o d hp X i i + g t)) (vK * e)))).
    { intros t. unfold g. rewrite <- (noise_varG hp t i Hi Hs). reflexivity. }
    assert (Dg : is_derive g v (if (i <? d_n_eval d)%nat then 0 else 1)).
    { unfold g. destruct (i <? d_n_eval d)%nat; [apply dR_const|apply dR_id]. }
    eapply dR_val; [apply dR_plus; [apply dR_plus; [apply dR_const|apply dl_derive, Dg]|apply dl_derive, pre_derive; [apply (dR_scal (fun t => vK * ckf o d hp X i i + g t) e); apply dR_plus; [apply dR_const|exact Dg]|apply dR_const]]|].
    unfold dl. destruct (i =? j)%nat, (i <? d_n_eval d)%nat; unfold pre; destruct (o_well o); ring.
Qed.

(** ** the slices *)
Lemma tscal_spec D n m c T f : tspec D n m T f -> tspec D n m (tscal c T) (fun k i j => c * f k i j).
Proof. intros (A & B & C & E). split; [exact A|split; [exact B|split; [exact C|]]]. intros. cbn [tscal tmap tat]. rewrite E by auto. reflexivity. Qed.
Lemma add_eta_ok e D T f : d_etaK d = Some e -> tspec D N N T f ->
  rok (add_eta_diag o d D T) (fun T' => tspec D N N T' (fun k i j => f k i j + dl i j (pre o (e * f k i i) 0))).
Proof.
  intros He HT. unfold add_eta_diag. destruct (wmtd_precon (o_well o)) as [W|W].
  - rewrite W, He. cbn [need]. rewrite bind_Ok.
    eapply rok_mono.
    + apply (rok_for_range (fun m T' => tspec D N N T' (fun k i j => if (k <? m)%nat then f k i j + dl i j (e * f k i i) else f k i j))).
      * lia.
      * eapply tspec_ext; [exact HT|]. intros. reflexivity.
      * intros m T' Hm H'. eapply rok_bind; [eapply tget_ok; [exact H'|lia]|]. intros A HA. cbv beta in HA.
        eapply rok_bind. { eapply miadd_ok; [exact HA|]. apply mscal_spec, mdiag_spec. eapply diagv_spec. exact HA. }
        intros A' HA'. cbv beta in HA'. eapply rok_mono; [eapply tput_ok; [exact H'|lia|exact HA']|].
        intros T2 H2. eapply tspec_ext; [exact H2|]. intros k i j Hk Hi Hj. cbv beta.
        destruct (Nat.eqb_spec k m) as [->|Hkm].
        -- destruct (Nat.ltb_spec m m), (Nat.ltb_spec m (S m)); try lia. unfold dl. destruct (i =? j)%nat; ring.
        -- destruct (Nat.ltb_spec k m), (Nat.ltb_spec k (S m)); try lia; reflexivity.
    + intros T' H'. eapply tspec_ext; [exact H'|]. intros k i j Hk Hi Hj. cbv beta. destruct (Nat.ltb_spec k D); [|lia]. rewrite pre_yes by exact W. reflexivity.
  - replace (match o_well o with Wprecon => _ | _ => Ok T end) with (Ok T) by (destruct (o_well o); congruence).
    cbn [rok]. eapply tspec_ext; [exact HT|]. intros. cbv beta. rewrite pre_no by exact W. unfold dl. destruct (i =? j)%nat; ring.
Qed.

(** writing one slice *)
Lemma tput_slice D T f A g k : tspec D N N T f -> (k < D)%nat -> mspec N N A g ->
  rok (tput T k A) (fun T' => tspec D N N T' (fun k' i j => if (k' =? k)%nat then g i j else f k' i j)).
Proof. intros HT Hk HA. eapply rok_mono; [eapply tput_ok; eauto|]. intros T' H'. exact H'. Qed.

Section Noisy.
Variables (lo : lkopt) (ht hk hv hf hg : bool) (info : hpinfo) (hp : hpv) (e vK : R).
Hypothesis HI : set_hp_optz_info o d lo ht hk hv hf hg = Ok info.
Hypothesis He : d_etaK d = Some e.
Hypothesis HvK : hp_varK hp = Some vK.
Hypothesis Hh : hyper_ok o hp.
Hypothesis HS : ht = true -> theta_grad_supported o d hp.

Lemma varK_slice Kern : mspec N N Kern (ckf o d hp X) ->
  rok (calc_Kcov_grad_varK o d Kern) (fun A => mspec N N A (fun i j => ckf o d hp X i j + dl i j (pre o (e * ckf o d hp X i i) e))).
Proof.
  intros HK. unfold calc_Kcov_grad_varK. rewrite He. cbn [need]. rewrite bind_Ok. destruct (wmtd_precon (o_well o)) as [W|W].
  - rewrite W. eapply rok_mono; [eapply mzip_ok; [exact HK|apply mscal_spec, mdiag_spec, diagv_spec, HK]|].
    intros A HA. eapply mspec_ext; [exact HA|]. intros i j Hi Hj. cbv beta. rewrite pre_yes by exact W. unfold dl. destruct (i =? j)%nat; ring.
  - replace (match o_well o with Wprecon => _ | _ => madd Kern (mscal e (meye (nr Kern))) end) with (madd Kern (mscal e (meye (nr Kern)))) by (destruct (o_well o); congruence).
    destruct HK as (K1 & K2 & K3). rewrite K1. assert (HK : mspec N N Kern (ckf o d hp X)) by (split; [exact K1|split; [exact K2|exact K3]]).
    eapply rok_mono; [eapply mzip_ok; [exact HK|apply mscal_spec, meye_spec]|].
    intros A HA. eapply mspec_ext; [exact HA|]. intros i j Hi Hj. cbv beta. rewrite pre_no by exact W. unfold dl. destruct (i =? j)%nat; ring.
Qed.
Lemma var_scalar_ok : var_scalar o d = Ok (pre o (1 + e) 1).
Proof. unfold var_scalar, pre. rewrite He. destruct (o_well o); reflexivity. Qed.
Lemma varF_slice : rok (calc_Kcov_grad_var_fval o d) (fun A => mspec N N A (hD o d hp e vK (fun _ _ _ => 0) (fun _ _ => 0) HVarF)).
Proof.
  unfold calc_Kcov_grad_var_fval. rewrite var_scalar_ok, bind_Ok. cbn [rok hD].
  assert (V : vspec N (vcat (vconst (d_n_eval d) 1) (vconst (d_n_grad d * o_dim o) 0)) (fun i => if (i <? d_n_eval d)%nat then 1 else 0)).
  { split; [reflexivity|]. intros i Hi. cbn [vcat vconst vat vlen]. destruct (i <? d_n_eval d)%nat; reflexivity. }
  exact (mscal_spec _ _ _ _ _ (mdiag_spec _ _ _ V)).
Qed.
Lemma varG_slice : rok (calc_Kcov_grad_var_fgrad o d) (fun A => mspec N N A (hD o d hp e vK (fun _ _ _ => 0) (fun _ _ => 0) HVarG)).
Proof.
  unfold calc_Kcov_grad_var_fgrad. rewrite var_scalar_ok, bind_Ok. cbn [rok hD].
  assert (V : vspec N (vcat (vconst (d_n_eval d) 0) (vconst (d_n_grad d * o_dim o) 1)) (fun i => if (i <? d_n_eval d)%nat then 0 else 1)).
  { split; [reflexivity|]. intros i Hi. cbn [vcat vconst vat vlen]. destruct (i <? d_n_eval d)%nat; reflexivity. }
  exact (mscal_spec _ _ _ _ _ (mdiag_spec _ _ _ V)).
Qed.

Lemma Kcov_grad_ok Kern : mspec N N Kern (ckf o d hp X) ->
  exists T Dth Dal, calc_Kcov_grad_hp o d info hp Kern (d_Rt d) = Ok T /\
    (ht = true -> forall k i j, (k < o_dim o)%nat -> (i < N)%nat -> (j < N)%nat -> is_derive (fun t => ckf o d (hp_put hp (HTheta k) t) X i j) (vat (hp_theta hp) k) (Dth k i j)) /\
    (hk = true -> forall a i j, hp_kernel hp = Some a -> (i < N)%nat -> (j < N)%nat -> is_derive (fun t => ckf o d (hp_put hp HKernel t) X i j) a (Dal i j)) /\
    tspec (length (slots (o_dim o) ht hk hv hf hg)) N N T (tat T) /\
    forall r s, nth_error (slots (o_dim o) ht hk hv hf hg) r = Some s -> forall i j, (i < N)%nat -> (j < N)%nat ->
      tat T r i j = hD o d hp e vK Dth Dal s i j.
Proof.
  intros HK. destruct (info_inv _ _ _ _ _ _ _ _ _ HI) as (Ik & If & Ig & ->).
  assert (WN : d_n_data d = N) by apply (wf_n _ _ (gr_wf _ _ HR)).
  unfold calc_Kcov_grad_hp. rewrite HvK. cbn [has assert_ hi_n hi_theta hi_kernel hi_varK hi_var_fval hi_var_fgrad]. rewrite bind_Ok. rewrite WN.
  set (c1 := (b2n ht * o_dim o)%nat). set (n := (c1 + b2n hk + b2n hv + b2n hf + b2n hg)%nat).
  (* theta *)
  assert (S1 : exists T Dth, match (if ht then Some (seq 0 (o_dim o)) else None) with
       | Some idx => S <- calc_Kcov_grad_theta o d hp (d_Rt d) ;; tset_idx (tconst n N N 0) idx S | None => Ok (tconst n N N 0) end = Ok T /\
    (ht = true -> forall k i j, (k < o_dim o)%nat -> (i < N)%nat -> (j < N)%nat -> is_derive (fun t => ckf o d (hp_put hp (HTheta k) t) X i j) (vat (hp_theta hp) k) (Dth k i j)) /\
    tspec n N N T (fun k i j => if (k <? c1)%nat then hD o d hp e vK Dth (fun _ _ => 0) (HTheta k) i j else 0)).
  { destruct ht.
    - destruct (rok_ex _ _ (kern_grad_theta_ok o d hp HR Hh (HS eq_refl))) as (S0 & ES & HS0 & HD).
      unfold calc_Kcov_grad_theta. rewrite HvK. cbn [need]. rewrite bind_Ok, ES, bind_Ok.
      destruct (rok_ex _ _ (add_eta_ok e _ _ _ He (tscal_spec _ _ _ vK _ _ HS0))) as (S2 & ES2 & HS2). cbv beta in HS2. rewrite ES2, bind_Ok.
      destruct (rok_ex _ _ (tset_idx_seq_ok n N (tconst n N N 0) (fun _ _ _ => 0) 0 (o_dim o) S2 _ (tconst_spec n N N 0) HS2 ltac:(unfold n, c1; cbn [b2n]; lia))) as (T & ET & HT).
      exists T, (tat S0). split; [exact ET|]. split; [intros _; exact HD|]. eapply tspec_ext; [exact HT|]. intros k i j Hk Hi Hj. cbv beta.
      unfold c1; cbn [b2n]. rewrite Nat.mul_1_l, Nat.add_0_l. cbn [Nat.leb andb]. destruct (Nat.ltb_spec k (o_dim o)); [|reflexivity].
      rewrite Nat.sub_0_r. reflexivity.
    - exists (tconst n N N 0), (fun _ _ _ => 0). split; [reflexivity|]. split; [discriminate|]. eapply tspec_ext; [apply tconst_spec|].
      intros. unfold c1; cbn [b2n Nat.mul]. reflexivity. }
  destruct S1 as (T1 & Dth & E1 & D1 & H1). cbv zeta. rewrite E1, bind_Ok. clear E1.
  (* alpha *)
  assert (S2 : exists T Dal, match (if hk then Some [c1] else None) with
       | Some idx => S <- calc_Kcov_grad_alpha o d hp (d_Rt d) ;; tset_idx T1 idx S | None => Ok T1 end = Ok T /\
    (hk = true -> forall a i j, hp_kernel hp = Some a -> (i < N)%nat -> (j < N)%nat -> is_derive (fun t => ckf o d (hp_put hp HKernel t) X i j) a (Dal i j)) /\
    tspec n N N T (fun k i j => if (k <? c1)%nat then hD o d hp e vK Dth (fun _ _ => 0) (HTheta k) i j
        else if ((k =? c1)%nat && hk) then hD o d hp e vK Dth Dal HKernel i j else 0)).
  { destruct hk.
    - assert (EK : o_kernel o = RatQu) by (specialize (Ik eq_refl); destruct (o_kernel o); try discriminate; reflexivity).
      assert (K := Hh). destruct K as (_ & _ & K). rewrite EK in K. destruct K as (a & Ea & Pa).
      destruct (rok_ex _ _ (kern_grad_alpha_ok o d hp HR Hh a EK Ea)) as (S0 & ES & HS0 & HD).
      unfold calc_Kcov_grad_alpha. rewrite HvK. cbn [need]. rewrite bind_Ok, ES, bind_Ok.
      assert (td S0 = 1%nat) by apply HS0. replace (td S0) with 1%nat by auto.
      destruct (rok_ex _ _ (add_eta_ok e _ _ _ He (tscal_spec _ _ _ vK _ _ HS0))) as (S2 & ES2 & HS2). cbv beta in HS2. rewrite ES2, bind_Ok.
      destruct (rok_ex _ _ (tset_idx_seq_ok n N _ _ c1 1 S2 _ H1 HS2 ltac:(unfold n; cbn [b2n]; lia))) as (T & ET & HT). cbn [seq] in ET.
      exists T, (tat S0 0%nat). split; [exact ET|]. split; [intros _ a' i j Ea'; rewrite Ea in Ea'; injection Ea' as <-; apply HD|].
      eapply tspec_ext; [exact HT|]. intros k i j Hk Hi Hj. cbv beta. rewrite andb_true_r.
      destruct (Nat.leb_spec c1 k), (Nat.ltb_spec k (c1 + 1)), (Nat.ltb_spec k c1), (Nat.eqb_spec k c1); cbn [andb]; try lia; try reflexivity.
      subst k. rewrite Nat.sub_diag. reflexivity.
    - exists T1, (fun _ _ => 0). split; [reflexivity|]. split; [discriminate|]. eapply tspec_ext; [exact H1|]. intros. cbv beta. rewrite andb_false_r. reflexivity. }
  destruct S2 as (T2 & Dal & E2 & D2 & H2). rewrite E2, bind_Ok. clear E2 H1 T1.
  (* varK *)
  set (c2 := (c1 + b2n hk)%nat).
  assert (S3 : exists T, match (if hv then Some c2 else None) with
       | Some i => A <- calc_Kcov_grad_varK o d Kern ;; tput T2 i A | None => Ok T2 end = Ok T /\
    tspec n N N T (fun k i j => if ((k =? c2)%nat && hv) then hD o d hp e vK Dth Dal HVarK i j else
        if (k <? c1)%nat then hD o d hp e vK Dth (fun _ _ => 0) (HTheta k) i j
        else if ((k =? c1)%nat && hk) then hD o d hp e vK Dth Dal HKernel i j else 0)).
  { destruct hv.
    - destruct (rok_ex _ _ (varK_slice Kern HK)) as (A & EA & HA). rewrite EA, bind_Ok.
      destruct (rok_ex _ _ (tput_slice n T2 _ A _ c2 H2 ltac:(unfold n, c2; cbn [b2n]; lia) HA)) as (T & ET & HT). exists T. split; [exact ET|].
      eapply tspec_ext; [exact HT|]. intros. cbv beta. rewrite andb_true_r. reflexivity.
    - exists T2. split; [reflexivity|]. eapply tspec_ext; [exact H2|]. intros. cbv beta. rewrite andb_false_r. reflexivity. }
  destruct S3 as (T3 & E3 & H3). rewrite E3, bind_Ok. clear E3 H2 T2.
  set (c3 := (c2 + b2n hv)%nat).
  assert (S4 : exists T, match (if hf then Some c3 else None) with
       | Some i => A <- calc_Kcov_grad_var_fval o d ;; tput T3 i A | None => Ok T3 end = Ok T /\
    tspec n N N T (fun k i j => if ((k =? c3)%nat && hf) then hD o d hp e vK Dth Dal HVarF i j else
        if ((k =? c2)%nat && hv) then hD o d hp e vK Dth Dal HVarK i j else
        if (k <? c1)%nat then hD o d hp e vK Dth (fun _ _ => 0) (HTheta k) i j
        else if ((k =? c1)%nat && hk) then hD o d hp e vK Dth Dal HKernel i j else 0)).
  { destruct hf.
    - destruct (rok_ex _ _ varF_slice) as (A & EA & HA). rewrite EA, bind_Ok.
      destruct (rok_ex _ _ (tput_slice n T3 _ A _ c3 H3 ltac:(unfold n, c3, c2; cbn [b2n]; lia) HA)) as (T & ET & HT). exists T. split; [exact ET|].
      eapply tspec_ext; [exact HT|]. intros. cbv beta. rewrite andb_true_r. reflexivity.
    - exists T3. split; [reflexivity|]. eapply tspec_ext; [exact H3|]. intros. cbv beta. rewrite andb_false_r. reflexivity. }
  destruct S4 as (T4 & E4 & H4). rewrite E4, bind_Ok. clear E4 H3 T3.
  set (c4 := (c3 + b2n hf)%nat).
  assert (S5 : exists T, match (if hg then Some c4 else None) with
       | Some i => A <- calc_Kcov_grad_var_fgrad o d ;; tput T4 i A | None => Ok T4 end = Ok T /\
    tspec n N N T (fun k i j => if ((k =? c4)%nat && hg) then hD o d hp e vK Dth Dal HVarG i j else
        if ((k =? c3)%nat && hf) then hD o d hp e vK Dth Dal HVarF i j else
        if ((k =? c2)%nat && hv) then hD o d hp e vK Dth Dal HVarK i j else
        if (k <? c1)%nat then hD o d hp e vK Dth (fun _ _ => 0) (HTheta k) i j
        else if ((k =? c1)%nat && hk) then hD o d hp e vK Dth Dal HKernel i j else 0)).
  { destruct hg.
    - destruct (rok_ex _ _ varG_slice) as (A & EA & HA). rewrite EA, bind_Ok.
      destruct (rok_ex _ _ (tput_slice n T4 _ A _ c4 H4 ltac:(unfold n, c4, c3, c2; cbn [b2n]; lia) HA)) as (T & ET & HT). exists T. split; [exact ET|].
      eapply tspec_ext; [exact HT|]. intros. cbv beta. rewrite andb_true_r. reflexivity.
    - exists T4. split; [reflexivity|]. eapply tspec_ext; [exact H4|]. intros. cbv beta. rewrite andb_false_r. reflexivity. }
  destruct S5 as (T & E5 & H5). exists T, Dth, Dal. split; [exact E5|]. split; [exact D1|]. split; [exact D2|].
  assert (SL : length (slots (o_dim o) ht hk hv hf hg) = n) by (rewrite slots_len; reflexivity).
  destruct H5 as (A1 & A2 & A3 & A4). split; [rewrite SL; split; [exact A1|split; [exact A2|split; [exact A3|reflexivity]]]|].
  intros r s Hr i j Hi Hj.
  assert (Hrn : (r < n)%nat) by (rewrite <- SL; apply nth_error_Some; congruence).
  rewrite A4 by auto. apply slots_nth in Hr. fold c1 in Hr. fold c2 in Hr. fold c3 in Hr. fold c4 in Hr.
  destruct s.
  - destruct Hr as (-> & <- & Hr). unfold c4, c3, c2, c1 in *. cbn [b2n] in *.
    destruct (Nat.eqb_spec r (1 * o_dim o + b2n hk + b2n hv + b2n hf)); [lia|]. destruct (Nat.eqb_spec r (1 * o_dim o + b2n hk + b2n hv)); [lia|].
    destruct (Nat.eqb_spec r (1 * o_dim o + b2n hk)); [lia|]. destruct (Nat.ltb_spec r (1 * o_dim o)); [|lia]. cbn [andb]. reflexivity.
  - destruct Hr as (-> & ->). unfold c4, c3, c2 in *. cbn [b2n] in *.
    destruct (Nat.eqb_spec c1 (c1 + 1 + b2n hv + b2n hf)); [lia|]. destruct (Nat.eqb_spec c1 (c1 + 1 + b2n hv)); [lia|].
    destruct (Nat.eqb_spec c1 (c1 + 1)); [lia|]. rewrite Nat.ltb_irrefl, Nat.eqb_refl. cbn [andb]. reflexivity.
  - destruct Hr as (-> & ->). unfold c4, c3 in *. cbn [b2n] in *.
    destruct (Nat.eqb_spec c2 (c2 + 1 + b2n hf)); [lia|]. destruct (Nat.eqb_spec c2 (c2 + 1)); [lia|]. rewrite Nat.eqb_refl. cbn [andb]. reflexivity.
  - destruct Hr as (-> & ->). unfold c4 in *. cbn [b2n] in *.
    destruct (Nat.eqb_spec c3 (c3 + 1)); [lia|]. rewrite Nat.eqb_refl. cbn [andb]. reflexivity.
  - destruct Hr as (-> & ->). rewrite Nat.eqb_refl. cbn [andb]. reflexivity.
Qed.
End Noisy.
End M.

Lemma md_intro (f : R -> res mat) v n m D (del : R) (g : R -> nat -> nat -> R) : 0 < del ->
  (forall t, Rabs (t - v) < del -> exists K, f t = Ok K /\ mspec n m K (g t)) ->
  (forall i j, (i < n)%nat -> (j < m)%nat -> is_derive (fun t => g t i j) v (D i j)) -> is_mat_derive f v n m D.
Proof.
  intros Hd HC HD. exists del, (fun t => match f t with Ok K => K | Err _ => mconst 0 0 0 end). split; [exact Hd|]. split.
  - intros t Ht. destruct (HC t Ht) as (K & -> & A & B & _). auto.
  - intros i j Hi Hj. eapply (dR_ext_near _ _ _ _ del); [exact Hd| |apply HD; auto].
    intros t Ht. destruct (HC t Ht) as (K & -> & _ & _ & Z). symmetry. apply Z; auto.
Qed.
