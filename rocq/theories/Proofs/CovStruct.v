(** Structure of the matrices built by calc_all_K_w_chofac. *)
From Coq Require Import Reals List Arith Bool Lia Lra Psatz.
From Coquelicot Require Import Coquelicot.
From Verif.Base Require Import NpLite NpFacts.
From Verif.Spec Require Import KernelSpec LinAlgSpec.
From Verif.Model Require Import KernelSqExp KernelMatern KernelRatQuad KernelDispatch CommonFun WellCond Rescaling GpState Chol Cov.
From Verif.Spec Require Import GpSpec.
From Verif.Proofs Require Import KernTac KernelExact LinAlg CholCorrect Psd.
Import ListNotations.
Local Open Scope R_scope.

Lemma mdiag_l_ok N v p A f : vspec N v p -> mspec N N A f ->
  rok (mdot (mdiag v) A) (fun B => mspec N N B (fun i j => p i * f i j)).
Proof.
  intros Hv HA. eapply rok_mono; [eapply mdot_ok; [eapply mdiag_spec; exact Hv | exact HA]|].
  intros B HB. cbv beta in HB. eapply mspec_ext; [exact HB|]. intros i j Hi Hj. cbv beta.
  rewrite (rsum_single N i); [rewrite Nat.eqb_refl; reflexivity | exact Hi|].
  intros k _ Hk. destruct (Nat.eqb_spec i k); [congruence|ring].
Qed.
Lemma mdiag_r_ok N v p A f : vspec N v p -> mspec N N A f ->
  rok (mdot A (mdiag v)) (fun B => mspec N N B (fun i j => f i j * p j)).
Proof.
  intros Hv HA. eapply rok_mono; [eapply mdot_ok; [exact HA | eapply mdiag_spec; exact Hv]|].
  intros B HB. cbv beta in HB. eapply mspec_ext; [exact HB|]. intros i j Hi Hj. cbv beta.
  rewrite (rsum_single N j); [rewrite Nat.eqb_refl; reflexivity | exact Hj|].
  intros k _ Hk. destruct (Nat.eqb_spec k j); [congruence|ring].
Qed.

Lemma argmax_upto_ok f n : (argmax_upto f n <= n)%nat /\ forall j, (j <= n)%nat -> f j <= f (argmax_upto f n).
Proof.
  induction n as [|n (IH1 & IH2)]; cbn [argmax_upto].
  - split; [lia|]. intros j Hj. replace j with 0%nat by lia. lra.
  - destruct (Rlt_dec (f (argmax_upto f n)) (f (S n))) as [H|H].
    + split; [lia|]. intros j Hj. destruct (Nat.eq_dec j (S n)) as [->|]; [lra|]. specialize (IH2 j ltac:(lia)). lra.
    + split; [lia|]. intros j Hj. destruct (Nat.eq_dec j (S n)) as [->|]; [lra|]. apply IH2. lia.
Qed.
Lemma argmax_ok v : (0 < vlen v)%nat -> rok (argmax v) (fun i => (i < vlen v)%nat /\ forall j, (j < vlen v)%nat -> vat v j <= vat v i).
Proof.
  intros H. unfold argmax. destruct (vlen v) as [|m] eqn:E; [lia|]. simpl.
  destruct (argmax_upto_ok (vat v) m) as (A & B). split; [lia|]. intros j Hj. apply B. lia.
Qed.

(** the nugget in force: the stored constant, or the largest absolute row sum over target - 1 *)
Definition eta_is (o : gpopt) (d : gpdata) (N : nat) (A : nat -> nat -> R) (e : R) : Prop :=
  if o_eta_const o then d_etaK d = Some e
  else exists i, (i < N)%nat /\ e = rsum N (fun j => Rabs (A i j)) / (o_target o - 1) /\
    forall i', (i' < N)%nat -> rsum N (fun j => Rabs (A i' j)) <= rsum N (fun j => Rabs (A i j)).
Lemma eta_sel_ok o d N A f : mspec N N A f -> (0 < N)%nat -> (o_eta_const o = true -> exists e, d_etaK d = Some e) ->
  rok (if o_eta_const o then e <- need (d_etaK d) ;; Ok (e, None)
       else let s := row_abs_sums A in i <- argmax s ;; Ok (vat s i / (o_target o - 1), Some i))
      (fun ei => eta_is o d N f (fst ei)).
Proof.
  intros (A1 & A2 & HA) HN He. unfold eta_is. destruct (o_eta_const o).
  - destruct (He eq_refl) as (e & ->). simpl. reflexivity.
  - cbv zeta. eapply rok_bind; [apply argmax_ok; simpl; lia|]. intros i (Hi & HM). simpl in Hi, HM |- *.
    rewrite A1 in Hi, HM. exists i. split; [exact Hi|].
    assert (RS : forall k, (k < N)%nat -> rsum (nc A) (fun j => Rabs (mat_at A k j)) = rsum N (fun j => Rabs (f k j))).
    { intros k Hk. rewrite A2. apply rsum_ext; intros j Hj. rewrite HA by auto. reflexivity. }
    split; [rewrite RS by exact Hi; reflexivity|].
    intros k Hk. rewrite <- !RS by auto. apply HM, Hk.
Qed.

Definition dl (i j : nat) (x : R) : R := if (i =? j)%nat then x else 0.
Definition kn (kf : nat -> nat -> R) (f : nat -> R) (vK : R) (i j : nat) : R := kf i j + dl i j (f i / vK).
Definition kcor kf f vK (i j : nat) : R := 1 / sqrt (kn kf f vK i i) * kn kf f vK i j * (1 / sqrt (kn kf f vK j j)).


Lemma bind_Ok {A B} (a : A) (k : A -> res B) : bind (Ok a) k = k a. Proof. reflexivity. Qed.
Lemma eff_varK_eq {B} hp varK bn vK (k : R -> res B) : eff_varK hp varK bn = Some vK -> 0 < vK ->
  (v0 <- match varK with Some v => Ok v | None => match hp_varK hp with Some v => Ok v | None => Err EAssert end end ;;
   v1 <- (if bn then Ok 1 else _ <- assert_ (if Rlt_dec 0 v0 then true else false) ;; Ok v0) ;; k v1) = k vK.
Proof.
  unfold eff_varK. destruct varK as [v|]; [|destruct (hp_varK hp) as [v|]]; intros E Hp; try discriminate;
  simpl; destruct bn; injection E as <-; simpl; try reflexivity; destruct (Rlt_dec 0 v); try lra; reflexivity.
Qed.

Section Cov.
Variables (o : gpopt) (d : gpdata) (condf : mat -> R) (Rt : ten) (hp : hpv) (noise : option vec) (cc cnd : bool)
  (varK : option R) (bn : bool) (K : mat) (nv : vec) (vK : R) (N : nat) (kf : nat -> nat -> R) (f : nat -> R).
Hypothesis HRt : tr Rt = tc Rt.
Hypothesis Hv : eff_varK hp varK bn = Some vK.
Hypothesis Hvp : 0 < vK.
Hypothesis Hnv : match noise with Some v => Ok v | None => calc_noise_vec o d hp end = Ok nv.
Hypothesis HK : calc_Kern (o_use_grad o) (o_kernel o) Rt (hp_theta hp) (hp_kernel hp) (d_bvec d) (d_bvec d) = Ok K.
Hypothesis HKs : mspec N N K kf.
Hypothesis Hnvs : vspec N nv f.
Hypothesis HN : (0 < N)%nat.
Hypothesis Heta : o_eta_const o = true -> exists e, d_etaK d = Some e.

Theorem all_K_precon : o_well o = Wprecon -> o_use_grad o = true -> (forall i, (i < N)%nat -> 0 < kn kf f vK i i) ->
  rok (calc_all_K_w_chofac o d condf Rt hp noise cc cnd varK bn) (fun out =>
    exists e Kc Kp, eta_is o d N (kcor kf f vK) e /\ k_eta out = e /\ mspec N N (k_Kern out) kf /\
      k_Kcor out = Some Kc /\ mspec N N Kc (kcor kf f vK) /\
      k_Kprec out = Some Kp /\ mspec N N Kp (fun i j => vK * (kcor kf f vK i j + dl i j e)) /\
      mspec N N (k_Kcov out) (fun i j => vK * (kn kf f vK i j + dl i j (e * kn kf f vK i i))) /\
      k_cond out = (if cnd then Some (condf Kp) else None) /\
      (cc = true -> pd Kp -> exists c, k_chofac out = Some c /\ chol_of c (k_Kcov out)) /\
      (forall c, k_chofac out = Some c -> symmetric Kp -> chol_of c (k_Kcov out))).
Proof.
  intros Hw Hg Hpos. unfold calc_all_K_w_chofac. cbv zeta. rewrite HRt, Nat.eqb_refl. unfold assert_ at 1. rewrite bind_Ok.
  rewrite (eff_varK_eq hp varK bn vK _ Hv Hvp). rewrite Hnv, bind_Ok, HK, bind_Ok.
  assert (EN : vlen nv = N) by (destruct Hnvs; auto). rewrite EN.
  eapply rok_bind; [eapply mzip_ok; mspec_tac|]. intros Kwn Hkwn. cbv beta in Hkwn.
  assert (Hkwn' : mspec N N Kwn (kn kf f vK)) by exact Hkwn. clear Hkwn.
  rewrite Hw, Hg. unfold assert_. rewrite bind_Ok.
  set (p := fun i => sqrt (kn kf f vK i i)).
  assert (Hp : vspec N (vmap sqrt (diagv Kwn)) p) by (apply vmap_spec, (diagv_spec N Kwn (kn kf f vK)), Hkwn').
  assert (Hpi : vspec N (vmap (fun t => 1 / t) (vmap sqrt (diagv Kwn))) (fun i => 1 / p i)) by (apply (vmap_spec N _ p), Hp).
  assert (Pp : forall i, (i < N)%nat -> 0 < p i) by (intros i Hi; apply sqrt_lt_R0, Hpos, Hi).
  eapply rok_bind; [eapply mdiag_l_ok; [exact Hpi | exact Hkwn']|]. intros T HT. cbv beta in HT.
  eapply rok_bind; [eapply mdiag_r_ok; [exact Hpi | exact HT]|]. intros Kc HKc. cbv beta in HKc.
  assert (HKc' : mspec N N Kc (kcor kf f vK)) by exact HKc. clear HKc HT.
  eapply rok_bind; [exact (eta_sel_ok o d N Kc _ HKc' HN Heta)|]. intros (e, idx) He. simpl in He.
  eapply rok_bind; [eapply mzip_ok; [exact HKc' | eapply mscal_spec, meye_spec]|]. intros S HS. cbv beta in HS.
  assert (HKp : mspec N N (mscal vK S) (fun i j => vK * (kcor kf f vK i j + dl i j e))).
  { eapply mspec_ext; [eapply mscal_spec; exact HS|]. intros i j _ _. cbv beta. unfold dl. destruct (i =? j)%nat; f_equal; ring. }
  clear HS.
  eapply rok_bind; [eapply mdiag_l_ok; [exact Hp | exact HKp]|]. intros T2 HT2. cbv beta in HT2.
  eapply rok_bind; [eapply mdiag_r_ok; [exact Hp | exact HT2]|]. intros Kv HKv. cbv beta in HKv.
  assert (HKv' : mspec N N Kv (fun i j => vK * (kn kf f vK i j + dl i j (e * kn kf f vK i i)))).
  { eapply mspec_ext; [exact HKv|]. intros i j Hi Hj. cbv beta. unfold kcor. fold (p i) (p j).
    assert (A := Pp i Hi). assert (B := Pp j Hj).
    replace (p i * (vK * (1 / p i * kn kf f vK i j * (1 / p j) + dl i j e)) * p j)
      with (vK * (kn kf f vK i j + p i * dl i j e * p j)) by (field; lra).
    unfold dl. destruct (Nat.eqb_spec i j) as [<-|]; [|f_equal; ring].
    f_equal. f_equal. replace (p i * e * p i) with (e * (p i * p i)) by ring. unfold p. rewrite sqrt_sqrt; [reflexivity|].
    left. auto. }
  set (Kp := mscal vK S) in *.
  assert (ScL : forall c, cho_factor Kp true = Ok c -> symmetric Kp ->
     rok (mdot (mdiag (vmap sqrt (diagv Kwn))) (fst c)) (fun PL => chol_of (PL, true) Kv)).
  { intros c Ec Sy. destruct (cho_factor_sound Kp true c Sy Ec) as (Hlo & Hc).
    assert (Hc0 := Hc). destruct Hc0 as (C1 & C2 & _). destruct HKp as (P1 & P2 & HP). destruct HKv as (V1 & V2 & HV).
    eapply rok_mono; [eapply mdiag_l_ok; [exact Hp | split; [rewrite C1; exact P1|split; [rewrite C2; exact P1|intros; reflexivity]]]|].
    intros PL (L1 & L2 & HL). apply (chol_scaled c Kp p Kv Hc Hlo); rewrite ?P1; auto.
    intros i j Hi Hj. rewrite HV, HP by auto. reflexivity. }
  destruct cc.
  - destruct (cho_factor Kp true) as [(L, lo)|er] eqn:EC.
    + assert (lo = true) as ->.
      { unfold cho_factor in EC. destruct (nr Kp =? nc Kp); [|discriminate].
        match type of EC with (bind ?m _ = _) => destruct m; simpl in EC; [|discriminate] end. injection EC as _ <-. reflexivity. }
      assert (LL : nr L = N /\ nc L = N).
      { unfold cho_factor in EC. destruct (nr Kp =? nc Kp); [|discriminate].
        match type of EC with (bind ?m _ = _) => destruct m; simpl in EC; [|discriminate] end. injection EC as <-.
        destruct HKp as (P1 & _). simpl in P1 |- *. auto. }
      assert (HPL : exists PL, mdot (mdiag (vmap sqrt (diagv Kwn))) L = Ok PL).
      { unfold mdot. simpl. destruct LL as (LL & _). rewrite LL. destruct Hkwn' as (W1 & W2 & _). rewrite W1, W2, Nat.min_id, Nat.eqb_refl. eauto. }
      destruct HPL as (PL & EPL). rewrite EPL. simpl.
      exists e, Kc, Kp. split; [exact He|]. split; [reflexivity|]. split; [exact HKs|]. split; [reflexivity|]. split; [exact HKc'|].
      split; [reflexivity|]. split; [exact HKp|]. split; [exact HKv'|]. split; [reflexivity|]. split.
      * intros _ Hpd. exists (PL, true). split; [reflexivity|].
        assert (Z := ScL (L, true) eq_refl (proj1 Hpd)). simpl in Z. rewrite EPL in Z. exact Z.
      * intros c Ec Sy. injection Ec as <-. assert (Z := ScL (L, true) eq_refl Sy). simpl in Z. rewrite EPL in Z. exact Z.
    + simpl. exists e, Kc, Kp. split; [exact He|]. split; [reflexivity|]. split; [exact HKs|]. split; [reflexivity|]. split; [exact HKc'|].
      split; [reflexivity|]. split; [exact HKp|]. split; [exact HKv'|]. split; [reflexivity|]. split.
      * intros _ Hpd. destruct (cho_factor_pd Kp true Hpd) as (c & Ec & _). congruence.
      * intros c Ec; discriminate.
  - simpl. exists e, Kc, Kp. split; [exact He|]. split; [reflexivity|]. split; [exact HKs|]. split; [reflexivity|]. split; [exact HKc'|].
    split; [reflexivity|]. split; [exact HKp|]. split; [exact HKv'|]. split; [reflexivity|]. split.
    + intros Ef; discriminate.
    + intros c Ec; discriminate.
Qed.

Theorem all_K_plain : o_well o <> Wprecon ->
  rok (calc_all_K_w_chofac o d condf Rt hp noise cc cnd varK bn) (fun out =>
    exists e, eta_is o d N kf e /\ k_eta out = e /\ mspec N N (k_Kern out) kf /\
      k_Kcor out = None /\ k_Kprec out = None /\
      mspec N N (k_Kcov out) (fun i j => vK * (kn kf f vK i j + dl i j e)) /\
      k_cond out = (if cnd then Some (condf (k_Kcov out)) else None) /\
      (cc = true -> (cnd = true -> condf (k_Kcov out) <= o_cond_max_abs o) -> pd (k_Kcov out) ->
         exists c, k_chofac out = Some c /\ chol_of c (k_Kcov out)) /\
      (forall c, k_chofac out = Some c -> symmetric (k_Kcov out) -> chol_of c (k_Kcov out))).
Proof.
  intros Hw. unfold calc_all_K_w_chofac. cbv zeta. rewrite HRt, Nat.eqb_refl. unfold assert_ at 1. rewrite bind_Ok.
  rewrite (eff_varK_eq hp varK bn vK _ Hv Hvp). rewrite Hnv, bind_Ok, HK, bind_Ok.
  assert (EN : vlen nv = N) by (destruct Hnvs; auto). rewrite EN.
  eapply rok_bind; [eapply mzip_ok; mspec_tac|]. intros Kwn Hkwn. cbv beta in Hkwn.
  assert (Hkwn' : mspec N N Kwn (kn kf f vK)) by exact Hkwn. clear Hkwn.
  assert (G : rok (ei <- (if o_eta_const o then e <- need (d_etaK d) ;; Ok (e, None)
             else let s := row_abs_sums K in i <- argmax s ;; Ok (vat s i / (o_target o - 1), Some i)) ;;
      let '(etaK, idx) := ei in
      S <- madd Kwn (mscal etaK (meye N)) ;;
      let Kcov := mscal vK S in
      let condK := if cnd then Some (condf Kcov) else None in
      let go := match condK with
                | Some c => if Rlt_dec (o_cond_max_abs o) c then false else cc
                | None => cc end in
      let chofac := if go then match cho_factor Kcov false with Ok c => Some c | Err _ => None end else None in
      Ok (mkkout K None None Kcov chofac condK etaK idx)) (fun out =>
    exists e, eta_is o d N kf e /\ k_eta out = e /\ mspec N N (k_Kern out) kf /\
      k_Kcor out = None /\ k_Kprec out = None /\
      mspec N N (k_Kcov out) (fun i j => vK * (kn kf f vK i j + dl i j e)) /\
      k_cond out = (if cnd then Some (condf (k_Kcov out)) else None) /\
      (cc = true -> (cnd = true -> condf (k_Kcov out) <= o_cond_max_abs o) -> pd (k_Kcov out) ->
         exists c, k_chofac out = Some c /\ chol_of c (k_Kcov out)) /\
      (forall c, k_chofac out = Some c -> symmetric (k_Kcov out) -> chol_of c (k_Kcov out)))).
  { eapply rok_bind; [exact (eta_sel_ok o d N K _ HKs HN Heta)|]. intros (e, idx) He. simpl in He.
    eapply rok_bind; [eapply mzip_ok; [exact Hkwn' | eapply mscal_spec, meye_spec]|]. intros S HS. cbv beta in HS.
    cbv zeta. cbn [rok k_eta k_Kern k_Kcor k_Kprec k_Kcov k_cond k_chofac].
    exists e. split; [exact He|]. split; [reflexivity|]. split; [exact HKs|]. split; [reflexivity|]. split; [reflexivity|].
    split; [|split; [destruct cnd; reflexivity|]].
    { eapply mspec_ext; [eapply mscal_spec; exact HS|]. intros i j _ _. cbv beta. unfold dl. destruct (i =? j)%nat; f_equal; ring. }
    split.
    - intros -> Hc Hpd. destruct (cho_factor_pd (mscal vK S) false Hpd) as (c & Ec & _ & HC). exists c. split; [|exact HC].
      rewrite Ec. destruct cnd; [|reflexivity]. specialize (Hc eq_refl). destruct (Rlt_dec _ _); [lra|reflexivity].
    - intros c Ec Sy.
      match type of Ec with (if ?g then _ else _) = _ => destruct g; [|discriminate] end.
      destruct (cho_factor (mscal vK S) false) as [c'|] eqn:EC; [|discriminate]. injection Ec as ->.
      apply (cho_factor_sound _ _ _ Sy EC). }
  destruct (o_well o); try exact G. congruence.
Qed.
End Cov.
