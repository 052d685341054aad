(** What setup_eval_model and eval_model compute. *)
From Coq Require Import Reals List Arith Bool Lia Lra Psatz.
From Coquelicot Require Import Coquelicot.
From Verif.Base Require Import NpLite NpFacts Deriv.
From Verif.Spec Require Import KernelSpec LinAlgSpec GpSpec DataSpec.
From Verif.Model Require Import KernelSqExp KernelMatern KernelRatQuad KernelDispatch CommonFun WellCond Rescaling GpState Chol Cov MeanFun EvalModel.
From Verif.Proofs Require Import KernTac KernGradBlocks RadialCalculus KernelExact ThetaGrad HessX2 LinAlg CholCorrect Jets Psd CovStruct StateFacts NoiseFacts NuggetCond NuggetMain MinMax LinDeriv LkdCore LkdFacts LkdMain EvalKern.
Import ListNotations.
Local Open Scope R_scope.

Lemma mean_fun_ok o x beta b b0 (cg ch : bool) : vspec 1 beta (fun _ => b0) -> (if cg then mask_ok (nr x) b else True) ->
  rok (eval_mean_fun o x beta b None cg ch) (fun m => let '(mv, mg, mh) := m in
    vspec (nr x) mv (fun _ => b0) /\
    (if cg then exists G, mg = Some G /\ mspec (opt_count (nr x) b) (o_dim o) G (fun _ _ => 0) /\
         (if ch then exists H, mh = Some H /\ tspec (nr x) (o_dim o) (o_dim o) H (fun _ _ _ => 0) else mh = None) else mg = None /\ mh = None)).
Proof.
  intros (B1 & B2) M. unfold eval_mean_fun. rewrite B1. cbn [Nat.eqb assert_ n_beta]. rewrite bind_Ok. unfold calc_vand.
  eapply rok_bind with (P := fun mv => vspec (nr x) mv (fun _ => b0)).
  { eapply rok_mono; [apply (mdotv_ok (nr x) 1 _ _ _ _ (mconst_spec (nr x) 1 1) (conj B1 B2))|]. intros mv H. eapply vspec_ext; [exact H|]. intros i Hi. cbn [rsum]. ring. }
  intros mv Hmv. destruct cg; [|cbn [rok]; auto].
  eapply rok_bind with (P := fun T => tspec (o_dim o) (opt_count (nr x) b) 1 T (fun _ _ _ => 0)).
  { destruct b as [b|]; cbn [rok opt_count]; [|apply tconst_spec]. eapply rok_mono; [apply (trows_ok (o_dim o) (nr x) 1 _ _ b (tconst_spec _ _ _ _) M)|]. intros T HT. exact HT. }
  intros T (T1 & T2 & T3 & T4).
  assert (HG : mspec (opt_count (nr x) b) (o_dim o) (mkmat (tr T) (td T) (fun j i => rsum (tc T) (fun k => tat T i j k * vat beta k))) (fun _ _ => 0)).
  { split; [exact T2|]. split; [exact T1|]. intros i j Hi Hj. cbn [mat_at]. rewrite T3. cbn [rsum]. rewrite T4 by lia. ring. }
  destruct ch; cbn [rok]; rewrite ?bind_Ok; cbn [rok]; split; try exact Hmv; eexists; (split; [reflexivity|]); (split; [exact HG|]).
  - eexists. split; [reflexivity|]. apply tconst_spec.
  - reflexivity.
Qed.

Definition is_precon (w : wmtd) : bool := match w with Wprecon => true | _ => false end.
Lemma vconst_spec n x : vspec n (vconst n x) (fun _ => x). Proof. split; [reflexivity|reflexivity]. Qed.
(** scaling of a point, and the shift of the coordinates *)
Definition in_shift (d : gpdata) (i : nat) : R := match d_scl d with Some r => vat (r_shift r) i | None => 0 end.
Definition to_scl (d : gpdata) (x : pt) : pt := fun i => (x i - in_shift d i) * in_scale d i.
(** a state in which the surrogate can be set up *)
Record ev_ready (o : gpopt) (d : gpdata) : Prop := mkev {
  ev_gp : gp_ready o d; ev_Rt : snd (get_scl_x_w_dist d) = d_Rt d;
  ev_scl : forall r, d_scl d = Some r -> vlen (r_shift r) = o_dim o /\ vlen (r_scale r) = o_dim o }.

Section E.
Variables (o : gpopt) (d : gpdata) (hp : hpv) (vK b0 : R) (beta : vec).
Hypothesis EV : ev_ready o d.
Hypothesis Hw : o_well o = Wprecon -> o_use_grad o = true.
Hypothesis Hh : hyper_ok o hp.
Hypothesis Hno : noise_arg_ok o d hp None.
Hypothesis HvK : hp_varK hp = Some vK.
Hypothesis HvP : 0 < vK.
Hypothesis Hbeta : hp_beta hp = Some beta.
Hypothesis Hb0 : vspec 1 beta (fun _ => b0).
Notation X := (fst (get_scl_x_w_dist d)).
Notation N := (cN o d).
Notation kf := (ckf o d hp X).
Notation nf := (noise_fn d hp None).
Let HR : gp_ready o d := ev_gp o d EV.
(** what is added to the diagonal: noise and nugget *)
Definition sdiag (e : R) (i : nat) : R := if is_precon (o_well o) then nf i + e * (kf i i + nf i) else nf i + e.
Definition smat (e : R) (i j : nat) : R := kf i j + (if (i =? j)%nat then sdiag e i else 0).
Definition sres : nat -> R := gres (basis d) (vat (ydata d)) b0.
Definition surr_ok (su : surr) : Prop :=
  su_data su = ydata d /\ mspec N N (k_Kern (su_K su)) kf /\
  exists e, 0 < e /\ k_eta (su_K su) = e /\ pdf N (smat e) /\ mspec N N (k_Kcov (su_K su)) (smat e) /\
    (forall i, (i < N)%nat -> 0 < sdiag e i) /\
    match k_chofac (su_K su) with
    | Some c => chol_of c (k_Kcov (su_K su)) /\ exists inv, su_inv su = Some inv /\ vspec N inv (ksol N (smat e) sres)
    | None => su_inv su = None
    end.
Lemma f_nn r : (r < N)%nat -> 0 <= nf r.
Proof. intros Hr. destruct (call_setup o d hp None HR Hh Hno) as (K & nv & _ & _ & _ & _ & _ & H). apply H, Hr. Qed.

Lemma setup_ok condf cc : rok (setup_eval_model o d condf hp cc) (fun su => surr_ok su /\
  (match o_well o with Wprecon => True | _ => cc = false \/ condf (k_Kcov (su_K su)) <= o_cond_max_abs o end -> exists c, k_chofac (su_K su) = Some c)).
Proof.
  unfold setup_eval_model. destruct (get_scl_x_w_dist d) as (X0, Rt) eqn:EX. assert (ERt : Rt = d_Rt d) by (rewrite <- (ev_Rt o d EV), EX; reflexivity).
  assert (EX0 : X0 = X) by (rewrite EX; reflexivity).
  destruct (data_ok o d HR) as (fv & sf & g & sg & -> & E1 & LN & LF). rewrite bind_Ok. rewrite Hbeta. cbn [need_beta]. rewrite bind_Ok.
  destruct (gr_pts _ _ HR) as [W1 W2 W3 W4 W5]. rewrite EX in W1, W2, W3. cbn [fst] in W1, W2, W3.
  eapply rok_bind.
  { apply (mean_fun_ok o X0 beta (d_bvec d) b0 (o_use_grad o) false Hb0). destruct (o_use_grad o); [rewrite W2; exact W4|exact I]. }
  intros ((mv & mg) & mh) (Hm & Hg). cbv zeta. rewrite E1.
  assert (HM : vspec N (make_data_vec mv mg) (fun i => basis d i * b0)).
  { unfold make_data_vec, cN, basis. rewrite W2 in *. destruct (o_use_grad o) eqn:U.
    - destruct Hg as (G & -> & (G1 & G2 & G3) & _). destruct Hm as (M1 & M2). split; [cbn [vcat vlen reshape_f]; rewrite M1, G1, G2, W5; reflexivity|].
      intros i Hi. cbn [vcat vat]. rewrite M1. destruct (Nat.ltb_spec i (d_n_eval d)) as [C|C]; [rewrite M2 by exact C; ring|].
      cbn [reshape_f vat]. rewrite G1. rewrite G3; [ring| |].
      + apply Nat.mod_upper_bound. rewrite W5 in Hi. intros Z. rewrite Z in Hi. lia.
      + apply Nat.div_lt_upper_bound; [intros Z; rewrite W5, Z in Hi; lia|]. rewrite W5 in Hi. lia.
    - destruct Hg as (-> & _). rewrite W5, Nat.add_0_r. destruct Hm as (M1 & M2). split; [exact M1|]. intros i Hi. destruct (Nat.ltb_spec i (d_n_eval d)); [|lia]. rewrite M2 by exact Hi. ring. }
  assert (EVK : eff_varK hp None true = Some 1) by (unfold eff_varK; rewrite HvK; reflexivity).
  rewrite ERt.
  assert (HC : rok (calc_all_K_w_chofac o d condf (d_Rt d) hp None true cc None true) (fun k => mspec N N (k_Kern k) kf /\
     exists e, 0 < e /\ k_eta k = e /\ mspec N N (k_Kcov k) (smat e) /\ pd (k_Kcov k) /\ (forall i, (i < N)%nat -> 0 < sdiag e i) /\
     (forall c, k_chofac k = Some c -> chol_of c (k_Kcov k)) /\
     (match o_well o with Wprecon => True | _ => cc = false \/ condf (k_Kcov k) <= o_cond_max_abs o end -> exists c, k_chofac k = Some c))).
  { destruct (is_precon (o_well o)) eqn:WP.
    - assert (WE : o_well o = Wprecon) by (destruct (o_well o); try discriminate; reflexivity).
      eapply rok_mono; [apply (call_precon o d condf hp None true cc None true 1 HR Hh Hno EVK Rlt_0_1 WE (Hw WE))|].
      intros k (e & Kc & Kp & H1 & H2 & H3 & H4 & H5 & H6 & H7 & H8 & H9 & H10 & H11 & H12 & H13 & H14). split; [exact H4|]. exists e. split; [exact H2|]. split; [exact H3|]. split.
      { eapply mspec_ext; [exact H9|]. intros i j Hi Hj. unfold smat, sdiag, kn, dl. rewrite WP. destruct (i =? j)%nat eqn:Eij; [|ring]. rewrite Nat.eqb_refl. field. }
      split; [exact H12|]. split.
      { intros i Hi. unfold sdiag. rewrite WP. assert (Z := f_nn i Hi). assert (Z' := ckf_pos o d hp X Hh i Hi). assert (0 < e * (kf i i + nf i)) by (apply Rmult_lt_0_compat; lra). lra. }
      split; [exact H14|]. intros _. destruct (H13 eq_refl) as (c & Ec & _). eauto.
    - assert (WE : o_well o <> Wprecon) by (intros Z; rewrite Z in WP; discriminate).
      eapply rok_mono; [apply (call_plain o d condf hp None true cc None true 1 HR Hh Hno EVK Rlt_0_1 WE)|].
      intros k (e & H1 & H2 & H3 & H4 & H5 & H6 & H7 & H8 & H9 & H10 & H11). split; [exact H4|]. exists e. split; [exact H2|]. split; [exact H3|]. split.
      { eapply mspec_ext; [exact H7|]. intros i j Hi Hj. unfold smat, sdiag, kn, dl. rewrite WP. destruct (i =? j)%nat eqn:Eij; [|ring]. field. }
      split; [exact H9|]. split.
      { intros i Hi. unfold sdiag. rewrite WP. assert (Z := f_nn i Hi). lra. }
      split; [exact H11|]. intros HCD. destruct (H10 eq_refl) as (c & Ec & _).
      { intros Z. destruct (o_well o); try congruence; destruct HCD as [C|C]; congruence. }
      eauto. }
  eapply rok_bind; [exact HC|]. intros k (HK & e & P1 & P2 & P3 & P4 & P5 & P6 & P7).
  assert (HA := pd_pdf _ _ _ P3 P4).
  eapply rok_bind with (P := fun v => vspec N v sres).
  { eapply rok_mono; [apply (vzip_ok Rminus _ _ _ _ _ (ydata_spec o d HR) HM)|]. intros x Hx. exact Hx. }
  intros fd Hfd. cbv beta in Hfd.
  eapply rok_bind with (P := fun s => match k_chofac k with None => s = None | Some c => exists x, s = Some x /\ vspec N x (ksol N (smat e) sres) end).
  { destruct (k_chofac k) as [c|] eqn:Ec; [|reflexivity].
    eapply rok_bind; [apply (csolve N _ _ c P3 HA (P6 c eq_refl) _ _ Hfd)|]. intros x Hx. cbn [rok]. eauto. }
  intros s Hs. cbn [rok]. split; [|exact P7]. split; [reflexivity|]. split; [exact HK|]. exists e. cbn [su_K su_inv].
  repeat (split; [assumption|]). destruct (k_chofac k) as [c|]; [split; [apply P6; reflexivity|exact Hs]|exact Hs].
Qed.

(** ** the kernel blocks *)
Notation kj := (kjet (o_kernel o) (hp_val (hp_kernel hp)) (o_dim o) (cut (o_dim o) (vat (hp_theta hp)))).
Definition kxf (x : pt) (r : nat) : R := kj (cobs d X r) (Val x).
Definition dkf (j : nat) (x : pt) (r : nat) : R := kj (cobs d X r) (Der j x).
Hypothesis Hrq : o_use_grad o = true -> o_kernel o = RatQu -> d_bvec d = None.
Let Hnn : forall i, (i < o_dim o)%nat -> 0 <= vat (hp_theta hp) i.
Proof. intros i Hi. left. apply Hh, Hi. Qed.
Let Hto : th_ok (o_kernel o) (o_dim o) (vat (hp_theta hp)).
Proof. apply th_ok_nn, Hnn. Qed.

Lemma mslice_spec n m A f r1 r2 c1 c2 : mspec n m A f -> (r1 <= r2 <= n)%nat -> (c1 <= c2 <= m)%nat ->
  mspec (r2 - r1) (c2 - c1) (mslice A r1 r2 c1 c2) (fun i j => f (r1 + i)%nat (c1 + j)%nat).
Proof.
  intros (A1 & A2 & A3) Hr Hc. unfold mslice. cbv zeta. rewrite A1, A2. rewrite !Nat.min_l by lia. split; [reflexivity|]. split; [reflexivity|].
  intros i j Hi Hj. cbn [mat_at]. apply A3; lia.
Qed.
Lemma blocks_ok x2 cg : nc x2 = o_dim o ->
  rok (eval_blocks o d hp x2 cg) (fun KK => mspec N (nr x2) (fst KK) (fun r p => kxf (rows_of x2 p) r) /\
    (if o_use_grad o || cg then exists dK, snd KK = Some dK /\ mspec (nr x2 * o_dim o) N dK (fun c r => dkf (c / nr x2) (rows_of x2 (c mod nr x2)) r) else snd KK = None)).
Proof.
  intros Hx. destruct (gr_pts _ _ HR) as [W1 W2 W3 W4 W5]. destruct Hh as (L & P & HP). unfold eval_blocks. cbv zeta.
  assert (EC : nc X = nc x2) by congruence. assert (L' : vlen (hp_theta hp) = nc X) by congruence.
  assert (R1 : forall c, (c < nr x2)%nat -> rowobs (nr x2) (nr x2) (rows_of x2) (fun p => p) c = Val (rows_of x2 c)).
  { intros c Hc. unfold rowobs, unradr. destruct (Nat.ltb_spec c (nr x2)); [reflexivity|lia]. }
  assert (R2 : forall c, (c < nr x2 * o_dim o)%nat -> rowobs (nr x2) (nr x2) (rows_of x2) (fun p => p) (nr x2 + c) = Der (c / nr x2) (rows_of x2 (c mod nr x2))).
  { intros c Hc. unfold rowobs, unradr. destruct (Nat.ltb_spec (nr x2 + c) (nr x2)); [lia|]. replace (nr x2 + c - nr x2)%nat with c by lia. reflexivity. }
  destruct (o_use_grad o) eqn:U; cbn [orb].
  - destruct (cross_grad (o_kernel o) X x2 (hp_theta hp) (hp_kernel hp) (d_bvec d) EC L' ltac:(rewrite W3; exact Hto) HP ltac:(rewrite W2; exact W4) (Hrq eq_refl)) as (Rt & K & -> & EK & HK).
    rewrite bind_Ok, EK, bind_Ok. cbn [rok fst snd]. cbv zeta in HK. rewrite W2, W3, <- W5 in HK.
    assert (NK : nr K = N /\ nc K = (nr x2 + nr x2 * o_dim o)%nat) by (destruct HK as (A & B & _); unfold cN; rewrite A, B; split; lia). destruct NK as (NK1 & NK2).
    split.
    + assert (Z := mslice_spec _ _ _ _ 0 (nr K) 0 (nr x2) HK ltac:(unfold cN in NK1; lia) ltac:(lia)). rewrite !Nat.sub_0_r, NK1 in Z. eapply mspec_ext; [rewrite NK1; exact Z|].
      intros r c Hr Hc. cbn [Nat.add]. rewrite R1 by exact Hc. reflexivity.
    + eexists. split; [reflexivity|]. assert (Z := mslice_spec _ _ _ _ 0 (nr K) (nr x2) (nc K) HK ltac:(unfold cN in NK1; lia) ltac:(lia)).
      rewrite !Nat.sub_0_r, NK1, NK2 in Z. replace (nr x2 + nr x2 * o_dim o - nr x2)%nat with (nr x2 * o_dim o)%nat in Z by lia.
      rewrite NK1, NK2. eapply mspec_ext; [apply mtrans_spec; exact Z|]. intros c r Hc Hr. cbv beta. cbn [Nat.add]. rewrite R2 by exact Hc. reflexivity.
  - assert (EN : N = d_n_eval d) by (unfold cN; rewrite W5; lia).
    assert (R3 : forall n g r, (r < d_n_eval d)%nat -> rowobs (d_n_eval d) g (rows_of X) n r = Val (rows_of X r)).
    { intros n g r Hr. unfold rowobs, unradr. destruct (Nat.ltb_spec r (d_n_eval d)); [reflexivity|lia]. }
    destruct cg.
    + rewrite W4. destruct (cross_grad (o_kernel o) X x2 (hp_theta hp) (hp_kernel hp) None EC L' ltac:(rewrite W3; exact Hto) HP I ltac:(reflexivity)) as (Rt & K & -> & EK & HK).
      rewrite bind_Ok, EK, bind_Ok. cbn [rok fst snd]. cbv zeta in HK. rewrite W2, W3 in HK. cbn [opt_count] in HK.
      assert (NK : nc K = (nr x2 + nr x2 * o_dim o)%nat) by (destruct HK as (A & B & _); exact B). split.
      * assert (Z := mslice_spec _ _ _ _ 0 (d_n_eval d) 0 (nr x2) HK ltac:(lia) ltac:(lia)). rewrite !Nat.sub_0_r in Z. rewrite EN. eapply mspec_ext; [exact Z|].
        intros r c Hr Hc. cbn [Nat.add]. rewrite R1 by exact Hc. unfold kxf, cobs. rewrite !R3 by exact Hr. reflexivity.
      * eexists. split; [reflexivity|]. assert (Z := mslice_spec _ _ _ _ 0 (d_n_eval d) (nr x2) (nc K) HK ltac:(lia) ltac:(lia)).
        rewrite !Nat.sub_0_r, NK in Z. replace (nr x2 + nr x2 * o_dim o - nr x2)%nat with (nr x2 * o_dim o)%nat in Z by lia.
        rewrite NK, EN. eapply mspec_ext; [apply mtrans_spec; exact Z|]. intros c r Hc Hr. cbv beta. cbn [Nat.add]. rewrite R2 by exact Hc. unfold dkf, cobs. rewrite !R3 by exact Hr. reflexivity.
    + destruct (cross_base (o_kernel o) X x2 (hp_theta hp) (hp_kernel hp) EC L' HP) as (Rt & K & -> & EK & HK).
      rewrite bind_Ok, EK, bind_Ok. cbn [rok fst snd]. split; [|reflexivity]. rewrite EN, <- W2. eapply mspec_ext; [exact HK|].
      intros r c Hr Hc. cbv beta. unfold kxf, cobs. rewrite R3 by lia. rewrite W3. reflexivity.
Qed.

Lemma cobs_lt r : (r < N)%nat -> obs_lt (o_dim o) (cobs d X r).
Proof.
  intros Hr. unfold cobs, rowobs. destruct (unradr_ok _ _ _ _ Hr) as (V & _). destruct (unradr _ _ r) as [p|i p]; simpl in *; tauto.
Qed.
Lemma kxf_dx x j r : (j < o_dim o)%nat -> (r < N)%nat -> is_derive (fun t => kxf (upd x j t) r) (x j) (dkf j x r).
Proof. intros Hj Hr. apply (kjet_dx (o_kernel o) (hp_kernel hp) (o_dim o) (vat (hp_theta hp))); auto. apply Hh. apply cobs_lt, Hr. Qed.
Lemma kj_ext a x y : (forall i, x i = y i) -> kj a (Val x) = kj a (Val y) /\ forall j, kj a (Der j x) = kj a (Der j y).
Proof.
  intros E. assert (S : forall z, sqd (o_dim o) (cut (o_dim o) (vat (hp_theta hp))) z x = sqd (o_dim o) (cut (o_dim o) (vat (hp_theta hp))) z y).
  { intros z. apply rsum_ext; intros i _. rewrite E. reflexivity. }
  destruct a as [z|i z]; unfold kjet, rjet; rewrite !S, ?E; split; try reflexivity; intros j; rewrite ?E; reflexivity.
Qed.
(** only the first coordinates matter *)
Lemma kj_loc a x y : (forall i, (i < o_dim o)%nat -> x i = y i) -> obs_lt (o_dim o) a -> kj a (Val x) = kj a (Val y) /\ forall j, (j < o_dim o)%nat -> kj a (Der j x) = kj a (Der j y).
Proof.
  intros E Ha. assert (S : forall z, sqd (o_dim o) (cut (o_dim o) (vat (hp_theta hp))) z x = sqd (o_dim o) (cut (o_dim o) (vat (hp_theta hp))) z y).
  { intros z. apply rsum_ext; intros i Hi. rewrite E by exact Hi. reflexivity. }
  destruct a as [z|i z]; unfold kjet, rjet; rewrite !S, ?E by exact Ha; split; try reflexivity; intros j Hj; rewrite ?E by assumption; reflexivity.
Qed.

(** the Hessian block *)
Definition hess_mask_ok : Prop := o_use_grad o = true -> full_mask (d_n_eval d) (d_bvec d).
Lemma hess_ok x2 : nc x2 = o_dim o -> nr x2 = 1%nat -> hess_mask_ok ->
  (o_use_grad o = true -> nu_ok2 (o_kernel o) (o_dim o) (vat (hp_theta hp)) (rows_of x2) (rows_of X) 1 (d_n_eval d)) ->
  rok (eval_hess o d hp x2) (fun T => td T = o_dim o /\ tr T = o_dim o /\ tc T = N /\ n_all o d = N /\
    forall l i c, (l < o_dim o)%nat -> (i < o_dim o)%nat -> (c < N)%nat ->
      is_derive (fun t => dkf i (upd (rows_of x2 0%nat) l t) c) (rows_of x2 0%nat l) (tat T l i c)).
Proof.
  intros Hx H1 HM HN. destruct (gr_pts _ _ HR) as [W1 W2 W3 W4 W5]. assert (Hh' := Hh). destruct Hh' as (L & P & HP). unfold eval_hess, n_all.
  assert (EC : nc x2 = nc X) by congruence. assert (L' : vlen (hp_theta hp) = nc x2) by congruence.
  destruct (o_use_grad o) eqn:U.
  - destruct (full_mask_facts _ _ (HM U)) as (M & C & SL).
    assert (EN : N = (d_n_eval d + d_n_eval d * o_dim o)%nat) by (unfold cN; rewrite W5, C; reflexivity).
    destruct (KernGrad_hess_exact (o_kernel o) x2 X (hp_theta hp) (hp_kernel hp) None EC L' ltac:(rewrite Hx; exact P) HP I ltac:(rewrite Hx, W2, H1; apply HN, eq_refl)) as (Rt & T & -> & ET & T0 & T1 & T2 & HT).
    rewrite bind_Ok, ET. cbn [rok]. rewrite Hx, H1 in *. rewrite W2 in *. rewrite observations_length in T2 by exact I. cbn [opt_count] in T2.
    split; [exact T0|]. split; [lia|]. split; [lia|]. split; [lia|]. intros l i c Hl Hi Hc.
    assert (Hc' : (c < d_n_eval d + d_n_eval d * o_dim o)%nat) by lia. destruct (unradr_ok _ _ _ _ Hc') as (V & EVc).
    assert (O := observations_nth (d_n_eval d) (o_dim o) (rows_of X) None (unradr (d_n_eval d) (d_n_eval d) c) I V). cbn [opt_count] in O. rewrite EVc in O.
    specialize (HT l i 0%nat c _ Hl Hi ltac:(lia) O). replace (i * 1 + 0)%nat with i in HT by lia. unfold dkf.
    assert (EO : cobs d X c = obs_at (rows_of X) (osel None) (unradr (d_n_eval d) (d_n_eval d) c)).
    { unfold cobs, rowobs. rewrite W5, C. destruct (unradr (d_n_eval d) (d_n_eval d) c) as [p|i' p]; [reflexivity|]. cbn [obs_at osel]. rewrite SL by apply V. reflexivity. }
    rewrite EO. apply (kjet_dx2 (o_kernel o) (hp_kernel hp) (o_dim o) (vat (hp_theta hp))); auto. rewrite <- EO. apply cobs_lt, Hc.
  - assert (EN : N = d_n_eval d) by (unfold cN; rewrite W5; lia).
    destruct (KernBase_hess_exact (o_kernel o) x2 X (hp_theta hp) (hp_kernel hp) EC L' ltac:(rewrite Hx; exact Hto) HP) as (Rt & T & -> & ET & T0 & T1 & T2 & HT).
    rewrite bind_Ok, ET. cbn [rok]. rewrite Hx, H1 in *. rewrite W2 in *. rewrite map_length, seq_length in T2.
    split; [exact T0|]. split; [lia|]. split; [lia|]. split; [lia|]. intros l i c Hl Hi Hc.
    assert (O : nth_error (map (fun q => Val (rows_of X q)) (seq 0 (d_n_eval d))) c = Some (Val (rows_of X c))).
    { erewrite map_nth_error; [|apply nth_error_seq; lia]. reflexivity. }
    specialize (HT l i 0%nat c _ Hl Hi ltac:(lia) O). replace (i * 1 + 0)%nat with i in HT by lia. unfold dkf.
    assert (EO : cobs d X c = Val (rows_of X c)). { unfold cobs, rowobs, unradr. destruct (Nat.ltb_spec c (d_n_eval d)); [reflexivity|lia]. }
    rewrite EO. apply (kjet_dx2 (o_kernel o) (hp_kernel hp) (o_dim o) (vat (hp_theta hp))); auto. exact I.
Qed.

(** ** evaluation *)
Section Ev.
Variables (su : surr) (e : R) (c : mat * bool) (inv : vec).
Hypothesis Hdiag : forall i, (i < N)%nat -> 0 < sdiag e i.
Hypothesis HA : pdf N (smat e).
Hypothesis HK : mspec N N (k_Kcov (su_K su)) (smat e).
Hypothesis Ec : k_chofac (su_K su) = Some c.
Hypothesis Hc : chol_of c (k_Kcov (su_K su)).
Hypothesis Einv : su_inv su = Some inv.
Hypothesis Hinv : vspec N inv (ksol N (smat e) sres).
Definition Pmu (x : pt) : R := pmu N (smat e) sres b0 kxf x.
Definition Pv (x : pt) : R := pv N (smat e) kxf x.
Definition Psig (x : pt) : R := sqrt (Pv x) * sqrt vK.
Definition Pdmu (i : nat) (x : pt) : R := pdmu N (smat e) sres dkf i x.
Definition Pdv (i : nat) (x : pt) : R := pdv N (smat e) kxf dkf i x.
Definition Pdsig (i : nat) (x : pt) : R := - (if Req_EM_T (Psig x) 0 then 0 else 1 / Psig x) * (Pdv i x * vK).

Lemma Pv_bounds x : 0 <= Pv x <= 1.
Proof.
  apply (var_bounds N (smat e) kf (sdiag e) (kxf x)); auto.
  - intros i Hi. left. apply Hdiag, Hi.
  - intros z. assert (Z := joint_psd (o_kernel o) (hp_kernel hp) (o_dim o) (vat (hp_theta hp)) N (cobs d X) x z ltac:(apply Hh) Hnn). cbv zeta in Z.
    rewrite (kjet_diag _ _ _ _ (Val x)) in Z. exact Z.
Qed.
Lemma kron_ones_spec m n Kv f : mspec n m Kv f -> (0 < n)%nat -> mspec (n * o_dim o) m (kron_ones (o_dim o) Kv) (fun r j => f (r mod n)%nat j).
Proof.
  intros (A1 & A2 & A3) Hn. split; [cbn [kron_ones nr]; rewrite A1; lia|]. split; [exact A2|]. intros i j Hi Hj. cbn [kron_ones mat_at]. rewrite A1. apply A3; [apply Nat.mod_upper_bound; lia|exact Hj].
Qed.
Lemma reshape_spec v n f : vspec (n * o_dim o) v f -> (0 < n)%nat -> rok (reshape_2f v (n * o_dim o / o_dim o) (o_dim o)) (fun M => mspec n (o_dim o) M (fun p i => f (i * n + p)%nat)).
Proof.
  intros (V1 & V2) Hn. rewrite Nat.div_mul by (assert (Z := gr_d _ _ HR); lia). unfold reshape_2f. rewrite V1, Nat.eqb_refl. cbn [rok]. split; [reflexivity|]. split; [reflexivity|].
  intros p i Hp Hi. cbn [mat_at]. apply V2. nia.
Qed.
Lemma idx_dm i n p : (p < n)%nat -> ((i * n + p) / n = i /\ (i * n + p) mod n = p)%nat.
Proof. intros Hp. split; [rewrite Nat.div_add_l by lia; rewrite Nat.div_small by exact Hp; lia|]. rewrite Nat.add_comm, Nat.mod_add by lia. apply Nat.mod_small, Hp. Qed.

Section X2.
Variable (x2 : mat).
Hypothesis Hx : nc x2 = o_dim o.
Hypothesis Hn : (0 < nr x2)%nat.
Notation nx := (nr x2).
Notation y := (rows_of x2).

Lemma quad_ok Kyx S : mspec N nx Kyx (fun r p => kxf (y p) r) -> mspec N nx S (fun r p => pz N (smat e) kxf (y p) r) ->
  rok (one_minus_quad Kyx (mtrans S)) (fun v => vspec nx v (fun p => Pv (y p))).
Proof.
  intros H1 H2. unfold one_minus_quad. eapply rok_bind; [apply (mdot_ok nx N nx _ _ _ _ (mtrans_spec _ _ _ _ H1) (mtrans_spec _ _ _ _ (mtrans_spec _ _ _ _ H2)))|].
  intros Q HQ. cbv beta in HQ. assert (HN : nc Kyx = nx) by apply H1. rewrite HN.
  eapply rok_mono; [apply (vzip_ok Rminus nx _ _ (fun _ => 1) _ (vconst_spec nx 1) (diagv_spec _ _ _ HQ))|].
  intros v Hv. exact Hv.
Qed.
Lemma min_ok v f : vspec nx v f -> (forall p, (p < nx)%nat -> 0 <= f p) -> vmin_nonneg v = Ok true.
Proof.
  intros (V1 & V2) Hf. unfold vmin_nonneg.
  assert (NE : map (vat v) (seq 0 (vlen v)) <> []). { rewrite V1. destruct nx; [lia|]. cbn. discriminate. }
  destruct (rok_ex _ _ (lmin_ok _ NE)) as (m & -> & Hm & _). rewrite bind_Ok. apply in_map_iff in Hm. destruct Hm as (p & <- & Hp). apply in_seq in Hp.
  rewrite V2 by lia. destruct (Rle_dec 0 (f p)) as [|C]; [reflexivity|]. exfalso. apply C, Hf. lia.
Qed.
Lemma dmu_ok dK : mspec (nx * o_dim o) N dK (fun q r => dkf (q / nx) (y (q mod nx)) r) ->
  rok (calc_dmudx (o_dim o) dK inv) (fun M => mspec nx (o_dim o) M (fun p i => Pdmu i (y p))).
Proof.
  intros H. unfold calc_dmudx. eapply rok_bind; [apply (mdotv_ok _ _ _ _ _ _ H Hinv)|]. intros v Hv. cbv beta in Hv. assert (E1 : nr dK = (nx * o_dim o)%nat) by apply H. rewrite E1.
  eapply rok_mono; [apply (reshape_spec _ _ _ Hv Hn)|]. intros M HM. eapply mspec_ext; [exact HM|]. intros p i Hp Hi. cbv beta. destruct (idx_dm i nx p Hp) as (-> & ->). reflexivity.
Qed.
Lemma rowprod_ok dK S : mspec (nx * o_dim o) N dK (fun q r => dkf (q / nx) (y (q mod nx)) r) -> mspec N nx S (fun r p => pz N (smat e) kxf (y p) r) ->
  rok (row_products (o_dim o) (vlen inv) dK (mtrans S)) (fun v => vspec (nx * o_dim o) v (fun q => Pdv (q / nx) (y (q mod nx)))).
Proof.
  intros H1 H2. unfold row_products. assert (KO := kron_ones_spec _ _ _ _ (mtrans_spec _ _ _ _ H2) Hn). cbv beta in KO.
  eapply rok_bind; [apply (mzip_ok Rmult _ _ _ _ _ _ H1 KO)|]. intros P HP. cbv beta in HP.
  assert (VI : vlen inv = N) by apply Hinv. rewrite VI.
  eapply rok_mono; [apply (mdotv_ok _ _ _ _ _ (fun _ => 1) HP (vconst_spec N 1))|]. intros v Hv. eapply vspec_ext; [exact Hv|].
  intros q Hq. cbv beta. unfold Pdv, pdv, dotp. apply rsum_ext; intros l Hl. ring.
Qed.
Lemma dsig_ok sig dK S : vspec nx sig (fun p => Psig (y p)) -> mspec (nx * o_dim o) N dK (fun q r => dkf (q / nx) (y (q mod nx)) r) -> mspec N nx S (fun r p => pz N (smat e) kxf (y p) r) ->
  rok (calc_dsigdx (o_dim o) (vlen inv) sig (mtrans S) dK (sqrt vK)) (fun M => mspec nx (o_dim o) M (fun p i => Pdsig i (y p))).
Proof.
  intros (S1 & S2) H1 H2. unfold calc_dsigdx. cbv zeta.
  eapply rok_bind; [apply (rowprod_ok dK S H1 H2)|]. intros v Hv. cbv beta in Hv. assert (E1 : nr dK = (nx * o_dim o)%nat) by apply H1. rewrite E1.
  eapply rok_bind; [apply (reshape_spec _ _ _ (vmap_spec _ _ _ (fun t => t * sqrt vK ^ 2) Hv) Hn)|]. intros T HT. cbv beta in HT.
  eapply rok_mono; [eapply (fun H => mzip_ok Rmult nx (o_dim o) _ _ (fun p _ => - (if Req_EM_T (Psig (y p)) 0 then 0 else 1 / Psig (y p))) _ H HT)|].
  - split; [exact S1|]. split; [reflexivity|]. intros p i Hp Hi. cbn [mat_at vmap vat]. rewrite S2 by exact Hp. reflexivity.
  - intros M HM. eapply mspec_ext; [exact HM|]. intros p i Hp Hi. cbv beta. destruct (idx_dm i nx p Hp) as (-> & ->). unfold Pdsig.
    replace (sqrt vK ^ 2) with vK; [reflexivity|]. simpl. rewrite Rmult_1_r, sqrt_sqrt; lra.
Qed.

(** Hessians: one point *)
Section H.
Hypothesis H1 : nx = 1%nat.
Variables (T : ten).
Hypothesis HT : td T = o_dim o /\ tr T = o_dim o /\ tc T = N /\ n_all o d = N.
Notation h := (fun l i => tat T l i).
Definition Phmu (l i : nat) : R := dotp N (h l i) (ksol N (smat e) sres).
Definition Phv (l i : nat) : R := dotp N (h l i) (pz N (smat e) kxf (y 0%nat)) + dotp N (dkf l (y 0%nat)) (ksol N (smat e) (dkf i (y 0%nat))).
Definition Phsig (l i : nat) : R := 1 / (2 * Psig (y 0%nat)) * (-2 * sqrt vK ^ 2 * Phv l i - 2 * (Pdsig l (y 0%nat) * Pdsig i (y 0%nat))).
Lemma shape_true : hess_shape_ok o d T = true.
Proof. destruct HT as (A & B & C & D). unfold hess_shape_ok. rewrite A, B, C, D, !Nat.eqb_refl. reflexivity. Qed.
Lemma tdotv_ok v f : vspec N v f -> rok (tdotv T v) (fun M => mspec (o_dim o) (o_dim o) M (fun l i => dotp N (h l i) f)).
Proof.
  intros (V1 & V2). destruct HT as (A & B & C & D). unfold tdotv. rewrite C, V1, Nat.eqb_refl. cbn [rok]. split; [exact A|]. split; [exact B|]. intros l i Hl Hi. cbn [mat_at]. unfold dotp. apply rsum_ext; intros j Hj. rewrite V2 by exact Hj. reflexivity.
Qed.
Lemma d2mu_ok : rok (calc_d2mudx2 o d T inv) (fun M => tspec 1 (o_dim o) (o_dim o) M (fun _ l i => Phmu l i)).
Proof.
  unfold calc_d2mudx2. rewrite shape_true. cbn [assert_]. rewrite bind_Ok. eapply rok_bind; [apply (tdotv_ok _ _ Hinv)|]. intros M (M1 & M2 & M3). cbn [rok as_ten].
  split; [reflexivity|]. split; [exact M1|]. split; [exact M2|]. intros k l i _ Hl Hi. cbn [tat]. apply M3; assumption.
Qed.
Lemma d2sig_ok sig dsig dK S : vspec nx sig (fun p => Psig (y p)) -> mspec nx (o_dim o) dsig (fun p i => Pdsig i (y p)) ->
  mspec (nx * o_dim o) N dK (fun q r => dkf (q / nx) (y (q mod nx)) r) -> mspec N nx S (fun r p => pz N (smat e) kxf (y p) r) ->
  rok (calc_d2sigdx2 o d c sig dsig (mtrans S) dK T (sqrt vK)) (fun M => if Req_EM_T (Psig (y 0%nat)) 0 then M = None else exists M', M = Some M' /\ tspec 1 (o_dim o) (o_dim o) M' (fun _ l i => Phsig l i)).
Proof.
  intros (S1 & S2) (D1 & D2 & D3) HdK HS. assert (Z := gr_d _ _ HR). unfold calc_d2sigdx2. rewrite shape_true. cbn [assert_]. rewrite bind_Ok.
  destruct HS as (Sa & Sb & Sc). cbn [mtrans nr nc mat_at]. rewrite Sb, H1. cbn [Nat.eqb]. rewrite Sa.
  eapply rok_bind; [apply (tdotv_ok _ (pz N (smat e) kxf (y 0%nat)))|].
  { split; [reflexivity|]. intros r Hr. cbn [vat]. apply Sc; [exact Hr|lia]. }
  intros T1 HT1. cbv beta in HT1.
  assert (HdK' : mspec (o_dim o) N dK (fun q r => dkf q (y 0%nat) r)).
  { rewrite H1, Nat.mul_1_l in HdK. eapply mspec_ext; [exact HdK|]. intros q r Hq Hr. cbv beta. rewrite Nat.div_1_r, Nat.mod_1_r. reflexivity. }
  eapply rok_bind; [apply (csolve_mat N _ _ c HK HA Hc _ _ _ (mtrans_spec _ _ _ _ HdK'))|]. intros S' HS'. cbv beta in HS'.
  eapply rok_bind; [apply (mdot_ok _ _ _ _ _ _ _ HdK' HS')|]. intros T2 HT2. cbv beta in HT2.
  eapply rok_bind; [apply (mzip_ok Rplus _ _ _ _ _ _ HT1 HT2)|]. intros T12 HT12. cbv beta in HT12. cbv zeta.
  rewrite D1, D2, H1, Nat.mul_1_l.
  eapply rok_bind.
  { apply (mzip_ok Rminus (o_dim o) (o_dim o) _ _ _ (fun l i => 2 * (Pdsig l (y 0%nat) * Pdsig i (y 0%nat))) (mscal_spec _ _ _ _ (-2 * sqrt vK ^ 2) HT12)).
    split; [reflexivity|]. split; [reflexivity|]. intros l i Hl Hi. cbn [mat_at vat]. rewrite !Nat.div_small, !Nat.mod_small by assumption. rewrite !D3 by (assumption || lia). reflexivity. }
  intros D HD. cbv beta in HD.
  assert (Es : vget sig 0 = Ok (Psig (y 0%nat))). { unfold vget. rewrite S1, H1. cbn [Nat.ltb Nat.leb]. rewrite S2 by lia. reflexivity. }
  rewrite Es, bind_Ok. cbn [rok]. destruct (Req_EM_T (Psig (y 0%nat)) 0); [reflexivity|]. eexists. split; [reflexivity|].
  destruct (mscal_spec _ _ _ _ (1 / (2 * Psig (y 0%nat))) HD) as (M1 & M2 & M3). split; [reflexivity|]. split; [exact M1|]. split; [exact M2|].
  intros k l i _ Hl Hi. cbn [as_ten tat]. rewrite M3 by assumption. unfold Phsig, Phv. reflexivity.
Qed.
End H.
End X2.

(** the whole evaluation *)
Definition ch_ok (x2in : mat) (ch : bool) : Prop := ch = true -> nr x2in = 1%nat /\ hess_mask_ok /\
  (o_use_grad o = true -> nu_ok2 (o_kernel o) (o_dim o) (vat (hp_theta hp)) (fun p => to_scl d (rows_of x2in p)) (rows_of X) 1 (d_n_eval d)).
Definition gscl (i : nat) : R := in_scale d i / out_scale d.
Definition evo_is (x2in x2 : mat) (cg ch : bool) (ev : evo) : Prop :=
  vspec (nr x2in) (e_mu ev) (fun p => Pmu (rows_of x2 p) / out_scale d + out_shift d) /\
  vspec (nr x2in) (e_sig ev) (fun p => Psig (rows_of x2 p) / out_scale d) /\
  (if cg then exists G S, e_dmu ev = Some G /\ mspec (nr x2in) (o_dim o) G (fun p i => Pdmu i (rows_of x2 p) * gscl i) /\
                         e_dsig ev = Some S /\ mspec (nr x2in) (o_dim o) S (fun p i => Pdsig i (rows_of x2 p) * gscl i)
   else e_dmu ev = None /\ e_dsig ev = None) /\
  (if ch then exists T Hm Hs,
      (forall l i r, (l < o_dim o)%nat -> (i < o_dim o)%nat -> (r < N)%nat -> is_derive (fun t => dkf i (upd (rows_of x2 0%nat) l t) r) (rows_of x2 0%nat l) (tat T l i r)) /\
      e_d2mu ev = Some Hm /\ tspec 1 (o_dim o) (o_dim o) Hm (fun _ l i => Phmu T l i * (in_scale d i ^ 2 / out_scale d)) /\
      e_d2sig ev = Some Hs /\ (if Req_EM_T (Psig (rows_of x2 0%nat)) 0 then Hs = None else exists M, Hs = Some M /\ tspec 1 (o_dim o) (o_dim o) M (fun _ l i => Phsig x2 T l i * (in_scale d i ^ 2 / out_scale d)))
   else e_d2mu ev = None /\ e_d2sig ev = None).
Lemma scl_ok x2in : nc x2in = o_dim o ->
  rok (match d_scl d with Some r => x_init_2_scl (r_shift r) (r_scale r) x2in | None => Ok x2in end)
    (fun x2 => nr x2 = nr x2in /\ nc x2 = o_dim o /\ forall p i, (p < nr x2in)%nat -> (i < o_dim o)%nat -> rows_of x2 p i = to_scl d (rows_of x2in p) i).
Proof.
  intros Hx. unfold to_scl, in_shift, in_scale. destruct (d_scl d) as [r|] eqn:Es.
  - destruct (ev_scl o d EV r Es) as (L1 & L2).
    eapply rok_mono; [apply (x_scl_ok (nr x2in) (o_dim o) (r_shift r) (r_scale r) x2in (mat_at x2in) (vat (r_shift r)) (vat (r_scale r)))|].
    + rewrite <- Hx. apply mspec_refl.
    + split; [exact L1|reflexivity].
    + split; [exact L2|reflexivity].
    + intros x2 (A & B & C). split; [exact A|]. split; [exact B|]. intros p i Hp Hi. unfold rows_of. apply C; assumption.
  - cbn [rok]. split; [reflexivity|]. split; [exact Hx|]. intros. ring.
Qed.
Lemma back_ok x2in x2 cg ch mu sig g h : (cg = true \/ ch = false) ->
  vspec (nr x2in) mu (fun p => Pmu (rows_of x2 p)) -> vspec (nr x2in) sig (fun p => Psig (rows_of x2 p)) ->
  (if cg then exists G S, fst g = Some G /\ mspec (nr x2in) (o_dim o) G (fun p i => Pdmu i (rows_of x2 p)) /\
                         snd g = Some S /\ mspec (nr x2in) (o_dim o) S (fun p i => Pdsig i (rows_of x2 p))
   else fst g = None /\ snd g = None) ->
  (if ch then exists T Hm Hs,
      (forall l i r, (l < o_dim o)%nat -> (i < o_dim o)%nat -> (r < N)%nat -> is_derive (fun t => dkf i (upd (rows_of x2 0%nat) l t) r) (rows_of x2 0%nat l) (tat T l i r)) /\
      fst h = Some Hm /\ tspec 1 (o_dim o) (o_dim o) Hm (fun _ l i => Phmu T l i) /\
      snd h = Some Hs /\ (if Req_EM_T (Psig (rows_of x2 0%nat)) 0 then Hs = None else exists M, Hs = Some M /\ tspec 1 (o_dim o) (o_dim o) M (fun _ l i => Phsig x2 T l i))
   else fst h = None /\ snd h = None) ->
  rok (data_scl_2_init d (mkevo mu sig (fst g) (snd g) (fst h) (snd h))) (evo_is x2in x2 cg ch).
Proof.
  intros Hcc Hmu Hsig Hg Hh2. unfold data_scl_2_init. cbn [e_mu e_sig e_dmu e_dsig e_d2mu e_d2sig].
  assert (SC := ev_scl o d EV).
  unfold evo_is, gscl, in_scale, out_scale, out_shift. destruct (d_scl d) as [r|] eqn:Es.
  - destruct (SC r eq_refl) as (_ & L2).
    assert (GR : forall G f, mspec (nr x2in) (o_dim o) G f -> rok (obj_grad_2_init (r_scale r) (r_obj_scale r) G) (fun B => mspec (nr x2in) (o_dim o) B (fun p i => f p i * (vat (r_scale r) i / r_obj_scale r)))).
    { intros G f HG. apply (mrow_ok Rmult _ _ _ _ _ (fun i => vat (r_scale r) i / r_obj_scale r) HG). split; [exact L2|reflexivity]. }
    assert (HE : forall G f, tspec 1 (o_dim o) (o_dim o) G f -> rok (obj_hess_2_init (r_scale r) (r_obj_scale r) G) (fun B => tspec 1 (o_dim o) (o_dim o) B (fun k l i => f k l i * (vat (r_scale r) i ^ 2 / r_obj_scale r)))).
    { intros G f (G1 & G2 & G3 & G4). unfold obj_hess_2_init, tmul_last. cbn [vlen vmap]. rewrite L2, G3, Nat.eqb_refl. cbn [rok].
      split; [exact G1|]. split; [exact G2|]. split; [reflexivity|]. intros k l i Hk Hl Hi. cbn [tat vat vmap]. rewrite G4 by assumption. reflexivity. }
    assert (Q : rok (omap (obj_grad_2_init (r_scale r) (r_obj_scale r)) (fst g)) (fun G => if cg then exists G', G = Some G' /\ mspec (nr x2in) (o_dim o) G' (fun p i => Pdmu i (rows_of x2 p) * (vat (r_scale r) i / r_obj_scale r)) else G = None)).
    { destruct cg; [destruct Hg as (G & S & -> & HG & _); cbn [omap]; eapply rok_bind; [apply (GR _ _ HG)|]; intros G' HG'; cbn [rok]; eauto | destruct Hg as (-> & _); reflexivity]. }
    eapply rok_bind; [exact Q|]. intros G' HG'. cbv beta in HG'.
    assert (Q2 : rok (omap (obj_grad_2_init (r_scale r) (r_obj_scale r)) (snd g)) (fun G => if cg then exists G', G = Some G' /\ mspec (nr x2in) (o_dim o) G' (fun p i => Pdsig i (rows_of x2 p) * (vat (r_scale r) i / r_obj_scale r)) else G = None)).
    { destruct cg; [destruct Hg as (G & S & _ & _ & -> & HG); cbn [omap]; eapply rok_bind; [apply (GR _ _ HG)|]; intros G2 HG2; cbn [rok]; eauto | destruct Hg as (_ & ->); reflexivity]. }
    eapply rok_bind; [exact Q2|]. intros S' HS'. cbv beta in HS'.
    assert (HL : vspec (nr x2in) (obj_val_2_init (r_obj_shift r) (r_obj_scale r) mu) (fun p => Pmu (rows_of x2 p) / r_obj_scale r + r_obj_shift r)) by apply (vmap_spec _ _ _ (fun f => f / r_obj_scale r + r_obj_shift r) Hmu).
    assert (HL2 : vspec (nr x2in) (obj_std_2_init (r_obj_scale r) sig) (fun p => Psig (rows_of x2 p) / r_obj_scale r)) by apply (vmap_spec _ _ _ (fun f => f / r_obj_scale r) Hsig).
    assert (HGG : if cg then exists G S, G' = Some G /\ mspec (nr x2in) (o_dim o) G (fun p i => Pdmu i (rows_of x2 p) * (vat (r_scale r) i / r_obj_scale r)) /\
                         S' = Some S /\ mspec (nr x2in) (o_dim o) S (fun p i => Pdsig i (rows_of x2 p) * (vat (r_scale r) i / r_obj_scale r)) else G' = None /\ S' = None).
    { destruct cg; [destruct HG' as (G & -> & HG), HS' as (S & -> & HS); exists G, S; auto | auto]. }
    destruct ch.
    + destruct Hh2 as (T & Hm & Hs & HT & -> & HHm & -> & HHs). cbn [omap]. rewrite bind_assoc_ok || idtac.
      eapply rok_bind with (P := fun x => exists M, x = Some M /\ tspec 1 (o_dim o) (o_dim o) M (fun _ l i => Phmu T l i * (vat (r_scale r) i ^ 2 / r_obj_scale r))).
      { eapply rok_bind; [apply (HE _ _ HHm)|]. intros M HM. cbn [rok]. eauto. }
      intros x (M & -> & HM).
      eapply rok_bind with (P := fun x => exists q, x = Some q /\ (if Req_EM_T (Psig (rows_of x2 0%nat)) 0 then q = None else exists M, q = Some M /\ tspec 1 (o_dim o) (o_dim o) M (fun _ l i => Phsig x2 T l i * (vat (r_scale r) i ^ 2 / r_obj_scale r)))).
      { destruct (Req_EM_T (Psig (rows_of x2 0%nat)) 0).
        - subst Hs. cbn [omap]. cbn. eauto.
        - destruct HHs as (M' & -> & HM'). cbn [omap]. eapply rok_bind with (P := fun q => exists M, q = Some M /\ tspec 1 (o_dim o) (o_dim o) M (fun _ l i => Phsig x2 T l i * (vat (r_scale r) i ^ 2 / r_obj_scale r))).
          + eapply rok_bind; [apply (HE _ _ HM')|]. intros q Hq. cbn [rok]. eauto.
          + intros q Hq. cbn [rok]. eauto. }
      intros x (q & -> & Hq). cbn [rok e_mu e_sig e_dmu e_dsig e_d2mu e_d2sig]. split; [exact HL|]. split; [exact HL2|]. split; [exact HGG|]. exists T, M, q. auto.
    + destruct Hh2 as (-> & ->). cbn [omap]. rewrite !bind_Ok. cbn [rok e_mu e_sig e_dmu e_dsig e_d2mu e_d2sig]. split; [exact HL|]. split; [exact HL2|]. split; [exact HGG|]. auto.
  - cbn [rok e_mu e_sig e_dmu e_dsig e_d2mu e_d2sig].
    split; [eapply vspec_ext; [exact Hmu|]; intros; cbv beta; field|]. split; [eapply vspec_ext; [exact Hsig|]; intros; cbv beta; field|]. split.
    + destruct cg; [|exact Hg]. destruct Hg as (G & S & E1 & HG & E2 & HS). exists G, S. split; [exact E1|]. split; [eapply mspec_ext; [exact HG|]; intros; cbv beta; field|]. split; [exact E2|]. eapply mspec_ext; [exact HS|]; intros; cbv beta; field.
    + destruct ch; [|exact Hh2]. destruct Hh2 as (T & Hm & Hs & HT & E1 & HHm & E2 & HHs). exists T, Hm, Hs. split; [exact HT|]. split; [exact E1|].
      assert (TX : forall M f g, tspec 1 (o_dim o) (o_dim o) M f -> (forall k l i, f k l i = g k l i) -> tspec 1 (o_dim o) (o_dim o) M g).
      { intros M f g0 (A1 & A2 & A3 & A4) EE. split; [exact A1|]. split; [exact A2|]. split; [exact A3|]. intros. rewrite A4 by assumption. apply EE. }
      split; [eapply TX; [exact HHm|]; intros; cbv beta; field|]. split; [exact E2|]. destruct (Req_EM_T (Psig (rows_of x2 0%nat)) 0); [exact HHs|]. destruct HHs as (M & -> & HM). exists M. split; [reflexivity|]. eapply TX; [exact HM|]. intros; cbv beta; field.
Qed.
(** the posterior depends on the first coordinates only *)
Lemma kxf_loc x z r : (forall i, (i < o_dim o)%nat -> x i = z i) -> (r < N)%nat -> kxf x r = kxf z r.
Proof. intros E Hr. apply (kj_loc _ _ _ E (cobs_lt r Hr)). Qed.
Lemma dkf_loc x z j r : (forall i, (i < o_dim o)%nat -> x i = z i) -> (j < o_dim o)%nat -> (r < N)%nat -> dkf j x r = dkf j z r.
Proof. intros E Hj Hr. apply (kj_loc _ _ _ E (cobs_lt r Hr)), Hj. Qed.
Lemma pz_loc x z : (forall i, (i < o_dim o)%nat -> x i = z i) -> forall r, (r < N)%nat -> pz N (smat e) kxf x r = pz N (smat e) kxf z r.
Proof. intros E. apply ksol_ext; [exact HA|reflexivity|]. intros r Hr. apply kxf_loc; assumption. Qed.
Lemma P_loc x z : (forall i, (i < o_dim o)%nat -> x i = z i) ->
  Pmu x = Pmu z /\ Pv x = Pv z /\ forall j, (j < o_dim o)%nat -> Pdmu j x = Pdmu j z /\ Pdv j x = Pdv j z.
Proof.
  intros E. split; [|split].
  - unfold Pmu, pmu. f_equal. apply dotp_ext; [|reflexivity]. intros r Hr. apply kxf_loc; assumption.
  - unfold Pv, pv. f_equal. apply dotp_ext; [intros r Hr; apply kxf_loc; assumption | apply pz_loc, E].
  - intros j Hj. split; (apply dotp_ext; [intros r Hr; apply dkf_loc; assumption|]); [reflexivity | apply pz_loc, E].
Qed.
Lemma eval_ok x2in cg ch : nc x2in = o_dim o -> (0 < nr x2in)%nat -> ch_ok x2in ch -> (ch = true -> cg = true) ->
  rok (eval_model o d hp su x2in cg ch) (fun ev => exists x2, nr x2 = nr x2in /\
    (forall p i, (p < nr x2in)%nat -> (i < o_dim o)%nat -> rows_of x2 p i = to_scl d (rows_of x2in p) i) /\ evo_is x2in x2 cg ch ev).
Proof.
  intros Hx Hn Hch Hcc. unfold eval_model. rewrite Ec, Einv, HvK. cbn [need]. rewrite !bind_Ok. cbv zeta.
  eapply rok_bind; [apply (scl_ok x2in Hx)|]. intros x2 (X1 & X2 & X3).
  replace (if ch then assert_ cg else Ok tt) with (Ok tt : res unit) by (destruct ch; [rewrite (Hcc eq_refl)|]; reflexivity). rewrite bind_Ok.
  eapply rok_bind; [apply (blocks_ok x2 cg X2)|]. intros (Kyx & dKo) (HKy & HdK). cbn [fst snd] in *. rewrite ?X1 in *.
  set (y := rows_of x2) in *. assert (Hn2 : (0 < nr x2)%nat) by lia.
  eapply rok_bind with (P := fun o2 => if ch then exists T, o2 = Some T /\ td T = o_dim o /\ tr T = o_dim o /\ tc T = N /\ n_all o d = N /\
    forall l i c, (l < o_dim o)%nat -> (i < o_dim o)%nat -> (c < N)%nat -> is_derive (fun t => dkf i (upd (y 0%nat) l t) c) (y 0%nat l) (tat T l i c) else o2 = None).
  { destruct ch; [|reflexivity]. destruct (Hch eq_refl) as (C1 & C2 & C3).
    eapply rok_bind; [apply (hess_ok x2 X2 ltac:(congruence) C2)|].
    - intros U. specialize (C3 U). intros Ek p q Hp Hq. specialize (C3 Ek p q Hp Hq). cbv beta in C3.
      replace (sqd (o_dim o) (vat (hp_theta hp)) (rows_of x2 p) (rows_of X q)) with (sqd (o_dim o) (vat (hp_theta hp)) (to_scl d (rows_of x2in p)) (rows_of X q)); [exact C3|].
      apply rsum_ext; intros i Hi. rewrite X3 by lia. reflexivity.
    - intros T HT. cbn [rok]. eauto. }
  intros o2 Ho2. cbv beta in Ho2.
  eapply rok_bind; [apply (csolve_mat N _ _ c HK HA Hc _ _ _ HKy)|]. intros S HS. cbv beta in HS. rewrite Hbeta. cbn [need_beta]. rewrite bind_Ok.
  eapply rok_bind; [apply (mean_fun_ok o x2 beta None b0 cg ch Hb0); destruct cg; exact I|]. intros ((bv & bg) & bh) (Hbv & Hbg).
  cbn [opt_count] in Hbg. rewrite <- X1 in *.
  eapply rok_bind; [apply (quad_ok x2 Kyx S HKy HS)|]. intros s2 Hs2. cbv beta in Hs2.
  rewrite (min_ok x2 X2 Hn2 s2 _ Hs2) by (intros p Hp; apply Pv_bounds). rewrite bind_Ok. cbn [assert_]. rewrite bind_Ok.
  set (sig := vmap (fun t => sqrt t * sqrt vK) (vmap (fun t => if Rlt_dec t 0 then 0 else t) s2)).
  assert (Hsig : vspec (nr x2) sig (fun p => Psig (y p))).
  { eapply vspec_ext; [apply (vmap_spec _ _ _ _ (vmap_spec _ _ _ _ Hs2))|]. intros p Hp. cbv beta. destruct (Rlt_dec (Pv (rows_of x2 p)) 0) as [Z|]; [|reflexivity].
    exfalso. assert (W := Pv_bounds (rows_of x2 p)). lra. }
  eapply rok_bind; [apply (mdotv_ok _ _ _ _ _ _ (mtrans_spec _ _ _ _ HKy) Hinv)|]. intros t Ht. cbv beta in Ht.
  eapply rok_bind; [apply (vzip_ok Rplus _ _ _ _ _ Hbv Ht)|]. intros mu Hmu. cbv beta in Hmu.
  eapply rok_bind with (P := fun g => if cg then exists dm ds dK, g = Some (dm, ds, dK) /\ mspec (nr x2) (o_dim o) dm (fun p i => Pdmu i (y p)) /\ mspec (nr x2) (o_dim o) ds (fun p i => Pdsig i (y p)) /\
      mspec (nr x2 * o_dim o) N dK (fun q r => dkf (q / nr x2) (y (q mod nr x2)) r) else g = None).
  { destruct cg; [|reflexivity]. rewrite orb_true_r in HdK. destruct HdK as (dK & -> & HdK). destruct Hbg as (B & -> & HB & _).
    eapply rok_bind; [apply (dmu_ok x2 Hn2 dK HdK)|]. intros a Ha. cbv beta in Ha.
    eapply rok_bind; [apply (mzip_ok Rplus _ _ _ _ _ _ Ha HB)|]. intros dm Hdm. cbv beta in Hdm.
    eapply rok_bind; [apply (dsig_ok x2 Hn2 sig dK S Hsig HdK HS)|]. intros ds Hds. cbv beta in Hds. cbn [rok]. exists dm, ds, dK. split; [reflexivity|]. split.
    { eapply mspec_ext; [exact Hdm|]. intros; cbv beta; apply Rplus_0_r. } split; [exact Hds|exact HdK]. }
  intros g Hg. cbv beta in Hg.
  eapply rok_bind with (P := fun h => if ch then exists T Hm Hs,
      (forall l i r, (l < o_dim o)%nat -> (i < o_dim o)%nat -> (r < N)%nat -> is_derive (fun t => dkf i (upd (y 0%nat) l t) r) (y 0%nat l) (tat T l i r)) /\
      h = Some (Hm, Hs) /\ tspec 1 (o_dim o) (o_dim o) Hm (fun _ l i => Phmu T l i) /\
      (if Req_EM_T (Psig (y 0%nat)) 0 then Hs = None else exists M, Hs = Some M /\ tspec 1 (o_dim o) (o_dim o) M (fun _ l i => Phsig x2 T l i)) else h = None).
  { destruct ch.
    - destruct Ho2 as (T & -> & HT1 & HT2 & HT3 & HT4 & HT5). rewrite (Hcc eq_refl) in *. destruct Hg as (dm & ds & dK & -> & Hdm & Hds & HdK').
      destruct Hbg as (B & _ & _ & BH & -> & HBH). destruct (Hch eq_refl) as (C1 & _). assert (C1' : nr x2 = 1%nat) by congruence.
      eapply rok_bind; [apply (d2mu_ok T (conj HT1 (conj HT2 (conj HT3 HT4))))|]. intros a (A1 & A2 & A3 & A4). rewrite C1' in HBH. destruct HBH as (B1 & B2 & B3 & B4).
      unfold tadd_same. rewrite A1, A2, A3, B1, B2, B3, !Nat.eqb_refl. cbn [andb]. rewrite bind_Ok.
      eapply rok_bind; [apply (d2sig_ok x2 X2 Hn2 C1' T (conj HT1 (conj HT2 (conj HT3 HT4))) sig ds dK S Hsig Hds HdK' HS)|].
      intros ds2 Hds2. cbn [rok]. exists T. do 2 eexists. split; [exact HT5|]. split; [reflexivity|]. split; [|exact Hds2].
      split; [reflexivity|]. split; [reflexivity|]. split; [reflexivity|]. intros k l i Hk Hl Hi. cbn [tat]. rewrite A4, B4 by assumption. ring.
    - subst o2. reflexivity. }
  intros h Hh2. cbv beta in Hh2.
  eapply rok_mono; [apply (back_ok x2in x2 cg ch mu sig (option_map (fun x => fst (fst x)) g, option_map (fun x => snd (fst x)) g) (option_map fst h, option_map snd h))|].
  - destruct ch; [left; auto|right; reflexivity].
  - rewrite <- X1. eapply vspec_ext; [exact Hmu|]. intros p Hp. reflexivity.
  - rewrite <- X1. exact Hsig.
  - destruct cg; [|subst g; split; reflexivity]. destruct Hg as (dm & ds & dK & -> & Hdm & Hds & _). exists dm, ds. rewrite <- X1. cbn. auto.
  - destruct ch; [|subst h; split; reflexivity]. destruct Hh2 as (T & Hm & Hs & HT & -> & HHm & HHs). exists T, Hm, Hs. cbn. auto.
  - intros ev Hev. exists x2. auto.
Qed.
(** eval_model_var *)
Lemma eval_var_ok x2 cg : d_scl d = None -> nc x2 = o_dim o -> (0 < nr x2)%nat ->
  rok (eval_model_var o d hp su x2 cg false) (fun r => vspec (nr x2) (fst r) (fun p => vK * Pv (rows_of x2 p)) /\
    (if cg then exists G, snd r = Some G /\ mspec (nr x2) (o_dim o) G (fun p i => -2 * Pdv i (rows_of x2 p) * vK) else snd r = None)).
Proof.
  intros Hs Hx Hn. unfold eval_model_var. rewrite HvK, Hs. cbn [need]. rewrite !bind_Ok.
  eapply rok_bind; [apply (blocks_ok x2 cg Hx)|]. intros (Kyx & dKo) (HKy & HdK). cbn [fst snd] in *. rewrite bind_Ok, Ec, bind_Ok.
  eapply rok_bind; [apply (csolve_mat N _ _ c HK HA Hc _ _ _ HKy)|]. intros S HS. cbv beta in HS. rewrite Hbeta. cbn [need_beta]. rewrite bind_Ok. cbv zeta.
  eapply rok_bind; [apply (mean_fun_ok o x2 beta None b0 cg false Hb0); destruct cg; exact I|]. intros mm _.
  eapply rok_bind; [apply (quad_ok x2 Kyx S HKy HS)|]. intros s2 Hs2. cbv beta in Hs2. assert (Hs3 := vmap_spec _ _ _ (Rmult vK) Hs2). cbv beta in Hs3.
  rewrite (min_ok x2 Hx Hn _ _ Hs3) by (intros p Hp; assert (Z := Pv_bounds (rows_of x2 p)); apply Rmult_le_pos; lra). rewrite bind_Ok. cbn [assert_]. rewrite bind_Ok.
  eapply rok_bind with (P := fun g => if cg then exists G, g = Some G /\ mspec (nr x2) (o_dim o) G (fun p i => -2 * Pdv i (rows_of x2 p) * vK) else g = None).
  { destruct cg; [|reflexivity]. rewrite orb_true_r in HdK. destruct HdK as (dK & -> & HdK). rewrite Einv.
    eapply rok_bind with (P := fun G => mspec (nr x2) (o_dim o) G (fun p i => -2 * Pdv i (rows_of x2 p) * vK)); [unfold calc_dsig2dx|intros G HG; cbn [rok]; eauto].
    eapply rok_bind; [apply (rowprod_ok x2 Hn dK S HdK HS)|]. intros v Hv. cbv beta in Hv. assert (E1 : nr dK = (nr x2 * o_dim o)%nat) by apply HdK. rewrite E1.
    eapply rok_mono; [apply (reshape_spec _ _ _ (vmap_spec _ _ _ (fun t => -2 * t * vK) Hv) Hn)|]. intros G HG. cbv beta in HG.
    eapply mspec_ext; [exact HG|]. intros p i Hp Hi. cbv beta. destruct (idx_dm i (nr x2) p Hp) as (-> & ->). reflexivity. }
  intros g Hg. cbn [rok fst snd]. rewrite bind_Ok. cbn [rok fst snd]. split; [exact Hs3|]. destruct cg; exact Hg.
Qed.
End Ev.
End E.
