(** * C57: the returned Hessians are symmetric *)
From Coq Require Import Reals List Arith Bool Lia Lra.
From Coquelicot Require Import Coquelicot.
From Verif.Base Require Import NpLite NpFacts Deriv.
From Verif.Spec Require Import KernelSpec LinAlgSpec GpSpec HpSpec DataSpec LkdSpec RescaleSpec EvalSpec.
From Verif.Model Require Import KernelSqExp KernelMatern KernelRatQuad KernelDispatch CommonFun WellCond Rescaling GpState Chol Cov HpInfo MeanFun EvalModel.
From Verif.Proofs Require Import KernTac KernGradBlocks ThetaGradBlocks RadialCalculus RadialFns KernelExact KernelExtra ThetaGrad HessX HessX2 LinAlg CholCorrect Psd CovStruct StateFacts NoiseFacts NuggetCond NuggetMain
  LinDeriv LkdCore LkdFacts LkdMain EvalKern EvalFacts EvalMain.
From Verif.Props Require Import CondProps DataProps LkdProps EvalProps EvalProps2 EvalProps3.
Import ListNotations.
Local Open Scope R_scope.

Lemma delta_swap (f : nat -> R) i l : f i * delta i l = f l * delta l i.
Proof. unfold delta. rewrite (Nat.eqb_sym l i). destruct (Nat.eqb_spec i l) as [->|]; ring. Qed.
Lemma hx_sym th Rr p1 p2 p3 s2 l i p b : hx th Rr p1 p2 p3 s2 l (G i p) b = hx th Rr p1 p2 p3 s2 i (G l p) b.
Proof.
  destruct b as [q|j q]; unfold hx; cbv zeta.
  - assert (E := delta_swap th i l). replace (2 * th i * delta i l * p1 p q) with (2 * (th i * delta i l) * p1 p q) by ring. rewrite E. ring.
  - assert (E := delta_swap th i l). set (r := s2 q).
    replace (4 * th i * th j * delta i l * Rr j p r) with (4 * (th i * delta i l) * th j * Rr j p r) by ring. rewrite E.
    assert (E1 : delta j l = delta l j) by (unfold delta; rewrite Nat.eqb_sym; reflexivity).
    assert (E2 : delta i j = delta j i) by (unfold delta; rewrite Nat.eqb_sym; reflexivity). rewrite E1, E2. ring.
Qed.

Section L.
Variables (o : gpopt) (d : gpdata) (hp : hpv) (vK b0 : R).
Hypothesis HI : eval_input o d hp vK b0.
Notation N := (cN o d).
Notation X := (fst (get_scl_x_w_dist d)).

(** the tensor of second derivatives of the kernel is symmetric in its first two indices *)
Lemma eval_hess_sym x2 T : nc x2 = o_dim o -> nr x2 = 1%nat -> (o_use_grad o = true -> full_mask (d_n_eval d) (d_bvec d)) ->
  eval_hess o d hp x2 = Ok T ->
  forall l i c, (l < o_dim o)%nat -> (i < o_dim o)%nat -> (c < N)%nat -> tat T l i c = tat T i l c.
Proof.
  intros Hx H1 HM. assert (HI' := HI). destruct HI' as (G1 & G2 & G3 & G4 & _).
  destruct (gr_pts _ _ (ready o d G1 G2)) as [W1 W2 W3 W4 W5]. destruct G4 as (L & P & HP). unfold eval_hess.
  destruct (rok_ex _ _ (Rtensor_ok x2 X ltac:(congruence))) as (Rt & -> & HR). rewrite bind_Ok.
  assert (L' : vlen (hp_theta hp) = nc x2) by congruence.
  destruct (o_use_grad o) eqn:U; intros E l i c Hl Hi Hc.
  - destruct (full_mask_facts _ _ (HM eq_refl)) as (M & C & SL).
    assert (EN : N = (d_n_eval d + d_n_eval d * o_dim o)%nat) by (unfold cN; rewrite W5, C; reflexivity).
    destruct (rok_inv _ _ _ (grad_x_blocks (o_kernel o) Rt (hp_theta hp) (hp_kernel hp) _ _ _ _ _ None HR L' HP I) E) as (T0 & T1 & T2 & HT).
    rewrite Hx, H1, W2 in *. cbn [opt_count] in *.
    destruct (unradr_ok (d_n_eval d) (d_n_eval d) (o_dim o) c ltac:(lia)) as (V & EVc).
    assert (A := HT l (G i 0%nat) _ Hl (conj Hi Nat.lt_0_1) V). assert (B := HT i (G l 0%nat) _ Hi (conj Hl Nat.lt_0_1) V).
    rewrite EVc in A, B. cbn [radr Nat.add] in A, B. replace (i * 1 + 0)%nat with i in A by lia. replace (l * 1 + 0)%nat with l in B by lia.
    rewrite A, B. apply hx_sym.
  - assert (EN : N = d_n_eval d) by (unfold cN; rewrite W5; lia).
    destruct (rok_inv _ _ _ (base_hess_blocks (o_kernel o) Rt (hp_theta hp) (hp_kernel hp) _ _ _ _ _ HR L' HP) E) as (p3 & T0 & T1 & T2 & HT).
    rewrite Hx, H1, W2 in *.
    assert (A := HT l (G i 0%nat) (F c) Hl (conj Hi Nat.lt_0_1) ltac:(simpl; lia)). assert (B := HT i (G l 0%nat) (F c) Hi (conj Hl Nat.lt_0_1) ltac:(simpl; lia)).
    cbn [radr Nat.add] in A, B. replace (i * 1 + 0)%nat with i in A by lia. replace (l * 1 + 0)%nat with l in B by lia.
    rewrite A, B. apply hx_sym.
Qed.

(** hence every tensor of second derivatives of the cross-covariances is *)
Lemma T_sym u T : (o_use_grad o = true -> full_mask (d_n_eval d) (d_bvec d)) ->
  (o_use_grad o = true -> nu_ok2 (o_kernel o) (o_dim o) (vat (hp_theta hp)) (fun _ => u) (rows_of X) 1 (d_n_eval d)) -> mask_supported o d ->
  (forall l i r, (l < o_dim o)%nat -> (i < o_dim o)%nat -> (r < N)%nat -> is_derive (fun t => dkf o d hp i (upd u l t) r) (u l) (tat T l i r)) ->
  forall l i r, (l < o_dim o)%nat -> (i < o_dim o)%nat -> (r < N)%nat -> tat T l i r = tat T i l r.
Proof.
  intros HM HN MS HT l i r Hl Hi Hr. assert (HI' := HI). destruct HI' as (H1 & H2 & H3 & H4 & H5 & H6 & H7 & H8 & (beta & B1 & B2 & B3) & IP).
  set (x2 := mkmat 1 (o_dim o) (fun _ => u)).
  destruct (rok_ex _ _ (hess_ok o d hp (ei_ev o d hp vK b0 HI) H3 H4 (ei_noise o d hp vK b0 HI) MS x2 eq_refl eq_refl HM HN)) as (T' & ET & _ & _ & _ & _ & HT').
  assert (E : forall l i, (l < o_dim o)%nat -> (i < o_dim o)%nat -> tat T l i r = tat T' l i r).
  { intros l0 i0 A B. exact (dR_unique _ _ _ _ (HT l0 i0 r A B Hr) (HT' l0 i0 r A B Hr)). }
  rewrite !E by assumption. apply (eval_hess_sym x2 T' eq_refl eq_refl HM ET); assumption.
Qed.

Lemma hess_entries condf cc su x2 ev : mask_supported o d -> set_up o d condf hp cc su -> nc x2 = o_dim o -> hess_supported o d hp x2 ->
  eval_model o d hp su x2 true true = Ok ev ->
  exists H Hs, e_d2mu ev = Some H /\ e_d2sig ev = Some Hs /\
    (forall l i, (l < o_dim o)%nat -> (i < o_dim o)%nat -> tat H 0 l i * in_scale d l ^ 2 = tat H 0 i l * in_scale d i ^ 2) /\
    (forall T, Hs = Some T -> forall l i, (l < o_dim o)%nat -> (i < o_dim o)%nat -> tat T 0 l i * in_scale d l ^ 2 = tat T 0 i l * in_scale d i ^ 2).
Proof.
  intros MS SU Hx (Hn & HS) Eev.
  destruct (ei_main o d hp vK b0 HI condf cc su SU) as (e & c & inv & Q1 & Q2 & Q3 & Q4 & Q5 & Q6 & Q7 & Q8 & Q9).
  assert (HI' := HI). destruct HI' as (H1 & H2 & H3 & H4 & H5 & H6 & H7 & H8 & (beta & B1 & B2 & B3) & IP).
  assert (V : vspec 1 beta (fun _ => b0)) by (split; [exact B2|]; intros i Hi'; replace i with 0%nat by lia; exact B3).
  assert (HN : o_use_grad o = true -> nu_ok2 (o_kernel o) (o_dim o) (vat (hp_theta hp)) (fun p => to_scl d (rows_of x2 p)) (rows_of X) 1 (d_n_eval d)).
  { intros U Ek p q Hp Hq. destruct (HS U) as (_ & C3). specialize (C3 Ek p q Hp Hq).
    replace (sqd (o_dim o) (vat (hp_theta hp)) (to_scl d (rows_of x2 p)) (rows_of X q)) with (sqd (o_dim o) (vat (hp_theta hp)) (model_point d (rows_of x2 p)) (rows_of X q)); [exact C3|].
    apply rsum_ext; intros i _. rewrite to_scl_point. reflexivity. }
  assert (HM : o_use_grad o = true -> full_mask (d_n_eval d) (d_bvec d)) by (intros U; apply HS, U).
  assert (CH : ch_ok o d hp x2 true) by (intros _; auto).
  assert (Hn0 : (0 < nr x2)%nat) by lia.
  destruct (rok_inv _ _ _ (eval_ok o d hp vK b0 beta (ei_ev o d hp vK b0 HI) H3 H4 (ei_noise o d hp vK b0 HI) H7 H8 B1 V MS su e c inv Q5 Q3 Q4 Q6 Q7 Q8 Q9 x2 true true Hx Hn0 CH (fun E => E)) Eev) as (x2' & X1 & X2 & O1 & O2 & O3 & O4).
  destruct O4 as (T & Hm & Hs & HT & E1 & (M1 & M2 & M3 & M4) & E2 & HHs). exists Hm, Hs. split; [exact E1|]. split; [exact E2|].
  assert (LC : forall i, (i < o_dim o)%nat -> rows_of x2' 0%nat i = to_scl d (rows_of x2 0%nat) i) by (intros; apply X2; [lia|assumption]).
  assert (TS : forall l i r, (l < o_dim o)%nat -> (i < o_dim o)%nat -> (r < N)%nat -> tat T l i r = tat T i l r).
  { apply (T_sym (rows_of x2' 0%nat)); auto. intros U Ek p q Hp Hq. replace p with 0%nat by lia. specialize (HN U Ek 0%nat q ltac:(lia) Hq).
    replace (sqd (o_dim o) (vat (hp_theta hp)) (rows_of x2' 0%nat) (rows_of X q)) with (sqd (o_dim o) (vat (hp_theta hp)) (to_scl d (rows_of x2 0%nat)) (rows_of X q)); [exact HN|].
    apply rsum_ext; intros i Hi. rewrite LC by exact Hi. reflexivity. }
  assert (OP := out_scale_pos o d H2).
  split.
  - intros l i Hl Hi. rewrite !M4 by (assumption || lia). unfold Phmu.
    rewrite (dotp_ext N (tat T l i) (ksol N (smat o d hp e) (sres d b0)) (tat T i l) (ksol N (smat o d hp e) (sres d b0))) by (try reflexivity; intros r Hr; apply TS; assumption). unfold Rdiv. ring.
  - intros T' ET l i Hl Hi. subst Hs. destruct (Req_EM_T _ 0); [discriminate|]. destruct HHs as (M & EM & (N1 & N2 & N3 & N4)). injection EM as <-.
    rewrite !N4 by (assumption || lia).
    assert (PS : Phsig o d hp vK e x2' T l i = Phsig o d hp vK e x2' T i l).
    { unfold Phsig, Phv. rewrite (dotp_ext N (tat T l i) (pz N (smat o d hp e) (kxf o d hp) (rows_of x2' 0%nat)) (tat T i l) (pz N (smat o d hp e) (kxf o d hp) (rows_of x2' 0%nat))) by (try reflexivity; intros r Hr; apply TS; assumption).
      rewrite <- (ksol_sym N _ (dkf o d hp l (rows_of x2' 0%nat)) (dkf o d hp i (rows_of x2' 0%nat)) Q3). rewrite (dotp_sym N (ksol N (smat o d hp e) (dkf o d hp l (rows_of x2' 0%nat)))). ring. }
    rewrite PS. unfold Rdiv. ring.
Qed.
End L.

(** ** C57.  Whenever the coordinates have the same scaling factor, which is so in every state left by set_data, the
    Hessians returned for the mean and for the standard deviation are symmetric.
    Missing: states in which the optimisation has changed the factors (refuted below). *)
Theorem C57_hessians_symmetric_partial :
  forall (o : gpopt) (d : gpdata) (condf : mat -> R) (hp : hpv) (vK b0 : R) (cc : bool) (su : surr) (x2 : mat) (ev : evo),
  eval_input o d hp vK b0 -> mask_supported o d -> set_up o d condf hp cc su ->
  nc x2 = o_dim o -> hess_supported o d hp x2 -> eval_model o d hp su x2 true true = Ok ev ->
  (forall i j, (i < o_dim o)%nat -> (j < o_dim o)%nat -> in_scale d i = in_scale d j) ->
  exists H Hs, e_d2mu ev = Some H /\ e_d2sig ev = Some Hs /\
    (forall l i, (l < o_dim o)%nat -> (i < o_dim o)%nat -> tat H 0 l i = tat H 0 i l) /\
    (forall T, Hs = Some T -> forall l i, (l < o_dim o)%nat -> (i < o_dim o)%nat -> tat T 0 l i = tat T 0 i l).
Proof.
  intros o d condf hp vK b0 cc su x2 ev HI MS SU Hx HS Eev IS.
  destruct (hess_entries o d hp vK b0 HI condf cc su x2 ev MS SU Hx HS Eev) as (H & Hs & E1 & E2 & A & B).
  assert (IP : forall i, (i < o_dim o)%nat -> 0 < in_scale d i) by apply HI.
  assert (CN : forall a b l i, (l < o_dim o)%nat -> (i < o_dim o)%nat -> a * in_scale d l ^ 2 = b * in_scale d i ^ 2 -> a = b).
  { intros a b l i Hl Hi E. rewrite (IS l i Hl Hi) in E. apply Rmult_eq_reg_r with (in_scale d i ^ 2); [exact E|]. apply pow_nonzero. assert (Z := IP i Hi). lra. }
  exists H, Hs. split; [exact E1|]. split; [exact E2|]. split; [intros l i Hl Hi; apply (CN _ _ l i Hl Hi), A; assumption|].
  intros T ET l i Hl Hi. apply (CN _ _ l i Hl Hi), (B T ET); assumption.
Qed.
Print Assumptions C57_hessians_symmetric_partial.

(** the states left by set_data *)
Theorem C57_hessians_symmetric_after_set_data :
  forall (o : gpopt) (x : mat) (fval : vec) (sf : stdarg vec) (Gr : option mat) (sg : stdarg mat) (b : option (list bool)) (d : gpdata)
    (condf : mat -> R) (hp : hpv) (vK b0 : R) (cc : bool) (su : surr) (x2 : mat) (ev : evo),
  nc x = o_dim o -> set_data o x fval sf Gr sg b = Ok d ->
  eval_input o d hp vK b0 -> mask_supported o d -> set_up o d condf hp cc su ->
  nc x2 = o_dim o -> hess_supported o d hp x2 -> eval_model o d hp su x2 true true = Ok ev ->
  exists H Hs, e_d2mu ev = Some H /\ e_d2sig ev = Some Hs /\
    (forall l i, (l < o_dim o)%nat -> (i < o_dim o)%nat -> tat H 0 l i = tat H 0 i l) /\
    (forall T, Hs = Some T -> forall l i, (l < o_dim o)%nat -> (i < o_dim o)%nat -> tat T 0 l i = tat T 0 i l).
Proof.
  intros o x fval sf Gr sg b d condf hp vK b0 cc su x2 ev Hc HD HI MS SU Hx HS Eev.
  apply (C57_hessians_symmetric_partial o d condf hp vK b0 cc su x2 ev HI MS SU Hx HS Eev).
  exact (C31_set_data_scales_alike o x fval sf Gr sg b d Hc HD).
Qed.
Print Assumptions C57_hessians_symmetric_after_set_data.

(** In every state: the entries (l, i) and (i, l) agree up to the squares of the factors of the coordinates, so that
    they are equal only if the factors are or the entry is 0. *)
Theorem C57_hessian_entries_and_factors :
  forall (o : gpopt) (d : gpdata) (condf : mat -> R) (hp : hpv) (vK b0 : R) (cc : bool) (su : surr) (x2 : mat) (ev : evo),
  eval_input o d hp vK b0 -> mask_supported o d -> set_up o d condf hp cc su ->
  nc x2 = o_dim o -> hess_supported o d hp x2 -> eval_model o d hp su x2 true true = Ok ev ->
  exists H Hs, e_d2mu ev = Some H /\ e_d2sig ev = Some Hs /\
    forall T, T = H \/ Hs = Some T -> forall l i, (l < o_dim o)%nat -> (i < o_dim o)%nat ->
      tat T 0 l i * in_scale d l ^ 2 = tat T 0 i l * in_scale d i ^ 2 /\
      (tat T 0 l i = tat T 0 i l <-> in_scale d l = in_scale d i \/ tat T 0 l i = 0).
Proof.
  intros o d condf hp vK b0 cc su x2 ev HI MS SU Hx HS Eev.
  destruct (hess_entries o d hp vK b0 HI condf cc su x2 ev MS SU Hx HS Eev) as (H & Hs & E1 & E2 & A & B).
  exists H, Hs. split; [exact E1|]. split; [exact E2|]. intros T HT l i Hl Hi.
  assert (E : tat T 0 l i * in_scale d l ^ 2 = tat T 0 i l * in_scale d i ^ 2) by (destruct HT as [->|HT]; [apply A|apply (B T HT)]; assumption).
  split; [exact E|]. assert (IP : forall i, (i < o_dim o)%nat -> 0 < in_scale d i) by apply HI. assert (P1 := IP l Hl). assert (P2 := IP i Hi). split.
  - intros Q. destruct (Req_dec (tat T 0 l i) 0) as [Z|Z]; [right; exact Z|left]. rewrite <- Q in E. apply Rmult_eq_reg_l in E; [|exact Z]. nra.
  - intros [Q|Q].
    + rewrite Q in E. apply Rmult_eq_reg_r in E; [exact E|]. apply pow_nonzero. lra.
    + rewrite Q in E |- *. rewrite Rmult_0_l in E. symmetry in E. apply Rmult_integral in E. destruct E as [E|E]; [symmetry; exact E|]. exfalso. revert E. apply pow_nonzero. lra.
Qed.
Print Assumptions C57_hessian_entries_and_factors.

(** After the optimisation has changed the factors the Hessian of the mean is not symmetric. *)
Theorem C57_hessian_symmetric_after_rescaling_refuted :
  exists (o : gpopt) (d : gpdata) (hp : hpv) (su : surr) (x2 : mat) (ev : evo) (H : ten),
    eval_input o d hp 1 (-1) /\ mask_supported o d /\ set_up o d (fun _ => 1) hp false su /\ nc x2 = o_dim o /\ hess_supported o d hp x2 /\
    eval_model o d hp su x2 true true = Ok ev /\ e_d2mu ev = Some H /\ (1 < o_dim o)%nat /\ tat H 0 0 1 <> tat H 0 1 0.
Proof.
  destruct C31_hessian_after_rescaling_refuted as (d & su & ev & H & HI & MS & SU & HQ & Eev & EH & HM).
  exists o3, d, hp3, su, q3, ev, H. repeat (split; [assumption || reflexivity|]). split; [simpl; lia|].
  destruct (C31_mean_gradient_and_hessian_partial o3 d (fun _ => 1) hp3 1 (-1) false su HI MS SU) as (M & HM0).
  destruct (HM M) as (_ & NP).
  { intros y e0 Hc Hr E0. destruct (HM0 y false false Hc ltac:(lia) ltac:(discriminate)) as (e1 & E1 & _ & V & _). assert (e1 = e0) by congruence. subst e1. apply V. lia. }
  destruct (HM0 q3 true true eq_refl ltac:(simpl; lia) ltac:(intros _; split; [reflexivity|exact HQ])) as (ev' & Eev' & _ & _ & _ & H' & EH' & _ & _ & _ & HH).
  assert (ev' = ev) by congruence. subst ev'. assert (H' = H) by congruence. subst H'.
  destruct (HH 0%nat 1%nat ltac:(simpl; lia) ltac:(simpl; lia)) as (S1 & h & Dh & Eh).
  destruct (C57_hessian_entries_and_factors o3 d (fun _ => 1) hp3 1 (-1) false su q3 ev HI MS SU eq_refl HQ Eev) as (H' & Hs & EH2 & _ & C).
  assert (H' = H) by congruence. subst H'. destruct (C H (or_introl eq_refl) 0%nat 1%nat ltac:(simpl; lia) ltac:(simpl; lia)) as (_ & C2).
  intros Q. apply C2 in Q. destruct Q as [Q|Q]; [apply NP, S1, Q|].
  apply NP. rewrite Q. replace 0 with h; [exact Dh|]. rewrite Q in Eh. assert (IP : forall i, (i < o_dim o3)%nat -> 0 < in_scale d i) by apply HI.
  assert (P0 := IP 0%nat ltac:(simpl; lia)). assert (P1 := IP 1%nat ltac:(simpl; lia)).
  symmetry in Eh. apply Rmult_integral in Eh. destruct Eh as [Eh|Eh]; [exact Eh|]. exfalso. assert (0 < in_scale d 1 / in_scale d 0) by (apply Rdiv_lt_0_compat; assumption). lra.
Qed.
Print Assumptions C57_hessian_symmetric_after_rescaling_refuted.

(** three points of the plane with values and gradients: an evaluation with Hessians exists *)
Example C57_hypotheses_met : exists d su ev, let o := gp_init 2 true SqExp Wbase in let x2 := mkmat 1 2 (fun _ j => INR j) in
  eval_input o d ev_hp0 2 (1 / 3) /\ mask_supported o d /\ set_up o d (fun _ => 1) ev_hp0 false su /\ nc x2 = o_dim o /\ hess_supported o d ev_hp0 x2 /\
  eval_model o d ev_hp0 su x2 true true = Ok ev /\ (forall i j, (i < o_dim o)%nat -> (j < o_dim o)%nat -> in_scale d i = in_scale d j).
Proof.
  destruct C31_C32_C37_hypotheses_met as (d & su & A & HI & MS & SU & _ & _ & Hs & HS).
  destruct (C31_mean_gradient_and_hessian_partial _ d (fun _ => 1) ev_hp0 2 (1 / 3) false su HI MS SU) as (M & HM).
  destruct (HM (mkmat 1 2 (fun _ j => INR j)) true true eq_refl ltac:(simpl; lia) ltac:(intros _; split; [reflexivity|exact HS])) as (ev & Eev & _).
  exists d, su, ev. cbv zeta. repeat (split; [assumption || reflexivity|]). intros i j _ _. unfold in_scale. rewrite Hs. reflexivity.
Qed.
