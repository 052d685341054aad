(** * Property C55: evaluating the surrogate at many points is evaluating it at each of them.
    Model: [Model/EvalWrap.v]. *)
From Coq Require Import Reals List Arith Bool Lia Lra Psatz.
From Coquelicot Require Import Coquelicot.
From Verif.Base Require Import NpLite NpFacts Deriv.
From Verif.Spec Require Import KernelSpec LinAlgSpec GpSpec HpSpec DataSpec LkdSpec RescaleSpec EvalSpec.
From Verif.Model Require Import KernelSqExp KernelMatern KernelRatQuad KernelDispatch CommonFun WellCond Rescaling GpState Chol Cov HpInfo HpGrad MeanFun Lkd EvalModel EvalWrap.
From Verif.Proofs Require Import KernTac KernGradBlocks RadialCalculus KernelExact LinAlg CholCorrect Psd CovStruct ThetaGrad HessX2 StateFacts NoiseFacts NuggetCond NuggetMain
  LinDeriv LkdCore LkdFacts LkdMain EvalKern EvalFacts EvalMain EvalInterp.
From Verif.Props Require Import KernelProps CondProps DataProps HpGradProps LkdProps EvalProps EvalProps2.
Import ListNotations.
Local Open Scope R_scope.

(** a point of [m] coordinates as an array with one axis *)
Definition is_point (m : nat) (v : vec) (x : nat -> R) : Prop := vlen v = m /\ forall i, (i < m)%nat -> vat v i = x i.
Definition row_matrix (v : vec) : mat := mkmat 1 (vlen v) (fun _ j => vat v j).
(** an optional array of vectors [a] contains, in its row [p], the optional vector [b] *)
Definition has_row (m : nat) (a : option mat) (p : nat) (b : option vec) : Prop :=
  exists A v, a = Some A /\ b = Some v /\ nc A = m /\ vlen v = m /\ forall i, (i < m)%nat -> mat_at A p i = vat v i.

(** ** C55.  A batch [x2] is evaluated (with or without gradients), and so is its point [p] alone, given as an array with one axis and
    with squeeze_nx, with its own choice of what is to be computed.  Mean, standard deviation and both gradients agree. *)
Theorem C55_one_point_at_a_time :
  forall (o : gpopt) (d : gpdata) (condf : mat -> R) (hp : hpv) (vK b0 : R) (cc : bool) (su : surr) (x2 : mat) (p : nat) (v : vec) (cg cg1 ch1 : bool),
  eval_input o d hp vK b0 -> mask_supported o d -> set_up o d condf hp cc su ->
  nc x2 = o_dim o -> (p < nr x2)%nat -> is_point (o_dim o) v (fun i => mat_at x2 p i) ->
  (ch1 = true -> cg1 = true /\ hess_supported o d hp (row_matrix v)) ->
  exists ev mu sig dmu dsig d2mu d2sig,
    eval_model_call o d hp su (X2 x2) cg false false = Ok (Full ev) /\
    eval_model_call o d hp su (X1 v) cg1 ch1 true = Ok (One mu sig dmu dsig d2mu d2sig) /\
    vlen (e_mu ev) = nr x2 /\ vat (e_mu ev) p = mu /\ vlen (e_sig ev) = nr x2 /\ vat (e_sig ev) p = sig /\
    (if cg then cg1 = true -> has_row (o_dim o) (e_dmu ev) p dmu /\ has_row (o_dim o) (e_dsig ev) p dsig else e_dmu ev = None /\ e_dsig ev = None) /\
    (cg1 = false -> dmu = None /\ dsig = None) /\ (ch1 = false -> d2mu = None /\ d2sig = None).
Proof.
  intros o d condf hp vK b0 cc su x2 p v cg cg1 ch1 HI MS SU Hx Hp (V1 & V2) Hch.
  destruct (ei_main o d hp vK b0 HI condf cc su SU) as (e & c & inv & Q1 & Q2 & Q3 & Q4 & Q5 & Q6 & Q7 & Q8 & Q9).
  destruct (ei_eval o d hp vK b0 HI condf cc su e c inv x2 cg false SU MS Q1 Q3 Q4 Q5 Q6 Q7 Q8 Q9 Hx ltac:(lia) ltac:(discriminate)) as (ev & Eev & (M1 & M2) & (S1 & S2) & HG & HH).
  destruct (ei_eval o d hp vK b0 HI condf cc su e c inv (row_matrix v) cg1 ch1 SU MS Q1 Q3 Q4 Q5 Q6 Q7 Q8 Q9 V1 ltac:(simpl; lia) Hch) as (e1 & Ee1 & (M1' & M2') & (S1' & S2') & HG' & HH').
  assert (NO := ei_noise o d hp vK b0 HI).
  assert (LC : forall i, (i < o_dim o)%nat -> to_scl d (rows_of x2 p) i = to_scl d (rows_of (row_matrix v) 0) i).
  { intros i Hi. unfold to_scl, rows_of, row_matrix. cbn [mat_at]. rewrite V2 by exact Hi. reflexivity. }
  destruct (loc o d hp b0 e NO Q3 _ _ LC) as (L1 & L2 & L3). assert (LS := sig_loc o d hp vK b0 e NO Q3 _ _ LC).
  assert (LD := fun j Hj => dsig_loc o d hp vK b0 e NO Q3 _ _ j LC Hj).
  assert (EM : vat (e_mu ev) p = vat (e_mu e1) 0) by (rewrite M2, M2' by (simpl; lia); unfold Mi; rewrite L1; reflexivity).
  assert (ES : vat (e_sig ev) p = vat (e_sig e1) 0) by (rewrite S2, S2' by (simpl; lia); unfold Si; rewrite LS; reflexivity).
  unfold eval_model_call. rewrite Q6. cbn [bind as_rows]. rewrite Eev. change (mkmat 1 (vlen v) (fun _ j => vat v j)) with (row_matrix v). cbn [nr row_matrix assert_ Nat.eqb].
  unfold row_matrix in *. cbn [bind]. rewrite Ee1. cbn [bind]. unfold squeeze.
  assert (G0 : vget (e_mu e1) 0 = Ok (vat (e_mu e1) 0)) by (unfold vget; rewrite M1'; reflexivity).
  assert (G1 : vget (e_sig e1) 0 = Ok (vat (e_sig e1) 0)) by (unfold vget; rewrite S1'; reflexivity).
  rewrite G0, G1. cbn [bind].
  assert (GG : exists gm gs, (if cg1 then match e_dmu e1, e_dsig e1 with Some Ga, Some Gb => a <- row0 Ga ;; b <- row0 Gb ;; Ok (Some a, Some b) | _, _ => Err EType end else Ok (None, None)) = Ok (gm, gs) /\
     (cg1 = false -> gm = None /\ gs = None) /\ (cg1 = true -> cg = true -> has_row (o_dim o) (e_dmu ev) p gm /\ has_row (o_dim o) (e_dsig ev) p gs)).
  { destruct cg1; [|exists None, None; repeat split; congruence]. destruct HG' as (G & S & -> & (A1 & A2 & A3) & -> & (B1 & B2 & B3)). unfold row0. rewrite A1, B1. cbn [Nat.eqb nr bind].
    eexists _, _. split; [reflexivity|]. split; [discriminate|]. intros _ ->. destruct HG as (G' & S' & -> & (A1' & A2' & A3') & -> & (B1' & B2' & B3')). split.
    - eexists _, _. split; [reflexivity|]. split; [reflexivity|]. split; [exact A2'|]. split; [exact A2|]. intros i Hi. cbn [vat]. rewrite A3, A3' by (simpl; lia). destruct (L3 i Hi) as (-> & _). reflexivity.
    - eexists _, _. split; [reflexivity|]. split; [reflexivity|]. split; [exact B2'|]. split; [exact B2|]. intros i Hi. cbn [vat]. rewrite B3, B3' by (simpl; lia). rewrite (LD i Hi). reflexivity. }
  destruct GG as (gm & gs & -> & GN & GS). cbn [bind].
  assert (HX : exists hm hs, (if ch1 then match e_d2mu e1, e_d2sig e1 with Some Ga, Some Gb => a <- slice0 Ga ;; b <- omap slice0 Gb ;; Ok (Some a, Some b) | _, _ => Err EType end else Ok (None, None)) = Ok (hm, hs) /\
     (ch1 = false -> hm = None /\ hs = None)).
  { destruct ch1; [|exists None, None; repeat split; congruence]. destruct HH' as (Hm & Hs & -> & -> & T1 & T2 & T3 & _ & T4). unfold slice0 at 1. rewrite T1. cbn [Nat.eqb bind].
    destruct (Req_EM_T _ 0) as [Z|Z] in T4; [rewrite T4; cbn [omap bind]; eexists _, _; split; [reflexivity|discriminate]|].
    destruct T4 as (M & -> & U1 & _). cbn [omap]. unfold slice0. rewrite U1. cbn [Nat.eqb bind]. eexists _, _. split; [reflexivity|discriminate]. }
  destruct HX as (hm & hs & -> & HN). cbn [bind fst snd].
  exists ev, (vat (e_mu e1) 0), (vat (e_sig e1) 0), gm, gs, hm, hs. split; [reflexivity|]. split; [reflexivity|]. split; [exact M1|]. split; [exact EM|]. split; [exact S1|]. split; [exact ES|].
  split; [|split; [exact GN|exact HN]]. destruct cg; [intros E; apply GS; auto|exact HG].
Qed.
Print Assumptions C55_one_point_at_a_time.

(** squeeze_nx drops the axis of the points and nothing else; an array with one axis is the same as the matrix of its only row. *)
Theorem C55_squeeze_only_drops_an_axis :
  forall (o : gpopt) (d : gpdata) (condf : mat -> R) (hp : hpv) (vK b0 : R) (cc : bool) (su : surr) (x2 : mat) (cg ch : bool),
  eval_input o d hp vK b0 -> mask_supported o d -> set_up o d condf hp cc su ->
  nc x2 = o_dim o -> nr x2 = 1%nat -> (ch = true -> cg = true /\ hess_supported o d hp x2) ->
  exists ev mu sig dmu dsig d2mu d2sig,
    eval_model_call o d hp su (X2 x2) cg ch false = Ok (Full ev) /\
    eval_model_call o d hp su (X2 x2) cg ch true = Ok (One mu sig dmu dsig d2mu d2sig) /\
    vat (e_mu ev) 0 = mu /\ vat (e_sig ev) 0 = sig /\
    (if cg then has_row (o_dim o) (e_dmu ev) 0 dmu /\ has_row (o_dim o) (e_dsig ev) 0 dsig else dmu = None /\ dsig = None) /\
    (if ch then exists H A, e_d2mu ev = Some H /\ d2mu = Some A /\ nr A = o_dim o /\ nc A = o_dim o /\
                 (forall i j, (i < o_dim o)%nat -> (j < o_dim o)%nat -> mat_at A i j = tat H 0 i j) /\
                 match e_d2sig ev with
                 | Some (Some H') => exists A', d2sig = Some (Some A') /\ nr A' = o_dim o /\ nc A' = o_dim o /\
                                      forall i j, (i < o_dim o)%nat -> (j < o_dim o)%nat -> mat_at A' i j = tat H' 0 i j
                 | Some None => d2sig = Some None
                 | None => False
                 end
     else d2mu = None /\ d2sig = None).
Proof.
  intros o d condf hp vK b0 cc su x2 cg ch HI MS SU Hx Hp Hch.
  destruct (ei_main o d hp vK b0 HI condf cc su SU) as (e & c & inv & Q1 & Q2 & Q3 & Q4 & Q5 & Q6 & Q7 & Q8 & Q9).
  destruct (ei_eval o d hp vK b0 HI condf cc su e c inv x2 cg ch SU MS Q1 Q3 Q4 Q5 Q6 Q7 Q8 Q9 Hx ltac:(lia) Hch) as (ev & Eev & (M1 & M2) & (S1 & S2) & HG & HH).
  unfold eval_model_call. rewrite Q6. cbn [bind as_rows]. rewrite Eev, Hp. cbn [Nat.eqb assert_ bind]. unfold squeeze.
  assert (G0 : vget (e_mu ev) 0 = Ok (vat (e_mu ev) 0)) by (unfold vget; rewrite M1, Hp; reflexivity).
  assert (G1 : vget (e_sig ev) 0 = Ok (vat (e_sig ev) 0)) by (unfold vget; rewrite S1, Hp; reflexivity).
  rewrite G0, G1. cbn [bind].
  assert (GG : exists gm gs, (if cg then match e_dmu ev, e_dsig ev with Some Ga, Some Gb => a <- row0 Ga ;; b <- row0 Gb ;; Ok (Some a, Some b) | _, _ => Err EType end else Ok (None, None)) = Ok (gm, gs) /\
     (if cg then has_row (o_dim o) (e_dmu ev) 0 gm /\ has_row (o_dim o) (e_dsig ev) 0 gs else gm = None /\ gs = None)).
  { destruct cg; [|exists None, None; repeat split; congruence]. destruct HG as (G & S & -> & (A1 & A2 & A3) & -> & (B1 & B2 & B3)). unfold row0. rewrite A1, B1, Hp. cbn [Nat.eqb nr bind].
    eexists _, _. split; [reflexivity|]. split; (eexists _, _; split; [reflexivity|]; split; [reflexivity|]; split; [assumption|]; split; [assumption|reflexivity]). }
  destruct GG as (gm & gs & -> & GS). cbn [bind].
  assert (HX : exists hm hs, (if ch then match e_d2mu ev, e_d2sig ev with Some Ga, Some Gb => a <- slice0 Ga ;; b <- omap slice0 Gb ;; Ok (Some a, Some b) | _, _ => Err EType end else Ok (None, None)) = Ok (hm, hs) /\
     (if ch then exists H A, e_d2mu ev = Some H /\ hm = Some A /\ nr A = o_dim o /\ nc A = o_dim o /\
                 (forall i j, (i < o_dim o)%nat -> (j < o_dim o)%nat -> mat_at A i j = tat H 0 i j) /\
                 match e_d2sig ev with
                 | Some (Some H') => exists A', hs = Some (Some A') /\ nr A' = o_dim o /\ nc A' = o_dim o /\
                                      forall i j, (i < o_dim o)%nat -> (j < o_dim o)%nat -> mat_at A' i j = tat H' 0 i j
                 | Some None => hs = Some None
                 | None => False
                 end
     else hm = None /\ hs = None)).
  { destruct ch; [|exists None, None; repeat split; congruence]. destruct HH as (Hm & Hs & E1 & E2 & T1 & T2 & T3 & _ & T4). rewrite E1, E2. unfold slice0 at 1. rewrite T1. cbn [Nat.eqb bind].
    destruct (Req_EM_T _ 0) as [Z|Z] in T4; [rewrite T4; cbn [omap bind]|destruct T4 as (M & -> & U1 & U2 & U3 & _); cbn [omap]; unfold slice0; rewrite U1; cbn [Nat.eqb bind]];
      (eexists _, _; split; [reflexivity|]; eexists _, _; split; [reflexivity|]; split; [reflexivity|]; split; [exact T2|]; split; [exact T3|]; split; [reflexivity|]).
    - reflexivity.
    - eexists; split; [reflexivity|]. split; [exact U2|]. split; [exact U3|reflexivity]. }
  destruct HX as (hm & hs & -> & HN). cbn [bind fst snd].
  exists ev, (vat (e_mu ev) 0), (vat (e_sig ev) 0), gm, gs, hm, hs. auto 10.
Qed.
Print Assumptions C55_squeeze_only_drops_an_axis.

Theorem C55_vectors_are_one_row : forall (o : gpopt) (d : gpdata) (hp : hpv) (su : surr) (v : vec) (cg ch sq : bool),
  eval_model_call o d hp su (X1 v) cg ch sq = eval_model_call o d hp su (X2 (row_matrix v)) cg ch sq /\
  eval_model_var_call o d hp su (X1 v) cg ch sq = eval_model_var_call o d hp su (X2 (row_matrix v)) cg ch sq.
Proof. intros. split; reflexivity. Qed.
Print Assumptions C55_vectors_are_one_row.

(** What is refused: squeeze_nx with a number of points other than one, and arrays with no axis or more than two. *)
Theorem C55_refused : forall (o : gpopt) (d : gpdata) (hp : hpv) (su : surr) (x2 : mat) (cg ch sq : bool),
  k_chofac (su_K su) <> None ->
  (nr x2 <> 1%nat -> eval_model_call o d hp su (X2 x2) cg ch true = Err EAssert /\ eval_model_var_call o d hp su (X2 x2) cg ch true = Err EAssert) /\
  eval_model_call o d hp su Xother cg ch sq = Err EExc /\ eval_model_var_call o d hp su Xother cg ch sq = Err EExc.
Proof.
  intros o d hp su x2 cg ch sq HC. unfold eval_model_call, eval_model_var_call. destruct (k_chofac (su_K su)) as [c|]; [|congruence].
  cbn [bind as_rows]. split; [|split; reflexivity]. intros H. destruct (Nat.eqb_spec (nr x2) 1); [contradiction|]. split; reflexivity.
Qed.
Print Assumptions C55_refused.

(** eval_model_var, for an object that does not scale its data: the same. *)
Theorem C55_variance_one_point_at_a_time :
  forall (o : gpopt) (d : gpdata) (condf : mat -> R) (hp : hpv) (vK b0 : R) (cc : bool) (su : surr) (x2 : mat) (p : nat) (v : vec) (cg cg1 : bool),
  eval_input o d hp vK b0 -> mask_supported o d -> set_up o d condf hp cc su -> d_scl d = None ->
  nc x2 = o_dim o -> (p < nr x2)%nat -> is_point (o_dim o) v (fun i => mat_at x2 p i) ->
  exists s2 g s g1,
    eval_model_var_call o d hp su (X2 x2) cg false false = Ok (VFull s2 g) /\
    eval_model_var_call o d hp su (X1 v) cg1 false true = Ok (VOne s g1) /\
    vlen s2 = nr x2 /\ vat s2 p = s /\
    (cg = true -> cg1 = true -> has_row (o_dim o) g p g1) /\ (cg = false -> g = None) /\ (cg1 = false -> g1 = None).
Proof.
  intros o d condf hp vK b0 cc su x2 p v cg cg1 HI MS SU NS Hx Hp (V1 & V2).
  destruct (ei_main o d hp vK b0 HI condf cc su SU) as (e & c & inv & Q1 & Q2 & Q3 & Q4 & Q5 & Q6 & Q7 & Q8 & Q9).
  assert (HI' := HI). destruct HI' as (H1 & H2 & H3 & H4 & H5 & H6 & H7 & H8 & (beta & B1 & B2 & B3) & _).
  assert (V : vspec 1 beta (fun _ => b0)) by (split; [exact B2|]; intros i Hi'; replace i with 0%nat by lia; exact B3).
  assert (NO := ei_noise o d hp vK b0 HI).
  destruct (rok_ex _ _ (eval_var_ok o d hp vK b0 beta (ei_ev o d hp vK b0 HI) H3 H4 H7 H8 B1 V MS su e c inv Q5 Q3 Q4 Q6 Q7 Q8 Q9 x2 cg NS Hx ltac:(lia))) as ((s2, g) & E & (S1 & S2) & HG). cbn [fst snd] in *.
  destruct (rok_ex _ _ (eval_var_ok o d hp vK b0 beta (ei_ev o d hp vK b0 HI) H3 H4 H7 H8 B1 V MS su e c inv Q5 Q3 Q4 Q6 Q7 Q8 Q9 (row_matrix v) cg1 NS V1 ltac:(simpl; lia))) as ((s2', g') & E' & (S1' & S2') & HG'). cbn [fst snd] in *.
  assert (LC : forall i, (i < o_dim o)%nat -> rows_of x2 p i = rows_of (row_matrix v) 0 i).
  { intros i Hi. unfold rows_of, row_matrix. cbn [mat_at]. rewrite V2 by exact Hi. reflexivity. }
  destruct (loc o d hp b0 e NO Q3 _ _ LC) as (L1 & L2 & L3).
  unfold eval_model_var_call. cbn [bind as_rows]. rewrite E. change (mkmat 1 (vlen v) (fun _ j => vat v j)) with (row_matrix v). cbn [nr row_matrix assert_ Nat.eqb].
  unfold row_matrix in *. cbn [bind]. rewrite E'. cbn [bind fst snd].
  assert (G0 : vget s2' 0 = Ok (vat s2' 0)) by (unfold vget; rewrite S1'; reflexivity). rewrite G0. cbn [bind].
  assert (ES : vat s2 p = vat s2' 0) by (rewrite S2, S2' by (simpl; lia); cbv beta; rewrite L2; reflexivity).
  destruct cg1.
  - destruct HG' as (G' & -> & (A1 & A2 & A3)). unfold row0. rewrite A1. cbn [nr Nat.eqb bind]. eexists _, _, _, _. split; [reflexivity|]. split; [reflexivity|]. split; [exact S1|]. split; [exact ES|].
    split; [|split; [intros ->; exact HG|discriminate]]. intros -> _. destruct HG as (G & -> & (C1 & C2 & C3)). eexists _, _. split; [reflexivity|]. split; [reflexivity|]. split; [exact C2|]. split; [exact A2|].
    intros i Hi. cbn [vat]. rewrite C3, A3 by (simpl; lia). destruct (L3 i Hi) as (_ & ->). reflexivity.
  - eexists _, _, _, _. split; [reflexivity|]. split; [reflexivity|]. split; [exact S1|]. split; [exact ES|]. split; [discriminate|]. split; [intros ->; exact HG|reflexivity].
Qed.
Print Assumptions C55_variance_one_point_at_a_time.

(** ** A concrete case: three data points with gradients, two points to evaluate, the second also alone and with Hessians *)
Definition bx : mat := mkmat 2 2 (fun p j => INR p + 3 * INR j).
Definition bv : vec := mkvec 2 (fun j => 1 + 3 * INR j).
Example C55_hypotheses_met : exists d su, let o := gp_init 2 true SqExp Wbase in
  eval_input o d ev_hp0 2 (1 / 3) /\ mask_supported o d /\ set_up o d (fun _ => 1) ev_hp0 false su /\ d_scl d = None /\
  nc bx = o_dim o /\ (1 < nr bx)%nat /\ is_point (o_dim o) bv (fun i => mat_at bx 1 i) /\ hess_supported o d ev_hp0 (row_matrix bv).
Proof.
  destruct ev_data0 as (d & HI & Hb & _ & NS). destruct (C30_setup_succeeds (gp_init 2 true SqExp Wbase) d (fun _ => 1) ev_hp0 2 (1 / 3) false HI) as (su & _ & HS).
  exists d, su. cbv zeta. split; [exact HI|]. split; [intros _ C; discriminate|]. split; [apply HS; auto|]. split; [exact NS|]. split; [reflexivity|]. split; [simpl; lia|].
  split; [split; [reflexivity|]; intros i _; simpl; ring|]. split; [reflexivity|]. intros _. split; [rewrite Hb; exact I|]. intros C; discriminate.
Qed.
