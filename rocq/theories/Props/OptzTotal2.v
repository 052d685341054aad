(** * Property C42, the calls of the user: evaluations, optimisations and set_hpara do not raise. *)
From Coq Require Import Reals List Arith Bool Lia Lra.
From Coquelicot Require Import Coquelicot.
From Verif.Base Require Import NpLite NpFacts.
From Verif.Spec Require Import KernelSpec LinAlgSpec GpSpec HpSpec DataSpec LkdSpec OptzSpec ThetaSpec RescaleSpec EvalSpec CondSpec StartSpec.
From Verif.Model Require Import KernelSqExp KernelMatern KernelRatQuad KernelDispatch CommonFun WellCond Rescaling GpState Chol Cov HpInfo HpGrad MeanFun Lkd OptzLkd RescaleLoop History StartPts OptzHp.
From Verif.Proofs Require Import KernTac LinAlg CholCorrect Det CovStruct StateFacts DataFacts NoiseFacts NuggetCond NuggetMain HpInfoFacts HpGradFacts HpGradMain LinDeriv LkdCore LkdFacts LkdMain CondLkd EvalMain OptzHpFacts ThetaRescale.
From Verif.Props Require Import CondProps DataProps HpGradProps LkdProps EvalProps EvalProps2 OptzProps CondGradProps ThetaProps StartProps OptzHpProps OptzTotal.
Import ListNotations.
Local Open Scope R_scope.

(** ** C42: one evaluation.  At every vector the optimiser may ask for, after any past, the four functions handed to
    it return numbers, whatever the condition number is (also where the matrix is not factorised). *)
Theorem C42_evaluation_never_raises :
  forall (la : npla) (o : gpopt) (lo : lkopt) (d : gpdata) (info : hpinfo) (h : list event) (v : vec),
  let s := do_events la (new_obj o lo d info) h in
  numpy_total la (g_opt s) (g_data s) -> optz_ready s -> askable s v ->
  (exists y, snd (return_optz_val la s v) = Ok y) /\
  (exists g, snd (return_optz_grad la s v) = Ok g /\ vlen g = vlen v) /\
  (b_use_cond_cstr (g_opt s) = true ->
    (exists c, snd (return_cond_val la s v) = Ok (Some c)) /\ exists cg, snd (return_cond_grad la s v) = Ok (Some cg) /\ vlen cg = vlen v).
Proof.
  intros la o lo d info h v s NT HR A. assert (C : clean s) by (apply events_clean; exact I).
  destruct (eval_total la s v HR NT C A) as (st & E & (y & g & V & G & LG & CC)). destruct A as (LV & _).
  unfold return_optz_val, return_optz_grad, return_cond_val, return_cond_grad, lift_st.
  destruct (calc_store_likelihood la s v false true) as [s' r]. cbn [snd] in E. subst r. cbn [fst snd bind]. rewrite V, G. cbn [neg_R neg_vec].
  split; [eauto|]. split; [eexists; split; [reflexivity|]; cbn; congruence|]. intros U. destruct (CC U) as (c & cg & C1 & C2 & C3). rewrite C1, C2. split; [eauto|]. eexists. split; [reflexivity|congruence].
Qed.
Print Assumptions C42_evaluation_never_raises.

(** ** C42: one optimisation.  From any start points, with any optimiser that asks for vectors of that kind and ends
    with one and a value. *)
Theorem C42_optimisation_never_raises :
  forall (la : npla) (mini : vec -> optimiser) (o : gpopt) (lo : lkopt) (d : gpdata) (info : hpinfo) (h : list event) (x0s : list vec),
  let s := do_events la (new_obj o lo d info) h in
  numpy_total la (g_opt s) (g_data s) -> optz_ready s -> x0s <> [] ->
  (forall x0, In x0 x0s -> askable s x0 /\ ends_in (askable s) (mini x0)) ->
  exists best cond inf, snd (optz_hp_max_lkd la mini s x0s) = Ok (best, cond, inf) /\ askable s best.
Proof.
  intros la mini o lo d info h x0s s NT HR NE H. apply (optz_total la mini s s x0s NT HR); auto; [apply events_clean; exact I|apply same_refl].
Qed.
Print Assumptions C42_optimisation_never_raises.

(** ** C42: set_hpara *)
(** a box that is made of numbers, and the points of it *)
Definition box_point (n : nat) (bnd : fvec * fvec) (v : vec) : Prop :=
  vlen v = n /\ forall r, (r < n)%nat -> exists a b, fv_at (fst bnd) r = Some a /\ fv_at (snd bnd) r = Some b /\ a <= vat v r <= b.
(** the history and the ranges are usable for start points (C22) *)
Definition start_ready (lhs : sampler) (xo : x0opt) (o : gpopt) (info : hpinfo) (hst : hist) (i : nat) : Prop :=
  samples_within lhs /\ 1 <= xo_lf xo <= xo_bf xo /\ h_w hst Ttheta = o_dim o /\ (exists r, recent hst (xo_n_idx xo) i r) /\
  (forall sl r, position info sl <> None -> recent hst (xo_n_idx xo) i r -> exists x, past hst sl r = Some x) /\
  (forall sl, position info sl <> None -> exists a b, allowed xo sl = (Some a, Some b) /\ 0 < a <= b).
Lemma all_real_ok l : (forall x, In x l -> exists t, x = Some t) -> exists r, all_real l = Some r /\ map Some r = l.
Proof.
  induction l as [|x t IH]; intros H; [exists []; split; reflexivity|]. destruct (H x (or_introl eq_refl)) as (a & ->). destruct IH as (r & E & M); [intros y Hy; apply H; right; exact Hy|].
  exists (a :: r). cbn [all_real map]. rewrite E, M. split; reflexivity.
Qed.
Lemma row_real_ok n lb ub x : in_box n lb ub x -> exists v, row_real x = Ok v /\ box_point n (lb, ub) v.
Proof.
  intros (L & H). assert (E : exists v, row_real x = Ok v).
  { unfold row_real. destruct (all_real_ok (map (fv_at x) (seq 0 (fv_len x)))) as (r & -> & _); [|eauto]. intros y Hy. apply in_map_iff in Hy. destruct Hy as (j & <- & Hj). apply in_seq in Hj.
    destruct (H j ltac:(lia)) as (a & t & b & _ & E & _). eauto. }
  destruct E as (v & E). exists v. split; [exact E|]. apply row_real_inv in E. destruct E as (E1 & E2). split; [congruence|]. intros r Hr. destruct (H r Hr) as (a & t & b & A1 & A2 & A3 & A4). exists a, b.
  assert (X := E2 r ltac:(lia)). rewrite A2 in X. injection X as ->. auto.
Qed.
Lemma rmap_ok {A B} (f : A -> res B) l : (forall x, In x l -> exists y, f x = Ok y) -> exists r, rmap f l = Ok r.
Proof. induction l as [|x t IH]; intros H; [exists []; reflexivity|]. destruct (H x (or_introl eq_refl)) as (y & E). destruct IH as (r & Er); [intros z Hz; apply H; right; exact Hz|]. cbn [rmap]. rewrite E, bind_Ok, Er, bind_Ok. eauto. Qed.
Lemma rmap_In {A B} (f : A -> res B) l r : rmap f l = Ok r -> forall y, In y r -> exists x, In x l /\ f x = Ok y.
Proof.
  intros H y Hy. apply In_nth_error in Hy. destruct Hy as (k & Hk). destruct (rmap_inv f l r H) as (L & Q). destruct (nth_error l k) as [x|] eqn:Ex.
  - destruct (Q k x Ex) as (b & Eb & F). exists x. split; [eapply nth_error_In; exact Ex|]. congruence.
  - apply nth_error_None in Ex. assert (k < length r)%nat by (apply nth_error_Some; congruence). lia.
Qed.
(** the start points are numbers within the box *)
Lemma starts_ok la lhs s xo hst i starts lb ub : optz_ready s -> start_ready lhs xo (g_opt s) (g_info s) hst i ->
  (xo_start xo = Slhs -> xo_n_x0 xo <> 0%nat) ->
  select_hp_optz_x0 la lhs (g_opt s) (g_data s) (g_lk s) xo (g_info s) hst i = Ok (starts, (lb, ub)) ->
  exists x0s, rmap row_real starts = Ok x0s /\ x0s <> [] /\ forall x0, In x0 x0s -> box_point (hi_n (g_info s)) (lb, ub) x0.
Proof.
  intros (H1 & H2 & H3 & H4 & H5 & H6 & HI) (S1 & S2 & S3 & S4 & S5 & S6) NS E. unfold setup_hp_idx4optz in HI.
  destruct (C22_selected_start_points_in_box la lhs _ _ _ xo _ _ _ _ _ hst i starts lb ub HI S1 S2 S3 S4 S5 S6 E) as (B & LS).
  destruct (rmap_ok row_real starts) as (x0s & EX); [intros x Hx; destruct (row_real_ok _ _ _ _ (B x Hx)) as (v & -> & _); eauto|].
  exists x0s. split; [exact EX|]. split.
  - intros ->. destruct (rmap_inv _ _ _ EX) as (L & _). destruct (xo_start xo) eqn:XS; cbn in L; try congruence; try lia.
    assert (NS' := NS eq_refl). congruence.
  - intros x0 Hx. destruct (rmap_In _ _ _ EX x0 Hx) as (x & I1 & I2). destruct (row_real_ok _ _ _ _ (B x I1)) as (v & E1 & E2). congruence.
Qed.
(** an evaluation gives a likelihood *)
Lemma C23_lkd_has_value la o d lo ht hk hv hf hg info hp adj l : lkd_input o d hp -> set_hp_optz_info o d lo ht hk hv hf hg = Ok info ->
  calc_lkd_all la o d lo info hp false false adj = Ok (l, true) -> exists y, l_ln l = Some y.
Proof.
  intros LI HI EL. destruct (lkd_call _ _ _ _ _ _ _ _ _ _ _ _ false _ _ LI HI ltac:(discriminate) ltac:(discriminate) EL) as (A' & _ & _ & _ & _ & T & HP).
  destruct (d_noisy d); [destruct HP as (X & _)|destruct HP as (X & _)]; eauto.
Qed.
(** without the gradient an evaluation with the condition number never raises: it gives the condition number of the
    matrix, or, when that is above cond_max_abs, reports a failed factorisation *)
Theorem C42_evaluation_with_condition_number_succeeds :
  forall (la : npla) (o : gpopt) (d : gpdata) (lo : lkopt) (ht hk hv hf hg : bool) (info : hpinfo) (hp : hpv) (adj : bool),
  lkd_input o d hp -> o_well o <> Wprecon -> set_hp_optz_info o d lo ht hk hv hf hg = Ok info ->
  exists A l good, lkd_matrix o d (la_cond la) true hp = Ok A /\ calc_lkd_all la o d lo info hp true false adj = Ok (l, good) /\
    (good = true <-> la_cond la A <= o_cond_max_abs o) /\
    (good = true -> l_cond l = Some (la_cond la A) /\ exists y, l_ln l = Some y).
Proof.
  intros la o d lo ht hk hv hf hg info hp adj HI HW Hi. assert (RD := li_ready o d hp HI). assert (NA := li_noise o d hp HI). assert (HRt := li_Rt o d hp HI).
  assert (VK : exists vK, if d_noisy d then hp_varK hp = Some vK else vK = 1).
  { destruct HI as (_ & _ & _ & _ & _ & _ & H7). destruct (d_noisy d); [destruct (H7 eq_refl) as (v & E & _); eauto|eauto]. }
  destruct VK as (vK & HvK).
  assert (LC := fun l => lkd_call la o d lo ht hk hv hf hg info hp true false adj l HI Hi ltac:(discriminate) ltac:(discriminate)).
  destruct HI as (H1 & H2 & H3 & H4 & H5 & H6 & H7). set (va := if d_noisy d then None else Some 1).
  assert (EV : eff_varK hp va false = Some vK) by (unfold eff_varK, va; destruct (d_noisy d); rewrite HvK; reflexivity).
  assert (VP : 0 < vK) by (destruct (d_noisy d); [destruct (H7 eq_refl) as (v' & E1 & E2); congruence|lra]).
  destruct (rok_ex _ _ (kcov_any o d (la_cond la) true hp va vK RD H3 H4 NA EV VP)) as (out & EO & KO & N1 & N2 & PD & CF & CG).
  assert (KC : mspec (cN o d) (cN o d) (k_Kcov out) (mat_at (k_Kcov out))) by (split; [exact N1|split; [exact N2|reflexivity]]).
  destruct (chofac_iff o d (la_cond la) (d_Rt d) hp va false out HW EO) as (KCo & NO).
  assert (CI : (exists cf, k_chofac out = Some cf) <-> la_cond la (k_Kcov out) <= o_cond_max_abs o).
  { split; [|intros L; destruct (CG (fun _ _ => L)) as (c & Hc & _); eauto]. intros (c & Hc). destruct (Rle_lt_dec (la_cond la (k_Kcov out)) (o_cond_max_abs o)) as [L|L]; [exact L|]. rewrite (NO L) in Hc. discriminate. }
  assert (HK : pdf (cN o d) (mat_at (k_Kcov out))) by (apply (pd_pdf _ _ _ KC PD)).
  exists (k_Kcov out).
  assert (X : exists l good, calc_lkd_all la o d lo info hp true false adj = Ok (l, good) /\ (good = true <-> exists cf, k_chofac out = Some cf) /\ (good = true -> l_cond l = k_cond out)).
  { unfold va in *. destruct (d_noisy d) eqn:Hz.
    - unfold calc_lkd_all. rewrite Hz, HRt, EO. cbv zeta. rewrite !bind_Ok. cbn [andb].
      destruct (k_chofac out) as [cf|] eqn:EC.
      + destruct (rok_ex _ _ (lkd_noise_ok o d RD (k_Kcov out) _ cf KC HK (CF cf eq_refl) 0%nat None (fun _ _ _ => 0) adj I)) as (l0 & El0 & _). rewrite El0, !bind_Ok. cbn [fst snd].
        do 2 eexists. split; [reflexivity|]. split; [split; eauto|]. intros _. reflexivity.
      + cbn [calc_cond_L2_w_grad]. unfold calc_cond_L2_w_grad. cbv zeta. rewrite !bind_Ok. cbn [fst snd]. do 2 eexists. split; [reflexivity|]. split; [split; [discriminate|intros (? & Z); discriminate]|discriminate].
    - unfold calc_lkd_all, calc_Kern_w_chofac. rewrite Hz, HRt, EO. cbv zeta. cbn [negb assert_]. rewrite !bind_Ok. cbn [andb].
      destruct (k_chofac out) as [cf|] eqn:EC.
      + destruct (rok_ex _ _ (lkd_wo_noise_ok o d RD (k_Kcov out) _ cf KC HK (CF cf eq_refl) 0%nat None (fun _ _ _ => 0) lo adj I)) as (l0 & El0 & _). rewrite El0, !bind_Ok. cbn [fst snd].
        do 2 eexists. split; [reflexivity|]. split; [split; eauto|]. intros _. reflexivity.
      + unfold calc_cond_L2_w_grad. cbv zeta. rewrite !bind_Ok. cbn [fst snd]. do 2 eexists. split; [reflexivity|]. split; [split; [discriminate|intros (? & Z); discriminate]|discriminate]. }
  destruct X as (l & good & EL & G1 & G2). exists l, good. split.
  { unfold lkd_matrix, va in *. destruct (d_noisy d) eqn:Hz; [unfold Kcov_of; rewrite EO; reflexivity|unfold Kern_of, calc_Kern_w_chofac; rewrite Hz; cbn [negb assert_]; rewrite bind_Ok, EO; reflexivity]. }
  split; [exact EL|]. split; [rewrite G1; exact CI|]. intros G. split; [rewrite (G2 G); exact KCo|]. subst good. destruct (LC l EL) as (A' & _ & _ & _ & _ & T & HP).
  destruct (d_noisy d); [destruct HP as (X & _)|destruct HP as (X & _)]; eauto.
Qed.
Print Assumptions C42_evaluation_with_condition_number_succeeds.
(** the condition number [cd] of the covariance matrix at the start point [x] *)
Definition start_cond (la : npla) (s : gpobj) (x : fvec) (cd : R) : Prop :=
  exists v hp A, row_real x = Ok v /\ hp_vec2dataclass (g_data s) (g_info s) v = Ok hp /\
    lkd_matrix (g_opt s) (g_data s) (la_cond la) true hp = Ok A /\ cd = la_cond la A.
(** one of the candidates is acceptable, or none of them is beyond cond_max_abs *)
Definition usable_starts (la : npla) (lhs : sampler) (s : gpobj) (xo : x0opt) (hst : hist) (i : nat) : Prop :=
  forall x0s bnd, get_hp_x0_lhs_median lhs xo (g_info s) hst i (xo_n_best xo) = Ok (x0s, bnd) ->
    (exists x cd, In x x0s /\ start_cond la s x cd /\ cd <= o_cond_max_abs (g_opt s) /\ cd <= 12 / 10 * o_cond_max (g_opt s)) \/
    (forall x cd, In x x0s -> start_cond la s x cd -> cd <= o_cond_max_abs (g_opt s)).
(** the two ways of choosing start points ('lhs' and the default, 'hp_best') *)
Definition starts_available (la : npla) (lhs : sampler) (s : gpobj) (xo : x0opt) (hst : hist) (i : nat) : Prop :=
  (xo_start xo = Slhs /\ xo_n_x0 xo <> 0%nat) \/
  (xo_start xo = Sbest /\ xo_n_best xo <> 0%nat /\ (o_well (g_opt s) = Wprecon \/ usable_starts la lhs s xo hst i)).
(** 'lhs' start points always exist; so does the best one when the condition number is not used or a candidate is acceptable *)
Lemma select_total la lhs s xo hst i : optz_ready s -> start_ready lhs xo (g_opt s) (g_info s) hst i -> starts_available la lhs s xo hst i ->
  exists starts lb ub, select_hp_optz_x0 la lhs (g_opt s) (g_data s) (g_lk s) xo (g_info s) hst i = Ok (starts, (lb, ub)).
Proof.
  intros (H1 & H2 & H3 & H4 & H5 & H6 & HI) (S1 & S2 & S3 & S4 & S5 & S6) HS. assert (HI' := HI). unfold setup_hp_idx4optz in HI.
  assert (G := fun n => C22_bounds_and_start_points _ _ _ _ _ _ _ _ lhs xo hst i n HI S1 S2 S3 S4 S5 S6).
  unfold select_hp_optz_x0. destruct HS as [(HS & _)|(HS & NB & HU)]; rewrite HS.
  - destruct (G (xo_n_x0 xo)) as (x0s & lb & ub & E & _). eauto.
  - destruct (G (xo_n_best xo)) as (x0s & lb & ub & E & L & _ & _ & B & _). rewrite E, bind_Ok. cbn [fst snd]. cbv zeta. set (cc := match o_well (g_opt s) with Wprecon => false | _ => true end).
    (* one candidate *)
    assert (ONE : forall x, In x x0s -> exists l cd, start_value la (g_opt s) (g_data s) (g_lk s) (g_info s) cc x = Ok (l, cd) /\
              (if cc then exists c, start_cond la s x c /\ (c <= o_cond_max_abs (g_opt s) -> l <> None /\ cd = Some c) else l <> None)).
    { intros x Ex. destruct (row_real_ok _ _ _ _ (B x Ex)) as (v & E1 & (E2 & _)).
      destruct (C21_vector_round_trip _ _ _ _ _ _ _ _ v HI (fun e => e) (fun e => e) (fun e => e) E2) as (hp & ED & _).
      destruct (decoded_ok _ _ _ _ v hp H1 H2 H3 H4 H5 H6 HI' ED) as (LI & _). unfold start_value. rewrite E1, bind_Ok, ED, bind_Ok. destruct cc eqn:EC.
      - assert (NW : o_well (g_opt s) <> Wprecon) by (unfold cc in EC; intros W; rewrite W in EC; discriminate).
        destruct (C42_evaluation_with_condition_number_succeeds la _ _ _ _ _ _ _ _ _ hp (lk_adj (g_lk s)) LI NW HI) as (A & l & good & EA & EL & G1 & G2). rewrite EL, bind_Ok. cbn [fst snd].
        exists (if good then l_ln l else None), (if good then l_cond l else None). split; [destruct good; reflexivity|]. exists (la_cond la A). split; [exists v, hp, A; auto|]. intros LE. apply G1 in LE. subst good. destruct (G2 eq_refl) as (X1 & y & X2). rewrite X2. split; [discriminate|exact X1].
      - destruct (C23_evaluation_succeeds la _ _ _ _ _ _ _ _ _ hp (lk_adj (g_lk s)) LI HI) as (l & EL). rewrite EL, bind_Ok. cbn [fst snd]. do 2 eexists. split; [reflexivity|].
        destruct (C23_lkd_has_value la _ _ _ _ _ _ _ _ _ hp _ l LI HI EL) as (y & ->). discriminate. }
    match goal with |- context [rmap ?f ?l] => destruct (rmap_ok f l) as (vals & EV) end.
    { intros k Hk. apply in_seq in Hk. destruct (nth_error x0s k) as [x|] eqn:Ex; [|apply nth_error_None in Ex; lia]. apply nth_error_In in Ex. destruct (ONE x Ex) as (l & cd & -> & _). eauto. }
    rewrite EV, bind_Ok. destruct (rmap_inv _ _ _ EV) as (LV & QV). rewrite seq_length in LV.
    assert (AT : forall k x, nth_error x0s k = Some x -> exists p, nth_error vals k = Some p /\ start_value la (g_opt s) (g_data s) (g_lk s) (g_info s) cc x = Ok p).
    { intros k x Hx. assert (KL := nth_err_lt _ _ _ Hx). rewrite L in KL. destruct (QV k k (nth_error_seq _ _ KL)) as (b & Eb & F). rewrite Hx in F. eauto. }
    assert (TA : forall k p, nth_error vals k = Some p -> exists x, In x x0s /\ start_value la (g_opt s) (g_data s) (g_lk s) (g_info s) cc x = Ok p).
    { intros k p Hp. assert (KL := nth_err_lt _ _ _ Hp). rewrite LV, <- L in KL. apply nth_error_Some in KL. destruct (nth_error x0s k) as [x|] eqn:Ex; [|congruence]. destruct (AT k x Ex) as (q & Q1 & Q2). exists x. split; [eapply nth_error_In; exact Ex|congruence]. }
    assert (NE : vals <> []) by (destruct vals; [cbn in LV; congruence|discriminate]).
    destruct (C39_selection_succeeds cc (o_cond_max (g_opt s)) vals) as (k & EK).
    { destruct HU as [W|HU].
      - right. split; [exact NE|]. intros k p Hp. destruct (TA k p Hp) as (x & Ix & Es). destruct (ONE x Ix) as (l & cd & Es' & Q). assert (p = (l, cd)) by congruence. subst p. cbn [fst]. unfold cc in Q. rewrite W in Q. exact Q.
      - destruct (HU _ _ E) as [(x & cd & Ix & SC & LE1 & LE2)|ALL].
        + left. apply In_nth_error in Ix as Hk. destruct Hk as (k & Hk). destruct (AT k x Hk) as (p & Hp & Es). destruct (ONE x Ix) as (l & cd' & Es' & Q). assert (p = (l, cd')) by congruence. subst p.
          exists k. destruct cc.
          * destruct Q as (c & (v & hp & A & Z1 & Z2 & Z3 & Z4) & Q). destruct SC as (v' & hp' & A' & Y1 & Y2 & Y3 & Y4). assert (c = cd) by congruence. subst c. destruct Q as (Q1 & Q2); [congruence|]. destruct l as [y|]; [|congruence]. exists y, cd'. split; [exact Hp|].
            intros (_ & (z & Ez & Lz)). rewrite Q2 in Ez. injection Ez as <-. lra.
          * destruct l as [y|]; [|congruence]. exists y, cd'. split; [exact Hp|]. intros (Z & _). discriminate.
        + right. split; [exact NE|]. intros k p Hp. destruct (TA k p Hp) as (x & Ix & Es). destruct (ONE x Ix) as (l & cd & Es' & Q). assert (p = (l, cd)) by congruence. subst p. cbn [fst].
          destruct cc; [|exact Q]. destruct Q as (c & SC & Q). apply Q. apply (ALL x c Ix SC). }
    rewrite EK, bind_Ok. destruct (nth_error x0s k) as [x|] eqn:Ex; [eauto|]. apply nth_error_None in Ex.
    destruct (pick_start_best _ _ _ _ EK) as (y & c & NK & _). apply nth_err_lt in NK. lia.
Qed.
(** Without the rescaling loop: the start points exist (first hypothesis list), the optimiser, started in the box,
    asks for vectors at which evaluations are supported and ends with one. *)
Theorem C42_set_hpara_never_raises :
  forall (la : npla) (lhs : sampler) (mini : minimiser) (c : optzcfg) (hst : hist) (i : nat) (o : gpopt) (lo : lkopt) (d : gpdata) (info : hpinfo) (h : list event),
  let s := do_events la (new_obj o lo d info) h in
  numpy_total la (g_opt s) (g_data s) -> optz_ready s -> init_ok (c_init c) ->
  is_rescale (o_well (g_opt s)) = false \/ (c_max_iter c <= 1)%nat ->
  start_ready lhs (c_x0 c) (g_opt s) (g_info s) hst i ->
  starts_available la lhs s (c_x0 c) hst i ->
  (forall bnd v, box_point (hi_n (g_info s)) bnd v -> askable s v /\ ends_in (askable s) (mini 0%nat bnd v)) ->
  exists hp cond rep, snd (optz_hp la lhs mini c hst i s) = Ok (hp, cond, rep).
Proof.
  intros la lhs mini c hst i o lo d info h s NT HR IO HB SR HS HM.
  destruct (Nat.le_gt_cases (d_n_eval (g_data s)) (c_const_n c)) as [NF|NF].
  { assert (HR' := HR). destruct HR' as (H1 & H2 & H3 & H4 & H5 & H6 & HI). destruct (C41_few_points la lhs mini c hst i s H1 H2 H3 H6 IO NF) as (_ & hp & beta & cond & E & _). eauto. }
  assert (SEL : exists starts lb ub, select_hp_optz_x0 la lhs (g_opt s) (g_data s) (g_lk s) (c_x0 c) (g_info s) hst i = Ok (starts, (lb, ub))).
  { apply select_total; auto. }
  destruct SEL as (starts & lb & ub & E1).
  destruct (starts_ok la lhs s (c_x0 c) hst i starts lb ub HR SR) as (x0s & E2 & NE & BP); [|exact E1|].
  { intros X. destruct HS as [(_ & HS)|(HS & _)]; [exact HS|congruence]. }
  destruct (C42_optimisation_never_raises la (mini 0%nat (lb, ub)) o lo d info h x0s NT HR NE) as (best & cond & inf & EO & _).
  { intros x0 Hx. apply HM, BP, Hx. }
  destruct (C41_succeeds la lhs mini c hst i o lo d info h HR NF HB starts (lb, ub) x0s best cond inf E1 E2 EO) as (hp & E). eauto.
Qed.
Print Assumptions C42_set_hpara_never_raises.

(** *** with the rescaling loop *)
(** every vector of the right length can be asked for: so it is for RatQu, and for SqExp with all the gradients *)
Definition smooth_kernel (o : gpopt) (d : gpdata) : Prop :=
  o_kernel o = RatQu \/ (o_kernel o = SqExp /\ (d_bvec d = None \/ d_bvec d = Some (repeat true (d_n_eval d)))).
Definition all_askable (s : gpobj) : Prop := forall v, vlen v = hi_n (g_info s) -> askable s v.
Lemma smooth_askable s : smooth_kernel (g_opt s) (g_data s) -> all_askable s.
Proof. intros K v L. split; [exact L|]. intros hp _. unfold theta_grad_supported. destruct K as [K|(K & B)]; rewrite K; destruct (o_use_grad (g_opt s)); try discriminate; (split; [intros Z; first [exact B|congruence]|discriminate]). Qed.

(** changing the scaling never raises *)
Lemma scl_objdata_any s1 s2 a1 a2 b1 b2 ob ob' : scl_objdata s1 a1 b1 ob = Ok ob' -> vlen s2 = vlen s1 -> exists ob2, scl_objdata s2 a2 b2 ob = Ok ob2.
Proof.
  unfold scl_objdata. intros H L. binv H g E1. binv H sg E2.
  assert (X : forall og r, omap (obj_grad_2_scl s1 b1) og = Ok r -> exists r', omap (obj_grad_2_scl s2 b2) og = Ok r').
  { intros [G|] r E; cbn [omap] in *; [|eauto]. binv E z Ez. unfold obj_grad_2_scl, mmul, mzip in *. cbn [nr nc rowmat scl_grad_vec vmap vlen] in *. rewrite L. binv Ez q1 Q1. binv Ez q2 Q2. rewrite Q1, bind_Ok, Q2, !bind_Ok. eauto. }
  destruct (X _ _ E1) as (g' & ->). destruct (X _ _ E2) as (sg' & ->). rewrite !bind_Ok. eauto.
Qed.
Definition scl_inv (r : resc) : Prop :=
  r_nlc r = false /\ r_box r = None /\ r_lin r = None /\ (r_best r < nr (r_x r))%nat /\ exists ob os a b, r_obj r = Some ob /\ scl_objdata (r_scale r) a b ob = Ok os.
Lemma scl_inv_step r sh sc r' : scl_inv r -> set_xscale_data r sh sc = Ok r' -> scl_inv r'.
Proof.
  intros (I1 & I2 & I3 & I4 & ob & os & a & b & I5 & I6) H. unfold set_xscale_data in H. binv H ss E1. destruct ss as (s1, s2). binv H xs E2. binv H Rt E3. rewrite I5 in H. binv H os' E4. binv E4 os2 E4'.
  binv H u E5. rewrite I2 in H. cbn [bind] in H. rewrite I3 in H. cbn [bind] in H. injection H as <-. unfold scl_inv. cbn [r_nlc r_box r_lin r_best r_x r_obj r_scale]. split; [exact I1|]. split; [reflexivity|]. split; [reflexivity|]. split; [exact I4|].
  exists ob, os2. do 2 eexists. split; [reflexivity|injection E4 as _; exact E4'].
Qed.
Lemma data_scl_inv o d r : data_set o d -> opts_ok o -> d_scl d = Some r -> scl_inv r.
Proof.
  intros HD HO. assert (RD := ready o d HO HD). assert (NP := gr_n _ _ RD). destruct HD as (x & fv & sf & g & sg & b & Q1 & Q2 & Q3 & HA). revert r.
  assert (NV : (0 < vlen fv)%nat). { assert (I := data_after_inv _ _ _ _ _ _ _ _ HA). destruct I as (I1 & _). lia. } clear RD NP.
  induction HA as [d H|d scale d' HA IH H]; intros r E.
  - unfold set_data in H. cbv zeta in H. binv H ng Eng. binv H stf Estf. binv H stg Estg. binv H fz Efz. binv H gz Egz. binv H eta Eeta. binv H dm Edm.
    binv H scl Escl. binv H Rt ERt. injection H as <-. cbn [d_scl] in E. subst scl.
    destruct (o_use_scl o); [|discriminate]. binv Escl md Emd. binv Escl r1 Er1. binv Escl r2 Er2. injection Escl as ->.
    destruct (rescaling_init_fields _ _ _ _ _ Er1) as (F1 & F2 & F3).
    assert (G : r_nlc r1 = false /\ r_box r1 = None /\ r_lin r1 = None).
    { unfold rescaling_init, set_xscale_data in Er1. binv Er1 ss E1. destruct ss as (s1, s2). binv Er1 xs E2. binv Er1 Rt2 E3. cbn [r_obj r_nlc r_box r_lin bind] in Er1. injection Er1 as <-. auto. }
    unfold set_obj_data in Er2. binv Er2 u Eu. binv Er2 ss E1. destruct ss as (s1, s2). binv Er2 os E2. injection Er2 as <-. cbn [ob_val] in Eu. unfold assert_ in Eu. destruct (Nat.eqb_spec (nr (r_x r1)) (vlen fv)) as [NX|NX]; [|discriminate].
    unfold scl_inv. cbn [r_nlc r_box r_lin r_best r_x r_obj r_scale]. destruct G as (G1 & G2 & G3). do 3 (split; [assumption|]). split; [rewrite F1, F2 in *; lia|]. do 4 eexists. split; [reflexivity|exact E2].
  - apply rescale_data_inv in H. destruct H as (r0 & r' & E0 & H & ->). injection E as <-. eapply scl_inv_step; [apply (IH r0 E0)|exact H].
Qed.
Lemma rescale_total o d r scale : data_set o d -> opts_ok o -> d_scl d = Some r -> vlen scale = o_dim o -> (forall j, (j < o_dim o)%nat -> 0 < vat scale j) -> exists d', rescale_data d scale = Ok d'.
Proof.
  intros HD HO E L P. destruct (data_scl_inv o d r HD HO E) as (I1 & I2 & I3 & I4 & ob & os & a & b & I5 & I6). destruct (data_set_scl o d r HD E) as (L1 & L2 & _).
  assert (X : nc (r_x r) = o_dim o). { destruct HD as (x & fv & sf & g & sg & bb & Q1 & Q2 & Q3 & HA). assert (I := data_after_inv _ _ _ _ _ _ _ _ HA). destruct I as (_ & _ & _ & _ & _ & _ & _ & _ & _ & _ & I11 & _). rewrite (proj1 (I11 r E)). exact Q3. }
  unfold rescale_data. rewrite E. unfold set_xscale_data.
  destruct (calc_x_shift_n_scale_total (r_x r) (r_best r) (r_use_shift r) (r_mtd r) (r_dist r) (Some scale) I4) as (sh & sc & ES).
  { intros v Ev. injection Ev as <-. split; [congruence|]. intros j Hj. apply P. lia. }
  rewrite ES, bind_Ok. apply calc_x_shift_n_scale_inv in ES. destruct ES as (M1 & M2). destruct (rok_ex _ _ (x_init_2_scl_ok (r_x r) sh sc M1 M2)) as (X1 & -> & _). rewrite bind_Ok.
  destruct (calc_Rtensor_total X1) as (T & ->). rewrite bind_Ok, I5. destruct (scl_objdata_any (r_scale r) sc a (r_obj_shift r) b (r_obj_scale r) ob os I6) as (ob2 & ->); [congruence|].
  rewrite !bind_Ok, I1, I2, I3, !bind_Ok. eauto.
Qed.

Lemma resc_obj_total la mini tol xs sc : forall k cnt s0 s th best cond, numpy_total la (g_opt s0) (g_data s0) -> optz_ready s0 -> all_askable s0 ->
  (forall n v, vlen v = hi_n (g_info s0) -> ends_in (fun w => vlen w = hi_n (g_info s0)) (mini n v)) -> clean s -> same_data s0 s ->
  (1 < nr xs)%nat -> nc xs = o_dim (g_opt s0) -> vlen sc = o_dim (g_opt s0) -> (forall j, (j < o_dim (g_opt s0))%nat -> 0 < vat sc j) -> (0 < o_dim (g_opt s0))%nat ->
  (0 < k)%nat -> vlen th = o_dim (g_opt s0) -> vlen best = hi_n (g_info s0) ->
  exists s' l b c, resc_obj la mini k cnt tol xs sc s th best cond = (s', Ok (l, b, c)) /\ clean s' /\ same_data s0 s' /\ l <> [] /\ vlen b = hi_n (g_info s0) /\
    forall t, In t l -> vlen (tr_scale t) = o_dim (g_opt s0) /\ forall j, (j < o_dim (g_opt s0))%nat -> 0 < vat (tr_scale t) j.
Proof.
  induction k as [|k IH]; intros cnt s0 s th best cond NT HR AA HM C SD NX CX LS PS DP KP LT LB; [lia|]. cbn [resc_obj]. assert (SD' := SD). destruct SD' as (E1 & E2 & E3 & E4). rewrite <- E1, <- E2.
  assert (T10 : 0 < / 10 ^ 15) by (apply Rinv_0_lt_compat, pow_lt; lra).
  assert (LG : lk_log_theta (g_lk s0) = true) by apply HR.
  destruct (C19_new_scaling_describes_the_same_kernel (o_dim (g_opt s0)) (lk_log_theta (g_lk s0)) xs sc th _ DP NX CX LS LT T10) as (th' & d2 & sc' & ER & LT' & LS' & _ & PS' & _).
  { intros j _. unfold theta_of. rewrite LG. apply exp_pos. }
  rewrite ER. cbn [tr_dist fst snd].
  destruct ((k =? 0)%nat || (if Rlt_dec d2 tol then true else false)) eqn:ST.
  { do 4 eexists. split; [reflexivity|]. split; [exact C|]. split; [exact SD|]. split; [discriminate|]. split; [exact LB|]. intros t [<-|[]]. split; [exact LS'|exact (PS' PS)]. }
  apply orb_false_iff in ST. destruct ST as (ST & _). apply Nat.eqb_neq in ST.
  set (x0 := put_theta (o_dim (g_opt s0)) best (tr_theta (th', d2, sc'))) in *. assert (LX : vlen x0 = hi_n (g_info s0)) by exact LB.
  assert (EI : forall p, ends_in (fun w => vlen w = hi_n (g_info s0)) p -> ends_in (askable s0) p) by (intros p Hp; induction Hp; constructor; auto).
  destruct (optz_total la (mini cnt) s0 s [x0] NT (ready_same _ _ SD HR) C SD ltac:(discriminate)) as (b1 & c1 & i1 & EO & (LB1 & _)).
  { intros y [<-|[]]. split; [apply AA; exact LX|apply EI, HM; exact LX]. }
  destruct (optz_same la (mini cnt) s [x0] C) as (SD1 & C1). destruct (optz_hp_max_lkd la (mini cnt) s [x0]) as [s1 r1]. cbn [fst snd] in *. subst r1.
  destruct (IH (S cnt) s0 s1 (tr_theta (th', d2, sc')) b1 c1 NT HR AA HM C1 (same_trans _ _ _ SD SD1) NX CX LS PS DP ltac:(lia) LT' LB1) as (s' & l & b & c & EE & A1 & A2 & A3 & A4 & A5).
  rewrite EE. cbn [bind]. do 4 eexists. split; [reflexivity|]. split; [exact A1|]. split; [exact A2|]. split; [discriminate|]. split; [exact A4|]. intros t [<-|Ht]; [split; [exact LS'|exact (PS' PS)]|apply A5, Ht].
Qed.
Lemma argmin_in : forall l b, In (argmin_from b l) (b :: l).
Proof. induction l as [|t l IH]; intros b; cbn [argmin_from]; [left; reflexivity|]. destruct (Rlt_dec (tr_dist t) (tr_dist b)); [right; apply IH|destruct (IH b) as [E|E]; [left; exact E|right; right; exact E]]. Qed.
Lemma ready_rescaled s s2 d' scale : optz_ready s -> same_data s s2 -> rescale_data (g_data s) scale = Ok d' -> optz_ready (with_data s2 d').
Proof.
  intros (H1 & H2 & H3 & H4 & H5 & H6 & HI) (T1 & T2 & T3 & T4) ED. assert (ED' := ED). apply rescale_data_inv in ED'. destruct ED' as (r & r' & E & _ & ->).
  unfold optz_ready. cbn [g_opt g_lk g_info g_data with_data]. rewrite <- T1, <- T2, <- T4. split; [exact H1|]. split.
  { destruct H2 as (x & fv & sf & g & sg & bb & Q1 & Q2 & Q3 & Q4). exists x, fv, sf, g, sg, bb. split; [exact Q1|]. split; [exact Q2|]. split; [exact Q3|]. eapply after_rescale; [exact Q4|exact ED]. }
  split; [exact H3|]. split; [exact H4|]. split; [exact H5|]. split; [exact H6|exact HI].
Qed.

Theorem C42_set_hpara_with_rescaling_never_raises :
  forall (la : npla) (lhs : sampler) (mini : minimiser) (c : optzcfg) (hst : hist) (i : nat) (o : gpopt) (lo : lkopt) (d : gpdata) (info : hpinfo) (h : list event),
  let s := do_events la (new_obj o lo d info) h in
  numpy_total la (g_opt s) (g_data s) -> optz_ready s -> init_ok (c_init c) ->
  is_rescale (o_well (g_opt s)) = true -> (1 < c_max_iter c)%nat -> d_scl (g_data s) <> None -> scale_defined (g_opt s) (g_data s) ->
  smooth_kernel (g_opt s) (g_data s) ->
  start_ready lhs (c_x0 c) (g_opt s) (g_info s) hst i ->
  starts_available la lhs s (c_x0 c) hst i ->
  (forall n bnd v, vlen v = hi_n (g_info s) -> ends_in (fun w => vlen w = hi_n (g_info s)) (mini n bnd v)) ->
  exists hp cond rep, snd (optz_hp la lhs mini c hst i s) = Ok (hp, cond, rep).
Proof.
  intros la lhs mini c hst i o lo d info h s NT HR IO HB HM1 HSC HSD HK SR HS HM. assert (C : clean s) by (apply events_clean; exact I).
  assert (AA := smooth_askable s HK). assert (HR' := HR). destruct HR' as (H1 & H2 & H3 & H4 & H5 & H6 & HI).
  destruct (Nat.le_gt_cases (d_n_eval (g_data s)) (c_const_n c)) as [NF|NF].
  { destruct (C41_few_points la lhs mini c hst i s H1 H2 H3 H6 IO NF) as (_ & hp & beta & cond & E & _). eauto. }
  assert (SEL : exists starts lb ub, select_hp_optz_x0 la lhs (g_opt s) (g_data s) (g_lk s) (c_x0 c) (g_info s) hst i = Ok (starts, (lb, ub))).
  { apply select_total; auto. }
  destruct SEL as (starts & lb & ub & E1).
  destruct (starts_ok la lhs s (c_x0 c) hst i starts lb ub HR SR) as (x0s & E2 & NE & BP); [|exact E1|].
  { intros X. destruct HS as [(_ & HS)|(HS & _)]; [exact HS|congruence]. }
  assert (EI : forall p, ends_in (fun w => vlen w = hi_n (g_info s)) p -> ends_in (askable s) p) by (intros p Hp; induction Hp; constructor; auto).
  destruct (C42_optimisation_never_raises la (mini 0%nat (lb, ub)) o lo d info h x0s NT HR NE) as (best & cond & inf & EO & (LB & _)).
  { intros x0 Hx. destruct (BP x0 Hx) as (L & _). split; [apply AA, L|apply EI, HM, L]. }
  fold s in EO, LB. unfold optz_hp. destruct (Nat.leb_spec (d_n_eval (g_data s)) (c_const_n c)) as [NA|NA]; [lia|]. rewrite HB. destruct (Nat.ltb_spec 1 (c_max_iter c)) as [NA2|NA2]; [|lia]. cbn [andb].
  rewrite E1. cbn [bind fst snd]. rewrite E2. cbn [bind]. cbv zeta. unfold optz_hp_max_lkd_mtd_rescale. rewrite HB.
  destruct (optz_same la (mini 0%nat (lb, ub)) s x0s C) as (SD1 & C1). destruct (optz_hp_max_lkd la (mini 0%nat (lb, ub)) s x0s) as [s1 r1]. cbn [fst snd] in *. subst r1.
  assert (SD1' := SD1). destruct SD1' as (S1 & S2 & S3 & S4). rewrite <- S1, <- S3.
  destruct (Nat.ltb_spec 1 (d_n_eval (g_data s))) as [NA3|NA3].
  2:{ cbn [snd bind]. rewrite <- S2, <- S3, <- S4, <- S1. destruct (finish_ok la _ _ _ _ best H1 H2 H3 H4 H5 H6 HI LB) as (hp & hp' & F1 & F2). rewrite F1. cbn [bind]. rewrite F2. cbn [bind]. eauto. }
  destruct (d_scl (g_data s)) as [r|] eqn:EsR; [|congruence]. destruct (data_set_scl _ _ r H2 EsR) as (L1 & L2 & _).
  assert (XS : nr (r_xscl r) = d_n_eval (g_data s) /\ nc (r_xscl r) = o_dim (g_opt s)).
  { assert (RD := ready _ _ H1 H2). destruct H2 as (x & fv & sf & g & sg & bb & Q1 & Q2 & Q3 & HA). assert (II := data_after_inv _ _ _ _ _ _ _ _ HA). destruct II as (I1 & I2 & _ & _ & _ & _ & _ & _ & _ & _ & I11 & _).
    destruct (I11 r EsR) as (_ & _ & _ & (M1 & M2 & _) & _). split; [|congruence]. rewrite M1. exact (eq_trans Q2 (eq_sym I1)). }
  destruct XS as (X1 & X2).
  assert (PS : forall j, (j < o_dim (g_opt s))%nat -> 0 < vat (r_scale r) j). { intros j Hj. specialize (HSD j Hj). unfold in_scale in HSD. rewrite EsR in HSD. exact HSD. }
  destruct (resc_obj_total la (fun n => mini n (lb, ub)) (c_tol c) (r_xscl r) (r_scale r) (c_max_iter c) 1 s s1 (get_theta (o_dim (g_opt s)) best) best cond NT HR AA (fun n v => HM n (lb, ub) v) C1 SD1)
    as (s2 & l & b & cc & ER & C2 & SD2 & NL & LB2 & PL); auto; try lia; [apply H1|].
  cbv zeta. rewrite ER. cbn [bind]. destruct l as [|t0 l0]; [congruence|]. cbn [pick_min bind]. destruct (PL _ (argmin_in l0 t0)) as (T1 & T2). set (t := argmin_from t0 l0) in *.
  assert (SD2' := SD2). destruct SD2' as (U1 & U2 & U3 & U4). rewrite <- U3.
  destruct (rescale_total _ _ r (tr_scale t) H2 H1 EsR T1 T2) as (d' & ED). rewrite ED. cbn [bind snd].
  assert (RDY := ready_rescaled s s2 d' (tr_scale t) HR SD2 ED). destruct RDY as (J1 & J2 & J3 & J4 & J5 & J6 & JI).
  destruct (finish_ok la _ _ _ _ (put_theta (o_dim (g_opt s)) b (tr_theta t)) J1 J2 J3 J4 J5 J6 JI) as (hp & hp' & F1 & F2); [cbn [g_info with_data put_theta vlen]; rewrite <- U4; exact LB2|].
  rewrite F1. cbn [bind]. rewrite F2. cbn [bind]. eauto.
Qed.
Print Assumptions C42_set_hpara_with_rescaling_never_raises.

(** ** The hypotheses are met, those of C41_stored_hyperparameters, C41_succeeds and C41_rescaled too: three points, two gradients, unknown noise variances (six hyperparameters of the
    rational quadratic kernel), the default options of the preconditioned method ... *)
Definition la_dummy : npla := mknpla (fun _ => 1) (fun _ => 1) (fun A => (vconst (nr A) 1, mconst (nr A) (nr A) 0)) false.
Definition mini_ex : minimiser := fun _ _ x0 => OVal x0 (fun y => OGrad x0 (fun g => OCond x0 (fun _ => ODone (mkvec (vlen x0) (vat g)) (Some y) true 3))).
Lemma la_dummy_ok o d : numpy_total la_dummy o d. Proof. split; [|left; reflexivity]. intros A E. cbn. auto. Qed.
Lemma start_ready_ex o info : o_dim o = 2%nat -> (forall sl, position info sl <> None -> True) -> start_ready mid_sampler (xo_default RatQu) o info past3 3.
Proof.
  intros D _. split; [exact mid_sampler_ok|]. split; [cbn; lra|]. split; [symmetry; exact D|]. split; [exists 1%nat; unfold recent; cbn; lia|]. split.
  - intros s r _ (_ & H & _). apply Nat.ltb_lt in H. destruct s; unfold past, past3; cbn [h_tab h_col]; rewrite H; eauto.
  - intros s _. destruct s; cbn [allowed xo_default xo_theta xo_kernel xo_varK xo_vf xo_vg kernel_range]; do 2 eexists; (split; [reflexivity|]);
      (split; [apply Rinv_0_lt_compat; lra|]); apply Rle_trans with 1; try lra; apply Rmult_le_reg_l with (10 ^ 24); lra || (try lra).
Qed.
Lemma log_default : log_scale lk_default. Proof. repeat split. Qed.
Example C42_default_case : exists d info,
  let s := do_events la_dummy (new_obj hx_opt lk_default d info) [] in
  optz_ready s /\ all_askable s /\ hi_n info = 6%nat /\ (c_const_n (cfg_default RatQu) < d_n_eval d)%nat /\
  exists hp cond rep, snd (optz_hp la_dummy mid_sampler mini_ex (cfg_default RatQu) past3 3 s) = Ok (hp, cond, rep).
Proof.
  destruct hx_data as (d & D & K1 & K2 & K3 & K4 & K5 & K6).
  destruct (info_total hx_opt d lk_default true true true true true) as (info & EI); auto.
  assert (NE : d_n_eval d = 3%nat).
  { destruct D as (x & fv & sf & g & sg & b & _ & _ & _ & HA). assert (II := data_after_inv _ _ _ _ _ _ _ _ HA). destruct II as (I1 & _ & I3 & _ & _ & _ & _ & _ & I9 & _). rewrite I1. change (o_use_grad hx_opt) with true in I9. cbn in I9. rewrite <- I3, K6 in I9. unfold mask_ok in I9. cbn in I9. congruence. }
  exists d, info. intros s. assert (RD : optz_ready s).
  { split; [split; [simpl; lia|split; simpl; lra]|]. split; [exact D|]. split; [reflexivity|]. split; [exact log_default|]. split; [intros _; reflexivity|]. split; [left; reflexivity|]. change (set_hp_optz_info hx_opt d lk_default true true (d_noisy d) (d_opt_fval d) (d_opt_fgrad d) = Ok info). rewrite K3, K4, K5. exact EI. }
  assert (AA : all_askable s) by (apply smooth_askable; left; reflexivity).
  split; [exact RD|]. split; [exact AA|]. split; [destruct (info_inv _ _ _ _ _ _ _ _ _ EI) as (_ & _ & _ & ->); reflexivity|]. split; [rewrite NE; cbn; lia|].
  apply (C42_set_hpara_never_raises la_dummy mid_sampler mini_ex (cfg_default RatQu) past3 3 hx_opt lk_default d info [] (la_dummy_ok _ _) RD); auto.
  - unfold init_ok; cbn; repeat split; lra.
  - apply start_ready_ex; auto.
  - right. split; [reflexivity|]. split; [cbn; lia|]. left. reflexivity.
  - intros bnd v (L & _). split; [apply AA, L|]. unfold mini_ex. constructor; [apply AA, L|]. intros y. constructor; [apply AA, L|]. intros g. constructor; [apply AA, L|]. intros _. constructor. apply AA. exact L.
Qed.
(** ... and the method 'rescale_origin', 'hp_best' start points *)
Lemma scale_pos o x fv sf g sg b d : (1 <= vlen fv)%nat -> nr x = vlen fv -> nc x = o_dim o -> (0 < o_dim o)%nat -> o_well o = Wresc_origin -> set_data o x fv sf g sg b = Ok d -> (1 < vlen fv)%nat -> scale_defined o d.
Proof.
  intros NV NX CX DP W H N1 j Hj. unfold in_scale. destruct (d_scl d) as [r|] eqn:E; [|lra].
  unfold set_data in H. cbv zeta in H. binv H ng Eng. binv H stf Estf. binv H stg Estg. binv H fz Efz. binv H gz Egz. binv H eta Eeta. binv H dm Edm.
  binv H scl Escl. binv H Rt ERt. injection H as <-. cbn [d_scl] in E. subst scl. destruct (o_use_scl o); [|discriminate]. rewrite W in Escl. cbn [bind] in Escl. binv Escl r1 Er1. binv Escl r2 Er2. injection Escl as ->.
  destruct (set_obj_data_inv _ _ _ _ _ Er2) as (_ & _ & -> & _). apply set_xscale_data_inv in Er1. destruct Er1 as (_ & Y & _). cbn [r_x r_best r_use_shift r_mtd r_dist fst snd] in Y.
  unfold calc_x_shift_n_scale in Y. cbv zeta in Y. binv Y s1 E1. cbn [bind] in Y. binv Y X1 E3. binv Y cf E4. injection Y as _ <-. cbn [vmap vat vconst]. rewrite Rmult_1_l.
  destruct (Nat.eqb_spec (nr x) 1); [lia|]. unfold isoscaling in E4. binv E4 m Em. destruct m as [m|]; [|discriminate]. injection E4 as <-. apply Rdiv_lt_0_compat; [apply vreq_pos; lia|]. apply Rlt_le_trans with tol_min_dist_x; [|apply Rmax_l]. unfold tol_min_dist_x. apply Rinv_0_lt_compat, pow_lt. lra.
Qed.
Definition rx_opt : gpopt := gp_init 2 true RatQu Wresc_origin.
Definition rx_cfg : optzcfg := mkcfg 1 vreq_max_iter_dflt vreq_iter_tol_dflt hpinit_default (mkxo 5 (10 ^ 3) (10 ^ 5) (Some (/ 10 ^ 18), Some (10 ^ 24)) (kernel_range RatQu) (Some (/ 10 ^ 24), Some (10 ^ 14))
    (Some (/ 10 ^ 8), Some (10 ^ 8)) (Some (/ 10 ^ 8), Some (10 ^ 8)) Sbest 5 40).
Lemma rx_data : exists d info, let s := new_obj rx_opt lk_default d info in
  optz_ready s /\ d_scl d <> None /\ scale_defined rx_opt d /\ d_noisy d = true /\ d_opt_fval d = true /\ d_opt_fgrad d = true /\ d_n_eval d = 3%nat.
Proof.
  destruct (C13_nugget_total_positive_decreasing (o_ncfg rx_opt) (vlen ex_f)) as (eb & eg & EN & _); try (cbn; lia); try (cbn; lra); [intros Z; discriminate Z|]. set (eta := (eb, eg)) in *.
  destruct (set_data_total rx_opt ex_x ex_f SdNone (Some ex_g) SdNone (Some [true; false; true]) eta) as (d & E); auto.
  { cbn; lia. } { cbn; lia. } { split; reflexivity. }
  { split; [discriminate|]. split; [reflexivity|]. exists ex_g. split; [reflexivity|]. split; [reflexivity|]. split; [reflexivity|]. discriminate. }
  { discriminate. } { intros _ _. cbn; lia. }
  assert (HD : data_set rx_opt d). { exists ex_x, ex_f, SdNone, (Some ex_g), SdNone, (Some [true; false; true]). split; [cbn; lia|]. split; [reflexivity|]. split; [reflexivity|]. apply after_set; exact E. }
  assert (FL : d_noisy d = true /\ d_opt_fval d = true /\ d_opt_fgrad d = true /\ d_scl d <> None /\ d_n_eval d = 3%nat).
  { clear - E. unfold set_data in E. cbv zeta in E. binv E ng Eng. binv E stf Estf. binv E stg Estg. binv E fz Efz. binv E gz Egz. binv E eta Eeta. binv E dm Edm. binv E scl Escl. binv E Rt ERt.
    injection E as <-. cbn in Estf. inversion Estf; subst stf. cbn in Eng. inversion Eng; subst ng. cbn in Estg. inversion Estg; subst stg. cbn in Efz, Egz. inversion Efz; subst fz. inversion Egz; subst gz. cbn [d_noisy d_opt_fval d_opt_fgrad d_scl d_n_eval]. repeat split.
    change (o_use_scl rx_opt) with true in Escl. binv Escl md Emd. binv Escl r1 Er1. binv Escl r2 Er2. injection Escl as <-. discriminate. }
  destruct FL as (K3 & K4 & K5 & KS & KN).
  destruct (opt_flags _ _ HD) as (F1 & F2). rewrite K4 in F1. rewrite K5 in F2. change (o_use_grad rx_opt) with true in F2. cbn [andb] in F2.
  destruct (info_total rx_opt d lk_default true true true true true) as (info & EI);
    [auto|intros _; destruct (d_known_fval d); [discriminate|reflexivity]|intros _; destruct (d_known_fgrad d); [discriminate|reflexivity]|].
  exists d, info. intros s. assert (RD : optz_ready s).
  { split; [split; [simpl; lia|split; simpl; lra]|]. split; [exact HD|]. split; [reflexivity|]. split; [exact log_default|]. split; [intros _; reflexivity|]. split; [left; reflexivity|].
    change (set_hp_optz_info rx_opt d lk_default true true (d_noisy d) (d_opt_fval d) (d_opt_fgrad d) = Ok info). rewrite K3, K4, K5. exact EI. }
  assert (SD : scale_defined rx_opt d) by (refine (scale_pos rx_opt ex_x ex_f _ _ _ _ d _ eq_refl eq_refl _ eq_refl E _); cbn; lia).
  auto 8.
Qed.
Example C42_rescaling_case : exists d info,
  let s := do_events la_dummy (new_obj rx_opt lk_default d info) [] in
  optz_ready s /\ d_scl d <> None /\ scale_defined rx_opt d /\ (c_const_n rx_cfg < d_n_eval d)%nat /\ (1 < c_max_iter rx_cfg)%nat /\
  exists hp cond rep, snd (optz_hp la_dummy mid_sampler mini_ex rx_cfg past3 3 s) = Ok (hp, cond, rep).
Proof.
  destruct rx_data as (d & info & RD & KS & SD & K3 & K4 & K5 & KN). exists d, info. intros s. cbv zeta in RD. fold s in RD.
  assert (N1 : (1 < c_max_iter rx_cfg)%nat) by (cbn; unfold vreq_max_iter_dflt; lia).
  split; [exact RD|]. split; [exact KS|]. split; [exact SD|]. split; [rewrite KN; cbn; lia|]. split; [exact N1|].
  apply (C42_set_hpara_with_rescaling_never_raises la_dummy mid_sampler mini_ex rx_cfg past3 3 rx_opt lk_default d info [] (la_dummy_ok _ _) RD); auto.
  - unfold init_ok; cbn; repeat split; lra.
  - left. reflexivity.
  - destruct (start_ready_ex rx_opt info eq_refl (fun _ _ => I)) as (A1 & A2 & A3 & A4 & A5 & A6). split; [exact A1|]. split; [exact A2|]. split; [exact A3|]. split; [exact A4|]. split; [exact A5|exact A6].
  - right. split; [reflexivity|]. split; [cbn; lia|]. right. intros x0s bnd _. right. intros x cd _ (v & hp & A & _ & _ & _ & ->). cbn. lra.
  - intros n bnd v L. unfold mini_ex. constructor; [exact L|]. intros y. constructor; [exact L|]. intros g. constructor; [exact L|]. intros _. constructor. exact L.
Qed.
