(** * C31, C32 after the scaling of the coordinates has been changed (rescaling methods): off-diagonal Hessian entries *)
From Coq Require Import Reals List Arith Bool String Lia Lra.
From Coquelicot Require Import Coquelicot.
From Verif.Base Require Import NpLite NpFacts Deriv.
From Verif.Spec Require Import KernelSpec LinAlgSpec GpSpec HpSpec DataSpec LkdSpec RescaleSpec EvalSpec.
From Verif.Model Require Import KernelSqExp KernelMatern KernelRatQuad KernelDispatch CommonFun WellCond Rescaling GpState Chol Cov HpInfo MeanFun EvalModel.
From Verif.Proofs Require Import KernTac StateFacts EvalMain.
From Verif.Props Require Import CondProps DataProps LkdProps EvalProps.
Import ListNotations.
Local Open Scope R_scope.

(** one observation at the origin of the plane, value and gradient 0, and a method that rescales the data *)
Definition o3 : gpopt := gp_init 2 true SqExp Wresc_origin.
Definition x3 : mat := mconst 1 2 0.
Definition s3 : vec := mkvec 2 (fun i => nth i [1; 2] 1).
Definition hp3 : hpv := mkhp (Some (vconst 1 (-1))) (vconst 2 1) None (Some 1) None None.
Definition q3 : mat := mkmat 1 2 (fun _ j => nth j [1; 1 / 2] 0).

Lemma data3 : exists d0 d r, set_data o3 x3 (vconst 1 0) (SdOk (vconst 1 0)) (Some (mconst 1 2 0)) (SdOk (mconst 1 2 0)) None = Ok d0 /\ rescale_data d0 s3 = Ok d /\
  d_scl d = Some r /\ d_n_eval d = 1%nat /\ d_n_grad d = 1%nat /\ d_x d = x3 /\ d_fval d = vconst 1 0 /\ d_grad d = Some (mconst 1 2 0) /\ d_bvec d = None /\ r_obj_shift r = 0 /\ d_known_fval d = true /\ d_known_fgrad d = true /\
  (forall i, (i < 2)%nat -> vat (r_shift r) i = 0 /\ vat (r_scale r) i = nth i [1; 2] 1) /\ (forall i, (i < 2)%nat -> mat_at (r_xscl r) 0 i = 0).
Proof.
  unfold set_data. cbv zeta. cbn. unfold vmax_lt, mmax_lt. cbn.
  eexists; eexists; eexists. split; [reflexivity|]. unfold rescale_data. cbn -[Rlt_dec]. unfold set_xscale_data. cbn -[Rlt_dec].
  destruct (Rlt_dec 0 1) as [L|L]; [|lra]. destruct (Rlt_dec 0 2) as [L2|L2]; [|lra]. cbn.
  split; [reflexivity|]. split; [reflexivity|]. cbn.
  do 9 (split; [reflexivity|]). split; [intros i Hi; destruct i as [|[|i]]; [| |lia]; cbn; split; ring|intros i Hi; destruct i as [|[|i]]; [| |lia]; cbn; ring].
Qed.

(** the surrogate of this state: mean -1 + w k(0, x) with w <> 0, where the kernel works on the scaled point *)
Lemma mean3 : exists d su w, data_set o3 d /\ eval_input o3 d hp3 1 (-1) /\ mask_supported o3 d /\ set_up o3 d (fun _ => 1) hp3 false su /\ in_scale d 0 = 1 /\ in_scale d 1 = 2 /\
  w <> 0 /\ hess_supported o3 d hp3 q3 /\
  forall (x2 : mat) (cg ch : bool) (ev : evo), nc x2 = 2%nat -> nr x2 = 1%nat -> (ch = true -> cg = true /\ hess_supported o3 d hp3 x2) -> eval_model o3 d hp3 su x2 cg ch = Ok ev ->
    vat (e_mu ev) 0 = (-1 + w * exp (- (mat_at x2 0 0 ^ 2 + 4 * mat_at x2 0 1 ^ 2))) / out_scale d + 0.
Proof.
  destruct data3 as (d0 & d & r & E0 & E1 & Hs & Hn & Hg & Hx & Hf & Hgr & Hb & Hsh & K1 & K2 & HS & HX).
  assert (DS : data_set o3 d).
  { do 6 eexists. split; [|split; [|split; [|apply (after_rescale _ _ _ _ _ _ _ d0 s3 d (after_set _ _ _ _ _ _ _ _ E0) E1)]]]; simpl; try lia; reflexivity. }
  assert (I0 : in_scale d 0 = 1) by (unfold in_scale; rewrite Hs; apply (HS 0%nat); lia).
  assert (I1 : in_scale d 1 = 2) by (unfold in_scale; rewrite Hs; apply (HS 1%nat); lia).
  assert (OH : out_shift d = 0) by (unfold out_shift; rewrite Hs; exact Hsh).
  assert (HI : eval_input o3 d hp3 1 (-1)).
  { split; [split; [simpl; lia|split; simpl; lra]|]. split; [exact DS|]. split; [discriminate|]. split; [split; [reflexivity|split; [intros; simpl; lra|exact I]]|].
    split; [split; [rewrite K1; reflexivity|intros _; rewrite K2; reflexivity]|]. split; [split; intros v Ev; discriminate|]. split; [reflexivity|]. split; [lra|].
    split; [exists (vconst 1 (-1)); repeat split|]. intros i Hi. simpl in Hi. destruct i as [|[|i]]; [rewrite I0; lra|rewrite I1; lra|lia]. }
  assert (MS : mask_supported o3 d) by (intros _ C; discriminate).
  destruct (C30_setup_succeeds o3 d (fun _ => 1) hp3 1 (-1) false HI) as (su & Es & HSU).
  assert (SU : set_up o3 d (fun _ => 1) hp3 false su) by (apply HSU; right; left; reflexivity).
  destruct (C34_posterior_of_the_used_observations_partial o3 d (fun _ => 1) hp3 1 (-1) false su HI MS SU) as ((N1 & N2 & N3) & _ & (_ & PD) & HP).
  set (S := k_Kcov (su_K su)) in *. set (p0 := rows_of (fst (get_scl_x_w_dist d)) 0%nat) in *.
  assert (OB : gp_observations o3 d = [Val p0; Der 0 p0; Der 1 p0]) by (unfold gp_observations; rewrite Hb, Hn; reflexivity).
  rewrite OB in N1, N2, N3. cbn [List.length] in N1, N2.
  assert (P0 : forall i, (i < 2)%nat -> p0 i = 0) by (intros i Hi; unfold p0, get_scl_x_w_dist; rewrite Hs; apply HX, Hi).
  assert (KF : forall a b, gp_kernel o3 hp3 a b = exp (- ((a 0%nat - b 0%nat) ^ 2 + (a 1%nat - b 1%nat) ^ 2))) by (intros a b; unfold gp_kernel; change (o_kernel o3) with SqExp; change (o_dim o3) with 2%nat; unfold kfun, k_sqexp, sqd; cbn; f_equal; ring).
  assert (DZ : forall i v, (i < 2)%nat -> is_cov (gp_kernel o3 hp3) (Der i p0) (Val p0) v -> v = 0).
  { intros i v Hi D. simpl in D. rewrite (P0 i Hi) in D. refine (dR_unique _ _ _ _ D _).
    apply (dR_ext (fun t => exp (- (t ^ 2)))).
    { intros t. rewrite KF. f_equal. destruct i as [|[|i]]; [| |lia]; unfold upd; cbn; rewrite !P0 by lia; ring. }
    auto_derive; [exact I|]. rewrite Rmult_0_l. ring. }
  assert (PS : 0 < mat_at S 0 0).
  { assert (X := PD (fun i => if (i =? 0)%nat then 1 else 0)). rewrite N1 in X. assert (Y := X ltac:(exists 0%nat; split; [lia|simpl; lra])). unfold qform, dotp, mv in Y. rewrite N1, ?N2 in Y. cbn in Y. lra. }
  assert (S10 : mat_at S 1 0 = 0) by (destruct (N3 1%nat 0%nat _ _ eq_refl eq_refl) as (v & Hv & ->); rewrite (DZ 0%nat v ltac:(lia) Hv); simpl; ring).
  assert (S20 : mat_at S 2 0 = 0) by (destruct (N3 2%nat 0%nat _ _ eq_refl eq_refl) as (v & Hv & ->); rewrite (DZ 1%nat v ltac:(lia) Hv); simpl; ring).
  assert (RS : forall i, (i < 3)%nat -> gp_residual o3 d (-1) i = if (i =? 0)%nat then 1 else 0).
  { intros i Hi. unfold gp_residual, gp_labels. rewrite Hb, Hn, OH, Hf, Hgr. destruct i as [|[|[|i]]]; [| | |lia]; cbn; ring. }
  exists d, su, (/ mat_at S 0 0). split; [exact DS|]. split; [exact HI|]. split; [exact MS|]. split; [exact SU|]. split; [exact I0|]. split; [exact I1|].
  split; [apply Rgt_not_eq, Rinv_0_lt_compat, PS|].
  split. { split; [reflexivity|]. intros _. split; [rewrite Hb; exact I|intros C; discriminate]. }
  intros x2 cg ch ev Hc Hr Hch Eev. destruct (HP x2 cg ch Hc ltac:(lia) Hch) as (ev' & Eev' & _ & _ & HV). assert (ev' = ev) by congruence. subst ev'.
  destruct (HV 0%nat ltac:(lia)) as (m & v & Hm & _ & -> & _). rewrite OH. f_equal. f_equal. symmetry. apply Hm. clear v HV Hm.
  set (u := model_point d (rows_of x2 0%nat)).
  assert (U0 : u 0%nat = mat_at x2 0 0). { unfold u, model_point. rewrite Hs. unfold scaled. destruct (HS 0%nat ltac:(lia)) as (-> & ->). unfold rows_of. simpl. ring. }
  assert (U1 : u 1%nat = 2 * mat_at x2 0 1). { unfold u, model_point. rewrite Hs. unfold scaled. destruct (HS 1%nat ltac:(lia)) as (-> & ->). unfold rows_of. simpl. ring. }
  rewrite OB.
  set (kf := fun y : pt => exp (- ((y 0%nat - u 0%nat) ^ 2 + (y 1%nat - u 1%nat) ^ 2))).
  exists (fun r => match r with 0%nat => kf p0 | 1%nat => 2 * u 0%nat * kf p0 | _ => 2 * u 1%nat * kf p0 end), (fun r => if (r =? 0)%nat then / mat_at S 0 0 else 0).
  split; [|split].
  - intros [|[|[|k]]] a Ha; simpl in Ha; try (injection Ha as <-); simpl; [rewrite KF; reflexivity| | |destruct k; discriminate].
    + apply (dR_ext (fun t => exp (- ((t - u 0%nat) ^ 2 + (p0 1%nat - u 1%nat) ^ 2)))); [intros t; rewrite KF; reflexivity|]. unfold kf. rewrite (P0 0%nat) by lia. auto_derive; [exact I|].
      match goal with |- ?l = ?r => match l with context [exp ?a] => match r with context [exp ?b] => replace b with a by ring end end end. lazymatch goal with |- @eq _ ?a ?b => change (@eq R a b) end. ring.
    + apply (dR_ext (fun t => exp (- ((p0 0%nat - u 0%nat) ^ 2 + (t - u 1%nat) ^ 2)))); [intros t; rewrite KF; reflexivity|]. unfold kf. rewrite (P0 1%nat) by lia. auto_derive; [exact I|].
      match goal with |- ?l = ?r => match l with context [exp ?a] => match r with context [exp ?b] => replace b with a by ring end end end. lazymatch goal with |- @eq _ ?a ?b => change (@eq R a b) end. ring.
  - intros i Hi. rewrite N1 in Hi. rewrite RS by exact Hi. unfold mv. rewrite N2. destruct i as [|[|[|i]]]; [| | |lia]; cbn; rewrite ?S10, ?S20; field; lra.
  - unfold kf. cbn. rewrite (P0 0%nat), (P0 1%nat), U0, U1 by lia.
    match goal with |- _ = _ + ?t => replace t with (/ mat_at S 0 0 * exp (- (mat_at x2 0 0 ^ 2 + 4 * mat_at x2 0 1 ^ 2))); [reflexivity|] end.
    replace (0 - mat_at x2 0 0) with (- mat_at x2 0 0) by ring. match goal with |- _ * exp ?a = _ + exp ?b * _ + _ + _ => replace b with a by ring end. ring.
Qed.

(** ** C31, C32: after a change of the scaling (here from (1, 1) to (1, 2)) the off-diagonal entries of the returned
    Hessian are not the second derivatives of the returned mean. *)
Theorem C31_hessian_after_rescaling_refuted :
  exists (d : gpdata) (su : surr) (ev : evo) (H : ten),
    eval_input o3 d hp3 1 (-1) /\ mask_supported o3 d /\ set_up o3 d (fun _ => 1) hp3 false su /\ hess_supported o3 d hp3 q3 /\
    eval_model o3 d hp3 su q3 true true = Ok ev /\ e_d2mu ev = Some H /\
    (* for the function M that evaluations return *)
    forall M : pt -> R,
    (forall (x2 : mat) (ev' : evo), nc x2 = 2%nat -> nr x2 = 1%nat -> eval_model o3 d hp3 su x2 false false = Ok ev' -> vat (e_mu ev') 0 = M (rows_of x2 0%nat)) ->
    (exists h, is_partial2 M 0 1 (rows_of q3 0%nat) h) /\ ~ is_partial2 M 0 1 (rows_of q3 0%nat) (tat H 0 0 1).
Proof.
  destruct mean3 as (d & su & w & DS & HI & MS & SU & I0 & I1 & Hw & HQ & HM). assert (OP := EvalMain.out_scale_pos o3 d DS).
  destruct (C31_mean_gradient_and_hessian_partial o3 d (fun _ => 1) hp3 1 (-1) false su HI MS SU) as (M0 & HM0).
  destruct (HM0 q3 true true eq_refl ltac:(simpl; lia) ltac:(intros _; split; [reflexivity|exact HQ])) as (ev & Eev & _ & _ & _ & H & EH & _ & _ & _ & HH).
  exists d, su, ev, H. split; [exact HI|]. split; [exact MS|]. split; [exact SU|]. split; [exact HQ|]. split; [exact Eev|]. split; [exact EH|].
  intros M HMM.
  assert (EM : forall y, M y = (-1 + w * exp (- (y 0%nat ^ 2 + 4 * y 1%nat ^ 2))) / out_scale d + 0).
  { intros y. set (x2 := mkmat 1 2 (fun _ j => y j)). change y with (rows_of x2 0%nat) at 1.
    destruct (HM0 x2 false false eq_refl ltac:(simpl; lia) ltac:(discriminate)) as (ev2 & Eev2 & _). rewrite <- (HMM x2 ev2 eq_refl eq_refl Eev2). apply (HM x2 false false ev2 eq_refl eq_refl ltac:(discriminate) Eev2). }
  assert (EM0 : forall y, M0 y = M y).
  { intros y. set (x2 := mkmat 1 2 (fun _ j => y j)). change y with (rows_of x2 0%nat).
    destruct (HM0 x2 false false eq_refl ltac:(simpl; lia) ltac:(discriminate)) as (ev2 & Eev2 & _ & E & _). rewrite <- (HMM x2 ev2 eq_refl eq_refl Eev2). symmetry. apply E. simpl; lia. }
  destruct (HH 0%nat 1%nat ltac:(simpl; lia) ltac:(simpl; lia)) as (_ & h & Dh & Eh). rewrite I0, I1 in Eh.
  set (g1 := fun y : pt => w / out_scale d * (- (8 * y 1%nat) * exp (- (y 0%nat ^ 2 + 4 * y 1%nat ^ 2)))).
  assert (D1 : forall y, is_partial M 1 y (g1 y)).
  { intros y. unfold is_partial. apply (dR_ext (fun t => (-1 + w * exp (- (y 0%nat ^ 2 + 4 * t ^ 2))) / out_scale d + 0)); [intros t; rewrite EM; reflexivity|].
    auto_derive; [lra|]. unfold g1. match goal with |- ?l = ?r => match l with context [exp ?a] => match r with context [exp ?b] => replace a with b by ring; generalize (exp b); intros z end end end. lazymatch goal with |- @eq _ ?a ?b => change (@eq R a b) end. field. lra. }
  assert (G : forall f v, (forall y, f y = M y) -> is_partial2 f 0 1 (rows_of q3 0%nat) v -> v = w / out_scale d * (8 * exp (- 2))).
  { intros f v Ef (g & Hg1 & Hg2). unfold is_partial in Hg2. refine (dR_unique _ _ _ _ Hg2 _).
    assert (EG : forall y, g y = g1 y) by (intros y; refine (dR_unique _ _ _ _ (Hg1 y) _); apply (dR_ext (fun t => M (upd y 1 t))); [intros t; symmetry; apply Ef|apply D1]).
    apply (dR_ext (fun t => w / out_scale d * (- (8 * (1 / 2)) * exp (- (t ^ 2 + 4 * (1 / 2) ^ 2))))); [intros t; rewrite EG; reflexivity|].
    change (rows_of q3 0%nat 0%nat) with 1. auto_derive; [exact I|]. match goal with |- ?l = ?r => match l with context [exp ?a] => match r with context [exp ?b] => replace a with b by (field; lra) end end end.
    lazymatch goal with |- @eq _ ?a ?b => change (@eq R a b) end. field. lra. }
  assert (HN : w / out_scale d * (8 * exp (- 2)) <> 0).
  { assert (0 < exp (- 2)) by apply exp_pos. apply Rmult_integral_contrapositive_currified; [|lra]. apply Rmult_integral_contrapositive_currified; [exact Hw|]. apply Rinv_neq_0_compat. lra. }
  assert (Hh := G M0 h EM0 Dh). split.
  - exists h. destruct Dh as (g & Hg1 & Hg2). exists g. split; [|exact Hg2]. intros y. apply (dR_ext (fun t => M0 (upd y 1 t))); [intros t; apply EM0|apply Hg1].
  - intros C. apply (G M _ (fun y => eq_refl)) in C. rewrite Eh, Hh in C. apply HN. lra.
Qed.
Print Assumptions C31_hessian_after_rescaling_refuted.
