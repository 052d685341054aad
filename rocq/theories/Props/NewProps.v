(** * Property C48: constructing an object, and choosing the method against ill-conditioning.
    Vocabulary: [Spec/NewSpec.v]. *)
From Coq Require Import Reals List Arith ZArith Bool Lia Lra String.
From Verif.Base Require Import NpLite NpFacts.
From Verif.Spec Require Import KernelSpec GpSpec NewSpec.
From Verif.Model Require Import KernelDispatch CommonFun WellCond Rescaling GpState Chol Cov HpInfo MeanFun OptzHp Construct.
From Verif.Proofs Require Import StateFacts.
From Verif.Props Require Import CondProps OptzHpProps OptzTotal2 SessionProps.
Import ListNotations.
Local Open Scope R_scope.

Lemma kernel_named_iff s k : kernel_named s = Some k <-> In (s, k) kernel_names.
Proof.
  unfold kernel_named, kernel_names. split.
  - intros H. repeat match type of H with (if (s =? ?t)%string then _ else _) = _ => destruct (String.eqb_spec s t) as [->|?] end; try discriminate; injection H as <-; cbn; auto.
  - cbn [In]. intros H. repeat destruct H as [H|H]; try (injection H as <- <-; reflexivity). contradiction.
Qed.
Lemma method_named_iff s w : method_named s = Some w <-> In (s, w) method_names.
Proof.
  unfold method_named, method_names. split.
  - intros H. repeat match type of H with (if (s =? ?t)%string then _ else _) = _ => destruct (String.eqb_spec s t) as [->|?] end; try discriminate; injection H as <-; cbn; tauto.
  - cbn [In]. intros H. repeat destruct H as [H|H]; try (injection H as <- <-; reflexivity). contradiction.
Qed.

(** ** what the constructor accepts, and what it makes of it *)
Theorem C48_constructed_object :
  forall (dim use_grad kernel_type wellcond_mtd mean_fun_type : pyval),
  ((exists g, construct dim use_grad kernel_type wellcond_mtd mean_fun_type = Ok g) <->
   (exists z, is_int dim z) /\ (exists b, use_grad = VBool b) /\ (exists k, names kernel_names kernel_type k) /\ (exists w, names method_names wellcond_mtd w) /\ mean_fun_type = VStr "poly_ord_0") /\
  (forall g, construct dim use_grad kernel_type wellcond_mtd mean_fun_type = Ok g ->
     is_int dim (n_dim g) /\ use_grad = VBool (n_use_grad g) /\ names kernel_names kernel_type (n_kernel g) /\
     (exists w, names method_names wellcond_mtd w /\
        (* without gradients the method is 'base' *)
        (n_use_grad g = true -> n_well g = w) /\ (n_use_grad g = false -> n_well g = Wbase) /\
        (* the nugget varies with 'rescale_eta_vary' only *)
        (n_eta_const g = false <-> w = Wresc_vary)) /\
     (* the condition number is a constraint of the optimisation but for 'precon', with the bound cond_max *)
     (n_cstr g = false <-> n_well g = Wprecon) /\ n_cond_max g = 10 ^ 10 /\ (n_cstr g = true -> n_nlc g = Some (n_cond_max g)) /\
     (* the coordinates are rescaled but for 'base' and 'precon' *)
     (n_scl g = false <-> n_well g = Wbase \/ n_well g = Wprecon)).
Proof.
  intros dim ug kt wm mf. split; [split|].
  - intros (g & H). unfold construct in H. binv H d E1. binv H u E2. binv H k E3. binv H g0 E4. binv H k0 E5. binv H u0 E6.
    split; [destruct dim as [z|[]|s| |]; try discriminate; [exists z; left; reflexivity|exists 1%Z; right; left; auto|exists 0%Z; right; right; auto]|].
    split; [destruct ug as [z|b|s| |]; try discriminate; eauto|].
    split; [destruct kt as [z|b|s| |]; try discriminate; injection E3 as <-; destruct (kernel_named s) as [k'|] eqn:EK; [|discriminate]; exists k', s; split; [reflexivity|apply kernel_named_iff, EK]|].
    split; [destruct wm as [z|b|s| |]; try discriminate; cbn in E4; destruct (method_named s) as [w|] eqn:EM; [|discriminate]; exists w, s; split; [reflexivity|apply method_named_iff, EM]|].
    destruct mf as [z|b|s| |]; try discriminate. destruct (String.eqb_spec s "poly_ord_0") as [->|]; [reflexivity|discriminate].
  - intros ((z & Hz) & (b & ->) & (k & s & -> & Hk) & (w & t & -> & Hw) & ->). unfold construct.
    assert (ED : exists z', match dim with VInt z => Ok z | VBool b => Ok (if b then 1 else 0)%Z | _ => Err EAssert end = Ok z') by (destruct Hz as [->|[(-> & _)|(-> & _)]]; eauto).
    destruct ED as (z' & ->). cbn [bind]. unfold choose_method. apply method_named_iff in Hw. rewrite Hw. cbn [bind]. apply kernel_named_iff in Hk. rewrite Hk. cbn. eauto.
  - intros g H. unfold construct in H. binv H d E1. binv H u E2. binv H k E3. binv H g0 E4. binv H k0 E5. binv H u0 E6. injection H as <-. cbn [n_dim n_use_grad n_kernel n_well n_cstr n_scl n_eta_const n_cond_max n_nlc].
    destruct wm as [z|b|t| |]; try discriminate. cbn [choose_method] in E4. destruct (method_named t) as [w|] eqn:EM; [|discriminate]. injection E4 as <-. cbn [n_dim n_use_grad n_kernel n_well n_cstr n_scl n_eta_const n_cond_max n_nlc].
    split; [destruct dim as [z|[]|s| |]; try discriminate; injection E1 as <-; unfold is_int; auto|].
    split; [destruct ug; try discriminate; congruence|].
    split; [destruct kt as [z|b|s| |]; try discriminate; injection E3 as <-; destruct (kernel_named s) as [k'|] eqn:EK; [|discriminate]; injection E5 as <-; exists s; split; [reflexivity|apply kernel_named_iff, EK]|].
    split; [exists w; split; [exists t; split; [reflexivity|apply method_named_iff, EM]|]; split; [intros ->; reflexivity|]; split; [intros ->; reflexivity|]; destruct w; split; intros; congruence|].
    destruct u, w; cbn; repeat split; intros; try discriminate; try reflexivity; auto; try tauto.
    all: try match goal with H : _ \/ _ |- _ => destruct H; discriminate end.
Qed.
Print Assumptions C48_constructed_object.

(** ** an object of positive dimension has the options that the other properties ask for, whatever the arguments *)
Theorem C48_new_objects_are_supported :
  forall (dim use_grad kernel_type wellcond_mtd mean_fun_type : pyval) (g : newgp),
  construct dim use_grad kernel_type wellcond_mtd mean_fun_type = Ok g -> (0 < n_dim g)%Z ->
  session_options (options_of g) lk_default (cfg_default (n_kernel g)) /\
  Z.of_nat (o_dim (options_of g)) = n_dim g /\ o_use_grad (options_of g) = n_use_grad g /\ o_kernel (options_of g) = n_kernel g /\ o_well (options_of g) = n_well g /\
  o_use_scl (options_of g) = n_scl g /\
  exists w, names method_names wellcond_mtd w /\ options_of g = gp_init (o_dim (options_of g)) (n_use_grad g) (n_kernel g) w.
Proof.
  intros dim ug kt wm mf g H HD. destruct (proj2 (C48_constructed_object dim ug kt wm mf) g H) as (_ & _ & _ & (w & Hw & W1 & W2 & W3) & C1 & CM & C2 & C3).
  assert (EW : n_well g = if n_use_grad g then w else Wbase) by (destruct (n_use_grad g); auto).
  split.
  { split; [split; [cbn; lia|split; cbn; lra]|]. split; [cbn; rewrite EW; destruct (n_use_grad g); [reflexivity|discriminate]|]. split; [exact log_default|]. split; [intros _; reflexivity|]. split; [unfold init_ok; cbn; repeat split; lra|cbn; lia]. }
  split; [cbn; lia|]. split; [reflexivity|]. split; [reflexivity|]. split; [reflexivity|].
  split; [unfold o_use_scl; cbn; destruct (n_scl g) eqn:ES, (n_well g); try reflexivity; exfalso; try (destruct (proj1 C3 eq_refl); congruence); assert (true = false) by (apply C3; auto); discriminate|].
  exists w. split; [exact Hw|]. unfold options_of, gp_init, set_wellcond_mtd. cbn [o_dim o_use_grad o_kernel o_well o_eta_mtd o_eta_const o_eta_dflt o_target o_cond_max o_cond_max_abs o_dist_min o_dist_max o_vmin_vary].
  rewrite EW, CM. f_equal. destruct w; destruct (n_eta_const g); try reflexivity; exfalso; try (assert (X := proj1 W3 eq_refl); discriminate); assert (X := proj2 W3 eq_refl); discriminate.
Qed.
Print Assumptions C48_new_objects_are_supported.

(** ** set_wellcond_mtd on a new object makes it the object constructed with that method *)
Definition not_vary (w : pyval) : Prop := w <> VStr "rescale_eta_vary".
Theorem C48_switching_the_method :
  forall (dim use_grad kernel_type w1 w2 mean_fun_type : pyval) (g g2 : newgp),
  construct dim use_grad kernel_type w1 mean_fun_type = Ok g -> not_vary w1 -> choose_method g w2 = Ok g2 ->
  exists g', construct dim use_grad kernel_type w2 mean_fun_type = Ok g' /\ same_but_bound g2 g'.
Proof.
  intros dim ug kt w1 w2 mf g g2 H N H2. unfold construct in H. binv H d E1. binv H u E2. binv H k E3. binv H g0 E4. binv H k0 E5. binv H u0 E6. injection H as <-.
  destruct w1 as [z|b|t| |]; try discriminate. cbn [choose_method] in E4. destruct (method_named t) as [w|] eqn:EM; [|discriminate]. injection E4 as <-.
  assert (NV : w <> Wresc_vary). { intros ->. apply method_named_iff in EM. cbn in EM. apply N. repeat destruct EM as [EM|EM]; try discriminate; [|contradiction]. injection EM as <-. reflexivity. }
  destruct w2 as [z|b|t2| |]; try discriminate. cbn [choose_method] in H2. destruct (method_named t2) as [v|] eqn:EV; [|discriminate]. injection H2 as <-.
  unfold construct. rewrite E1, E2, E3. cbn [bind choose_method]. rewrite EV. cbn [bind]. rewrite E5. cbn [bind]. rewrite E6. cbn [bind]. eexists. split; [reflexivity|]. unfold same_but_bound.
  cbn [n_dim n_use_grad n_kernel n_well n_cstr n_scl n_eta_const n_cond_max n_nlc]. repeat split; destruct w, v, u; try reflexivity; try congruence; discriminate.
Qed.
Print Assumptions C48_switching_the_method.
(** ... but an object constructed with 'rescale_eta_vary' keeps the varying nugget with every other method: the
    constant nugget is never switched on again *)
Theorem C48_switching_the_method_refuted :
  forall (dim : Z) (b : bool) (w : string) (v : wmtd), In (w, v) method_names -> v <> Wresc_vary ->
  exists g g2 g', construct (VInt dim) (VBool b) (VStr "SqExp") (VStr "rescale_eta_vary") (VStr "poly_ord_0") = Ok g /\ choose_method g (VStr w) = Ok g2 /\
    construct (VInt dim) (VBool b) (VStr "SqExp") (VStr w) (VStr "poly_ord_0") = Ok g' /\ n_eta_const g' = true /\ n_eta_const g2 = false.
Proof.
  intros dim b w v Hw N. eexists. unfold choose_method, construct. cbn [bind choose_method]. apply method_named_iff in Hw. rewrite Hw. cbn [bind]. do 2 eexists. split; [reflexivity|]. split; [reflexivity|]. split; [reflexivity|].
  cbn. split; destruct v; congruence.
Qed.
Print Assumptions C48_switching_the_method_refuted.

(** ** without gradients the method makes no difference *)
Theorem C48_method_without_gradients :
  forall (dim kernel_type w1 w2 mean_fun_type : pyval) (g1 g2 : newgp), not_vary w1 -> not_vary w2 ->
  construct dim (VBool false) kernel_type w1 mean_fun_type = Ok g1 -> construct dim (VBool false) kernel_type w2 mean_fun_type = Ok g2 -> g1 = g2.
Proof.
  intros dim kt w1 w2 mf g1 g2 N1 N2 H1 H2. unfold construct in H1, H2. binv H1 d E1. rewrite E1 in H2. binv H1 u E2. binv H1 k E3. rewrite E3 in H2. injection E2 as <-. cbn [bind] in H2. binv H1 g0 E4. binv H1 k0 E5. binv H2 g0' E4'. rewrite E5 in H2. binv H1 u0 E6. rewrite E6 in H2. cbn [bind] in H2.
  injection H1 as <-. injection H2 as <-.
  assert (A : forall w g0, not_vary w -> choose_method (mknew d false SqExp Wbase false false true (10 ^ 10) None) w = Ok g0 -> g0 = mknew d false SqExp Wbase true false true (10 ^ 10) (Some (10 ^ 10))).
  { clear. intros w g0 N H. destruct w as [z|b|t| |]; try discriminate. cbn in H. destruct (method_named t) as [w|] eqn:EM; [|discriminate]. injection H as <-. destruct w; try reflexivity.
    exfalso. apply method_named_iff in EM. cbn in EM. apply N. repeat destruct EM as [EM|EM]; try discriminate; [|contradiction]. injection EM as <-. reflexivity. }
  rewrite (A _ _ N1 E4), (A _ _ N2 E4'). reflexivity.
Qed.
Print Assumptions C48_method_without_gradients.
(** ... but 'rescale_eta_vary' makes the nugget vary although the method is 'base' *)
Theorem C48_method_without_gradients_refuted :
  exists g1 g2, construct (VInt 2) (VBool false) (VStr "SqExp") (VStr "rescale_eta_vary") (VStr "poly_ord_0") = Ok g1 /\
    construct (VInt 2) (VBool false) (VStr "SqExp") (VStr "base") (VStr "poly_ord_0") = Ok g2 /\ n_well g1 = n_well g2 /\ n_eta_const g1 <> n_eta_const g2.
Proof. do 2 eexists. split; [reflexivity|]. split; [reflexivity|]. split; [reflexivity|discriminate]. Qed.
Print Assumptions C48_method_without_gradients_refuted.

(** ** the dimension is not checked: zero and negative ones are accepted *)
Theorem C48_dimension_refuted : forall z : Z, exists g, construct (VInt z) (VBool true) (VStr "SqExp") (VStr "precon") (VStr "poly_ord_0") = Ok g /\ n_dim g = z.
Proof. intros z. eexists. split; reflexivity. Qed.
Print Assumptions C48_dimension_refuted.

(** ** the bound of the constraint is that of the time when the method was chosen: assigning cond_max afterwards,
    as for the other options, does not reach the optimiser *)
Theorem C48_bound_of_the_constraint_refuted :
  forall c : R, c <> 10 ^ 10 -> exists g, construct (VInt 2) (VBool true) (VStr "SqExp") (VStr "base") (VStr "poly_ord_0") = Ok g /\
    n_cstr (assign_cond_max g c) = true /\ n_cond_max (assign_cond_max g c) = c /\ n_nlc (assign_cond_max g c) <> Some c.
Proof. intros c Hc. eexists. split; [reflexivity|]. split; [reflexivity|]. split; [reflexivity|]. intros E. apply Hc. symmetry. injection E. intros <-. reflexivity. Qed.
Print Assumptions C48_bound_of_the_constraint_refuted.

(** ** choosing the method after set_data does not bring the nugget up to date: it is that of the old method *)
Definition sw_f : vec := mkvec 2 (fun i => INR i).
Definition sw_x : mat := mkmat 2 2 (fun i j => INR i).
Definition sw_g : mat := mkmat 2 2 (fun i j => 1).
Theorem C48_method_after_data_refuted :
  let o1 := gp_init 2 true SqExp Wprecon in let o2 := set_wellcond_mtd o1 Wbase in
  exists d1 d2, set_data o1 sw_x sw_f SdNone (Some sw_g) SdNone None = Ok d1 /\ set_data o2 sw_x sw_f SdNone (Some sw_g) SdNone None = Ok d2 /\ d_etaK d1 <> d_etaK d2 /\
    forall d condf hp cf cc k, (d = d1 \/ d = d2) -> calc_all_K_w_chofac o2 d condf (snd (get_scl_x_w_dist d)) hp None cf cc None false = Ok k -> d_etaK d = Some (k_eta k).
Proof.
  intros o1 o2. eexists. eexists. split; [reflexivity|]. split; [reflexivity|]. split.
  - cbn [d_etaK]. unfold calc_nugget_Kbase, precon_ub. cbn [nc_target o_ncfg o_target o1 o2 gp_init set_wellcond_mtd nc_kernel o_kernel nc_dim o_dim vlen sw_f]. intros H. 
    assert (S9 : sqrt (1 + 4 * (1 + 1)) = 3) by (rewrite <- (sqrt_square 3) by lra; f_equal; lra).
    injection H as H. rewrite S9 in H. assert (E := exp_ineq1 (-1 / 4) ltac:(lra)). replace (- (1 + 2 * (1 + 1) - 3) / (4 * (1 + 1))) with (-1 / 4) in H by field.
    match type of H with ?a / ?c = ?b / ?c' => change c' with c in H; assert (X : a = b) by (apply (Rmult_eq_reg_r (/ c)); [exact H|apply Rinv_neq_0_compat; cbn; lra]) end. cbn in X. lra.
  - intros d condf hp cf cc k Hd H. assert (W : o_well o2 = Wbase /\ o_eta_const o2 = true) by (split; reflexivity). destruct W as (W & EC). clear Hd. unfold calc_all_K_w_chofac in H. cbv zeta in H.
    binv_assert H. binv H v1 E1. binv H v2 E2. binv H nv E3. binv H Kern E4. binv H Kwn E5. rewrite W, EC in H. binv H ei E6. binv E6 e0 E8. injection E6 as <-. binv H Sm E7. injection H as <-. cbn [k_eta]. destruct (d_etaK d); [|discriminate]. injection E8 as ->. reflexivity.
Qed.
Print Assumptions C48_method_after_data_refuted.
(** an object that meets the hypotheses, and one whose method is switched *)
Example C48_hypotheses_met : exists g g2,
  construct (VInt 3) (VBool true) (VStr "RatQu") (VStr "rescale_origin") (VStr "poly_ord_0") = Ok g /\ (0 < n_dim g)%Z /\ n_well g = Wresc_origin /\ n_scl g = true /\
  not_vary (VStr "rescale_origin") /\ choose_method g (VStr "precon") = Ok g2 /\ n_well g2 = Wprecon /\ n_cstr g2 = false /\ n_nlc g2 <> None.
Proof. do 2 eexists. split; [reflexivity|]. split; [reflexivity|]. split; [reflexivity|]. split; [reflexivity|]. split; [discriminate|]. split; [reflexivity|]. split; [reflexivity|]. split; [reflexivity|discriminate]. Qed.
