(** Labels and the layout of the data; totality of set_data. *)
From Coq Require Import Reals List Arith Bool Lia Lra Psatz.
From Verif.Base Require Import NpLite NpFacts.
From Verif.Spec Require Import KernelSpec LinAlgSpec.
From Verif.Model Require Import KernelSqExp KernelMatern KernelRatQuad KernelDispatch CommonFun WellCond Rescaling GpState Chol Cov.
From Verif.Spec Require Import GpSpec DataSpec.
From Verif.Proofs Require Import KernTac KernGradBlocks RadialCalculus KernelExact CovStruct StateFacts NoiseFacts MinMax NuggetCond NuggetMain.
Import ListNotations.
Local Open Scope R_scope.

Ltac bok := try change (assert_ true) with (Ok tt); rewrite ?bind_Ok; cbv beta.
Definition lab_rix (l : label) : rix := match l with LVal p => F p | LDer i q => G i q end.
Definition rix_lab (a : rix) : label := match a with F p => LVal p | G i q => LDer i q end.
Lemma labels_length n d g : length (labels n d g) = (n + g * d)%nat.
Proof.
  unfold labels. rewrite app_length, map_length, seq_length, (flat_map_len _ g); [reflexivity|]. intros; rewrite map_length, seq_length; reflexivity.
Qed.
Lemma labels_nth n d g a : rvalid n g d a -> nth_error (labels n d g) (radr n g a) = Some (rix_lab a).
Proof.
  unfold labels. destruct a as [p|i q]; simpl.
  - intros H. rewrite nth_error_app1 by (rewrite map_length, seq_length; exact H).
    erewrite map_nth_error; [reflexivity|apply nth_error_seq; exact H].
  - intros (H1 & H2). rewrite nth_error_app2 by (rewrite map_length, seq_length; lia). rewrite map_length, seq_length.
    replace (n + i * g + q - n)%nat with (i * g + q)%nat by lia.
    rewrite (flat_map_nth _ g d); auto.
    + simpl. erewrite map_nth_error; [reflexivity|apply nth_error_seq; exact H2].
    + intros j. rewrite map_length, seq_length. reflexivity.
Qed.
Lemma labels_inv n d g r l : nth_error (labels n d g) r = Some l ->
  rvalid n g d (lab_rix l) /\ r = radr n g (lab_rix l).
Proof.
  intros E. assert (L : (r < n + g * d)%nat) by (rewrite <- labels_length; apply nth_error_Some; congruence).
  destruct (unradr_ok n g d r L) as (V & A). rewrite <- A in E. rewrite labels_nth in E by exact V. injection E as <-.
  assert (Z : lab_rix (rix_lab (unradr n g r)) = unradr n g r) by (destruct (unradr n g r); reflexivity).
  rewrite Z. auto.
Qed.
Lemma unradr_radr n g d a : rvalid n g d a -> unradr n g (radr n g a) = a.
Proof.
  intros V. unfold unradr. destruct a as [p|i q]; simpl in *.
  - destruct (Nat.ltb_spec p n); [reflexivity|lia].
  - destruct (Nat.ltb_spec (n + i * g + q) n); [lia|]. replace (n + i * g + q - n)%nat with (q + i * g)%nat by lia.
    rewrite Nat.div_add, Nat.mod_add, Nat.div_small, Nat.mod_small by lia. reflexivity.
Qed.
Lemma n_used_count n b : mask_ok n b -> n_used n b = opt_count n b.
Proof. intros H. apply grad_points_length. exact H. Qed.
Lemma label_obs_ok n d X b r l : mask_ok n b -> nth_error (labels n d (opt_count n b)) r = Some l ->
  nth_error (observations n d X b) r = Some (label_obs n X b l).
Proof.
  intros M E. destruct (labels_inv _ _ _ _ _ E) as (V & ->). rewrite observations_nth by auto. f_equal.
  destruct l as [p|i q]; simpl in *; [reflexivity|].
  assert (Z := grad_points_nth n b q M (proj2 V)). rewrite (nth_error_nth _ _ _ Z). reflexivity.
Qed.

Lemma vmax_lt_inv v t b : vmax_lt v t = Ok b -> (b = true <-> forall i, (i < vlen v)%nat -> vat v i < t).
Proof.
  unfold vmax_lt. intros H. binv H m Em. apply lmax_inv in Em. destruct Em as (_ & I1 & I2). injection H as <-.
  apply in_map_iff in I1. destruct I1 as (k & <- & Ik). apply in_seq in Ik.
  destruct (Rlt_dec (vat v k) t) as [Hl|Hl]; split; try discriminate; intros Z.
  - intros i Hi. assert (vat v i <= vat v k) by (apply I2, in_map, in_seq; lia). lra.
  - reflexivity.
  - exfalso. apply Hl, Z. lia.
Qed.
Lemma mmax_lt_inv A t b : mmax_lt A t = Ok b -> (b = true <-> forall i j, (i < nr A)%nat -> (j < nc A)%nat -> mat_at A i j < t).
Proof.
  unfold mmax_lt. intros H. binv H m Em. apply lmax_inv in Em. destruct Em as (_ & I1 & I2). injection H as <-.
  apply in_flat_map in I1. destruct I1 as (i & Hi & I1). apply in_map_iff in I1. destruct I1 as (k & <- & Ik). apply in_seq in Ik, Hi.
  destruct (Rlt_dec (mat_at A i k) t) as [Hl|Hl]; split; try discriminate; intros Z.
  - intros i' j' Hi' Hj'. assert (mat_at A i' j' <= mat_at A i k); [|lra].
    apply I2. apply in_flat_map. exists i'. split; [apply in_seq; lia|]. apply in_map, in_seq; lia.
  - reflexivity.
  - exfalso. apply Hl, Z; lia.
Qed.
Lemma vmax_lt_ok v t : (0 < vlen v)%nat -> exists b, vmax_lt v t = Ok b.
Proof.
  intros H. unfold vmax_lt. destruct (rok_ex _ _ (lmax_ok (map (vat v) (seq 0 (vlen v))) ltac:(destruct (vlen v); [lia|discriminate]))) as (m & -> & _).
  simpl. eauto.
Qed.
Lemma mmax_lt_ok A t : (0 < nr A)%nat -> (0 < nc A)%nat -> exists b, mmax_lt A t = Ok b.
Proof.
  intros H H'. unfold mmax_lt. destruct (rok_ex _ _ (lmax_ok (flat_map (fun i => map (mat_at A i) (seq 0 (nc A))) (seq 0 (nr A)))
    ltac:(destruct (nr A); [lia|]; destruct (nc A); [lia|discriminate]))) as (m & -> & _).
  simpl. eauto.
Qed.
Lemma mmax_lt_empty A t : (nr A = 0)%nat -> mmax_lt A t = Err EShape.
Proof. intros H. unfold mmax_lt. rewrite H. reflexivity. Qed.

(** ** totality of the scaling object *)
Lemma isoscaling_ok X dst vmin : (2 <= nr X)%nat -> exists c, isoscaling X dst vmin = Ok c.
Proof.
  intros H. unfold isoscaling. destruct vmin.
  - destruct (dist_min_ok X H) as (m & -> & _). simpl. eauto.
  - destruct (dist_max_ok X H) as (m & -> & _). simpl. eauto.
Qed.
Lemma x_init_2_scl_ok X sh sc : vlen sh = nc X -> vlen sc = nc X ->
  rok (x_init_2_scl sh sc X) (fun B => mspec (nr X) (nc X) B (fun i j => (mat_at X i j - vat sh j) * vat sc j)).
Proof. intros. apply x_scl_ok; [apply mspec_refl | split; auto | split; auto]. Qed.
Lemma calc_x_shift_n_scale_total X best us m dst scale_in : (best < nr X)%nat ->
  (forall v, scale_in = Some v -> vlen v = nc X /\ forall i, (i < vlen v)%nat -> 0 < vat v i) ->
  exists sh sc, calc_x_shift_n_scale X best us m dst None scale_in = Ok (sh, sc).
Proof.
  intros Hb Hs. unfold calc_x_shift_n_scale. cbv zeta.
  assert (E1 : exists sh, (if us then if (best <? nr X)%nat then Ok (mkvec (nc X) (fun i => mat_at X best i)) else Err EIndex else Ok (vconst (nc X) 0)) = Ok sh /\ vlen sh = nc X).
  { destruct us; [|eexists; split; reflexivity]. destruct (Nat.ltb_spec best (nr X)); [|lia]. eexists; split; reflexivity. }
  destruct E1 as (sh & -> & Lsh).
  assert (E2 : exists s, match scale_in with None => Ok (vconst (nc X) 1) | Some v => _ <- assert_ (vlen v =? nc X)%nat ;; _ <- assert_ (vpositive v) ;; Ok v end = Ok s /\ vlen s = nc X).
  { destruct scale_in as [v|]; [|eexists; split; reflexivity]. destruct (Hs v eq_refl) as (L & P).
    exists v. split; [|exact L]. rewrite L, Nat.eqb_refl. simpl.
    assert (vpositive v = true) as ->; [|reflexivity]. unfold vpositive. apply forallb_forall. intros i Hi. apply in_seq in Hi.
    destruct (Rlt_dec 0 (vat v i)) as [|n]; [reflexivity|]. exfalso. apply n, P. lia. }
  destruct E2 as (s & E2 & Ls). bok. rewrite E2. bok.
  destruct (rok_ex _ _ (x_init_2_scl_ok X sh s Lsh Ls)) as (X1 & -> & L1 & L2 & _). bok.
  destruct (Nat.eqb_spec (nr X) 1); [simpl; eauto|]. destruct m; [simpl; eauto| |].
  - destruct (isoscaling_ok X1 (match dst with Some v => v | None => vmin_dflt end) true ltac:(lia)) as (c & ->). simpl; eauto.
  - destruct (isoscaling_ok X1 (match dst with Some v => v | None => vmax_dflt end) false ltac:(lia)) as (c & ->). simpl; eauto.
Qed.
Lemma calc_Rtensor_total X : exists T, calc_Rtensor X X = Ok T.
Proof. destruct (rok_ex _ _ (Rtensor_ok X X eq_refl)) as (T & E & _). eauto. Qed.
Lemma rescaling_init_total X us m dst : (1 <= nr X)%nat -> exists r, rescaling_init X None us m dst = Ok r.
Proof.
  intros H. unfold rescaling_init, set_xscale_data. cbv zeta. cbn [r_x r_best r_use_shift r_mtd r_dist r_obj r_nlc r_box r_lin].
  destruct (calc_x_shift_n_scale_total X (nr X - 1) us m dst None ltac:(lia) ltac:(discriminate)) as (sh & sc & E). rewrite E. bok.
  apply calc_x_shift_n_scale_inv in E. destruct E as (L1 & L2).
  destruct (rok_ex _ _ (x_init_2_scl_ok X sh sc L1 L2)) as (X1 & -> & _). bok.
  destruct (calc_Rtensor_total X1) as (T & ->). simpl. eauto.
Qed.
Lemma obj_grad_total scale osc A n : (1 <= nr A)%nat \/ (nr A = 0)%nat -> vlen scale = n -> nc A = n -> exists B, obj_grad_2_scl scale osc A = Ok B.
Proof.
  intros _ L1 L2. unfold obj_grad_2_scl.
  destruct (rok_ex _ _ (mrow_ok Rmult (nr A) (nc A) A (mat_at A) (scl_grad_vec scale osc) (vat (scl_grad_vec scale osc)) (mspec_refl A)
    (conj (eq_trans L1 (eq_sym L2)) (fun i _ => eq_refl)))) as (B & E & _). unfold mmul. eauto.
Qed.
Lemma set_obj_data_total r ob us dm : nr (r_x r) = vlen (ob_val ob) -> (r_best r < vlen (ob_val ob))%nat ->
  (forall G, ob_grad ob = Some G -> nc G = vlen (r_scale r)) -> (forall G, ob_stdg ob = Some G -> nc G = vlen (r_scale r)) ->
  exists r', set_obj_data r ob us dm = Ok r'.
Proof.
  intros H1 H2 H3 H4. unfold set_obj_data. rewrite H1, Nat.eqb_refl. bok.
  unfold calc_obj_scaling. assert (E1 : exists sh, (if us then vget (ob_val ob) (r_best r) else Ok 0) = Ok sh).
  { destruct us; [|eauto]. unfold vget. destruct (Nat.ltb_spec (r_best r) (vlen (ob_val ob))); [eauto|lia]. }
  destruct E1 as (sh & ->). bok.
  assert (NE : map (vat (ob_val ob)) (seq 0 (vlen (ob_val ob))) <> []) by (destruct (vlen (ob_val ob)); [lia|discriminate]).
  assert (E2 : exists sc, (if ((vlen (ob_val ob) =? 1)%nat || negb dm)%bool then Ok 1 else
           Mm <- vmaxmin (ob_val ob) ;; Ok (rangeobj_max_dflt / Rmax tol_min_range_obj (fst Mm - snd Mm))) = Ok sc).
  { destruct (_ || _)%bool; [eauto|]. unfold vmaxmin.
    destruct (rok_ex _ _ (lmax_ok _ NE)) as (M & -> & _). destruct (rok_ex _ _ (lmin_ok _ NE)) as (mm & -> & _). simpl. eauto. }
  destruct E2 as (sc & ->). bok. unfold scl_objdata.
  assert (OM : forall og, (forall G, og = Some G -> nc G = vlen (r_scale r)) -> exists o', omap (obj_grad_2_scl (r_scale r) sc) og = Ok o').
  { intros [G|] HG; simpl; [|eauto]. destruct (obj_grad_total (r_scale r) sc G (vlen (r_scale r)) ltac:(lia) eq_refl (HG G eq_refl)) as (B & ->). simpl. eauto. }
  destruct (OM _ H3) as (g1 & ->). destruct (OM _ H4) as (g2 & ->). simpl. eauto.
Qed.
Lemma rescaling_init_fields X us m dst r : rescaling_init X None us m dst = Ok r ->
  r_x r = X /\ r_best r = (nr X - 1)%nat /\ vlen (r_scale r) = nc X.
Proof.
  unfold rescaling_init. intros H. assert (B : r_best r = (nr X - 1)%nat).
  { unfold set_xscale_data in H. binv H ss E1. destruct ss as (sh, sc). binv H xs E2. binv H Rt E3. binv H os E4.
    binv H u E5. binv H bs E6. binv H ls E7. injection H as <-. reflexivity. }
  apply set_xscale_data_inv in H. destruct H as ((H1 & H2 & H3 & _) & _). cbn [r_x] in *. auto.
Qed.

Lemma set_data_total o x fval sf Gr sg b eta :
  (0 < vlen fval)%nat -> (0 < o_dim o)%nat -> x_ok o x fval -> shapes_ok o fval sf Gr sg b ->
  (forall s, given sg = Some s -> nc s = o_dim o) ->
  (o_use_grad o = true -> known sg <> None -> (0 < n_used (vlen fval) b)%nat) ->
  calc_nugget (o_ncfg o) (vlen fval) = Ok eta ->
  exists d, set_data o x fval sf Gr sg b = Ok d.
Proof.
  intros Hn Hd (X1 & X2) (S1 & S2) Hg Hu En. unfold set_data. cbv zeta.
  assert (E1 : exists ng, (if o_use_grad o then
      match b with
      | None => Ok (vlen fval)
      | Some b => _ <- assert_ (length b =? vlen fval)%nat ;;
          match Gr with None => Err EAttr | Some g0 => _ <- assert_ (nr g0 =? count_true b)%nat ;; Ok (count_true b) end
      end
    else _ <- assert_ (match b with None => true | _ => false end) ;; Ok 0%nat) = Ok ng /\ (o_use_grad o = true -> ng = n_used (vlen fval) b)).
  { destruct (o_use_grad o).
    - destruct S2 as (M & g & -> & G1 & _). rewrite (n_used_count _ _ M) in G1 |- *. destruct b as [b|]; simpl in *; [|eauto].
      rewrite M, Nat.eqb_refl. simpl. rewrite G1, Nat.eqb_refl. simpl. eauto.
    - destruct S2 as (-> & _). simpl. eexists; split; [reflexivity|discriminate]. }
  destruct E1 as (ng & -> & Hng). bok.
  assert (E2 : match sf with SdOk s => _ <- assert_ (vlen fval =? vlen s)%nat ;; Ok (Some s) | _ => Ok None end = Ok (known sf)).
  { destruct sf; simpl; try reflexivity. rewrite (S1 a eq_refl), Nat.eqb_refl. reflexivity. }
  rewrite E2. bok. clear E2.
  assert (E3 : exists stg, match Gr with
    | None => _ <- assert_ (negb (o_use_grad o)) ;; Ok None
    | Some g0 => _ <- assert_ (o_use_grad o) ;; _ <- assert_ ((nr g0 =? ng)%nat && (nc g0 =? o_dim o)%nat)%bool ;;
        match sg with SdOk sg => _ <- assert_ ((nr g0 =? nr sg)%nat && (nc g0 =? nc sg)%nat)%bool ;; Ok (Some sg) | _ => Ok None end
    end = Ok stg /\ (forall s, stg = Some s -> o_use_grad o = true /\ known sg = Some s /\ nr s = n_used (vlen fval) b /\ nc s = o_dim o)).
  { destruct (o_use_grad o).
    - destruct S2 as (M & g & -> & G1 & G2 & G3). simpl. rewrite (Hng eq_refl), G1, G2, !Nat.eqb_refl. simpl.
      destruct sg as [|s|s]; simpl; try (eexists; split; [reflexivity|discriminate]).
      destruct (G3 s eq_refl) as (H1 & H2). rewrite H1, H2, G1, G2, !Nat.eqb_refl. simpl. eexists; split; [reflexivity|].
      intros s' E. injection E as <-. rewrite H1, H2. auto.
    - destruct S2 as (_ & ->). simpl. eexists; split; [reflexivity|discriminate]. }
  destruct E3 as (stg & -> & Hstg). bok.
  assert (E4 : exists fz, match known sf with Some s => vmax_lt s (/ 10 ^ 10) | None => Ok false end = Ok fz).
  { destruct (known sf) as [s|] eqn:Es; [|eauto]. apply vmax_lt_ok. rewrite (S1 s eq_refl). exact Hn. }
  destruct E4 as (fz & ->). bok.
  assert (E5 : exists gz, (if o_use_grad o then match stg with Some sg => mmax_lt sg (/ 10 ^ 10) | None => Ok false end else Ok true) = Ok gz).
  { destruct (o_use_grad o); [|eauto]. destruct stg as [s|] eqn:Es; [|eauto]. destruct (Hstg s eq_refl) as (_ & K & A & B).
    apply mmax_lt_ok; [rewrite A; apply Hu; [reflexivity|congruence] | rewrite B; exact Hd]. }
  destruct E5 as (gz & ->). bok. rewrite En. bok.
  destruct (dist_min_total x ltac:(lia)) as (dm & ->). bok.
  assert (E6 : exists sc, (if o_use_scl o then
      mt_dist <- match o_well o with
        | Wresc_origin => Ok (Xvmin, calc_vreq (vlen fval) (o_dim o))
        | Wresc_vary => Ok (Xvmin, o_vmin_vary o)
        | Wdflt_vmin => Ok (Xvmin, o_dist_min o)
        | Wdflt_vmax => Ok (Xvmax, o_dist_max o)
        | _ => Err EExc
        end ;;
      r <- rescaling_init x None true (fst mt_dist) (Some (snd mt_dist)) ;;
      r <- set_obj_data r (mkobj fval (match sf with SdNone => None | SdNan s | SdOk s => Some s end) Gr
                             (match sg with SdNone => None | SdNan s | SdOk s => Some s end)) true true ;;
      Ok (Some r)
    else Ok None) = Ok sc).
  { destruct (o_use_scl o) eqn:Eu; [|eauto].
    assert (E : exists md, match o_well o with
        | Wresc_origin => Ok (Xvmin, calc_vreq (vlen fval) (o_dim o))
        | Wresc_vary => Ok (Xvmin, o_vmin_vary o)
        | Wdflt_vmin => Ok (Xvmin, o_dist_min o)
        | Wdflt_vmax => Ok (Xvmax, o_dist_max o)
        | _ => Err EExc
        end = Ok md) by (unfold o_use_scl, uses_scl in Eu; destruct (o_well o); try discriminate; eauto).
    destruct E as (md & ->). bok.
    destruct (rescaling_init_total x true (fst md) (Some (snd md)) ltac:(lia)) as (r & Er). rewrite Er. bok.
    destruct (rescaling_init_fields _ _ _ _ _ Er) as (F1 & F2 & F3).
    match goal with |- context [set_obj_data r ?ob true true] => assert (T : exists r', set_obj_data r ob true true = Ok r') end.
    { apply set_obj_data_total; cbn [ob_val ob_grad ob_stdg].
      - rewrite F1. exact X1.
      - rewrite F2. lia.
      - intros g ->. destruct (o_use_grad o); [|destruct S2; discriminate]. destruct S2 as (_ & g' & E & _ & G2 & _). injection E as ->. congruence.
      - intros s Hs. rewrite F3, X2. apply Hg. destruct sg; exact Hs. }
    destruct T as (r' & ->). simpl. eauto. }
  destruct E6 as (sc & ->). bok.
  destruct sc; simpl; [eauto|]. destruct (calc_Rtensor_total x) as (T & ->). simpl. eauto.
Qed.
