(** * C35: the stored hyperparameter history round-trips *)
From Coq Require Import Reals List Arith Bool String Lia Lra.
From Verif.Base Require Import NpLite.
From Verif.Model Require Import GpState History.
From Verif.Spec Require Import HistSpec.
From Verif.Proofs Require Import HistFacts.
Import ListNotations.
Local Open Scope nat_scope.

(** Complete hyperparameters stored at iteration i are what the method 'stored' returns for i, after any
    number of other operations on the history (stores at other iterations, trimming that keeps i, loading of
    at most i iterations), whether or not these raise exceptions; the flags "noise variance is given with the data"
    come back as "no noise variance was stored". *)
Theorem C35_stored_hyperparameters_are_returned :
  forall (h : hist) (i : nat) (hp : hpx) (a : hattr) (info : option hinfo) (cond : pyf) (t1 t2 t3 : fl) (ops : list hop),
  i < h_n h -> complete_hp (h_w h Tbeta) (h_w h Ttheta) hp ->
  (forall s, ha_xscl a = Some s -> fv_len s = h_w h Txscl) -> cond <> PNone ->
  Forall (hop_elsewhere i) ops ->
  exists h' hp',
    store_row a i hp info cond t1 t2 t3 h = (h', Ok tt) /\
    set_hp_from_idx (fold_left hop_run ops h') i =
      Ok (match x_var_fval hp with PNone => true | _ => false end, match x_var_fgrad hp with PNone => true | _ => false end, hp') /\
    same_hp hp hp'.
Proof.
  intros h i hp a info cond t1 t2 t3 ops Hi ((b & Eb & Lb) & (th & Et & Lt) & (kx & Ek) & (vx & Ev) & Hf & Hg) Hx Hc HF.
  destruct (store_spec a i hp info cond t1 t2 t3 h b th Hi Eb Lb Et Lt Hx Hc) as (h' & E & N & W & Sb & St & Sk & Sv & Sf & Sg & _).
  destruct (hops_keep ops h' i ltac:(lia) HF) as (K1 & K2 & K3).
  assert (I' : (i <? h_n h') = true) by (apply Nat.ltb_lt; lia).
  assert (E0 : set_hp_from_idx h' i = Ok (match x_var_fval hp with PNone => true | _ => false end,
    match x_var_fgrad hp with PNone => true | _ => false end,
    mkhpx (Some (row_of h' Tbeta i)) (Some (row_of h' Ttheta i)) (x_kernel hp) (x_varK hp) (x_var_fval hp) (x_var_fgrad hp))).
  { unfold set_hp_from_idx. rewrite I', Sk, Sv, Sf, Sg, Ek, Ev. destruct Hf as [->|[x ->]], Hg as [->|[y ->]]; reflexivity. }
  destruct (same_iteration_stored h' (fold_left hop_run ops h') i _ ltac:(lia) K1 (eq_sym K2) K3 E0) as (q & Q1 & Q2 & Q3).
  exists h', (snd q). split; [exact E|]. split; [rewrite Q1; f_equal; rewrite (surjective_pairing q), Q2; reflexivity|].
  destruct Q3 as (R1 & R2 & R3 & R4 & R5 & R6). cbn in *.
  unfold same_hp. rewrite Eb, Et. repeat split; try assumption.
  - unfold same_oarr, same_arr in *. destruct (x_beta (snd q)) as [v|]; [|contradiction]. cbn in R1. destruct R1 as [L1 A1].
    split; [rewrite W in L1; congruence|]. intros k Hk. rewrite <- A1 by (rewrite W; congruence). rewrite Sb, bix_lt by exact Hk. reflexivity.
  - unfold same_oarr, same_arr in *. destruct (x_theta (snd q)) as [v|]; [|contradiction]. cbn in R2. destruct R2 as [L1 A1].
    split; [rewrite W in L1; congruence|]. intros k Hk. rewrite <- A1 by (rewrite W; congruence). rewrite St, bix_lt by exact Hk. reflexivity.
Qed.
Print Assumptions C35_stored_hyperparameters_are_returned.

(** Export followed by loading into an object (with the same name, the same dimension and room for as many
    iterations) reproduces everything recorded about every exported iteration, what 'stored' returns included,
    and changes no other iteration.  One mean coefficient, as the only mean function of the library has. *)
Theorem C35_export_load_round_trip :
  forall (name : string) (src dst : hist),
  h_w src Tbeta = 1 -> (forall t, h_w src t = h_w dst t) -> h_n src <= h_n dst ->
  exists e dst', export_data_surr name src false None None = Ok e /\ load_data_surr name (Some e) dst = (dst', Ok tt) /\
    (forall i, i < h_n src -> same_iteration src dst' i) /\
    (forall i, h_n src <= i -> same_iteration dst dst' i) /\
    (forall i r, i < h_n src -> set_hp_from_idx src i = Ok r ->
       exists q, set_hp_from_idx dst' i = Ok q /\ fst q = fst r /\ same_hp (snd r) (snd q)).
Proof.
  intros name src dst W HW HN. exists (mkexp name src).
  destruct (load_spec name src dst W (conj HN HW)) as (g & E & N & W' & S). exists g.
  split; [reflexivity|]. split; [exact E|]. split; [exact S|]. split.
  - intros i Hi. destruct (load_only name (mkexp name src) dst) as (_ & _ & K). rewrite E in K. cbn [fst ex_hist] in K.
    destruct (K i) as (K1 & K2 & K3); [rewrite W; lia|]. repeat split; intros; symmetry; auto.
  - intros i r Hi Er. assert (E' : h_w src = h_w src) by reflexivity.
    unfold set_hp_from_idx in *. assert (I1 := Hi). assert (I2 : i < h_n g) by lia. apply Nat.ltb_lt in I1, I2. rewrite I1 in Er. rewrite I2.
    injection Er as <-. destruct (S i Hi) as (S1 & S2 & S3). rewrite !S2. eexists. split; [reflexivity|]. split; [reflexivity|].
    unfold same_hp, same_oarr, same_arr, row_of; cbn. rewrite W', <- !HW. repeat split; intros k Hk; apply S1; exact Hk.
Qed.
Print Assumptions C35_export_load_round_trip.

(** A kernel hyperparameter that is absent (None) does not come back as absent but as NaN. *)
Theorem C35_absent_kernel_hyperparameter_refuted :
  forall (h : hist) (i : nat) (hp : hpx) (a : hattr) (info : option hinfo) (cond : pyf) (t1 t2 t3 : fl) (b th : fvec),
  i < h_n h -> x_beta hp = Some b -> fv_len b = h_w h Tbeta -> x_theta hp = Some th -> fv_len th = h_w h Ttheta ->
  (forall s, ha_xscl a = Some s -> fv_len s = h_w h Txscl) -> cond <> PNone -> x_kernel hp = PNone ->
  exists h' r, store_row a i hp info cond t1 t2 t3 h = (h', Ok tt) /\ set_hp_from_idx h' i = Ok r /\ x_kernel (snd r) = PNan.
Proof.
  intros h i hp a info cond t1 t2 t3 b th Hi Eb Lb Et Lt Hx Hc Ek.
  destruct (store_spec a i hp info cond t1 t2 t3 h b th Hi Eb Lb Et Lt Hx Hc) as (h' & E & N & W & Sb & St & Sk & Sv & Sf & Sg & _).
  exists h'. eexists. split; [exact E|]. unfold set_hp_from_idx. assert (I' : (i <? h_n h') = true) by (apply Nat.ltb_lt; lia).
  rewrite I'. split; [reflexivity|]. cbn. rewrite Sk, Ek. reflexivity.
Qed.
Print Assumptions C35_absent_kernel_hyperparameter_refuted.

(** Export to a file, which is the default of export_data_surr, never succeeds, and neither does loading
    from the default file: the paths and the method save_npz_data do not exist. *)
Theorem C35_export_to_file_refuted : forall name h f1 f2 dst,
  export_data_surr name h true f1 f2 = Err EAttr /\ load_data_surr name None dst = (dst, Err EAttr).
Proof. intros name h [f1|] [f2|] dst; split; reflexivity. Qed.
Print Assumptions C35_export_to_file_refuted.

(** Storing with a condition number that is None (as returned when the Cholesky factorisation was not asked for)
    raises, and the row is left half written. *)
Theorem C35_store_without_condition_number_raises :
  forall (h : hist) (i : nat) (hp : hpx) (a : hattr) (info : option hinfo) (t1 t2 t3 : fl),
  exists e, snd (store_row a i hp info PNone t1 t2 t3 h) = Err e.
Proof.
  intros. unfold store_row. set (tail := hseq (wr_col Qeta_Kbase i (ha_eta_b a)) _). clearbody tail.
  assert (X : forall m k g, (forall g', exists e, snd (k g') = Err e) -> exists e, snd (hseq m k g) = Err e).
  { intros m k g Hk. unfold hseq. destruct (m g) as [g1 [u|e]]; [apply Hk|exists e; reflexivity]. }
  do 11 (apply X; intro). exists EType. reflexivity.
Qed.
Print Assumptions C35_store_without_condition_number_raises.

(** Everything about an iteration goes in its own place: after storing iteration i each column holds, at i, the
    quantity it is named after (a statistic missing from the report of the optimisation keeps the value it had),
    and no other iteration changes. *)
Lemma fold_rsum n f : fold_right Rplus 0%R (map f (seq 0 n)) = rsum n f.
Proof.
  induction n as [|n IH]; [reflexivity|]. rewrite seq_S, map_app, fold_right_app. cbn [map fold_right rsum]. rewrite <- IH. clear IH.
  change (f (0 + n)) with (f n). generalize (map f (seq 0 n)). intros l.
  assert (G : forall a, fold_right Rplus a l = (fold_right Rplus 0 l + a)%R) by (intros a; induction l as [|y l IH]; cbn; [ring|rewrite IH; ring]).
  rewrite G. ring.
Qed.
Lemma np_var_spec v : np_var v = variance v.
Proof. unfold np_var, variance, average. rewrite !fold_rsum. reflexivity. Qed.
Theorem C35_every_quantity_in_its_own_place :
  forall (h : hist) (i : nat) (hp : hpx) (a : hattr) (info : option hinfo) (cond : pyf) (t1 t2 t3 : fl) (b th : fvec),
  i < h_n h -> x_beta hp = Some b -> fv_len b = h_w h Tbeta -> x_theta hp = Some th -> fv_len th = h_w h Ttheta ->
  (forall s, ha_xscl a = Some s -> fv_len s = h_w h Txscl) -> cond <> PNone ->
  exists h', store_row a i hp info cond t1 t2 t3 h = (h', Ok tt) /\
    (* the hyperparameters *)
    (forall k, k < h_w h Tbeta -> h_tab h' Tbeta i k = fv_at b k) /\
    (forall k, k < h_w h Ttheta -> h_tab h' Ttheta i k = fv_at th k) /\
    h_col h' Qkernel i = slot (x_kernel hp) /\ h_col h' QvarK i = slot (x_varK hp) /\
    h_col h' Qvar_fval i = slot (x_var_fval hp) /\ h_col h' Qvar_fgrad i = slot (x_var_fgrad hp) /\
    (* the timings *)
    h_col h' Qt_optz i = t1 /\ h_col h' Qt_chofac i = t2 /\ h_col h' Qt_pick i = t3 /\
    (* nuggets, condition number, minimal distances *)
    h_col h' Qmin_nugget i = (if ha_use_grad a then slot (ha_eta_g a) else ha_eta_b a) /\
    h_col h' Qeta_Kbase i = ha_eta_b a /\ h_col h' Qeta_Kgrad i = slot (ha_eta_g a) /\
    h_col h' Qcond i = slot cond /\
    (h_at_max h' i = true <-> exists c, cond = PNum c /\ (c >= 99 / 100 * ha_cond_max a)%R) /\
    h_col h' Qvmin_init i = ha_vmin a /\ h_col h' Qvmin_req i = ha_vreq a /\
    (forall s k, ha_xscl a = Some s -> k < h_w h Txscl -> h_tab h' Txscl i k = fv_at s k) /\
    (ha_xscl a = None -> forall k, h_tab h' Txscl i k = h_tab h Txscl i k) /\
    (* the statistics of the optimisation *)
    (forall f, info = Some f ->
       h_col h' Qsuccess i = match hi_success f with Some v => v | None => h_col h Qsuccess i end /\
       h_col h' Qiter_mean i = match hi_iter_mean f with Some v => v | None => h_col h Qiter_mean i end /\
       h_col h' Qiter_max i = match hi_iter_max f with Some v => v | None => h_col h Qiter_max i end /\
       h_col h' Qcon_good i = match hi_con_good f with Some v => v | None => h_col h Qcon_good i end /\
       h_col h' Qcho_fail i = hi_cho_fail f /\ h_col h' Qcond2big i = hi_cond2big f /\ h_col h' Qmax_init i = hi_max_init f) /\
    (info = None -> forall c, In c [Qsuccess; Qiter_mean; Qiter_max; Qcon_good; Qcho_fail; Qcond2big; Qmax_init] ->
       h_col h' c i = h_col h c i) /\
    (* the variance of the data and its ratio to the variance of the kernel *)
    h_col h' Qdata_var i = Some (variance (ha_fval a)) /\
    ((0 < variance (ha_fval a))%R ->
       h_col h' QvarK_data_var i = match x_varK hp with PNum v => Some (v / variance (ha_fval a))%R | _ => None end) /\
    (* ... which is not touched for constant values *)
    (~ (0 < variance (ha_fval a))%R -> h_col h' QvarK_data_var i = h_col h QvarK_data_var i) /\
    (* and nothing else *)
    (forall j, j <> i -> same_iteration h h' j).
Proof.
  intros h i hp a info cond t1 t2 t3 b th Hi Eb Lb Et Lt Hx Hc. rewrite <- np_var_spec.
  assert (O := store_only a i hp info cond t1 t2 t3 h).
  set (sx := fun g => match ha_xscl a with Some s => sett Txscl i (fun k => fv_at s (bix (fv_len s) k)) g | None => g end).
  set (si := fun g => match info with None => g | Some f => setc Qmax_init i (hi_max_init f) (setc Qcond2big i (hi_cond2big f)
    (setc Qcho_fail i (hi_cho_fail f) (seto Qcon_good i (hi_con_good f) (seto Qiter_max i (hi_iter_max f)
    (seto Qiter_mean i (hi_iter_mean f) (seto Qsuccess i (hi_success f) g)))))) end).
  set (bm := match cond with PNum c => if Rle_dec (99 / 100 * ha_cond_max a)%R c then true else false | _ => false end).
  set (g1 := setc Qdata_var i (Some (np_var (ha_fval a))) (si (sx (setc Qvmin_req i (ha_vreq a) (setc Qvmin_init i (ha_vmin a)
     (setc Qeta_Kgrad i (slot (ha_eta_g a)) (setc Qeta_Kbase i (ha_eta_b a) (setm i bm (setc Qcond i (slot cond)
     (setc Qmin_nugget i (if ha_use_grad a then slot (ha_eta_g a) else ha_eta_b a)
     (setc Qvar_fgrad i (slot (x_var_fgrad hp)) (setc Qvar_fval i (slot (x_var_fval hp)) (setc QvarK i (slot (x_varK hp))
     (setc Qkernel i (slot (x_kernel hp)) (sett Ttheta i (fun k => fv_at th (bix (fv_len th) k))
     (sett Tbeta i (fun k => fv_at b (bix (fv_len b) k)) (setc Qt_pick i t3 (setc Qt_chofac i t2 (setc Qt_optz i t1 h))))))))))))))))))).
  set (h' := if Rlt_dec 0 (np_var (ha_fval a)) then setc QvarK_data_var i (fl_div (h_col g1 QvarK i) (np_var (ha_fval a))) g1 else g1).
  assert (NX : forall g, h_n (sx g) = h_n g) by (intro g; unfold sx; destruct (ha_xscl a); reflexivity).
  assert (NI : forall g, h_n (si g) = h_n g).
  { intro g; unfold si; destruct info as [f|]; [|reflexivity]. cbn [h_n setc]. rewrite !n_seto. reflexivity. }
  assert (E : store_row a i hp info cond t1 t2 t3 h = (h', Ok tt)).
  { unfold store_row. rewrite Eb, Et.
    do 3 (erewrite run_seq; [|apply run_col; exact Hi]).
    do 2 (erewrite run_seq; [|apply run_row; [exact Hi|assumption]]).
    do 6 (erewrite run_seq; [|apply run_col; exact Hi]).
    erewrite run_seq with (h1 := setm i bm _); [|unfold bm; destruct cond; [congruence| |]; apply run_max; exact Hi].
    do 4 (erewrite run_seq; [|apply run_col; exact Hi]).
    erewrite run_seq with (h1 := sx _); [|unfold sx; destruct (ha_xscl a); [apply run_row; [exact Hi|apply Hx; reflexivity]|reflexivity]].
    erewrite run_seq with (h1 := si _).
    2:{ unfold si. destruct info as [f|]; [|reflexivity].
        do 4 (erewrite run_seq; [|apply run_opt; rewrite ?n_seto, NX; exact Hi]).
        do 2 (erewrite run_seq; [|apply run_col; cbn [h_n setc]; rewrite ?n_seto, NX; exact Hi]).
        apply run_col. cbn [h_n setc]. rewrite !n_seto, NX. exact Hi. }
    erewrite run_seq; [|apply run_col; rewrite NI, NX; exact Hi].
    fold g1. unfold h'. destruct (Rlt_dec 0 (np_var (ha_fval a))); [|reflexivity].
    apply run_col. unfold g1. cbn [h_n setc]. rewrite NI, NX. exact Hi. }
  exists h'. rewrite E in O. destruct O as (_ & _ & OK). cbn [fst] in OK.
  assert (CX : forall g c, h_col (sx g) c i = h_col g c i) by (intros g c; unfold sx; destruct (ha_xscl a); reflexivity).
  assert (MX : forall g, h_at_max (sx g) i = h_at_max g i) by (intros g; unfold sx; destruct (ha_xscl a); reflexivity).
  assert (MI : forall g, h_at_max (si g) i = h_at_max g i).
  { intros g; unfold si, seto. destruct info as [f|]; [|reflexivity].
    destruct (hi_success f), (hi_iter_mean f), (hi_iter_max f), (hi_con_good f); reflexivity. }
  assert (TI : forall g, h_tab (si g) = h_tab g).
  { intros g; unfold si, seto. destruct info as [f|]; [|reflexivity].
    destruct (hi_success f), (hi_iter_mean f), (hi_iter_max f), (hi_con_good f); reflexivity. }
  assert (CI : forall g c, ~ In c [Qsuccess; Qiter_mean; Qiter_max; Qcon_good; Qcho_fail; Qcond2big; Qmax_init] ->
     h_col (si g) c i = h_col g c i).
  { intros g c Hn; unfold si, seto. destruct info as [f|]; [|reflexivity].
    destruct c; try (exfalso; apply Hn; cbn; tauto); destruct (hi_success f), (hi_iter_mean f), (hi_iter_max f), (hi_con_good f); reflexivity. }
  assert (H1 : forall c, c <> QvarK_data_var -> h_col h' c i = h_col g1 c i).
  { intros c Hn. unfold h'. destruct (Rlt_dec 0 (np_var (ha_fval a))); [|reflexivity]. cbn [h_col setc].
    destruct (col_eq_dec c QvarK_data_var); [contradiction|reflexivity]. }
  assert (HT : h_tab h' = h_tab g1) by (unfold h'; destruct (Rlt_dec 0 (np_var (ha_fval a))); reflexivity).
  assert (HM : h_at_max h' i = h_at_max g1 i) by (unfold h'; destruct (Rlt_dec 0 (np_var (ha_fval a))); reflexivity).
  Ltac incol := cbn [In]; intuition discriminate.
  assert (CC : forall c v g, h_col (setc c i v g) c i = v).
  { intros c v g. cbn. destruct (col_eq_dec c c); [|contradiction]. rewrite Nat.eqb_refl. reflexivity. }
  assert (CN : forall c c' v g, c' <> c -> h_col (setc c i v g) c' i = h_col g c' i).
  { intros c c' v g Hn. cbn. destruct (col_eq_dec c' c); [contradiction|]. reflexivity. }
  assert (CM : forall v g c, h_col (setm i v g) c i = h_col g c i) by reflexivity.
  assert (CT : forall t v g c, h_col (sett t i v g) c i = h_col g c i) by reflexivity.
  Ltac ev CC CN CM CT CX CI := repeat first [rewrite CC | rewrite CM | rewrite CT | rewrite CX | rewrite CN by discriminate | rewrite CI by incol].
  split; [exact E|].
  assert (TX : forall g t, t <> Txscl -> h_tab (sx g) t i = h_tab g t i).
  { intros g t Hn. unfold sx. destruct (ha_xscl a); [|reflexivity]. cbn. destruct (tab_eq_dec t Txscl); [contradiction|reflexivity]. }
  split.
  { intros k Hk. rewrite HT. unfold g1. cbn [h_tab setc]. rewrite TI, TX by discriminate. cbn. rewrite Nat.eqb_refl, bix_lt by congruence. reflexivity. }
  split.
  { intros k Hk. rewrite HT. unfold g1. cbn [h_tab setc]. rewrite TI, TX by discriminate. cbn. rewrite Nat.eqb_refl, bix_lt by congruence. reflexivity. }
  assert (GV : h_col g1 QvarK i = slot (x_varK hp)) by (unfold g1; ev CC CN CM CT CX CI; reflexivity).
  do 4 (split; [rewrite H1 by discriminate; unfold g1; ev CC CN CM CT CX CI; reflexivity|]).
  do 7 (split; [rewrite H1 by discriminate; unfold g1; ev CC CN CM CT CX CI; reflexivity|]).
  split.
  { rewrite HM. unfold g1. cbn [h_at_max setc]. rewrite MI, MX. cbn [h_at_max setc setm]. rewrite Nat.eqb_refl. unfold bm. split.
    - destruct cond as [| |c]; [discriminate|discriminate|]. destruct (Rle_dec (99 / 100 * ha_cond_max a) c); [|discriminate].
      intros _. exists c. split; [reflexivity|lra].
    - intros (c & -> & Hge). destruct (Rle_dec (99 / 100 * ha_cond_max a) c); [reflexivity|lra]. }
  do 2 (split; [rewrite H1 by discriminate; unfold g1; ev CC CN CM CT CX CI; reflexivity|]).
  split.
  { intros s k Es Hk. rewrite HT. unfold g1. cbn [h_tab setc]. rewrite TI. unfold sx. rewrite Es. cbn. rewrite Nat.eqb_refl.
    rewrite bix_lt by (rewrite (Hx s Es); exact Hk). reflexivity. }
  split.
  { intros Es k. rewrite HT. unfold g1. cbn [h_tab setc]. rewrite TI. unfold sx. rewrite Es. reflexivity. }
  split.
  { intros f Ef. assert (CO : forall c v g, h_col (seto c i v g) c i = match v with Some x => x | None => h_col g c i end).
    { intros c v g. destruct v; [apply CC|reflexivity]. }
    assert (CON : forall c c' v g, c' <> c -> h_col (seto c i v g) c' i = h_col g c' i).
    { intros c c' v g Hn. destruct v; [apply CN; exact Hn|reflexivity]. }
    do 6 (split; [rewrite H1 by discriminate; unfold g1, si; rewrite Ef;
      repeat first [rewrite CC | rewrite CO | rewrite CM | rewrite CT | rewrite CX | rewrite CN by discriminate | rewrite CON by discriminate]; reflexivity|]).
    rewrite H1 by discriminate; unfold g1, si; rewrite Ef;
      repeat first [rewrite CC | rewrite CO | rewrite CM | rewrite CT | rewrite CX | rewrite CN by discriminate | rewrite CON by discriminate]; reflexivity. }
  split.
  { intros Ef c Hin. rewrite H1 by (intros ->; cbn in Hin; intuition discriminate). unfold g1, si. rewrite Ef. cbn [In] in Hin.
    repeat (destruct Hin as [<-|Hin]; [ev CC CN CM CT CX CI; reflexivity|]). destruct Hin. }
  split; [rewrite H1 by discriminate; unfold g1; ev CC CN CM CT CX CI; reflexivity|].
  split.
  { intro Hv. unfold h'. destruct (Rlt_dec 0 (np_var (ha_fval a))); [|contradiction]. rewrite CC, GV.
    destruct (x_varK hp); reflexivity. }
  split.
  { intro Hv. unfold h'. destruct (Rlt_dec 0 (np_var (ha_fval a))); [contradiction|]. unfold g1. ev CC CN CM CT CX CI. reflexivity. }
  intros j Hj. destruct (OK j Hj) as (K1 & K2 & K3). repeat split; intros; symmetry; auto.
Qed.
Print Assumptions C35_every_quantity_in_its_own_place.

(** Trimming the history to n iterations keeps the first n as they were, and makes the others unavailable. *)
Theorem C35_trimmed_history : forall (h : hist) (n : nat),
  h_n (finish_optz_surr h n) = Nat.min n (h_n h) /\
  (forall i, i < n -> same_iteration h (finish_optz_surr h n) i /\ set_hp_from_idx (finish_optz_surr h n) i = set_hp_from_idx h i) /\
  (forall i, n <= i -> set_hp_from_idx (finish_optz_surr h n) i = Err EIndex /\
     forall a hp info cond t1 t2 t3, store_row a i hp info cond t1 t2 t3 (finish_optz_surr h n) = (finish_optz_surr h n, Err EIndex)).
Proof.
  intros h n. split; [reflexivity|]. split.
  - intros i Hi. split; [repeat split|]. unfold set_hp_from_idx, finish_optz_surr. cbn [h_n].
    destruct (Nat.ltb_spec i (h_n h)), (Nat.ltb_spec i (Nat.min n (h_n h))); try lia; reflexivity.
  - intros i Hi. assert (I : (i <? Nat.min n (h_n h)) = false) by (apply Nat.ltb_ge; lia). split.
    + unfold set_hp_from_idx. cbn [h_n finish_optz_surr]. rewrite I. reflexivity.
    + intros. unfold store_row, hseq at 1, wr_col at 1. cbn [h_n finish_optz_surr]. rewrite I. reflexivity.
Qed.
Print Assumptions C35_trimmed_history.

(** ** concrete cases *)
Local Open Scope R_scope.
Definition hp_ex : hpx :=
  mkhpx (Some (mkfv 1 (fun _ => Some 3))) (Some (mkfv 2 (fun k => Some (INR k + 1)))) (PNum 2) (PNum (1/2)) PNone (PNum 7).
Definition a_ex : hattr := mkhattr true (Some (1/100)) (PNum (1/10)) (Some 1) None (Some (mkfv 2 (fun _ => Some 1))) 1000 (mkvec 2 (fun i => INR i)).
Definition h_ex : hist := init_optz_surr 1 2 5.
Definition ops_ex : list hop :=
  [OpStore a_ex 1 hp_ex None (PNum 5) None None None; OpStore a_ex 9 hp_ex None PNone None None None; OpFinish 4;
   OpLoad "gp" (Some (mkexp "gp" (init_optz_surr 1 2 2))); OpLoad "gp" None].
Example C35_case : (3 < h_n h_ex)%nat /\ complete_hp (h_w h_ex Tbeta) (h_w h_ex Ttheta) hp_ex /\
  (forall s, ha_xscl a_ex = Some s -> fv_len s = h_w h_ex Txscl) /\ Forall (hop_elsewhere 3) ops_ex.
Proof.
  split; [cbn; lia|]. split.
  - unfold complete_hp, hp_ex, num_or_absent, is_num; cbn. repeat split; eauto 6.
  - split; [intros s [= <-]; reflexivity|]. unfold ops_ex. repeat constructor; cbn; lia.
Qed.
(** the loaded history really holds the values: iteration 3 of the source read from the destination *)
Example C35_load_case : exists dst', 
  load_data_surr "gp" (Some (mkexp "gp" (fst (store_row a_ex 3 hp_ex None (PNum 5) None None None h_ex)))) (init_optz_surr 1 2 8) = (dst', Ok tt) /\
  h_col dst' Qvar_fgrad 3 = Some 7 /\ h_tab dst' Ttheta 3 1 = Some 2 /\ h_col dst' Qvar_fgrad 2 = None.
Proof.
  destruct (store_spec a_ex 3 hp_ex None (PNum 5) None None None h_ex _ _ ltac:(cbn; lia) eq_refl eq_refl eq_refl eq_refl
    ltac:(intros s [= <-]; reflexivity) ltac:(discriminate)) as (h' & E & N & W & Sb & St & Sk & Sv & Sf & Sg & _).
  destruct (store_only a_ex 3 hp_ex None (PNum 5) None None None h_ex) as (_ & _ & K). rewrite E in *. cbn [fst] in *.
  destruct (load_spec "gp" h' (init_optz_surr 1 2 8)) as (g & E2 & _ & _ & S).
  { rewrite W. reflexivity. } { split; [rewrite N; cbn; lia|rewrite W; reflexivity]. }
  exists g. split; [exact E2|]. destruct (S 3%nat ltac:(rewrite N; cbn; lia)) as (S1 & S2 & _). destruct (S 2%nat ltac:(rewrite N; cbn; lia)) as (_ & S2' & _).
  rewrite <- S2, Sg, <- S1 by (rewrite W; cbn; lia). rewrite St. rewrite <- S2'. destruct (K 2%nat ltac:(lia)) as (_ & K2 & _). rewrite K2.
  split; [reflexivity|]. split; [|reflexivity]. unfold bix. reflexivity.
Qed.
(** Refuted: the recorded ratio of varK to the variance of the data belongs to the recorded varK.  Storing an iteration
    again with constant data leaves the ratio of the first time beside the new varK and the variance zero. *)
Theorem C35_ratio_of_constant_data_refuted :
  forall (h : hist) (i : nat) (p q : hpx) (a c : hattr) (v w : R) (b th b' th' : fvec),
  (i < h_n h)%nat -> ha_xscl a = None -> ha_xscl c = None ->
  x_beta p = Some b -> fv_len b = h_w h Tbeta -> x_theta p = Some th -> fv_len th = h_w h Ttheta ->
  x_beta q = Some b' -> fv_len b' = h_w h Tbeta -> x_theta q = Some th' -> fv_len th' = h_w h Ttheta ->
  x_varK p = PNum v -> x_varK q = PNum w -> 0 < variance (ha_fval a) -> variance (ha_fval c) = 0 ->
  exists h1 h2, store_row a i p None (PNum 1) None None None h = (h1, Ok tt) /\ store_row c i q None (PNum 1) None None None h1 = (h2, Ok tt) /\
    h_col h2 QvarK i = Some w /\ h_col h2 Qdata_var i = Some 0 /\ h_col h2 QvarK_data_var i = Some (v / variance (ha_fval a)).
Proof.
  intros h i p q a c v w b th b' th' Hi Xa Xc B1 B2 T1 T2 B1' B2' T1' T2' Vp Vq Va Vc.
  destruct (C35_every_quantity_in_its_own_place h i p a None (PNum 1) None None None b th Hi B1 B2 T1 T2 ltac:(congruence) ltac:(discriminate))
    as (h1 & E1 & _ & _ & _ & _ & _ & _ & _ & _ & _ & _ & _ & _ & _ & _ & _ & _ & _ & _ & _ & _ & _ & R1 & _ & _).
  destruct (store_only a i p None (PNum 1) None None None h) as (N & W & _). rewrite E1 in N, W. cbn [fst] in N, W.
  destruct (C35_every_quantity_in_its_own_place h1 i q c None (PNum 1) None None None b' th' ltac:(congruence) B1' ltac:(congruence) T1' ltac:(congruence) ltac:(congruence) ltac:(discriminate))
    as (h2 & E2 & _ & _ & _ & K2 & _ & _ & _ & _ & _ & _ & _ & _ & _ & _ & _ & _ & _ & _ & _ & _ & D2 & _ & R2 & _).
  exists h1, h2. split; [exact E1|]. split; [exact E2|]. split; [rewrite K2, Vq; reflexivity|]. split; [rewrite D2, Vc; reflexivity|].
  rewrite R2 by lra. rewrite R1 by exact Va. rewrite Vp. reflexivity.
Qed.
Print Assumptions C35_ratio_of_constant_data_refuted.
Example C35_variances : variance (mkvec 2 INR) = / 4 /\ variance (vconst 3 5) = 0.
Proof. unfold variance, average. split; cbn; field. Qed.
