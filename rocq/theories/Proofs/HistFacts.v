(** * Facts about the hyperparameter history *)
From Coq Require Import Reals List Arith Bool String Lia.
From Verif.Base Require Import NpLite.
From Verif.Model Require Import GpState History.
From Verif.Spec Require Import HistSpec.
Import ListNotations.
Local Open Scope nat_scope.

(** ** actions that touch only some rows *)
Definition only_row (T : nat -> Prop) (m : hm) : Prop := forall h, 
  h_n (fst (m h)) = h_n h /\ h_w (fst (m h)) = h_w h /\
  forall j, ~ T j -> (forall t k, h_tab (fst (m h)) t j k = h_tab h t j k) /\ (forall c, h_col (fst (m h)) c j = h_col h c j) /\
                 h_at_max (fst (m h)) j = h_at_max h j.
Lemma only_seq T a b : only_row T a -> only_row T b -> only_row T (hseq a b).
Proof.
  intros Ha Hb h. unfold hseq. destruct (a h) as [h1 r] eqn:E. specialize (Ha h). rewrite E in Ha. cbn in Ha.
  destruct r as [u|e]; [|exact Ha]. destruct Ha as (A1 & A2 & A3). destruct (Hb h1) as (B1 & B2 & B3).
  split; [congruence|]. split; [congruence|]. intros j Hj. destruct (A3 j Hj) as (X1 & X2 & X3). destruct (B3 j Hj) as (Y1 & Y2 & Y3).
  repeat split; intros; [rewrite Y1; apply X1|rewrite Y2; apply X2|rewrite Y3; apply X3].
Qed.
Lemma only_skip T : only_row T hskip.
Proof. intro h. cbn. auto. Qed.
Lemma only_raise T e : only_row T (hraise e).
Proof. intro h. cbn. auto. Qed.
Lemma only_col (T : nat -> Prop) c i v : T i -> only_row T (wr_col c i v).
Proof.
  intros Ti h. unfold wr_col. destruct (i <? h_n h); cbn; [|auto].
  repeat split; auto. intro c'. destruct (col_eq_dec c' c); auto. destruct (Nat.eqb_spec j i); auto. subst. contradiction.
Qed.
Lemma only_max (T : nat -> Prop) i v : T i -> only_row T (wr_max i v).
Proof.
  intros Ti h. unfold wr_max. destruct (i <? h_n h); cbn; [|auto]. repeat split; auto.
  destruct (Nat.eqb_spec j i); auto. subst. contradiction.
Qed.
Lemma only_rowt (T : nat -> Prop) t i v : T i -> only_row T (wr_row t i v).
Proof.
  intros Ti h. unfold wr_row. destruct (i <? h_n h); cbn; [|auto].
  destruct v as [w|]; [destruct ((fv_len w =? h_w h t) || (fv_len w =? 1))|]; cbn; repeat split; auto; intros t' k;
    destruct (tab_eq_dec t' t); auto; destruct (Nat.eqb_spec j i); auto; subst; contradiction.
Qed.
Lemma only_opt (T : nat -> Prop) c i v : T i -> only_row T (wr_opt c i v).
Proof. intro. destruct v; [apply only_col; auto|apply only_skip]. Qed.
Lemma only_ext (T : nat -> Prop) (f : hist -> hm) : (forall g, only_row T (f g)) -> only_row T (fun h => f h h).
Proof. intros H h. apply (H h h). Qed.

Lemma store_only a i hp info cond t1 t2 t3 : only_row (fun j => j = i) (store_row a i hp info cond t1 t2 t3).
Proof.
  unfold store_row.
  repeat first [ apply only_seq | apply only_col; reflexivity | apply only_rowt; reflexivity | apply only_skip | apply only_max; reflexivity
               | apply only_opt; reflexivity | apply only_raise | match goal with |- only_row _ (match ?x with _ => _ end) => destruct x end ].
  apply (only_ext _ (fun h => wr_col QvarK_data_var i (fl_div (h_col h QvarK i) (np_var (ha_fval a))))).
  intro; apply only_col; reflexivity.
Qed.
Lemma ldtab_only t idx s : only_row (fun j => j < idx) (ld_tab t idx s).
Proof.
  intro h. unfold ld_tab. match goal with |- context [if ?b then _ else _] => destruct b end; cbn [fst h_n h_w h_tab h_col h_at_max]; [|auto].
  split; [reflexivity|]. split; [reflexivity|]. intros j Hj. split; [|split; reflexivity]. intros t' k. destruct (tab_eq_dec t' t); auto.
  destruct (Nat.ltb_spec j (Nat.min idx (h_n h))); auto. lia.
Qed.
Lemma ldcol_only t idx s : only_row (fun j => j < idx) (ld_col t idx s).
Proof.
  intro h. unfold ld_col. match goal with |- context [if ?b then _ else _] => destruct b end; cbn [fst h_n h_w h_tab h_col h_at_max]; [|auto].
  split; [reflexivity|]. split; [reflexivity|]. intros j Hj. split; [reflexivity|]. split; [|reflexivity]. intros t'. destruct (col_eq_dec t' t); auto.
  destruct (Nat.ltb_spec j (Nat.min idx (h_n h))); auto. lia.
Qed.
Lemma ldmax_only idx s : only_row (fun j => j < idx) (ld_max idx s).
Proof.
  intro h. unfold ld_max. match goal with |- context [if ?b then _ else _] => destruct b end; cbn [fst h_n h_w h_tab h_col h_at_max]; [|auto].
  split; [reflexivity|]. split; [reflexivity|]. intros j Hj. split; [reflexivity|]. split; [reflexivity|].
  destruct (Nat.ltb_spec j (Nat.min idx (h_n h))); auto. lia.
Qed.
Lemma load_only name e : only_row (fun j => j < h_n (ex_hist e) * h_w (ex_hist e) Tbeta) (load_data_surr name (Some e)).
Proof.
  intro h. unfold load_data_surr. destruct (String.eqb name (ex_name e)); [|cbn; auto].
  match goal with |- context [fst (?m h)] => assert (X : only_row (fun j => j < h_n (ex_hist e) * h_w (ex_hist e) Tbeta) m) end.
  { repeat first [ apply only_seq | apply ldcol_only | apply ldtab_only | apply ldmax_only ]. }
  apply X.
Qed.

(** ** the effect of the actions that succeed *)
Definition setc (c : col) (i : nat) (v : fl) (h : hist) : hist :=
  mkhist (h_n h) (h_w h) (h_tab h) (fun c' j => if col_eq_dec c' c then if j =? i then v else h_col h c' j else h_col h c' j) (h_at_max h).
Definition setm (i : nat) (b : bool) (h : hist) : hist :=
  mkhist (h_n h) (h_w h) (h_tab h) (h_col h) (fun j => if j =? i then b else h_at_max h j).
Definition sett (t : tab) (i : nat) (f : nat -> fl) (h : hist) : hist :=
  mkhist (h_n h) (h_w h) (fun t' j k => if tab_eq_dec t' t then if j =? i then f k else h_tab h t' j k else h_tab h t' j k) (h_col h) (h_at_max h).
Lemma run_col c i v h : i < h_n h -> wr_col c i v h = (setc c i v h, Ok tt).
Proof. intro H. unfold wr_col. apply Nat.ltb_lt in H. rewrite H. reflexivity. Qed.
Lemma run_max i v h : i < h_n h -> wr_max i v h = (setm i v h, Ok tt).
Proof. intro H. unfold wr_max. apply Nat.ltb_lt in H. rewrite H. reflexivity. Qed.
Lemma run_row t i w h : i < h_n h -> fv_len w = h_w h t -> wr_row t i (Some w) h = (sett t i (fun k => fv_at w (bix (fv_len w) k)) h, Ok tt).
Proof. intros H E. unfold wr_row. apply Nat.ltb_lt in H. rewrite H. rewrite E, Nat.eqb_refl. reflexivity. Qed.
Lemma run_seq a b h h1 : a h = (h1, Ok tt) -> hseq a b h = b h1.
Proof. unfold hseq. intros ->. reflexivity. Qed.
Definition seto (c : col) (i : nat) (v : option fl) (h : hist) : hist := match v with Some x => setc c i x h | None => h end.
Lemma run_opt c i v h : i < h_n h -> wr_opt c i v h = (seto c i v h, Ok tt).
Proof. intro H. destruct v; [apply run_col; exact H|reflexivity]. Qed.
Lemma n_seto c i v h : h_n (seto c i v h) = h_n h.
Proof. destruct v; reflexivity. Qed.

Definition updc (c : col) (i : nat) (v : fl) (h g : hist) : Prop :=
  h_n g = h_n h /\ h_w g = h_w h /\ (forall t j k, h_tab g t j k = h_tab h t j k) /\ (forall c' j, c' <> c -> h_col g c' j = h_col h c' j) /\
  h_col g c i = v.
Definition samec (cs : list col) (h g : hist) : Prop :=
  h_n g = h_n h /\ h_w g = h_w h /\ (forall t j k, t <> Txscl -> h_tab g t j k = h_tab h t j k) /\ (forall c j, ~ In c cs -> h_col g c j = h_col h c j).
Lemma step_col c i v h : i < h_n h -> exists g, wr_col c i v h = (g, Ok tt) /\ updc c i v h g.
Proof.
  intro H. exists (setc c i v h). split; [apply run_col; exact H|]. unfold updc, setc. cbn. repeat split.
  - intros c' j Hc. destruct (col_eq_dec c' c); [contradiction|reflexivity].
  - destruct (col_eq_dec c c); [|contradiction]. rewrite Nat.eqb_refl. reflexivity.
Qed.
Lemma step_row t i w h : i < h_n h -> fv_len w = h_w h t -> exists g, wr_row t i (Some w) h = (g, Ok tt) /\
  h_n g = h_n h /\ h_w g = h_w h /\ (forall c j, h_col g c j = h_col h c j) /\ (forall t' j k, t' <> t -> h_tab g t' j k = h_tab h t' j k) /\
  (forall k, h_tab g t i k = fv_at w (bix (fv_len w) k)).
Proof.
  intros H E. exists (sett t i (fun k => fv_at w (bix (fv_len w) k)) h). split; [apply run_row; assumption|]. unfold sett. cbn. repeat split.
  - intros t' j k Hc. destruct (tab_eq_dec t' t); [contradiction|reflexivity].
  - intro k. destruct (tab_eq_dec t t); [|contradiction]. rewrite Nat.eqb_refl. reflexivity.
Qed.
Lemma samec_refl cs h : samec cs h h.
Proof. repeat split. Qed.
Lemma samec_trans cs h g k : samec cs h g -> samec cs g k -> samec cs h k.
Proof.
  intros (A1 & A2 & A3 & A4) (B1 & B2 & B3 & B4). repeat split; [congruence|congruence| |];
   intros; [rewrite B3 by assumption; apply A3; assumption|rewrite B4 by assumption; apply A4; assumption].
Qed.
Definition okc (cs : list col) (i : nat) (m : hm) : Prop := forall h, i < h_n h -> exists g, m h = (g, Ok tt) /\ samec cs h g.
Lemma okc_seq cs i a b : okc cs i a -> okc cs i b -> okc cs i (hseq a b).
Proof.
  intros Ha Hb h Hi. destruct (Ha h Hi) as (g & E & S). destruct (Hb g) as (k & E2 & S2); [destruct S; lia|].
  exists k. split; [rewrite (run_seq _ _ _ _ E); exact E2|apply samec_trans with g; assumption].
Qed.
Lemma okc_col cs c i v : In c cs -> okc cs i (wr_col c i v).
Proof.
  intros Hc h Hi. destruct (step_col c i v h Hi) as (g & E & U1 & U2 & U3 & U4 & U5). exists g. split; [exact E|]. repeat split; auto.
  intros c' j Hn. apply U4. intros ->. contradiction.
Qed.
Lemma okc_skip cs i : okc cs i hskip.
Proof. intros h Hi. exists h. split; [reflexivity|apply samec_refl]. Qed.
Lemma okc_opt cs c i v : In c cs -> okc cs i (wr_opt c i v).
Proof. intro H. destruct v; [apply okc_col; exact H|apply okc_skip]. Qed.
Lemma okc_max cs i v : okc cs i (wr_max i v).
Proof. intros h Hi. exists (setm i v h). split; [apply run_max; exact Hi|]. repeat split. Qed.
Definition minor : list col := [Qmin_nugget; Qeta_Kbase; Qeta_Kgrad; Qvmin_init; Qvmin_req; Qsuccess; Qiter_mean; Qiter_max; Qcon_good;
  Qcho_fail; Qcond2big; Qmax_init; Qt_pick; Qt_optz; Qt_chofac; Qdata_var; QvarK_data_var].

(** the history after a successful store: the stored row is what was given *)
Lemma store_spec a i hp info cond t1 t2 t3 h b th :
  i < h_n h -> x_beta hp = Some b -> fv_len b = h_w h Tbeta -> x_theta hp = Some th -> fv_len th = h_w h Ttheta ->
  (forall s, ha_xscl a = Some s -> fv_len s = h_w h Txscl) -> cond <> PNone ->
  exists h', store_row a i hp info cond t1 t2 t3 h = (h', Ok tt) /\ h_n h' = h_n h /\ h_w h' = h_w h /\
    (forall k, h_tab h' Tbeta i k = fv_at b (bix (fv_len b) k)) /\ (forall k, h_tab h' Ttheta i k = fv_at th (bix (fv_len th) k)) /\
    h_col h' Qkernel i = slot (x_kernel hp) /\ h_col h' QvarK i = slot (x_varK hp) /\
    h_col h' Qvar_fval i = slot (x_var_fval hp) /\ h_col h' Qvar_fgrad i = slot (x_var_fgrad hp) /\
    h_col h' Qcond i = slot cond.
Proof.
  intros Hi Hb Lb Ht Lt Hx Hc. unfold store_row. rewrite Hb, Ht.
  Ltac minorc := match goal with |- context [hseq (wr_col ?c ?i ?v) _ ?g] =>
    let g' := fresh "g" in let E := fresh in
    destruct (okc_col minor c i v (ltac:(cbn; tauto)) g) as (g' & E & (? & ? & ? & ?)); [lia|]; rewrite (run_seq _ _ _ _ E); clear E end.
  Ltac mainc := match goal with |- context [hseq (wr_col ?c ?i ?v) _ ?g] =>
    let g' := fresh "g" in let E := fresh in
    destruct (step_col c i v g) as (g' & E & (? & ? & ? & ? & ?)); [lia|]; rewrite (run_seq _ _ _ _ E); clear E end.
  Ltac mainr := match goal with |- context [hseq (wr_row ?c ?i (Some ?v)) _ ?g] =>
    let g' := fresh "g" in let E := fresh in
    destruct (step_row c i v g) as (g' & E & (? & ? & ? & ? & ?)); [lia|congruence|]; rewrite (run_seq _ _ _ _ E); clear E end.
  do 3 minorc. do 2 mainr. do 4 mainc. minorc. mainc.
  match goal with |- context [hseq (match cond with _ => _ end) _ ?g] =>
    assert (Hm : exists g', (match cond with PNone => hraise EType | PNan => wr_max i false
        | PNum c => wr_max i (if Rle_dec (99 / 100 * ha_cond_max a)%R c then true else false) end) g = (g', Ok tt) /\ samec minor g g') end.
  { destruct cond; [congruence| |]; apply okc_max; lia. }
  destruct Hm as (u9 & Hm & (? & ? & ? & ?)). rewrite (run_seq _ _ _ _ Hm). clear Hm.
  do 4 minorc.
  match goal with |- context [hseq (match ha_xscl a with _ => _ end) _ ?g0] =>
    assert (Hs : exists g', (match ha_xscl a with Some s => wr_row Txscl i (Some s) | None => hskip end) g0 = (g', Ok tt) /\ samec minor g0 g') end.
  { destruct (ha_xscl a) as [s|]; [|apply (okc_skip minor i); lia].
    match goal with |- exists g', wr_row Txscl i (Some s) ?g0 = _ /\ _ => destruct (step_row Txscl i s g0) as (g' & E & (? & ? & ? & ? & ?)) end;
      [lia|rewrite (Hx s eq_refl); congruence|]. exists g'. split; [exact E|]. repeat split; auto. }
  destruct Hs as (u14 & Hm & (? & ? & ? & ?)). rewrite (run_seq _ _ _ _ Hm). clear Hm.
  match goal with |- context [hseq ?m _ ?g0] => assert (Hs : okc minor i m) end.
  { destruct info as [f|]; [|apply okc_skip]. repeat first [apply okc_seq | apply okc_opt; cbn; tauto | apply okc_col; cbn; tauto]. }
  destruct (Hs u14 ltac:(lia)) as (u15 & Hm & (? & ? & ? & ?)). rewrite (run_seq _ _ _ _ Hm). clear Hm.
  minorc.
  match goal with |- exists h', ?m ?g0 = _ /\ _ => assert (Hm : exists g', m g0 = (g', Ok tt) /\ samec minor g0 g') end.
  { destruct (Rlt_dec 0 (np_var (ha_fval a))); [|apply (okc_skip minor i); lia]. apply (okc_col minor); [cbn; tauto|lia]. }
  destruct Hm as (h' & Hm & (? & ? & ? & ?)). exists h'. split; [exact Hm|]. clear Hm.
  split; [congruence|]. split; [congruence|].
  Ltac chase := repeat match goal with
    | H : forall t j k, t <> _ -> h_tab ?g t j k = _ |- context [h_tab ?g _ _ _] => rewrite H by discriminate
    | H : forall k, h_tab ?g ?t _ k = _ |- context [h_tab ?g ?t _ _] => rewrite H
    | H : forall t j k, h_tab ?g t j k = _ |- context [h_tab ?g _ _ _] => rewrite H
    | H : forall c j, ~ In c _ -> h_col ?g c j = _ |- context [h_col ?g _ _] => rewrite H by (cbn; intuition discriminate)
    | H : h_col ?g ?c ?i = _ |- context [h_col ?g ?c ?i] => rewrite H
    | H : forall c j, c <> _ -> h_col ?g c j = _ |- context [h_col ?g _ _] => rewrite H by discriminate
    | H : forall c j, h_col ?g c j = _ |- context [h_col ?g _ _] => rewrite H
    end.
  repeat split; intros; chase; reflexivity.
Qed.

(** ** loading *)
Inductive item := Icol (c : col) | Itab (t : tab) | Imax.
Definition same_item (s h : hist) (x : item) : Prop := forall j, j < h_n s ->
  match x with
  | Icol c => h_col h c j = h_col s c j
  | Itab t => forall k, k < h_w s t -> h_tab h t j k = h_tab s t j k
  | Imax => h_at_max h j = h_at_max s j
  end.
Definition loadable (s h : hist) : Prop := h_n s <= h_n h /\ (forall t, h_w s t = h_w h t).
Definition loaded (s : hist) (L : list item) (h : hist) : Prop := forall x, In x L -> same_item s h x.
Definition ldstep (s : hist) (L L' : list item) (m : hm) : Prop := forall h, loadable s h -> loaded s L h ->
  exists g, m h = (g, Ok tt) /\ loadable s g /\ loaded s L' g.
Lemma bix_lt n j : j < n -> bix n j = j.
Proof. unfold bix. destruct (Nat.eqb_spec n 1); lia. Qed.
Lemma bix_w n j : j < n -> bix n j = j. Proof. apply bix_lt. Qed.
Lemma ldcol_step s L c : ldstep s L (Icol c :: L) (ld_col c (h_n s) s).
Proof.
  intros h [P1 P2] HL. unfold ld_col. rewrite (Nat.min_l _ _ P1), Nat.eqb_refl. cbn [orb]. eexists. split; [reflexivity|].
  split; [split; assumption|]. intros x [<-|Hx] j Hj; cbn [h_col h_tab h_at_max].
  - destruct (col_eq_dec c c); [|contradiction]. apply Nat.ltb_lt in Hj as Hj'. rewrite Hj', bix_lt by assumption. reflexivity.
  - specialize (HL x Hx j Hj). destruct x as [c'|t|]; [|exact HL|exact HL]. destruct (col_eq_dec c' c); [|exact HL]. subst c'.
    apply Nat.ltb_lt in Hj as Hj'. rewrite Hj', bix_lt by assumption. reflexivity.
Qed.
Lemma ldmax_step s L : ldstep s L (Imax :: L) (ld_max (h_n s) s).
Proof.
  intros h [P1 P2] HL. unfold ld_max. rewrite (Nat.min_l _ _ P1), Nat.eqb_refl. cbn [orb]. eexists. split; [reflexivity|].
  split; [split; assumption|]. intros x [<-|Hx] j Hj; cbn [h_col h_tab h_at_max].
  - apply Nat.ltb_lt in Hj as Hj'. rewrite Hj', bix_lt by assumption. reflexivity.
  - specialize (HL x Hx j Hj). destruct x as [c'|t|]; [exact HL|exact HL|].
    apply Nat.ltb_lt in Hj as Hj'. rewrite Hj', bix_lt by assumption. reflexivity.
Qed.
Lemma ldtab_step s L t : ldstep s L (Itab t :: L) (ld_tab t (h_n s) s).
Proof.
  intros h [P1 P2] HL. unfold ld_tab. rewrite (Nat.min_l _ _ P1), (P2 t), !Nat.eqb_refl. cbn [orb andb]. eexists. split; [reflexivity|].
  split; [split; assumption|]. rewrite <- (P2 t). intros x [<-|Hx] j Hj; cbn [h_col h_tab h_at_max].
  - intros k Hk. destruct (tab_eq_dec t t); [|contradiction]. apply Nat.ltb_lt in Hj as Hj'. rewrite Hj', !bix_lt by assumption. reflexivity.
  - specialize (HL x Hx j Hj). destruct x as [c'|t'|]; [exact HL| |exact HL]. intros k Hk. destruct (tab_eq_dec t' t); [|apply HL; exact Hk]. subst t'.
    apply Nat.ltb_lt in Hj as Hj'. rewrite Hj', !bix_lt by assumption. reflexivity.
Qed.
Lemma ldseq s L L1 L2 a b : ldstep s L L1 a -> ldstep s L1 L2 b -> ldstep s L L2 (hseq a b).
Proof.
  intros Ha Hb h P HL. destruct (Ha h P HL) as (g & E & P' & HL'). destruct (Hb g P' HL') as (k & E2 & P2 & HL2).
  exists k. split; [rewrite (run_seq _ _ _ _ E); exact E2|auto].
Qed.
Lemma load_spec name s h :
  h_w s Tbeta = 1 -> loadable s h ->
  exists g, load_data_surr name (Some (mkexp name s)) h = (g, Ok tt) /\ h_n g = h_n h /\ h_w g = h_w h /\
    forall j, j < h_n s -> same_iteration s g j.
Proof.
  intros W P. 
  destruct (load_only name (mkexp name s) h) as (O1 & O2 & _).
  unfold load_data_surr in *. cbn [ex_name ex_hist] in *. rewrite String.eqb_refl in *. rewrite W, Nat.mul_1_r in *.
  match goal with |- exists g, ?m h = _ /\ _ => assert (Y : ldstep s [] [Icol QvarK_data_var; Icol Qdata_var; Icol Qt_chofac; Icol Qt_optz; Icol Qt_pick;
     Icol Qmax_init; Icol Qcond2big; Icol Qcho_fail; Icol Qcon_good; Icol Qiter_max; Icol Qiter_mean; Icol Qsuccess; Itab Txscl;
     Icol Qvmin_req; Icol Qvmin_init; Icol Qeta_Kgrad; Icol Qeta_Kbase; Imax; Icol Qcond; Icol Qmin_nugget; Icol Qkernel; Itab Ttheta;
     Icol Qvar_fgrad; Icol Qvar_fval; Icol QvarK; Itab Tbeta] m) end.
  { repeat first [eapply ldseq; [first [apply ldcol_step | apply ldtab_step | apply ldmax_step]|] | apply ldcol_step]. }
  destruct (Y h P) as (g & E & P' & HL); [intros x []|]. exists g. split; [exact E|]. rewrite E in O1, O2. cbn in O1, O2.
  split; [exact O1|]. split; [exact O2|]. intros j Hj. repeat split.
  - intros t k Hk. symmetry. destruct t; [apply (HL (Itab Tbeta))|apply (HL (Itab Ttheta))|apply (HL (Itab Txscl))]; cbn; auto 30.
  - intro c. symmetry. apply (HL (Icol c)); [|exact Hj]. destruct c; cbn; tauto.
  - symmetry. apply (HL Imax); [cbn; tauto|exact Hj].
Qed.
Lemma same_iteration_stored g h i r : i < h_n g -> i < h_n h -> h_w g = h_w h -> same_iteration g h i ->
  set_hp_from_idx g i = Ok r -> exists q, set_hp_from_idx h i = Ok q /\ fst q = fst r /\ same_hp (snd r) (snd q).
Proof.
  intros Hg Hh W (S1 & S2 & S3) E. unfold set_hp_from_idx in *. apply Nat.ltb_lt in Hg, Hh. rewrite Hg in E. rewrite Hh.
  injection E as <-. eexists. split; [reflexivity|]. rewrite !S2. split; [reflexivity|]. cbn.
  unfold same_hp, same_oarr, same_arr, row_of; cbn. rewrite ?S2, W. repeat split; intros k Hk; apply S1; rewrite W; exact Hk.
Qed.
Lemma hop_keeps h x i : i < h_n h -> hop_elsewhere i x ->
  i < h_n (hop_run h x) /\ h_w (hop_run h x) = h_w h /\ same_iteration h (hop_run h x) i.
Proof.
  intros Hi Hx. destruct x as [a j hp info cond t1 t2 t3|n|name [e|]]; cbn [hop_run hop_elsewhere] in *.
  - destruct (store_only a j hp info cond t1 t2 t3 h) as (N & W & K). destruct (K i (fun E => Hx (eq_sym E))) as (K1 & K2 & K3).
    split; [lia|]. split; [exact W|]. repeat split; intros; symmetry; auto.
  - cbn. split; [lia|]. repeat split.
  - destruct (load_only name e h) as (N & W & K). destruct (K i ltac:(lia)) as (K1 & K2 & K3).
    split; [lia|]. split; [exact W|]. repeat split; intros; symmetry; auto.
  - cbn. repeat split; auto.
Qed.
Lemma same_iteration_trans f g h i : h_w f = h_w g -> same_iteration f g i -> same_iteration g h i -> same_iteration f h i.
Proof.
  intros W (A1 & A2 & A3) (B1 & B2 & B3). repeat split; [|congruence|congruence]. intros t k Hk. rewrite A1 by exact Hk. apply B1. rewrite <- W. exact Hk.
Qed.
Lemma hops_keep ops : forall h i, i < h_n h -> Forall (hop_elsewhere i) ops ->
  i < h_n (fold_left hop_run ops h) /\ h_w (fold_left hop_run ops h) = h_w h /\ same_iteration h (fold_left hop_run ops h) i.
Proof.
  induction ops as [|x ops IH]; intros h i Hi HF; cbn [fold_left]; [repeat split; auto|].
  inversion HF as [|? ? Hx Hr]; subst. destruct (hop_keeps h x i Hi Hx) as (K1 & K2 & K3). destruct (IH _ i K1 Hr) as (L1 & L2 & L3).
  split; [exact L1|]. split; [congruence|]. eapply same_iteration_trans; [|exact K3|exact L3]. congruence.
Qed.
