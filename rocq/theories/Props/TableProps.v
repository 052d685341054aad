(** * C46: the summary tables *)
From Coq Require Import Reals List Arith Bool Lia Lra.
From Verif.Base Require Import NpLite NpFacts.
From Verif.Spec Require Import KernelSpec GpSpec HpSpec StartSpec TableSpec.
From Verif.Model Require Import CommonFun Rescaling History StartPts Tables.
From Verif.Proofs Require Import StateFacts StartFacts.
Import ListNotations.
Local Open Scope R_scope.

Lemma lset_len l : forall j x, List.length (lset l j x) = List.length l.
Proof. induction l as [|a l IH]; intros [|j] x; cbn; auto. Qed.
Lemma lset_nth l : forall j x k, (j < List.length l)%nat -> nth_error (lset l j x) k = if (k =? j)%nat then Some x else nth_error l k.
Proof. induction l as [|a l IH]; intros [|j] x [|k] H; cbn in *; try lia; auto. apply IH. lia. Qed.
(** the columns below j are those of [done], and nothing else has been written *)
Definition filled (h : hist) (n j : nat) (done : list (label * (nat -> fl))) (t : table) : Prop :=
  t_rows t = h_n h /\ t_cols t = n /\ List.length (t_head t) = n /\ j = List.length done /\
  forall c x f, nth_error done c = Some (x, f) -> nth_error (t_head t) c = Some x /\ forall r, t_at t r c = f r.
Lemma tput_filled h n j done t x f : filled h n j done t -> (j < n)%nat -> exists t', tput t j x f = Ok t' /\ filled h n (Datatypes.S j) (done ++ [(x, f)]) t'.
Proof.
  intros (R1 & C & L & J & F) H. unfold tput. rewrite C. apply Nat.ltb_lt in H as H'. rewrite H'. eexists. split; [reflexivity|].
  split; [exact R1|]. split; [reflexivity|]. split; [cbn; rewrite lset_len; exact L|]. split; [rewrite app_length; cbn; lia|].
  intros c y g E. cbn [t_head t_at]. rewrite lset_nth by lia. destruct (Nat.eqb_spec c j) as [->|N].
  - rewrite nth_error_app2 in E by lia. rewrite J, Nat.sub_diag in E. cbn in E. injection E as <- <-. auto.
  - assert (c < List.length (done ++ [(x, f)]))%nat by (apply nth_error_Some; congruence). rewrite app_length in H0. cbn in H0. rewrite nth_error_app1 in E by lia. apply F. exact E.
Qed.
Lemma tputs_filled h n l : forall j done t, filled h n j done t -> (j + List.length l <= n)%nat -> exists t', tputs t j l = Ok t' /\ filled h n (j + List.length l) (done ++ l) t'.
Proof.
  induction l as [|(x, f) l IH]; intros j done t F H; cbn [tputs List.length] in *.
  - exists t. rewrite Nat.add_0_r, app_nil_r. auto.
  - destruct (tput_filled h n j done t x f F ltac:(lia)) as (t1 & -> & F1). cbn [bind]. destruct (IH _ _ _ F1 ltac:(lia)) as (t2 & E & F2). exists t2. split; [exact E|].
    rewrite <- app_assoc in F2. cbn in F2. replace (j + Datatypes.S (List.length l))%nat with (Datatypes.S j + List.length l)%nat by lia. exact F2.
Qed.
Lemma filled_right h nb n done t heads : filled h n n done t -> heads = map fst done -> (forall x f r, In (x, f) done -> (r < h_n h)%nat -> shows h nb x r (f r)) -> right_table h nb heads t.
Proof.
  intros (R1 & C & L & J & F) -> S0. split; [|split; [exact R1|split; [rewrite map_length; congruence|]]].
  - apply nth_ext with (d := Lempty) (d' := Lempty); [rewrite map_length; congruence|]. intros c Hc. destruct (nth_error done c) as [(x, f)|] eqn:E; [|apply nth_error_None in E; lia].
    destruct (F c x f E) as (F1 & _). rewrite (nth_error_nth _ _ _ F1). symmetry. apply nth_error_nth. rewrite nth_error_map, E. reflexivity.
  - intros c x r E Hr. rewrite nth_error_map in E. destruct (nth_error done c) as [(x', f)|] eqn:E'; [|discriminate]. injection E as <-. destruct (F c _ f E') as (_ & F2). rewrite F2. cbn. apply S0; [|exact Hr]. eapply nth_error_In. exact E'.
Qed.

(** minimum and maximum of a row *)
Lemma fold_none (f : fl -> fl -> fl) : (forall a, f None a = None) -> (forall a, f a None = None) -> forall l x, In None (x :: l) -> fold_left f l x = None.
Proof.
  intros H1 H2 l. induction l as [|y l IH]; intros x [->|H]; cbn; auto; try (destruct H; fail).
  - rewrite H1. apply IH. left. reflexivity.
  - destruct H as [->|H]; [rewrite H2; apply IH; left; reflexivity|]. apply IH. right. exact H.
Qed.
Lemma fold_some (f : fl -> fl -> fl) (g : R -> R -> R) : (forall a b, f (Some a) (Some b) = Some (g a b)) -> forall l x, fold_left f (map Some l) (Some x) = Some (fold_left g l x).
Proof. intros H l. induction l as [|y l IH]; intros x; cbn; [reflexivity|]. rewrite H. apply IH. Qed.
Lemma fold_min l : forall x, least (x :: l) (fold_left Rmin l x).
Proof.
  induction l as [|y l IH]; intros x; cbn.
  - split; [left; reflexivity|]. intros z [->|[]]. lra.
  - destruct (IH (Rmin x y)) as (A & B). split.
    + destruct A as [A|A]; [|right; right; exact A]. rewrite <- A. unfold Rmin. destruct (Rle_dec x y); [left|right; left]; reflexivity.
    + intros z Hz. assert (M := B (Rmin x y) (or_introl eq_refl)). destruct Hz as [->|[->|Hz]]; [assert (Y := Rmin_l z y); lra|assert (Y := Rmin_r x z); lra|apply B; right; exact Hz].
Qed.
Lemma fold_max l : forall x, greatest (x :: l) (fold_left Rmax l x).
Proof.
  induction l as [|y l IH]; intros x; cbn.
  - split; [left; reflexivity|]. intros z [->|[]]. lra.
  - destruct (IH (Rmax x y)) as (A & B). split.
    + destruct A as [A|A]; [|right; right; exact A]. rewrite <- A. unfold Rmax. destruct (Rle_dec x y); [right; left|left]; reflexivity.
    + intros z Hz. assert (M := B (Rmax x y) (or_introl eq_refl)). destruct Hz as [->|[->|Hz]]; [assert (Y := Rmax_l z y); lra|assert (Y := Rmax_r x z); lra|apply B; right; exact Hz].
Qed.
Lemma none_dec (l : list fl) : In None l \/ exists r, l = map Some r.
Proof. induction l as [|[x|] l [H|(r & ->)]]; [right; exists []; reflexivity|left; right; exact H|right; exists (x :: r); reflexivity|left; left; reflexivity|left; left; reflexivity]. Qed.
Lemma row_min l : l <> [] -> of_row l least (row_fold fminf l).
Proof.
  intros NE. destruct l as [|x l]; [congruence|]. cbn [row_fold]. destruct (none_dec (x :: l)) as [H|(r & E)].
  - left. split; [exact H|]. apply fold_none; auto. intros []; reflexivity.
  - right. destruct r as [|y r]; [discriminate|]. injection E as -> ->. exists (y :: r). eexists. split; [reflexivity|]. split; [apply (fold_some fminf Rmin); reflexivity|]. apply fold_min.
Qed.
Lemma row_max l : l <> [] -> of_row l greatest (row_fold fmaxf l).
Proof.
  intros NE. destruct l as [|x l]; [congruence|]. cbn [row_fold]. destruct (none_dec (x :: l)) as [H|(r & E)].
  - left. split; [exact H|]. apply fold_none; auto. intros []; reflexivity.
  - right. destruct r as [|y r]; [discriminate|]. injection E as -> ->. exists (y :: r). eexists. split; [reflexivity|]. split; [apply (fold_some fmaxf Rmax); reflexivity|]. apply fold_max.
Qed.
Lemma row_med l : l <> [] -> of_row l is_median (np_median l).
Proof.
  intros NE. destruct (none_dec l) as [H|(r & ->)].
  - left. split; [exact H|]. unfold np_median. assert (X : all_real l = None). { clear NE. induction l as [|[x|] l IH]; [destruct H| |reflexivity]. destruct H as [H|H]; [discriminate|]. cbn. rewrite IH by exact H. reflexivity. } rewrite X. reflexivity.
  - right. destruct (median_of (@Some R) r) as (l & m & E1 & E2 & E3). { intros ->. apply NE. reflexivity. } { intros x _. exists x. reflexivity. }
    assert (El : l = r). { clear - E1. revert l E1. induction r as [|x r IH]; intros [|y l] E; try discriminate; [reflexivity|]. cbn in E. injection E as <- E. f_equal. apply IH. exact E. }
    subst l. exists r, m. split; [reflexivity|]. split; [exact E2|exact E3].
Qed.

(** With data set and a history of the object's shape, the call returns three tables; each has one row per iteration, and
    under every header the recorded quantity of that name (the length scales themselves up to dimension 3,
    their least, greatest and median value above). *)
Theorem C46_tables_show_the_history :
  forall (dim n_beta : nat) (bf bg : bool) (h : hist),
  h_w h Ttheta = dim -> h_w h Tbeta = n_beta ->
  exists summary theta optz, get_txt_info_surr dim n_beta (Some bf) (Some bg) false h = Ok [summary; theta; optz] /\
    right_table h n_beta (summary_heads dim bf bg) summary /\
    right_table h n_beta (Lindex :: map Ltheta (seq 0 dim)) theta /\
    right_table h n_beta [Lindex; Ltime; Lsuccess; Lmean_i; Lmax_i; Lcon_good; Lcond; Lat_max] optz.
Proof.
  intros dim nb bf bg h HT HB.
  assert (SUM : exists t, info_surr_summary dim nb (Some bf) (Some bg) h = Ok t /\ right_table h nb (summary_heads dim bf bg) t).
  { unfold info_surr_summary. set (b2n := fun b : bool => if b then 1%nat else 0%nat). set (n := (5 + b2n bf + b2n bg + Nat.min 3 dim)%nat). cbv zeta.
    set (mu := if (1 <=? nb)%nat then _ else _).
    assert (EM : exists f, mu = Ok f /\ forall r, f r = if (nb =? 0)%nat then None else h_tab h Tbeta r 0).
    { unfold mu. rewrite HB. destruct nb as [|k]; cbn; eexists; (split; [reflexivity|]); reflexivity. }
    destruct EM as (f & -> & Hf). cbn [bind]. set (t0 := mktab _ _ _ _).
    assert (F0 : filled h n 0 [] t0). { split; [reflexivity|]. split; [reflexivity|]. split; [apply repeat_length|]. split; [reflexivity|]. intros [|c] x g E; discriminate. }
    destruct (tputs_filled h n [(Lindex, fun r => Some (INR r)); (Lkernel, h_col h Qkernel); (Lmu, f); (LvarK, h_col h QvarK); (Lratio, h_col h QvarK_data_var)] 0 [] t0 F0) as (t1 & -> & F1); [cbn; lia|].
    cbn [bind]. cbn [List.length Nat.add app] in F1.
    set (d5 := [(Lindex, fun r => Some (INR r)); (Lkernel, h_col h Qkernel); (Lmu, f); (LvarK, h_col h QvarK); (Lratio, h_col h QvarK_data_var)]) in *.
    set (df := if bf then [(Lvar_fun, h_col h Qvar_fval)] else []). set (dg := if bg then [(Lvar_grad, h_col h Qvar_fgrad)] else []).
    assert (F2 : exists t2, (if bf then tput t1 5 Lvar_fun (h_col h Qvar_fval) else Ok t1) = Ok t2 /\ filled h n (5 + b2n bf) (d5 ++ df) t2).
    { unfold df, n in *. destruct bf; cbn [b2n] in *.
      - destruct (tput_filled h _ 5 d5 t1 Lvar_fun (h_col h Qvar_fval) F1) as (t2 & E & F2); [unfold b2n; lia|]. exists t2. auto.
      - exists t1. rewrite app_nil_r. auto. }
    destruct F2 as (t2 & -> & F2). cbn [bind].
    assert (F3 : exists t3, (if bg then tput t2 (5 + b2n bf) Lvar_grad (h_col h Qvar_fgrad) else Ok t2) = Ok t3 /\ filled h n (5 + b2n bf + b2n bg) ((d5 ++ df) ++ dg) t3).
    { unfold dg. destruct bg.
      - destruct (tput_filled h n _ (d5 ++ df) t2 Lvar_grad (h_col h Qvar_fgrad) F2) as (t3 & E & F3); [unfold n; cbn [b2n]; lia|]. exists t3. split; [exact E|]. replace (5 + b2n bf + b2n true)%nat with (Datatypes.S (5 + b2n bf)) by (cbn [b2n]; lia). exact F3.
      - exists t2. rewrite app_nil_r. replace (5 + b2n bf + b2n false)%nat with (5 + b2n bf)%nat by (cbn [b2n]; lia). auto. }
    destruct F3 as (t3 & E3 & F3). lazymatch goal with |- context [bind ?m _] => replace m with (Ok t3) by (symmetry; exact E3) end. cbn [bind].
    assert (SH : forall x g r, In (x, g) ((d5 ++ df) ++ dg) -> shows h nb x r (g r)).
    { intros x g r I0. apply in_app_iff in I0. destruct I0 as [I0|I0]; [apply in_app_iff in I0; destruct I0 as [I0|I0]|].
      - unfold d5 in I0. cbn in I0. repeat (destruct I0 as [I0|I0]; [injection I0 as <- <-; cbn; auto|]). destruct I0.
      - unfold df in I0. destruct bf; [|destruct I0]. destruct I0 as [I0|[]]. injection I0 as <- <-. reflexivity.
      - unfold dg in I0. destruct bg; [|destruct I0]. destruct I0 as [I0|[]]. injection I0 as <- <-. reflexivity. }
    assert (HD : map fst ((d5 ++ df) ++ dg) = [Lindex; Lkernel; Lmu; LvarK; Lratio] ++ (if bf then [Lvar_fun] else []) ++ (if bg then [Lvar_grad] else [])).
    { rewrite <- app_assoc. unfold df, dg. destruct bf, bg; reflexivity. }
    rewrite HT. destruct (Nat.leb_spec dim 3) as [D|D].
    - rewrite Nat.leb_refl. cbn [bind]. set (l := map (fun i => (Ltheta i, fun r => h_tab h Ttheta r i)) (seq 0 dim)).
      assert (LL : List.length l = dim) by (unfold l; rewrite map_length, seq_length; reflexivity).
      destruct (tputs_filled h n l _ _ t3 F3) as (t4 & E4 & F4); [unfold n; lia|]. exists t4. split; [exact E4|].
      replace (5 + b2n bf + b2n bg + List.length l)%nat with n in F4 by (unfold n; lia). apply (filled_right _ _ _ _ _ _ F4).
      + rewrite map_app. etransitivity; [|apply (f_equal (fun z => z ++ map fst l)); symmetry; exact HD]. unfold summary_heads. apply Nat.leb_le in D. rewrite D. rewrite <- !app_assoc. do 3 f_equal. unfold l. rewrite map_map. reflexivity.
      + intros x g r I0 Hr. apply in_app_iff in I0. destruct I0 as [I0|I0]; [apply SH; exact I0|]. unfold l in I0. apply in_map_iff in I0. destruct I0 as (i & E & _). injection E as <- <-. reflexivity.
    - set (l := [(Ltheta_min, _); (Ltheta_max, _); (Ltheta_median, _)]).
      destruct (tputs_filled h n l _ _ t3 F3) as (t4 & E4 & F4); [unfold n; cbn [List.length l]; lia|]. exists t4. split; [exact E4|].
      replace (5 + b2n bf + b2n bg + List.length l)%nat with n in F4 by (unfold n; cbn [List.length l]; lia). apply (filled_right _ _ _ _ _ _ F4).
      + rewrite map_app. etransitivity; [|apply (f_equal (fun z => z ++ map fst l)); symmetry; exact HD]. unfold summary_heads. destruct (Nat.leb_spec dim 3); [lia|]. rewrite <- !app_assoc. reflexivity.
      + intros x g r I0 Hr. apply in_app_iff in I0. destruct I0 as [I0|I0]; [apply SH; exact I0|].
        assert (NE : map (h_tab h Ttheta r) (seq 0 dim) <> []) by (destruct dim; [lia|discriminate]).
        unfold l in I0. cbn in I0. destruct I0 as [I0|[I0|[I0|[]]]]; injection I0 as <- <-; cbn [shows]; cbv zeta; rewrite HT; [apply row_min|apply row_max|apply row_med]; exact NE. }
  destruct SUM as (a & EA & RA). unfold get_txt_info_surr, info_surr_all_data. rewrite EA. cbn [bind]. unfold info_surr_theta. rewrite HT, Nat.eqb_refl. cbn [bind].
  do 3 eexists. split; [reflexivity|]. split; [exact RA|]. split.
  - split; [reflexivity|]. split; [reflexivity|]. split; [cbn; rewrite map_length, seq_length; lia|]. intros [|c] x r E Hr; cbn in E.
    + injection E as <-. reflexivity.
    + rewrite nth_error_map in E. destruct (nth_error (seq 0 dim) c) as [i|] eqn:Ei; [|discriminate]. injection E as <-. assert (c < dim)%nat. { assert (X : nth_error (seq 0 dim) c <> None) by congruence. apply nth_error_Some in X. rewrite seq_length in X. exact X. }
      apply nth_error_nth with (d := 0%nat) in Ei. rewrite seq_nth in Ei by assumption. cbn in *. subst i. reflexivity.
  - split; [reflexivity|]. split; [reflexivity|]. split; [reflexivity|]. intros c x r E Hr.
    do 8 (destruct c as [|c]; [cbn in E; injection E as <-; cbn; try reflexivity; unfold fmulf; destruct (h_col h _ r); cbn; try reflexivity; f_equal; ring|]).
    destruct c; discriminate.
Qed.
Print Assumptions C46_tables_show_the_history.

(** Saving the summary to a file, an option of the call (and of the class), raises: neither the method nor the paths exist. *)
Theorem C46_save_to_file_refuted : forall dim n_beta bf bg h, exists e, get_txt_info_surr dim n_beta bf bg true h = Err e.
Proof. intros. unfold get_txt_info_surr. destruct (info_surr_all_data dim n_beta bf bg h); eexists; reflexivity. Qed.
Print Assumptions C46_save_to_file_refuted.
(** Before set_data the summary raises. *)
Theorem C46_before_data : forall dim n_beta save h, exists e, get_txt_info_surr dim n_beta None None save h = Err e.
Proof. intros. eexists. reflexivity. Qed.
Print Assumptions C46_before_data.
Example C46_case : exists a b c, get_txt_info_surr 4 1 (Some true) (Some false) false (init_optz_surr 1 4 10) = Ok [a; b; c] /\ t_cols a = 9%nat /\ t_rows a = 10%nat.
Proof.
  destruct (C46_tables_show_the_history 4 1 true false (init_optz_surr 1 4 10) eq_refl eq_refl) as (a & b & c & E & (_ & A1 & A2 & _) & _).
  exists a, b, c. split; [exact E|]. split; [exact A2|exact A1].
Qed.
