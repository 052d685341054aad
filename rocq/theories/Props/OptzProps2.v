(** * C25 in the coordinates of the optimiser, and what an evaluation returns (C27) *)
From Coq Require Import Reals List Arith Bool Lia Lra FunctionalExtensionality.
From Coquelicot Require Import Coquelicot.
From Verif.Base Require Import NpLite NpFacts Deriv.
From Verif.Spec Require Import KernelSpec LinAlgSpec GpSpec HpSpec DataSpec LkdSpec OptzSpec.
From Verif.Model Require Import KernelSqExp KernelMatern KernelRatQuad KernelDispatch CommonFun WellCond Rescaling GpState Chol Cov HpInfo HpGrad MeanFun Lkd OptzLkd.
From Verif.Proofs Require Import KernTac LinAlg CovStruct StateFacts NoiseFacts NuggetCond NuggetMain HpInfoFacts HpGradFacts HpGradMain LkdCore LkdFacts LkdMain.
From Verif.Props Require Import CondProps DataProps HpGradProps LkdProps OptzProps.
Import ListNotations.
Local Open Scope R_scope.

Lemma decode_theta_out d info v hp : hp_vec2dataclass d info v = Ok hp -> forall i, (vlen (hp_theta hp) <= i)%nat -> vat (hp_theta hp) i = 0.
Proof.
  unfold hp_vec2dataclass. intros H i Hi. binv H u Eu. cbv zeta in H. binv H th Eth. binv H k Ek. binv H a Ea. binv H b Eb. binv H c Ec. injection H as <-. cbn [hp_theta] in *.
  destruct (hi_theta info) as [idx|]; [|discriminate]. unfold vtake in Eth. destruct (forallb _ idx); [|discriminate]. injection Eth as <-. cbn [vlen vat] in *.
  destruct (nth_error idx i) eqn:E; [|reflexivity]. exfalso. apply nth_error_None in Hi. congruence.
Qed.
Lemma hpv_ext p q : hp_beta p = hp_beta q -> vlen (hp_theta p) = vlen (hp_theta q) -> (forall s, hp_get p s = hp_get q s) ->
  (forall i, (vlen (hp_theta p) <= i)%nat -> vat (hp_theta p) i = vat (hp_theta q) i) -> p = q.
Proof.
  intros E1 E2 E3 E4. assert (K1 := E3 HKernel). assert (K2 := E3 HVarK). assert (K3 := E3 HVarF). assert (K4 := E3 HVarG). cbn [hp_get] in *.
  assert (T : hp_theta p = hp_theta q).
  { destruct p as [? [n f] ? ? ? ?], q as [? [n' f'] ? ? ? ?]. cbn [hp_theta vlen vat] in *. subst n'. f_equal. apply functional_extensionality. intros i.
    destruct (Nat.lt_ge_cases i n) as [L|L]; [|apply E4, L]. specialize (E3 (HTheta i)). cbn [hp_get hp_theta vlen vat] in E3. apply Nat.ltb_lt in L. rewrite L in E3. congruence. }
  destruct p, q. cbn in *. congruence.
Qed.
Definition decoded (lo : lkopt) (s : hslot) (t : R) : R := if log_flag lo s then Rpower 10 t else t.

Lemma put_beta hp s t : hp_beta (hp_put hp s t) = hp_beta hp. Proof. destruct s; reflexivity. Qed.
Lemma put_len hp s t : vlen (hp_theta (hp_put hp s t)) = vlen (hp_theta hp). Proof. destruct s; reflexivity. Qed.
Lemma put_out hp s t i : hp_get hp s <> None -> (vlen (hp_theta hp) <= i)%nat -> vat (hp_theta (hp_put hp s t)) i = vat (hp_theta hp) i.
Proof.
  intros N L. destruct s; try reflexivity. cbn [hp_put hp_theta vset vat]. unfold upd. destruct (Nat.eqb_spec i e) as [->|]; [|reflexivity].
  exfalso. apply N. cbn [hp_get]. apply Nat.ltb_ge in L. rewrite L. reflexivity.
Qed.
Lemma put_same hp s t : hp_get hp s <> None -> hp_get (hp_put hp s t) s = Some t.
Proof.
  intros N. destruct s; try reflexivity. cbn [hp_get hp_put hp_theta vset vlen vat] in *. destruct (e <? vlen (hp_theta hp))%nat; [|congruence].
  unfold upd. rewrite Nat.eqb_refl. reflexivity.
Qed.
Lemma put_other hp s t s' : s <> s' -> hp_get (hp_put hp s t) s' = hp_get hp s'.
Proof.
  intros N. destruct s, s'; try reflexivity; try congruence. cbn [hp_get hp_put hp_theta vset vlen vat]. unfold upd. destruct (Nat.eqb_spec e0 e); [congruence|reflexivity].
Qed.

(** changing one entry of the vector changes one hyperparameter *)
Lemma decode_put o d lo hk hv hf hg info v hp s r t : set_hp_optz_info o d lo true hk hv hf hg = Ok info ->
  (hv = true -> d_noisy d = true) -> (hf = true -> d_opt_fval d = true) -> (hg = true -> d_opt_fgrad d = true) ->
  hp_vec2dataclass d info v = Ok hp -> position info s = Some r ->
  hp_get hp s = Some (decoded lo s (vat v r)) /\ hp_vec2dataclass d info (vset v r t) = Ok (hp_put hp s (decoded lo s t)).
Proof.
  intros HI H1 H2 H3 HV P.
  assert (LV : vlen v = hi_n info).
  { assert (HV' := HV). unfold hp_vec2dataclass in HV'. binv HV' u Eu. destruct (C21_index_sets_partition _ _ _ _ _ _ _ _ _ HI) as (_ & HL & _).
    destruct (Nat.eqb_spec (length (hi_log info)) (vlen v)); [congruence|discriminate]. }
  destruct (C21_vector_round_trip o d lo hk hv hf hg info v HI H1 H2 H3 LV) as (hp0 & E0 & L0 & B0 & G0 & N0). rewrite HV in E0. injection E0 as <-.
  destruct (C21_vector_round_trip o d lo hk hv hf hg info (vset v r t) HI H1 H2 H3 LV) as (hp1 & E1 & L1 & B1 & G1 & N1).
  assert (GS : hp_get hp s = Some (decoded lo s (vat v r))) by apply (G0 s r P).
  split; [exact GS|]. rewrite E1. f_equal.
  assert (NN : hp_get hp s <> None) by congruence.
  apply hpv_ext.
  - rewrite put_beta. congruence.
  - rewrite put_len. congruence.
  - intros s'. destruct (position info s') as [r'|] eqn:P'.
    + destruct (G1 s' r' P') as (X & _). rewrite X. cbn [vset vat]. unfold upd. destruct (Nat.eqb_spec r' r) as [->|NE].
      * destruct (C21_index_sets_partition _ _ _ _ _ _ _ _ _ HI) as (_ & _ & _ & PL & PB & _). destruct (PL r (PB s r P)) as (s0 & _ & U & _).
        rewrite (U s P), <- (U s' P'). assert (s = s') by (rewrite (U s P), (U s' P'); reflexivity). subst s'. symmetry. apply put_same. exact NN.
      * rewrite put_other by congruence. symmetry. apply (G0 s' r' P').
    + rewrite (N1 s' P'). symmetry. rewrite put_other by congruence. apply (N0 s' P').
  - intros i Hi. rewrite (decode_theta_out _ _ _ _ E1 i Hi). symmetry. rewrite put_out; [|exact NN|rewrite L0, <- L1; exact Hi]. apply (decode_theta_out _ _ _ _ HV). rewrite L0, <- L1. exact Hi.
Qed.

Lemma is_derivative_compose f (g : R -> R) x dg df : is_derive g x dg -> is_derivative_of f (g x) df -> is_derivative_of (fun t => f (g t)) x (df * dg).
Proof.
  intros HG (del & F & D & E & HD).
  assert (C : continuous g x) by (apply (ex_derive_continuous (V := R_NormedModule)); exists dg; exact HG).
  destruct (C (fun y => Rabs (y - g x) < del)) as (eps & He). { exists (mkposreal del D). intros y Hy. exact Hy. }
  exists eps, (fun t => F (g t)). split; [apply cond_pos|]. split.
  - intros t Ht. apply E. apply (He t). exact Ht.
  - replace (df * dg) with (scal dg df) by (unfold scal; cbn; unfold mult; cbn; ring). exact (is_derive_comp (V := R_NormedModule) F g x df dg HD HG).
Qed.
Lemma is_derivative_opp f x df : is_derivative_of f x df -> is_derivative_of (fun t => option_map Ropp (f t)) x (- df).
Proof.
  intros (del & F & D & E & HD). exists del, (fun t => - F t). split; [exact D|]. split; [intros t Ht; rewrite (E t Ht); reflexivity|].
  apply (is_derive_opp (V := R_NormedModule)) in HD. exact HD.
Qed.
Lemma decoded_derive lo s x : is_derive (decoded lo s) x (if log_flag lo s then Rpower 10 x * ln 10 else 1).
Proof.
  unfold decoded. destruct (log_flag lo s); [|apply (is_derive_id (K := R_AbsRing))]. unfold Rpower. auto_derive; [exact I|]. ring.
Qed.

(** What the optimiser minimises: minus the likelihood of the hyperparameters that a vector of the optimisation
    stands for (adj': either way of computing the likelihood) *)
Definition objective (la : npla) (o : gpopt) (d : gpdata) (lo : lkopt) (info : hpinfo) (adj' : bool) (w : vec) : option R :=
  match hp_vec2dataclass d info w with
  | Ok hp => option_map Ropp (lkd_scalar la o d lo info adj' l_ln hp)
  | Err _ => None
  end.

(** For an object with any past: where the factorisation succeeds, the value and the gradient handed to the optimiser
    are the objective at the vector and its gradient with respect to the entries of the vector, those optimised
    on a log10 scale included. *)
Theorem C25_value_and_gradient_given_to_the_optimiser_partial :
  forall (la : npla) (o0 : gpopt) (lo0 : lkopt) (d0 : gpdata) (info0 : hpinfo) (past : list event) (hk hv hf hg : bool) (v g : vec) (hp : hpv) (l : lkdinfo) (adj' : bool),
  let s := do_events la (new_obj o0 lo0 d0 info0) past in let o := g_opt s in let d := g_data s in let lo := g_lk s in let info := g_info s in
  set_hp_optz_info o d lo true hk hv hf hg = Ok info ->
  (hv = true -> d_noisy d = true) -> (hf = true -> d_opt_fval d = true) -> (hg = true -> d_opt_fgrad d = true) ->
  (d_noisy d = false -> hf = false /\ hg = false) ->
  hp_vec2dataclass d info v = Ok hp ->
  lkd_input o d hp -> o_eta_const o = true -> noise_pos hp -> theta_grad_supported o d hp ->
  calc_lkd_all la o d lo info hp (b_use_cond_cstr o) true (lk_adj lo) = Ok (l, true) ->
  (d_noisy d = false -> exists vK, l_varK l = Some vK /\ / 10 ^ 32 < vK) ->
  snd (return_optz_grad la s v) = Ok g ->
  (exists y, snd (return_optz_val la s v) = Ok y /\ objective la o d lo info adj' v = Some y) /\
  vlen g = hi_n info /\
  forall r, (r < hi_n info)%nat -> is_derivative_of (fun t => objective la o d lo info adj' (vset v r t)) (vat v r) (vat g r).
Proof.
  intros la o0 lo0 d0 info0 past hk hv hf hg v g hp l adj' s o d lo info HI H1 H2 H3 HF HV LI HE NP TS HC VK HG.
  destruct (C27_never_stale la past o0 lo0 d0 info0) as (_ & Q1 & Q2 & _). fold s in Q1, Q2. rewrite Q2 in HG. rewrite Q1. clear Q1 Q2.
  fold o d lo info in HG |- *. set (s0 := new_obj o lo d info) in *.
  assert (HF' : d_noisy d = false -> hv = false /\ hf = false /\ hg = false).
  { intros Z. destruct (HF Z). split; [|auto]. destruct hv; [|reflexivity]. rewrite (H1 eq_refl) in Z. discriminate. }
  destruct (C25_likelihood_gradient_partial la o d lo true hk hv hf hg info hp _ _ adj' l LI HE NP (fun _ => TS) HF' HI HC VK) as (EL & _ & _ & _ & gn & EG & LG & DG).
  destruct (C21_index_sets_partition _ _ _ _ _ _ _ _ _ HI) as (HN & HL & PS & PL & PB & _).
  unfold return_optz_grad, return_optz_val, lift_st in *. cbn [snd] in *. binv HG x Ex.
  assert (EX := Ex). unfold calc_store_likelihood in EX. cbn [array_equal s0 new_obj g_last] in EX. fold s0 in EX.
  destruct (fresh_likelihood la s0 v false true) as [x'|] eqn:EF; [|discriminate]. cbn [snd] in EX. injection EX as ->.
  unfold fresh_likelihood in EF. cbn [s0 new_obj g_opt g_data g_info g_lk] in EF. rewrite HV, bind_Ok in EF. rewrite orb_false_r in EF. rewrite HC, bind_Ok in EF. cbn [fst snd] in EF.
  binv EF g1 Eg1. binv EF cg Ecg. injection EF as <-. unfold log_chain in Eg1. rewrite EG in Eg1. destruct (_ && _); [|discriminate]. injection Eg1 as <-.
  cbn [s_grad neg_vec] in HG. injection HG as <-.
  destruct (l_ln l) as [y|] eqn:Ely; [|].
  2:{ exfalso. destruct (C23_evaluation_succeeds la o d lo true hk hv hf hg info hp adj' LI HI) as (l2 & E2).
      destruct (lkd_call _ _ _ _ _ _ _ _ _ _ _ _ true _ _ LI HI (fun _ _ => TS) (fun _ => HF') HC) as (A & _ & _ & _ & _ & T & HP).
      destruct (d_noisy d); [destruct HP as (X & _)|destruct HP as (X & _)]; congruence. }
  split; [|split].
  - exists (- y). cbn [s_val neg_R]. rewrite Ex, bind_Ok. cbn [s_val neg_R]. split; [reflexivity|]. unfold objective. rewrite HV, <- EL. reflexivity.
  - cbn [vmap vlen]. rewrite LG. symmetry. exact HN.
  - intros r Hr. destruct (PL r Hr) as (sl & P & _ & LF).
    destruct (decode_put o d lo hk hv hf hg info v hp sl r 0 HI H1 H2 H3 HV P) as (GS & _).
    assert (DD := proj1 (DG r sl _ (proj1 (PS sl r) P) GS)).
    apply (is_derivative_compose _ (decoded lo sl) (vat v r) _ _ (decoded_derive lo sl (vat v r))) in DD.
    apply is_derivative_opp in DD. destruct DD as (del & F & D1 & D2 & D3). exists del, F. split; [exact D1|]. split.
    + intros t Ht. unfold objective. destruct (decode_put o d lo hk hv hf hg info v hp sl r t HI H1 H2 H3 HV P) as (_ & ->). apply D2, Ht.
    + cbn [vmap vat]. rewrite (nth_error_nth _ _ _ LF). unfold pow10. replace (- (if log_flag lo sl then _ else _)) with (- (vat gn r * (if log_flag lo sl then Rpower 10 (vat v r) * ln 10 else 1))); [exact D3|].
      destruct (log_flag lo sl); unfold Rpower; ring.
Qed.
Print Assumptions C25_value_and_gradient_given_to_the_optimiser_partial.
