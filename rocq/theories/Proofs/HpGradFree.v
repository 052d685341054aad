(** calc_KernGrad_hp (noise-free data), slice by slice. *)
From Coq Require Import Reals List Arith Bool Lia Lra.
From Coquelicot Require Import Coquelicot.
From Verif.Base Require Import NpLite NpFacts Deriv.
From Verif.Spec Require Import KernelSpec LinAlgSpec GpSpec HpSpec.
From Verif.Model Require Import KernelSqExp KernelMatern KernelRatQuad KernelDispatch CommonFun WellCond Rescaling GpState Chol Cov HpInfo HpGrad.
From Verif.Proofs Require Import KernTac KernelExact ThetaGrad ThetaGradBase ThetaGradMask AlphaGrad LinAlg CholCorrect Psd CovStruct StateFacts DataFacts RowSum
  NoiseFacts CondBound NuggetCond NuggetMain Precon HpInfoFacts HpGradFacts HpGradMain.
Import ListNotations.
Local Open Scope R_scope.

Lemma tail_add_ok D N n T f k V v : tspec D N N T f -> (k < D)%nat -> (n <= N)%nat -> mspec (N - n) (N - n) V v ->
  rok (tadd_at T k n (tr T) n (tc T) V) (fun T' => tspec D N N T' (fun k' i j =>
    if ((k' =? k)%nat && ((n <=? i)%nat && (n <=? j)%nat)) then f k' i j + v (i - n)%nat (j - n)%nat else f k' i j)).
Proof.
  intros HT Hk Hn HV. assert (HT' := HT). destruct HT' as (T1 & T2 & T3 & T4). rewrite T2, T3. unfold tadd_at, tupd.
  eapply rok_bind; [eapply tget_ok; [exact HT|exact Hk]|]. intros A (A1 & A2 & A3). cbv beta in A3.
  destruct HV as (V1 & V2 & V3).
  unfold mupd, bcast_to. rewrite A1, A2, V1, V2, Nat.min_id, !Nat.eqb_refl. cbn [orb andb]. rewrite bind_Ok.
  eapply rok_mono; [eapply tput_ok; [exact HT|exact Hk|]|].
  - split; [cbn [nr]; exact eq_refl|]. split; [cbn [nc]; exact eq_refl|]. intros i j Hi Hj. cbn [mat_at].
    instantiate (1 := fun i j => if ((n <=? i)%nat && (n <=? j)%nat) then f k i j + v (i - n)%nat (j - n)%nat else f k i j). cbv beta.
    destruct (Nat.leb_spec n i), (Nat.leb_spec n j), (Nat.ltb_spec i N), (Nat.ltb_spec j N); try lia; cbn [andb]; rewrite ?A3 by auto; try reflexivity.
    rewrite !bix_lt by lia. rewrite V3 by lia. reflexivity.
  - intros T' H'. eapply tspec_ext; [exact H'|]. intros k' i j Hk' Hi Hj. cbv beta. destruct (Nat.eqb_spec k' k) as [->|]; cbn [andb]; reflexivity.
Qed.

Section M.
Variables (o : gpopt) (d : gpdata).
Hypothesis HR : gp_ready o d.
Notation N := (cN o d).
Notation X := (fst (get_scl_x_w_dist d)).
Variables (lo : lkopt) (ht hk : bool) (info : hpinfo) (hp : hpv) (e : R).
Hypothesis HI : set_hp_optz_info o d lo ht hk false false false = Ok info.
Hypothesis He : d_etaK d = Some e.
Hypothesis Hh : hyper_ok o hp.
Hypothesis HS : ht = true -> theta_grad_supported o d hp.

Lemma diag_theta k i D : (k < o_dim o)%nat -> (i < N)%nat ->
  is_derive (fun t => ckf o d (hp_put hp (HTheta k) t) X i i) (vat (hp_theta hp) k) D ->
  D = 2 * pent (o_kernel o) (vat (hp_theta hp)) (unradr (d_n_eval d) (d_n_grad d) i) * dpent (o_kernel o) (vat (hp_theta hp)) k (unradr (d_n_eval d) (d_n_grad d) i).
Proof.
  intros Hk Hi HD. destruct Hh as (L & P & _). destruct (unradr_ok _ _ _ _ Hi) as (V & _). set (a := unradr _ _ i) in *.
  apply (dR_unique _ _ _ _ HD).
  apply (dR_ext_near (fun t => pent (o_kernel o) (upd (vat (hp_theta hp)) k t) a * pent (o_kernel o) (upd (vat (hp_theta hp)) k t) a) _ _ _ (vat (hp_theta hp) k)); [apply P, Hk| |].
  - intros t Ht. apply near_pos in Ht; [|apply P, Hk]. rewrite ckf_diag by exact Hi. fold a. destruct a as [p|i' p]; cbn [pent]; [ring|].
    cbn [hp_put hp_theta vset vat]. unfold gam. apply sqrt_sqrt. left. apply gamma2_pos. unfold upd. destruct (i' =? k)%nat; [exact Ht|apply P, V].
  - set (f := fun t : R => pent (o_kernel o) (upd (vat (hp_theta hp)) k t) a).
    assert (Df : is_derive f (vat (hp_theta hp) k) (dpent (o_kernel o) (vat (hp_theta hp)) k a)) by apply (pent_derive (o_kernel o) (vat (hp_theta hp)) (o_dim o) k (d_n_eval d) (d_n_grad d) a P Hk V).
    refine (dR_val _ _ _ _ (dR_mult f f _ _ _ Df Df) _). unfold f.
    assert (Z : forall b, pent (o_kernel o) (upd (vat (hp_theta hp)) k (vat (hp_theta hp) k)) b = pent (o_kernel o) (vat (hp_theta hp)) b).
    { intros [p|i' p]; cbn [pent]; [reflexivity|]. unfold upd. destruct (Nat.eqb_spec i' k) as [->|]; reflexivity. }
    rewrite Z. ring.
Qed.
Lemma diag_alpha a i D : (i < N)%nat -> is_derive (fun t => ckf o d (hp_put hp HKernel t) X i i) a D -> D = 0.
Proof.
  intros Hi HD. apply (dR_unique _ _ _ _ HD).
  apply (dR_ext (fun t => ckf o d hp X i i)); [|apply dR_const]. intros t. rewrite !ckf_diag by exact Hi. reflexivity.
Qed.

Lemma KernGrad_hp_ok :
  exists T Dth Dal, calc_KernGrad_hp o d info hp (d_Rt d) None = Ok T /\
    (ht = true -> forall k i j, (k < o_dim o)%nat -> (i < N)%nat -> (j < N)%nat -> is_derive (fun t => ckf o d (hp_put hp (HTheta k) t) X i j) (vat (hp_theta hp) k) (Dth k i j)) /\
    (hk = true -> forall a i j, hp_kernel hp = Some a -> (i < N)%nat -> (j < N)%nat -> is_derive (fun t => ckf o d (hp_put hp HKernel t) X i j) a (Dal i j)) /\
    tspec (length (slots (o_dim o) ht hk false false false)) N N T (tat T) /\
    forall r s, nth_error (slots (o_dim o) ht hk false false false) r = Some s -> forall i j, (i < N)%nat -> (j < N)%nat ->
      tat T r i j = hD o d hp e 1 Dth Dal s i j.
Proof.
  destruct (info_inv _ _ _ _ _ _ _ _ _ HI) as (Ik & If & Ig & ->).
  assert (WN : d_n_data d = N) by apply (wf_n _ _ (gr_wf _ _ HR)).
  assert (K := Hh). destruct K as (L & P & K).
  unfold calc_KernGrad_hp. cbn [has negb assert_ hi_n hi_theta hi_kernel hi_varK hi_var_fval hi_var_fgrad]. rewrite !bind_Ok. rewrite WN.
  set (c1 := (b2n ht * o_dim o)%nat). set (n := (c1 + b2n hk + b2n false + b2n false + b2n false)%nat). cbv zeta.
  match goal with |- context [bind ?m _] => assert (S1 : exists T Dth, m = Ok T /\
     (ht = true -> forall k i j, (k < o_dim o)%nat -> (i < N)%nat -> (j < N)%nat -> is_derive (fun t => ckf o d (hp_put hp (HTheta k) t) X i j) (vat (hp_theta hp) k) (Dth k i j)) /\
     tspec n N N T (fun k i j => if (k <? c1)%nat then hD o d hp e 1 Dth (fun _ _ => 0) (HTheta k) i j else 0)) end.
  { destruct ht.
    - destruct (rok_ex _ _ (kern_grad_theta_ok o d hp HR Hh (HS eq_refl))) as (S0 & ES & HS0 & HD). rewrite ES, bind_Ok.
      destruct (rok_ex _ _ (tset_idx_seq_ok n N (tconst n N N 0) (fun _ _ _ => 0) 0 (o_dim o) S0 _ (tconst_spec n N N 0) HS0 ltac:(unfold n, c1; cbn [b2n]; lia))) as (T & ET & HT).
      rewrite ET, bind_Ok. cbv beta in HT.
      assert (HT' : tspec n N N T (fun k i j => if (k <? o_dim o)%nat then tat S0 k i j else 0)).
      { eapply tspec_ext; [exact HT|]. intros k i j Hk Hi Hj. cbv beta. rewrite Nat.add_0_l, Nat.sub_0_r. reflexivity. }
      clear HT ET.
      assert (c1 = o_dim o) as -> by (unfold c1; cbn [b2n]; lia).
      destruct (wmtd_precon (o_well o)) as [W|W].
      + rewrite W, He. cbn [need]. rewrite bind_Ok. rewrite precon_vec_unfold.
        destruct (rok_ex _ _ (grad_precon_vec_ok (o_kernel o) (d_n_eval d) (d_n_grad d) (hp_theta hp))) as (gp & EG & HG). rewrite EG, !bind_Ok. rewrite L in HG.
        set (pv := pvec (o_kernel o) (d_n_eval d) (d_n_grad d) (hp_theta hp)).
        assert (PL : vlen pv = N) by (unfold pv; rewrite pvec_len, L; reflexivity).
        assert (PV : forall r, (r < N)%nat -> vat pv r = pent (o_kernel o) (vat (hp_theta hp)) (unradr (d_n_eval d) (d_n_grad d) r)).
        { intros r Hr. destruct (unradr_ok _ _ _ _ Hr) as (V & E). rewrite <- L in V. rewrite <- (pvec_at (o_kernel o) _ _ (hp_theta hp) _ V). rewrite E. reflexivity. }
        set (ne := d_n_eval d) in *. set (m := (N - ne)%nat).
        assert (NE : (ne <= N)%nat) by (unfold cN; lia).
        destruct HG as (G1 & G2 & G3). change (ne + d_n_grad d * o_dim o)%nat with N in G1, G3.
        assert (EM : exists g2, mmul (mscal (2 * e) (mkmat (vlen pv - ne) 1 (fun i _ => vat pv (ne + i)%nat))) (mslice gp ne (nr gp) 0 (nc gp)) = Ok g2 /\
          mspec m (o_dim o) g2 (fun i k => 2 * e * pent (o_kernel o) (vat (hp_theta hp)) (unradr ne (d_n_grad d) (ne + i)) * dpent (o_kernel o) (vat (hp_theta hp)) k (unradr ne (d_n_grad d) (ne + i)))).
        { unfold mmul, mzip, mscal, mmap, mslice. cbn [nr nc mat_at]. rewrite PL, G1, G2, !Nat.min_id, Nat.sub_0_r. fold m.
          rewrite bdim_same, bind_Ok. unfold bdim.
          assert (OD := gr_d _ _ HR).
          destruct (Nat.eqb_spec 1 (o_dim o)) as [E1|E1].
          - rewrite bind_Ok. eexists; split; [reflexivity|]. split; [reflexivity|]. split; [exact E1|]. intros i k Hi Hk. cbn [mat_at].
            rewrite (bix_lt m) by lia. rewrite (bix_lt (o_dim o)) by lia. rewrite PV by (fold ne; clear -Hi NE; unfold m in Hi; lia). rewrite Nat.add_0_l. rewrite G3 by (clear -Hi Hk NE; unfold m in Hi; lia). reflexivity.
          - cbn [Nat.eqb]. rewrite bind_Ok. eexists; split; [reflexivity|]. split; [reflexivity|]. split; [reflexivity|]. intros i k Hi Hk. cbn [mat_at].
            rewrite (bix_lt m) by lia. rewrite (bix_lt (o_dim o)) by lia. rewrite PV by (fold ne; clear -Hi NE; unfold m in Hi; lia). rewrite Nat.add_0_l. rewrite G3 by (clear -Hi Hk NE; unfold m in Hi; lia). reflexivity. }
        destruct EM as (g2 & EM & M1 & M2 & M3). rewrite EM, bind_Ok.
        match goal with |- exists T' Dth', for_range 0 (o_dim o) ?b T = Ok T' /\ _ =>
          assert (Z : rok (for_range 0 (o_dim o) b T) (fun T' => tspec n N N T' (fun k i j => if (k <? o_dim o)%nat then
              if (k <? o_dim o)%nat then tat S0 k i j + dl i j (e * tat S0 k i i) else tat S0 k i j else 0))) end.
        { apply (rok_for_range (fun q T' => tspec n N N T' (fun k i j => if (k <? o_dim o)%nat then
              if (k <? q)%nat then tat S0 k i j + dl i j (e * tat S0 k i i) else tat S0 k i j else 0))); [lia| |].
          - eapply tspec_ext; [exact HT'|]. intros; reflexivity.
          - intros q T' Hq Hq'. rewrite seq_length. destruct (Nat.ltb_spec q (o_dim o)); [|lia]. rewrite bind_Ok, M2.
            destruct (Nat.ltb_spec q (o_dim o)); [|lia]. rewrite bind_Ok. rewrite seq_nth by lia. rewrite Nat.add_0_l.
            eapply rok_mono.
            + eapply (tail_add_ok n N ne T' _ q _ _ Hq').
              * unfold n. cbn [b2n]. lia.
              * exact NE.
              * apply mdiag_spec. split; [exact M1|]. intros i Hi. cbn [vat]. apply M3; [exact Hi|lia].
            + intros T2 H2. eapply tspec_ext; [exact H2|]. intros k i j Hk Hi Hj. cbv beta.
              destruct (Nat.eqb_spec k q) as [->|Hkq]; cbn [andb].
              * destruct (Nat.ltb_spec q (o_dim o)); [|lia]. rewrite Nat.ltb_irrefl. destruct (Nat.ltb_spec q (S q)); [|lia].
                unfold dl. destruct (Nat.eqb_spec i j) as [<-|Hij].
                -- rewrite (diag_theta q i (tat S0 q i i)) by (auto; apply HD; auto).
                   destruct (Nat.leb_spec ne i); cbn [andb].
                   ++ rewrite Nat.eqb_refl. replace (ne + (i - ne))%nat with i by lia. fold ne. ring.
                   ++ assert (U := unradr_F d i). fold ne in U. fold ne. destruct (unradr ne (d_n_grad d) i); [cbn [dpent]; ring|lia].
                -- destruct ((ne <=? i) && (ne <=? j))%nat eqn:B; [|ring]. apply andb_prop in B. destruct B as (B1 & B2).
                   apply Nat.leb_le in B1. apply Nat.leb_le in B2. destruct (Nat.eqb_spec (i - ne) (j - ne)); [lia|ring].
              * destruct (Nat.ltb_spec k (o_dim o)); [|reflexivity]. destruct (Nat.ltb_spec k q), (Nat.ltb_spec k (S q)); try lia; reflexivity. }
        destruct (rok_ex _ _ Z) as (T2 & ET2 & HT2). exists T2, (tat S0). split; [exact ET2|]. split; [intros _; exact HD|].
        eapply tspec_ext; [exact HT2|]. intros k i j Hk Hi Hj. cbv beta. destruct (k <? o_dim o)%nat; [|reflexivity]. cbn [hD]. rewrite pre_yes by exact W.
        rewrite !Rmult_1_l. reflexivity.
      + replace (match o_well o with Wprecon => _ | _ => Ok T end) with (Ok T) by (destruct (o_well o); congruence).
        exists T, (tat S0). split; [reflexivity|]. split; [intros _; exact HD|].
        eapply tspec_ext; [exact HT'|]. intros k i j Hk Hi Hj. cbv beta. destruct (k <? o_dim o)%nat; [|reflexivity]. cbn [hD]. rewrite pre_no by exact W.
        unfold dl. destruct (i =? j)%nat; ring.
    - exists (tconst n N N 0), (fun _ _ _ => 0). split; [reflexivity|]. split; [discriminate|]. eapply tspec_ext; [apply tconst_spec|].
      intros. unfold c1; cbn [b2n Nat.mul]. reflexivity. }
  destruct S1 as (T1 & Dth & E1 & D1 & H1). rewrite E1, bind_Ok. clear E1.
  assert (S2 : exists T Dal, match (if hk then Some [c1] else None) with
       | Some idx => S <- calc_Kern_grad_alpha (o_use_grad o) (o_kernel o) (d_Rt d) (hp_theta hp) (hp_kernel hp) (d_bvec d) ;; tset_idx T1 idx S | None => Ok T1 end = Ok T /\
     (hk = true -> forall a i j, hp_kernel hp = Some a -> (i < N)%nat -> (j < N)%nat -> is_derive (fun t => ckf o d (hp_put hp HKernel t) X i j) a (Dal i j)) /\
     tspec n N N T (fun k i j => if (k <? c1)%nat then hD o d hp e 1 Dth (fun _ _ => 0) (HTheta k) i j
        else if ((k =? c1)%nat && hk) then hD o d hp e 1 Dth Dal HKernel i j else 0)).
  { destruct hk.
    - assert (EK : o_kernel o = RatQu) by (specialize (Ik eq_refl); destruct (o_kernel o); try discriminate; reflexivity).
      rewrite EK in K. destruct K as (a & Ea & Pa).
      destruct (rok_ex _ _ (kern_grad_alpha_ok o d hp HR Hh a EK Ea)) as (S0 & ES & HS0 & HD). rewrite ES, bind_Ok.
      destruct (rok_ex _ _ (tset_idx_seq_ok n N _ _ c1 1 S0 _ H1 HS0 ltac:(unfold n; cbn [b2n]; lia))) as (T & ET & HT). cbn [seq] in ET.
      exists T, (tat S0 0%nat). split; [exact ET|]. split; [intros _ a' i j Ea'; rewrite Ea in Ea'; injection Ea' as <-; apply HD|].
      eapply tspec_ext; [exact HT|]. intros k i j Hk Hi Hj. cbv beta. rewrite andb_true_r.
      destruct (Nat.leb_spec c1 k), (Nat.ltb_spec k (c1 + 1)), (Nat.ltb_spec k c1), (Nat.eqb_spec k c1); cbn [andb]; try lia; try reflexivity.
      subst k. rewrite Nat.sub_diag. cbn [hD]. assert (Z : tat S0 0 i i = 0) by (apply (diag_alpha a i); auto).
      rewrite Z. unfold dl, pre. destruct (i =? j)%nat, (o_well o); ring.
    - exists T1, (fun _ _ => 0). split; [reflexivity|]. split; [discriminate|]. eapply tspec_ext; [exact H1|]. intros. cbv beta. rewrite andb_false_r. reflexivity. }
  destruct S2 as (T & Dal & E2 & D2 & H2). exists T, Dth, Dal. split; [exact E2|]. split; [exact D1|]. split; [exact D2|].
  assert (SL : length (slots (o_dim o) ht hk false false false) = n) by (rewrite slots_len; reflexivity).
  destruct H2 as (A1 & A2 & A3 & A4). split; [rewrite SL; split; [exact A1|split; [exact A2|split; [exact A3|reflexivity]]]|].
  intros r s Hr i j Hi Hj.
  assert (Hrn : (r < n)%nat) by (rewrite <- SL; apply nth_error_Some; congruence).
  rewrite A4 by auto. apply slots_nth in Hr. fold c1 in Hr. destruct s; try (destruct Hr; discriminate).
  - destruct Hr as (-> & <- & Hr). unfold c1 in *. cbn [b2n] in *. destruct (Nat.ltb_spec r (1 * o_dim o)); [|lia]. reflexivity.
  - destruct Hr as (-> & ->). rewrite Nat.ltb_irrefl, Nat.eqb_refl. reflexivity.
Qed.
End M.
