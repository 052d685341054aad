(** The preconditioner of the three kernels, its inverse and its theta-derivative. *)
From Coq Require Import Reals List Arith Bool Lia Lra Psatz.
From Coquelicot Require Import Coquelicot.
From Verif.Base Require Import NpLite NpFacts Deriv.
From Verif.Spec Require Import KernelSpec.
From Verif.Model Require Import KernelSqExp KernelMatern KernelRatQuad KernelDispatch.
From Verif.Proofs Require Import KernTac KernGradBlocks ThetaGradBase.
Import ListNotations.
Local Open Scope R_scope.

Definition dgam (k : kernel) (g : R) : R := match k with Ma5f2 => 5 / (6 * g) | _ => / g end.
Definition gam (k : kernel) (t : R) : R := sqrt (gamma2 k t).
Definition pvec (k : kernel) (n g : nat) (theta : vec) : vec :=
  match k with SqExp => sq_exp_pvec n g theta | Ma5f2 => matern_pvec n g theta | RatQu => rat_pvec n g theta end.
Lemma precon_unfold k n g theta : calc_Kern_precon k n g theta =
  (gp <- calc_grad_precon_matrix n g (vmap (dgam k) (theta2gamma k theta)) ;;
   Ok (mdiag (pvec k n g theta), mdiag (vmap (fun x => / x) (pvec k n g theta)), gp)).
Proof. destruct k; reflexivity. Qed.
Lemma precon_vec_unfold k n g theta : calc_Kern_precon_vec k n g theta =
  (gp <- calc_grad_precon_vec n g (vmap (dgam k) (theta2gamma k theta)) ;;
   Ok (pvec k n g theta, vmap (fun x => / x) (pvec k n g theta), gp)).
Proof. destruct k; reflexivity. Qed.
Lemma gamma_at k theta i : vat (theta2gamma k theta) i = gam k (vat theta i).
Proof. destruct k; reflexivity. Qed.
Lemma gamma_len k theta : vlen (theta2gamma k theta) = vlen theta.
Proof. destruct k; reflexivity. Qed.
Lemma pvec_gen k n g theta : pvec k n g theta = vcat (vconst n 1) (vkron (theta2gamma k theta) (vconst g 1)).
Proof. destruct k; reflexivity. Qed.
Definition pent (k : kernel) (th : nat -> R) (a : rix) : R := match a with F _ => 1 | G i _ => gam k (th i) end.
Lemma pvec_at k n g theta a : rvalid n g (vlen theta) a -> vat (pvec k n g theta) (radr n g a) = pent k (vat theta) a.
Proof.
  intros V. rewrite pvec_gen. unfold vcat. cbn [vat vlen vconst].
  destruct a as [p|i p]; simpl in *.
  - destruct (Nat.ltb_spec p n); [reflexivity|lia].
  - destruct (Nat.ltb_spec (n + i * g + p) n); [lia|]. replace (n + i * g + p - n)%nat with (p + i * g)%nat by lia.
    rewrite Nat.div_add, Nat.div_small by lia. simpl. rewrite gamma_at. ring.
Qed.
Lemma pvec_len k n g theta : vlen (pvec k n g theta) = (n + g * vlen theta)%nat.
Proof. rewrite pvec_gen. simpl. rewrite gamma_len. lia. Qed.
Lemma gamma2_pos k t : 0 < t -> 0 < gamma2 k t.
Proof. destruct k; simpl; lra. Qed.
Lemma gam_pos k t : 0 < t -> 0 < gam k t.
Proof. intros; apply sqrt_lt_R0, gamma2_pos; assumption. Qed.
Lemma pent_pos k n g D th a : (forall i, (i < D)%nat -> 0 < th i) -> rvalid n g D a -> 0 < pent k th a.
Proof. intros H V. destruct a; simpl in *; [lra | apply gam_pos, H; tauto]. Qed.

Lemma gam_derive k t : 0 < t -> is_derive (gam k) t (dgam k (gam k t)).
Proof.
  intros Ht. unfold gam. assert (Z := gamma2_pos k t Ht). assert (S := sqrt_lt_R0 _ Z).
  eapply dR_val.
  - apply (dR_comp sqrt (gamma2 k) t) with (b := match k with Ma5f2 => 5 / 3 | _ => 2 end); [|apply dR_sqrt; exact Z].
    destruct k; unfold gamma2; (eapply dR_val; [apply dR_scal, dR_id|]; ring).
  - destruct k; unfold dgam; simpl in *; field; lra.
Qed.

(** derivative tensor *)
Definition dpent (k : kernel) (th : nat -> R) (e : nat) (a : rix) : R :=
  match a with F _ => 0 | G i _ => if (i =? e)%nat then dgam k (gam k (th e)) else 0 end.
Lemma vfill_at n g D c e a : (e < D)%nat -> rvalid n g D a ->
  vat (vfill (vconst (n + g * D) 0) (n + e * g) (n + e * g + g) c) (radr n g a) = match a with F _ => 0 | G i _ => if (i =? e)%nat then c else 0 end.
Proof.
  intros He V. unfold vfill. cbn [vat vconst].
  assert (Z := in_reg n g D (RG e) a V He). cbn [rlo rhi] in Z. rewrite Z. destruct a as [p|i p]; simpl; [reflexivity|]. rewrite Nat.eqb_sym. reflexivity.
Qed.
Lemma grad_precon_ok k n g theta :
  rok (calc_grad_precon_matrix n g (vmap (dgam k) (theta2gamma k theta))) (fun T =>
    tspec (vlen theta) (n + g * vlen theta) (n + g * vlen theta) T (fun e r c =>
      if (r =? c)%nat then dpent k (vat theta) e (unradr n g r) else 0)).
Proof.
  unfold calc_grad_precon_matrix. cbn [vlen vmap]. rewrite gamma_len. cbv zeta.
  apply slice_loop. intros e T f He HT.
  eapply rok_bind; [eapply (vget_ok _ (vlen theta) (fun i => dgam k (gam k (vat theta i)))); [|exact He]|].
  { split; [simpl; apply gamma_len|]. intros i _. simpl. rewrite gamma_at. reflexivity. }
  intros x ->. cbv zeta.
  eapply rok_mono; [eapply (tput_ok _ _ _ T f e _ _ HT He); apply mdiag_spec; apply vspec_refl|].
  intros T' (A & B & C & D0). repeat split; auto. intros e' r c He' Hr Hc. rewrite D0 by auto.
  destruct (Nat.eqb_spec e' e) as [->|]; [|reflexivity]. destruct (Nat.eqb_spec r c) as [->|]; [|reflexivity].
  destruct (unradr_ok n g (vlen theta) c Hc) as (V & E). rewrite <- E at 1. rewrite vfill_at by assumption.
  destruct (unradr n g c); reflexivity.
Qed.
Lemma grad_precon_vec_ok k n g theta :
  rok (calc_grad_precon_vec n g (vmap (dgam k) (theta2gamma k theta))) (fun T =>
    mspec (n + g * vlen theta) (vlen theta) T (fun r e => dpent k (vat theta) e (unradr n g r))).
Proof.
  unfold calc_grad_precon_vec. cbn [vlen vmap]. rewrite gamma_len. cbv zeta. set (D := vlen theta).
  eapply rok_mono.
  - apply (rok_for_range (fun j P => mspec (n + g * D) D P (fun r e => if (e <? j)%nat then dpent k (vat theta) e (unradr n g r) else 0))); [lia| |].
    + repeat split; auto.
    + intros e P (_ & He) (P1 & P2 & P3).
      eapply rok_bind; [eapply (vget_ok _ D (fun i => dgam k (gam k (vat theta i)))); [|exact He]|].
      { split; [simpl; apply gamma_len|]. intros i _. simpl. rewrite gamma_at. reflexivity. }
      intros x ->. unfold mset, mupd. rewrite P1, P2.
      assert (n + e * g + g <= n + g * D)%nat by nia.
      replace (Nat.min (n + e * g + g) (n + g * D)) with (n + e * g + g)%nat by lia. replace (Nat.min (e + 1) D) with (e + 1)%nat by lia.
      unfold bcast_to. cbn [nr nc mconst]. rewrite !orb_true_r. simpl. split; [reflexivity|]. split; [reflexivity|]. cbn [mat_at].
      intros r c Hr Hc. destruct (unradr_ok n g D r Hr) as (V & E).
      assert (Z := in_reg n g D (RG e) _ V He). cbn [rlo rhi] in Z. rewrite E in Z.
      rewrite <- andb_assoc. rewrite Z. rewrite P3 by assumption.
      assert (CC : ((e <=? c) && (c <? e + 1))%nat = (c =? e)%nat).
      { destruct (Nat.eqb_spec c e); [subst|]; natcase; auto. }
      rewrite CC. destruct (Nat.eqb_spec c e) as [->|Hn].
      * rewrite andb_true_r. destruct (Nat.ltb_spec e (S e)); [|lia]. destruct (Nat.ltb_spec e e); [lia|].
        unfold dpent. destruct (unradr n g r) as [p|i p]; simpl; [reflexivity|]. rewrite (Nat.eqb_sym e i). destruct (i =? e)%nat; reflexivity.
      * rewrite andb_false_r. destruct (Nat.ltb_spec c e), (Nat.ltb_spec c (S e)); try lia; reflexivity.
  - intros T (A & B & C). split; [exact A|split; [exact B|]]. intros r e Hr He. rewrite C by auto. destruct (Nat.ltb_spec e D); [reflexivity|lia].
Qed.

(** derivative of the diagonal entry at an address *)
Lemma pent_derive k (th : nat -> R) D e n g a : (forall i, (i < D)%nat -> 0 < th i) -> (e < D)%nat -> rvalid n g D a ->
  is_derive (fun t => pent k (upd th e t) a) (th e) (dpent k th e a).
Proof.
  intros H He V. destruct a as [p|i p]; simpl in *; [apply dR_const|].
  unfold upd. destruct (Nat.eqb_spec i e) as [->|]; [apply gam_derive, H, He | apply dR_const].
Qed.
