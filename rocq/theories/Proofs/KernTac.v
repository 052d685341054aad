(** Tactics stepping through NpLite programs. *)
From Coq Require Import Reals List Arith Bool Lia Lra.
From Verif.Base Require Import NpLite NpFacts.
Import ListNotations.
Local Open Scope R_scope.

Ltac mspec_tac :=
  lazymatch goal with
  | |- mspec _ _ (mscal _ _) _ => eapply mscal_spec; mspec_tac
  | |- mspec _ _ (mmap _ _) _ => eapply mmap_spec; mspec_tac
  | |- mspec _ _ (mtrans _) _ => eapply mtrans_spec; mspec_tac
  | |- mspec _ _ (mconst _ _ _) _ => eapply mconst_spec
  | |- mspec _ _ (mdiag _) _ => eapply mdiag_spec; mspec_tac
  | |- mspec _ _ (meye _) _ => eapply meye_spec
  | |- tspec _ _ _ (tmap _ _) _ => eapply tmap_spec; mspec_tac
  | |- vspec _ (vmap _ _) _ => eapply vmap_spec; mspec_tac
  | |- mspec _ _ (mslice _ _ _ _ _) _ => idtac
  | |- _ => eassumption
  end.

(** one [x <- m ;; ...] whose [m] is an elementary read or an elementwise operation *)
Ltac mstep1 :=
  lazymatch goal with
  | |- rok (bind (vget _ _) _) _ =>
      let x := fresh "th" in let Hx := fresh "H" x in
      eapply rok_bind; [eapply vget_ok; [eassumption | first [lia | assumption]] | intros x Hx; cbv beta in Hx; subst x]
  | |- rok (bind (tget _ _) _) _ =>
      let x := fresh "Rm" in let Hx := fresh "H" x in
      eapply rok_bind; [eapply tget_ok; [mspec_tac | first [lia | assumption]] | intros x Hx; cbv beta in Hx]
  | |- rok (bind (mmul _ _) _) _ =>
      let x := fresh "v" in let Hx := fresh "H" x in
      eapply rok_bind; [eapply mzip_ok; mspec_tac | intros x Hx; cbv beta in Hx]
  | |- rok (bind (madd _ _) _) _ =>
      let x := fresh "v" in let Hx := fresh "H" x in
      eapply rok_bind; [eapply mzip_ok; mspec_tac | intros x Hx; cbv beta in Hx]
  | |- rok (bind (msub _ _) _) _ =>
      let x := fresh "v" in let Hx := fresh "H" x in
      eapply rok_bind; [eapply mzip_ok; mspec_tac | intros x Hx; cbv beta in Hx]
  | |- rok (bind (assert_ _) _) _ => eapply rok_bind; [ | intros _ _]
  end.
Ltac msteps := repeat (cbv beta zeta; mstep1).

(** block updates: regions given explicitly *)
Ltac off_tac := first [reflexivity | cbn [rlo rhi]; lia].
Ltac bupd r1 r2 :=
  cbv beta zeta; eapply rok_bind;
  [ eapply (mupd_b _ _ _ _ _ _ _ _ _ r1 r2);
    [ eassumption | simpl; first [exact I | lia | assumption] | simpl; first [exact I | lia | assumption]
    | off_tac | off_tac | off_tac | off_tac
    | simpl; mspec_tac ]
  | let x := fresh "KG" in let Hx := fresh "H" x in intros x Hx; cbv beta in Hx ].
Ltac bupd_last r1 r2 :=
  cbv beta zeta; eapply rok_mono;
  [ eapply (mupd_b _ _ _ _ _ _ _ _ _ r1 r2);
    [ eassumption | simpl; first [exact I | lia | assumption] | simpl; first [exact I | lia | assumption]
    | off_tac | off_tac | off_tac | off_tac
    | simpl; mspec_tac ]
  | let x := fresh "KG" in let Hx := fresh "H" x in intros x Hx; cbv beta in Hx ].
Ltac tbupd r1 r2 :=
  cbv beta zeta; eapply rok_bind;
  [ eapply (tupd_b _ _ _ _ _ _ _ _ _ _ _ r1 r2);
    [ eassumption | first [lia | assumption]
    | simpl; first [exact I | lia | assumption] | simpl; first [exact I | lia | assumption]
    | off_tac | off_tac | off_tac | off_tac
    | simpl; mspec_tac ]
  | let x := fresh "KG" in let Hx := fresh "H" x in intros x Hx; cbv beta in Hx ].
Ltac tbupd_last r1 r2 :=
  cbv beta zeta; eapply rok_mono;
  [ eapply (tupd_b _ _ _ _ _ _ _ _ _ _ _ r1 r2);
    [ eassumption | first [lia | assumption]
    | simpl; first [exact I | lia | assumption] | simpl; first [exact I | lia | assumption]
    | off_tac | off_tac | off_tac | off_tac
    | simpl; mspec_tac ]
  | let x := fresh "KG" in let Hx := fresh "H" x in intros x Hx; cbv beta in Hx ].

(** case analysis on nat comparisons *)
Ltac natcase :=
  repeat match goal with
  | |- context [Nat.eqb ?a ?b] => destruct (Nat.eqb_spec a b); simpl; try lia
  | |- context [Nat.ltb ?a ?b] => destruct (Nat.ltb_spec a b); simpl; try lia
  | |- context [Nat.leb ?a ?b] => destruct (Nat.leb_spec a b); simpl; try lia
  end.

(** block updates with the written values given in closed form [v]; [tac] proves the entries *)
Ltac bupdf r1 r2 v tac :=
  cbv beta zeta; eapply rok_bind;
  [ eapply (mupd_b _ _ _ _ _ _ _ _ _ r1 r2 _ v);
    [ eassumption | simpl; first [exact I | lia | assumption] | simpl; first [exact I | lia | assumption]
    | off_tac | off_tac | off_tac | off_tac
    | eapply mspec_ext; [simpl; mspec_tac | cbv beta; tac] ]
  | let x := fresh "KG" in let Hx := fresh "H" x in intros x Hx; cbv beta in Hx ].
Ltac bupdf_last r1 r2 v tac :=
  cbv beta zeta; eapply rok_mono;
  [ eapply (mupd_b _ _ _ _ _ _ _ _ _ r1 r2 _ v);
    [ eassumption | simpl; first [exact I | lia | assumption] | simpl; first [exact I | lia | assumption]
    | off_tac | off_tac | off_tac | off_tac
    | eapply mspec_ext; [simpl; mspec_tac | cbv beta; tac] ]
  | let x := fresh "KG" in let Hx := fresh "H" x in intros x Hx; cbv beta in Hx ].
Ltac tbupdf r1 r2 v tac :=
  cbv beta zeta; eapply rok_bind;
  [ eapply (tupd_b _ _ _ _ _ _ _ _ _ _ _ r1 r2 _ v);
    [ eassumption | first [lia | assumption]
    | simpl; first [exact I | lia | assumption] | simpl; first [exact I | lia | assumption]
    | off_tac | off_tac | off_tac | off_tac
    | eapply mspec_ext; [simpl; mspec_tac | cbv beta; tac] ]
  | let x := fresh "KG" in let Hx := fresh "H" x in intros x Hx; cbv beta in Hx ].
Ltac tbupdf_last r1 r2 v tac :=
  cbv beta zeta; eapply rok_mono;
  [ eapply (tupd_b _ _ _ _ _ _ _ _ _ _ _ r1 r2 _ v);
    [ eassumption | first [lia | assumption]
    | simpl; first [exact I | lia | assumption] | simpl; first [exact I | lia | assumption]
    | off_tac | off_tac | off_tac | off_tac
    | eapply mspec_ext; [simpl; mspec_tac | cbv beta; tac] ]
  | let x := fresh "KG" in let Hx := fresh "H" x in intros x Hx; cbv beta in Hx ].
