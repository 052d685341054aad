(** * Independent specification vocabulary for the rescaling of data. *)
From Coq Require Import Reals List Arith Bool.
From Coquelicot Require Import Coquelicot.
From Verif.Base Require Import NpLite.
From Verif.Spec Require Import KernelSpec LinAlgSpec.
From Verif.Model Require Import Rescaling.
Local Open Scope R_scope.

(** image of a point: shift, then scale each coordinate; and back *)
Definition scaled (sh s : vec) (x : pt) : pt := fun i => (x i - vat sh i) * vat s i.
Definition unscaled (sh s : vec) (u : pt) : pt := fun i => u i / vat s i + vat sh i.
(** box and linear constraints; [A] has one row per constraint *)
Definition in_box (d : nat) (lb ub : vec) (x : pt) : Prop := forall i, (i < d)%nat -> vat lb i <= x i <= vat ub i.
Definition in_lin (A : mat) (lb ub : vec) (x : pt) : Prop := forall r, (r < nr A)%nat -> vat lb r <= mv A x r <= vat ub r.
(** functions of the first d coordinates *)
Definition local (d : nat) (f : pt -> R) : Prop := forall x y, (forall i, (i < d)%nat -> x i = y i) -> f x = f y.
(** the scaled function of the scaled variable *)
Definition scaled_fun (sh s : vec) (osh osc : R) (f : pt -> R) : pt -> R := fun u => (f (unscaled sh s u) - osh) * osc.
Definition is_partial (f : pt -> R) (i : nat) (x : pt) (v : R) : Prop := is_derive (fun t => f (upd x i t)) (x i) v.
(** [v] = d/dx_i of [g] where [g] is d f/dx_j everywhere *)
Definition is_partial2 (f : pt -> R) (i j : nat) (x : pt) (v : R) : Prop :=
  exists g, (forall y, is_partial f j y (g y)) /\ is_partial g i x v.
(** points are not all the same *)
Definition spread (X : mat) : Prop :=
  exists p q i, (p < nr X)%nat /\ (q < nr X)%nat /\ (i < nc X)%nat /\ mat_at X p i <> mat_at X q i.
(** legitimate settings of a scaling object: a positive distance, and for 'set_vmax' points that differ *)
Definition scale_cfg_ok (X : mat) (m : xmtd) (dst : option R) : Prop :=
  (forall v, dst = Some v -> 0 < v) /\ (m = Xvmax -> (2 <= nr X)%nat -> spread X).

(** Histories of a scaling object: construction followed by any sequence of method calls. *)
Inductive call :=
| CXscale (shift_in scale_in : option vec)
| CObj (o : objdata) (use_shift dflt_max : bool)
| CObjScl (shift scale : option R)
| CNlc (n_eval : nat) (m : nlcmtd)
| CBox (lb ub : vec)
| CLin (A : mat) (lb ub : vec).
Definition do_call (r : resc) (c : call) : res resc :=
  match c with
  | CXscale a b => set_xscale_data r a b
  | CObj o us dm => set_obj_data r o us dm
  | CObjScl a b => set_obj_scaling r a b
  | CNlc n m => set_nlc_data r n m
  | CBox l u => set_boxcon r l u
  | CLin A l u => set_lincon r A l u
  end.
Fixpoint do_calls (r : resc) (l : list call) : res resc :=
  match l with nil => Ok r | cons c t => r' <- do_call r c ;; do_calls r' t end.
(** the user does not ask for a function scale that is not positive *)
Definition call_pos (c : call) : Prop := match c with CObjScl _ (Some v) => 0 < v | _ => True end.
