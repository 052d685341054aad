(** * Specification for C48: the documented arguments of the constructor *)
From Coq Require Import Reals List ZArith Bool String.
From Verif.Spec Require Import KernelSpec.
From Verif.Model Require Import WellCond GpState Construct.
Import ListNotations.
Local Open Scope string_scope.

Definition kernel_names : list (string * kernel) := [("SqExp", SqExp); ("Ma5f2", Ma5f2); ("RatQu", RatQu)].
Definition method_names : list (string * wmtd) :=
  [("base", Wbase); ("precon", Wprecon); ("rescale_origin", Wresc_origin); ("rescale_eta_vary", Wresc_vary); ("dflt_vmin", Wdflt_vmin); ("dflt_vmax", Wdflt_vmax)].
(** integers, True and False included *)
Definition is_int (v : pyval) (z : Z) : Prop := v = VInt z \/ (v = VBool true /\ z = 1%Z) \/ (v = VBool false /\ z = 0%Z).
Definition names {A} (l : list (string * A)) (v : pyval) (a : A) : Prop := exists s, v = VStr s /\ In (s, a) l.
(** the same object but for the bound of the constraint that a method without a constraint does not use *)
Definition same_but_bound (a b : newgp) : Prop :=
  n_dim a = n_dim b /\ n_use_grad a = n_use_grad b /\ n_kernel a = n_kernel b /\ n_well a = n_well b /\ n_cstr a = n_cstr b /\ n_scl a = n_scl b /\
  n_eta_const a = n_eta_const b /\ n_cond_max a = n_cond_max b /\ (n_cstr b = true -> n_nlc a = n_nlc b).
