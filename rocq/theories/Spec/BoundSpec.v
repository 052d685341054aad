(** * Specification for C45: intervals around past values *)
From Coq Require Import Reals List Arith Bool.
From Verif.Base Require Import NpLite.
From Verif.Spec Require Import KernelSpec GpSpec HpSpec StartSpec.
From Verif.Model Require Import CommonFun WellCond KernelDispatch Rescaling GpState HpInfo Lkd History StartPts.
Import ListNotations.
Local Open Scope R_scope.

(** the part of the range [a, b] that lies within the fraction [f] of its length, in orders of magnitude, of the
    value nearest to 10^m in it *)
Definition near (m f a b : R) : R * R :=
  let c := Rmin (Rmax m (log10 a)) (log10 b) in let w := f * (log10 b - log10 a) in
  (pow10 (Rmax (log10 a) (c - w)), pow10 (Rmin (log10 b) (c + w))).
(** past values of the kind of hyperparameter [s] belongs to: all length scales together *)
Definition past_kind (h : hist) (s : hslot) (rows : list nat) : list fl :=
  match s with HTheta _ => flat_map (fun r => map (h_tab h Ttheta r) (seq 0 (h_w h Ttheta))) rows | _ => map (past h s) rows end.
(** [m]: the order of magnitude of the median of the past values [l]; for length scales the median of the orders of
    magnitude *)
Definition magnitude (s : hslot) (l : list R) (m : R) : Prop :=
  match s with HTheta _ => is_median (map log10 l) m | _ => exists v, is_median l v /\ m = log10 v end.
(** whether the past restricts this hyperparameter at iteration [i]: never that of the kernel, and the variances varK
    and var_fval only after iteration const_n + 1 *)
Definition restricted (cstr : bool) (const_n i : nat) (s : hslot) : bool :=
  cstr && negb (i =? 0)%nat && match s with HKernel => false | HVarK | HVarF => (const_n + 1 <? i)%nat | _ => true end.
