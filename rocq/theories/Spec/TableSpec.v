(** * Specification for C46: what a column of a summary table shows *)
From Coq Require Import Reals List Arith Bool.
From Verif.Base Require Import NpLite.
From Verif.Spec Require Import KernelSpec GpSpec HpSpec StartSpec.
From Verif.Model Require Import CommonFun Rescaling History StartPts Tables.
Import ListNotations.
Local Open Scope R_scope.

(** NaN as soon as one of the numbers is, otherwise a number with the property P *)
Definition of_row (l : list fl) (P : list R -> R -> Prop) (v : fl) : Prop :=
  (In None l /\ v = None) \/ exists r x, l = map Some r /\ v = Some x /\ P r x.
Definition least (l : list R) (x : R) : Prop := In x l /\ forall y, In y l -> x <= y.
Definition greatest (l : list R) (x : R) : Prop := In x l /\ forall y, In y l -> y <= x.
(** the entry [v] in the row of iteration [r] under the header [x] is what the history says about that iteration *)
Definition shows (h : hist) (n_beta : nat) (x : label) (r : nat) (v : fl) : Prop :=
  let thetas := map (h_tab h Ttheta r) (seq 0 (h_w h Ttheta)) in
  match x with
  | Lempty => False
  | Lindex => v = Some (INR r)
  | Lkernel => v = h_col h Qkernel r
  | Lmu => v = if (n_beta =? 0)%nat then None else h_tab h Tbeta r 0
  | LvarK => v = h_col h QvarK r
  | Lratio => v = h_col h QvarK_data_var r
  | Lvar_fun => v = h_col h Qvar_fval r
  | Lvar_grad => v = h_col h Qvar_fgrad r
  | Ltheta i => v = h_tab h Ttheta r i
  | Ltheta_min => of_row thetas least v
  | Ltheta_max => of_row thetas greatest v
  | Ltheta_median => of_row thetas is_median v
  | Ltime => v = h_col h Qt_optz r
  | Lsuccess => v = option_map (fun p => 100 * p) (h_col h Qsuccess r)
  | Lmean_i => v = h_col h Qiter_mean r
  | Lmax_i => v = h_col h Qiter_max r
  | Lcon_good => v = option_map (fun p => 100 * p) (h_col h Qcon_good r)
  | Lcond => v = h_col h Qcond r
  | Lat_max => v = Some (if h_at_max h r then 1 else 0)
  end.
(** a table with one row per iteration whose every column shows what its header says *)
Definition right_table (h : hist) (n_beta : nat) (heads : list label) (t : table) : Prop :=
  t_head t = heads /\ t_rows t = h_n h /\ t_cols t = List.length heads /\
  forall c x r, nth_error heads c = Some x -> (r < h_n h)%nat -> shows h n_beta x r (t_at t r c).
(** the headers of the first table *)
Definition summary_heads (dim : nat) (opt_fval opt_fgrad : bool) : list label :=
  [Lindex; Lkernel; Lmu; LvarK; Lratio] ++ (if opt_fval then [Lvar_fun] else []) ++ (if opt_fgrad then [Lvar_grad] else []) ++
  (if (dim <=? 3)%nat then map Ltheta (seq 0 dim) else [Ltheta_min; Ltheta_max; Ltheta_median]).
