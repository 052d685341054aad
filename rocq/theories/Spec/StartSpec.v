(** * Specification for C22 and C39: medians, the box of a hyperparameter, an admissible sampler *)
From Coq Require Import Reals List Arith Bool Permutation Sorted.
From Verif.Base Require Import NpLite.
From Verif.Spec Require Import KernelSpec GpSpec HpSpec.
From Verif.Model Require Import CommonFun KernelDispatch Rescaling GpState HpInfo Lkd History StartPts.
Import ListNotations.
Local Open Scope R_scope.

(** [m] is the median of the numbers [l]: the middle one once they are sorted, or the mean of the two middle ones *)
Definition is_median (l : list R) (m : R) : Prop :=
  l <> [] /\ exists s, Permutation l s /\ StronglySorted Rle s /\ m = (nth ((List.length s - 1) / 2) s 0 + nth (List.length s / 2) s 0) / 2.
(** the past value of a hyperparameter in row r of the history, and the range the user allows for it *)
Definition past (h : hist) (s : hslot) (r : nat) : fl :=
  match s with
  | HTheta e => h_tab h Ttheta r e
  | HKernel => h_col h Qkernel r | HVarK => h_col h QvarK r | HVarF => h_col h Qvar_fval r | HVarG => h_col h Qvar_fgrad r
  end.
Definition allowed (xo : x0opt) (s : hslot) : fl * fl :=
  match s with HTheta _ => xo_theta xo | HKernel => xo_kernel xo | HVarK => xo_varK xo | HVarF => xo_vf xo | HVarG => xo_vg xo end.
(** the iterations that are looked at: those from i - n_idx to i - 1 that exist *)
Definition recent (h : hist) (n_idx i : nat) (r : nat) : Prop := (i <= r + n_idx)%nat /\ (r < i)%nat /\ (r < h_n h)%nat.
(** the interval around the median [m], by a factor [f] in both directions, within the range *)
Definition around (m f lo hi : R) : R * R := let c := Rmin (Rmax m lo) hi in (Rmax (c / f) lo, Rmin (c * f) hi).

(** a sampler: as many points as asked for, each with one coordinate within each pair of limits *)
Definition samples_within (lhs : sampler) : Prop :=
  forall (lim : list (fl * fl)) (n : nat), (forall p, In p lim -> exists a b, p = (Some a, Some b) /\ a <= b) ->
  List.length (lhs lim n) = n /\
  forall x, In x (lhs lim n) -> fv_len x = List.length lim /\
    forall j a b, nth_error lim j = Some (Some a, Some b) -> exists t, fv_at x j = Some t /\ a <= t <= b.

(** ** C39.  What the code computes at a start point: likelihood and condition number, both missing when the
    factorisation failed *)
Definition evaluated (la : npla) (o : gpopt) (d : gpdata) (lo : lkopt) (info : hpinfo) (calc_cond : bool) (x : fvec) (ln cond : fl) : Prop :=
  exists v hp r, (vlen v = fv_len x /\ forall j, (j < fv_len x)%nat -> fv_at x j = Some (vat v j)) /\
    hp_vec2dataclass d info v = Ok hp /\ calc_lkd_all la o d lo info hp calc_cond false (lk_adj lo) = Ok r /\
    (ln, cond) = if snd r then (l_ln (fst r), l_cond (fst r)) else (None, None).
(** condition number more than 20 % above the limit (a missing one is not) *)
Definition over_limit (cond_max : R) (c : fl) : Prop := exists x, c = Some x /\ 12 / 10 * cond_max < x.
(** [k] is a right choice among points with the given likelihoods and condition numbers: the most likely one of
    those that are not over the limit or, when all of them are, one of least condition number *)
Definition best_start (calc_cond : bool) (cond_max : R) (vals : list (fl * fl)) (k : nat) : Prop :=
  exists y c, nth_error vals k = Some (Some y, c) /\
    let over c := calc_cond = true /\ over_limit cond_max c in
    (~ over c /\ forall k' y' c', nth_error vals k' = Some (Some y', c') -> ~ over c' -> y' <= y) \/
    ((forall k' p, nth_error vals k' = Some p -> over (snd p)) /\
     exists x, c = Some x /\ forall k' p x', nth_error vals k' = Some p -> snd p = Some x' -> x <= x').
