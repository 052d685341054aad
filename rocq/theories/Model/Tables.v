(** * Model of the tables of gpgradpy/src/base/GpInfo.py: l.124-186 [info_surr_summary], l.188-213
    [info_surr_theta], l.215-230 [info_surr_optz], l.20-36 [get_txt_info_surr].

    A table is the array handed to tabulate with its headers; the headers are the constructors of [label]
    (the strings are given beside them).  Left out: the text itself (tabulate, the list of options of l.46-122)
    and printing. *)
From Coq Require Import Reals List Arith Bool.
From Verif.Base Require Import NpLite.
From Verif.Model Require Import KernelSqExp CommonFun Rescaling History StartPts.
Import ListNotations.
Local Open Scope R_scope.

Inductive label := Lempty (* '' *) | Lindex (* ' ' *) | Lkernel (* 'Kernel' *) | Lmu (* 'Mu' *) | LvarK (* 'varK' *) | Lratio (* 'varK / var_f' *)
  | Lvar_fun (* 'hp var fun' *) | Lvar_grad (* 'hp var grad' *) | Ltheta (i : nat) (* 'theta i', 'th i' *)
  | Ltheta_min | Ltheta_max | Ltheta_median (* 'theta min', 'theta max', 'theta median' *)
  | Ltime (* 'Time' *) | Lsuccess (* 'Success (%)' *) | Lmean_i (* 'Mean i' *) | Lmax_i (* 'Max i' *) | Lcon_good (* 'Con good %' *)
  | Lcond (* 'Cond' *) | Lat_max (* 'At cond max?' *).
Record table := mktab { t_head : list label; t_rows : nat; t_cols : nat; t_at : nat -> nat -> fl }.

(** data[:,j] = f and headers[j] = l (l.141-173); headers[j] is '' before, so += is an assignment *)
Fixpoint lset (l : list label) (j : nat) (x : label) : list label :=
  match l, j with [], _ => [] | _ :: t, O => x :: t | a :: t, S k => a :: lset t k x end.
Definition tput (t : table) (j : nat) (x : label) (f : nat -> fl) : res table :=
  if j <? t_cols t then Ok (mktab (lset (t_head t) j x) (t_rows t) (t_cols t) (fun r c => if c =? j then f r else t_at t r c)) else Err EIndex.
Fixpoint tputs (t : table) (j : nat) (l : list (label * (nat -> fl))) : res table :=
  match l with [] => Ok t | (x, f) :: u => t <- tput t j x f ;; tputs t (S j) u end.
(** np.min, np.max along axis 1: NaN when one entry is *)
Definition row_fold (f : fl -> fl -> fl) (l : list fl) : fl := match l with [] => None | x :: t => fold_left f t x end.

(** l.124-186; [bf], [bg] are b_optz_var_fval and b_optz_var_fgrad (None before set_data) *)
Definition info_surr_summary (dim n_beta : nat) (bf bg : option bool) (h : hist) : res table :=
  match bf, bg with
  | Some bf, Some bg =>
      let b2n (b : bool) := if b then 1%nat else 0%nat in
      let n_data := (5 + b2n bf + b2n bg + Nat.min 3 dim)%nat in
      let t := mktab (repeat Lempty n_data) (h_n h) n_data (fun _ _ => Some 0) in
      mu <- (if 1 <=? n_beta then if 0 <? h_w h Tbeta then Ok (fun r => h_tab h Tbeta r 0) else Err EIndex else Ok (fun _ => None)) ;;
      t <- tputs t 0 [(Lindex, fun r => Some (INR r)); (Lkernel, h_col h Qkernel); (Lmu, mu); (LvarK, h_col h QvarK); (Lratio, h_col h QvarK_data_var)] ;;
      t <- (if bf then tput t 5 Lvar_fun (h_col h Qvar_fval) else Ok t) ;;
      let idx := (5 + b2n bf)%nat in
      t <- (if bg then tput t idx Lvar_grad (h_col h Qvar_fgrad) else Ok t) ;;
      let idx := (idx + b2n bg)%nat in
      let row r := map (h_tab h Ttheta r) (seq 0 (h_w h Ttheta)) in
      if dim <=? 3 then
        _ <- (if dim <=? h_w h Ttheta then Ok tt else Err EIndex) ;;
        tputs t idx (map (fun i => (Ltheta i, fun r => h_tab h Ttheta r i)) (seq 0 dim))
      else tputs t idx [(Ltheta_min, fun r => row_fold fminf (row r)); (Ltheta_max, fun r => row_fold fmaxf (row r)); (Ltheta_median, fun r => np_median (row r))]
  | _, _ => Err EType                                                   (* 5 + None *)
  end.
(** l.188-213 *)
Definition info_surr_theta (dim : nat) (h : hist) : res table :=
  if h_w h Ttheta =? dim then
    Ok (mktab (Lindex :: map Ltheta (seq 0 dim)) (h_n h) (dim + 1) (fun r c => match c with O => Some (INR r) | S k => h_tab h Ttheta r k end))
  else Err EShape.
(** l.215-230 *)
Definition info_surr_optz (h : hist) : table :=
  mktab [Lindex; Ltime; Lsuccess; Lmean_i; Lmax_i; Lcon_good; Lcond; Lat_max] (h_n h) 8
    (fun r c => nth c [Some (INR r); h_col h Qt_optz r; fmulf (h_col h Qsuccess r) 100; h_col h Qiter_mean r; h_col h Qiter_max r; fmulf (h_col h Qcon_good r) 100;
                       h_col h Qcond r; Some (if h_at_max h r then 1 else 0)] None).
(** l.20-44 *)
Definition info_surr_all_data (dim n_beta : nat) (bf bg : option bool) (h : hist) : res (list table) :=
  a <- info_surr_summary dim n_beta bf bg h ;; b <- info_surr_theta dim h ;; Ok [a; b; info_surr_optz h].
Definition get_txt_info_surr (dim n_beta : nat) (bf bg : option bool) (save2file : bool) (h : hist) : res (list table) :=
  l <- info_surr_all_data dim n_beta bf bg h ;;
  if save2file then Err EAttr else Ok l.                               (* save_txt_data and the paths are defined nowhere *)
