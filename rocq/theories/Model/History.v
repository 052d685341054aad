(** * Model of the hyperparameter history: gpgradpy/src/base/GpParaDef.py and set_hp_from_idx of
    gpgradpy/src/base/GpHpara.py l.33-54.

    A float of the history arrays is [Some x] or [None] for NaN.  Simplifications: iteration indices are
    natural numbers (Python's negative indices are left out); the arrays given by the user are one-dimensional;
    the arrays of one history all have the same number [h_n] of rows, as init_optz_surr and finish_optz_surr
    ensure, so that it is stored once. *)
From Coq Require Import Reals List Arith Bool String.
From Verif.Base Require Import NpLite.
From Verif.Spec Require Import KernelSpec.
From Verif.Model Require Import KernelSqExp KernelMatern KernelRatQuad KernelDispatch CommonFun WellCond Rescaling GpState.
Import ListNotations.
Local Open Scope R_scope.

Definition fl := option R.
(** a one-dimensional float array that may hold NaN *)
Record fvec := mkfv { fv_len : nat; fv_at : nat -> fl }.
(** a scalar field of the hyperparameters: None, NaN or a number *)
Inductive pyf := PNone | PNan | PNum (x : R).
(** GpHpara.py l.12-19 [HparaOptzVal], with NaN values *)
Record hpx := mkhpx { x_beta : option fvec; x_theta : option fvec; x_kernel : pyf; x_varK : pyf; x_var_fval : pyf; x_var_fgrad : pyf }.

(** assigning to a float slot: None becomes NaN *)
Definition slot (p : pyf) : fl := match p with PNum x => Some x | _ => None end.

(** the one-dimensional columns, GpParaDef.py l.25-65 *)
Inductive col := QvarK | Qvar_fval | Qvar_fgrad | Qkernel | Qmin_nugget | Qcond | Qeta_Kbase | Qeta_Kgrad
  | Qvmin_init | Qvmin_req | Qsuccess | Qiter_mean | Qiter_max | Qcon_good | Qcho_fail | Qcond2big | Qmax_init
  | Qt_pick | Qt_optz | Qt_chofac | Qdata_var | QvarK_data_var.
Definition col_eq_dec (a b : col) : {a = b} + {a <> b}. Proof. decide equality. Defined.
(** the two-dimensional ones: hp_beta_all, hp_theta_all, xvec_rescaling_all *)
Inductive tab := Tbeta | Ttheta | Txscl.
Definition tab_eq_dec (a b : tab) : {a = b} + {a <> b}. Proof. decide equality. Defined.

Record hist := mkhist { h_n : nat; h_w : tab -> nat; h_tab : tab -> nat -> nat -> fl; h_col : col -> nat -> fl; h_at_max : nat -> bool }.

(** l.20-65 [init_optz_surr]; [nb] is n_beta_coeff *)
Definition init_optz_surr (nb dim n_max : nat) : hist :=
  mkhist n_max (fun t => match t with Tbeta => nb | _ => dim end) (fun _ _ _ => None) (fun _ _ => None) (fun _ => false).
(** l.67-113 [finish_optz_surr]: slices, so nothing past the end is ever added *)
Definition finish_optz_surr (h : hist) (n : nat) : hist := mkhist (Nat.min n (h_n h)) (h_w h) (h_tab h) (h_col h) (h_at_max h).

(** one assignment; the state is kept when it raises *)
Definition hm := hist -> hist * res unit.
Definition hseq (a b : hm) : hm := fun h => match a h with (h', Ok _) => b h' | r => r end.
Definition hskip : hm := fun h => (h, Ok tt).
Definition hraise (e : err) : hm := fun h => (h, Err e).
(** arr[idx] = v *)
Definition wr_col (c : col) (i : nat) (v : fl) : hm := fun h =>
  if i <? h_n h then (mkhist (h_n h) (h_w h) (h_tab h)
      (fun c' j => if col_eq_dec c' c then if j =? i then v else h_col h c' j else h_col h c' j) (h_at_max h), Ok tt)
  else (h, Err EIndex).
Definition wr_max (i : nat) (b : bool) : hm := fun h =>
  if i <? h_n h then (mkhist (h_n h) (h_w h) (h_tab h) (h_col h) (fun j => if j =? i then b else h_at_max h j), Ok tt)
  else (h, Err EIndex).
(** arr[idx,:] = v: None fills with NaN, an array must have the width of the table or length one *)
Definition wr_row (t : tab) (i : nat) (v : option fvec) : hm := fun h =>
  if i <? h_n h then
    match v with
    | None => (mkhist (h_n h) (h_w h) (fun t' j k => if tab_eq_dec t' t then if j =? i then None else h_tab h t' j k else h_tab h t' j k)
                 (h_col h) (h_at_max h), Ok tt)
    | Some w => if (fv_len w =? h_w h t) || (fv_len w =? 1) then
        (mkhist (h_n h) (h_w h)
           (fun t' j k => if tab_eq_dec t' t then if j =? i then fv_at w (bix (fv_len w) k) else h_tab h t' j k else h_tab h t' j k)
           (h_col h) (h_at_max h), Ok tt)
        else (h, Err EShape)
    end
  else (h, Err EIndex).

(** the report of an optimisation, OptzLkd.py l.315-321: the last three entries are always there *)
Record hinfo := mkhinfo { hi_success : option fl; hi_iter_mean : option fl; hi_iter_max : option fl; hi_con_good : option fl;
  hi_cho_fail : fl; hi_cond2big : fl; hi_max_init : fl }.
Definition wr_opt (c : col) (i : nat) (v : option fl) : hm := match v with Some x => wr_col c i x | None => hskip end.
(** the attributes of the object that store_new_para_surr records: _eta_Kbase, _eta_Kgrad (None without
    gradients), _vmin_init, _vmin_req_grad, DataScl.xvec_scale when the data are rescaled, use_grad, cond_max *)
Record hattr := mkhattr { ha_use_grad : bool; ha_eta_b : fl; ha_eta_g : pyf; ha_vmin : fl; ha_vreq : fl;
  ha_xscl : option fvec; ha_cond_max : R; ha_fval : vec }.
(** np.var *)
Definition np_var (v : vec) : R :=
  let n := INR (vlen v) in
  let m := fold_right Rplus 0 (map (vat v) (seq 0 (vlen v))) / n in
  fold_right Rplus 0 (map (fun i => (vat v i - m) ^ 2) (seq 0 (vlen v))) / n.
Definition fl_div (a : fl) (b : R) : fl := option_map (fun x => x / b) a.

(** l.219-283 [store_new_para_surr] once self.hp_vals has been set and when _save_data is True *)
Definition store_row (a : hattr) (i : nat) (hp : hpx) (info : option hinfo) (cond : pyf) (t_optz t_chofac t_pick : fl) : hm :=
  hseq (wr_col Qt_optz i t_optz) (
  hseq (wr_col Qt_chofac i t_chofac) (
  hseq (wr_col Qt_pick i t_pick) (
  hseq (wr_row Tbeta i (x_beta hp)) (
  hseq (wr_row Ttheta i (x_theta hp)) (
  hseq (wr_col Qkernel i (slot (x_kernel hp))) (
  hseq (wr_col QvarK i (slot (x_varK hp))) (
  hseq (wr_col Qvar_fval i (slot (x_var_fval hp))) (
  hseq (wr_col Qvar_fgrad i (slot (x_var_fgrad hp))) (
  hseq (wr_col Qmin_nugget i (if ha_use_grad a then slot (ha_eta_g a) else ha_eta_b a)) (
  hseq (wr_col Qcond i (slot cond)) (
  hseq (match cond with
        | PNone => hraise EType                      (* None >= float *)
        | PNan => wr_max i false
        | PNum c => wr_max i (if Rle_dec (99 / 100 * ha_cond_max a) c then true else false)
        end) (
  hseq (wr_col Qeta_Kbase i (ha_eta_b a)) (
  hseq (wr_col Qeta_Kgrad i (slot (ha_eta_g a))) (
  hseq (wr_col Qvmin_init i (ha_vmin a)) (
  hseq (wr_col Qvmin_req i (ha_vreq a)) (
  hseq (match ha_xscl a with Some s => wr_row Txscl i (Some s) | None => hskip end) (
  hseq (match info with
        | None => hskip
        | Some f =>
            hseq (wr_opt Qsuccess i (hi_success f)) (hseq (wr_opt Qiter_mean i (hi_iter_mean f)) (
            hseq (wr_opt Qiter_max i (hi_iter_max f)) (hseq (wr_opt Qcon_good i (hi_con_good f)) (
            hseq (wr_col Qcho_fail i (hi_cho_fail f)) (hseq (wr_col Qcond2big i (hi_cond2big f)) (wr_col Qmax_init i (hi_max_init f)))))))
        end) (
  hseq (wr_col Qdata_var i (Some (np_var (ha_fval a)))) (
  if Rlt_dec 0 (np_var (ha_fval a)) then
    fun h => wr_col QvarK_data_var i (fl_div (h_col h QvarK i) (np_var (ha_fval a))) h
  else hskip))))))))))))))))))).

(** GpHpara.py l.33-54 [set_hp_from_idx]: the new known_eps_fval, known_eps_fgrad and hp_vals.  (The arrays of
    the result are views of the history; Model/Object.v models that.) *)
Definition num_or_none (v : fl) : pyf := match v with Some x => PNum x | None => PNone end.
Definition num_or_nan (v : fl) : pyf := match v with Some x => PNum x | None => PNan end.
Definition is_nan (v : fl) : bool := match v with None => true | _ => false end.
Definition row_of (h : hist) (t : tab) (i : nat) : fvec := mkfv (h_w h t) (h_tab h t i).
Definition set_hp_from_idx (h : hist) (i : nat) : res (bool * bool * hpx) :=
  if i <? h_n h then
    Ok (is_nan (h_col h Qvar_fval i), is_nan (h_col h Qvar_fgrad i),
        mkhpx (Some (row_of h Tbeta i)) (Some (row_of h Ttheta i)) (num_or_nan (h_col h Qkernel i)) (num_or_nan (h_col h QvarK i))
              (num_or_none (h_col h Qvar_fval i)) (num_or_none (h_col h Qvar_fgrad i)))
  else Err EIndex.

(** l.171-217 [export_data_surr]: the dictionary is the prefix of its keys together with the arrays (which are
    those of the history itself, not copies).  With save2file=True the code reads the attributes
    path_data_surr_npz and path_data_surr_old_npz, which are defined nowhere, when no path is given, and then
    calls the method save_npz_data, which is defined nowhere either. *)
Record exported := mkexp { ex_name : string; ex_hist : hist }.
Definition export_data_surr (name : string) (h : hist) (save2file : bool) (file2save file2save_old : option string) : res exported :=
  if save2file then
    match file2save, file2save_old with
    | None, _ | _, None => Err EAttr     (* self.path_data_surr_npz *)
    | Some _, Some _ => Err EAttr        (* self.save_npz_data *)
    end
  else Ok (mkexp name h).

(** target[:idx] = source, for a source of [m] rows, a target of [n] rows and idx = min(m, n): only m <= n and,
    by broadcasting, m = 1 are accepted; a source column of width one is spread *)
Definition ld_tab (t : tab) (idx : nat) (src : hist) : hm := fun h =>
  if ((Nat.min idx (h_n h) =? h_n src) || (h_n src =? 1)) && ((h_w src t =? h_w h t) || (h_w src t =? 1)) then
    (mkhist (h_n h) (h_w h)
       (fun t' j k => if tab_eq_dec t' t then
            if j <? Nat.min idx (h_n h) then h_tab src t (bix (h_n src) j) (bix (h_w src t) k) else h_tab h t' j k else h_tab h t' j k)
       (h_col h) (h_at_max h), Ok tt)
  else (h, Err EShape).
Definition ld_col (c : col) (idx : nat) (src : hist) : hm := fun h =>
  if (Nat.min idx (h_n h) =? h_n src) || (h_n src =? 1) then
    (mkhist (h_n h) (h_w h) (h_tab h)
       (fun c' j => if col_eq_dec c' c then
            if j <? Nat.min idx (h_n h) then h_col src c (bix (h_n src) j) else h_col h c' j else h_col h c' j) (h_at_max h), Ok tt)
  else (h, Err EShape).
Definition ld_max (idx : nat) (src : hist) : hm := fun h =>
  if (Nat.min idx (h_n h) =? h_n src) || (h_n src =? 1) then
    (mkhist (h_n h) (h_w h) (h_tab h) (h_col h)
       (fun j => if j <? Nat.min idx (h_n h) then h_at_max src (bix (h_n src) j) else h_at_max h j), Ok tt)
  else (h, Err EShape).
(** l.115-169 [load_data_surr] with a dictionary; without one the code reads the attribute path_data_acq_npz,
    which is defined nowhere.  idx is the size of hp_beta_all, l.127.  A missing key (KeyError) is EIndex here. *)
Definition load_data_surr (name : string) (data : option exported) : hm := fun h =>
  match data with
  | None => (h, Err EAttr)
  | Some e =>
      if String.eqb name (ex_name e) then
        let s := ex_hist e in
        let idx := (h_n s * h_w s Tbeta)%nat in
        hseq (ld_tab Tbeta idx s) (hseq (ld_col QvarK idx s) (hseq (ld_col Qvar_fval idx s) (hseq (ld_col Qvar_fgrad idx s) (
        hseq (ld_tab Ttheta idx s) (hseq (ld_col Qkernel idx s) (hseq (ld_col Qmin_nugget idx s) (hseq (ld_col Qcond idx s) (
        hseq (ld_max idx s) (hseq (ld_col Qeta_Kbase idx s) (hseq (ld_col Qeta_Kgrad idx s) (hseq (ld_col Qvmin_init idx s) (
        hseq (ld_col Qvmin_req idx s) (hseq (ld_tab Txscl idx s) (hseq (ld_col Qsuccess idx s) (hseq (ld_col Qiter_mean idx s) (
        hseq (ld_col Qiter_max idx s) (hseq (ld_col Qcon_good idx s) (hseq (ld_col Qcho_fail idx s) (hseq (ld_col Qcond2big idx s) (
        hseq (ld_col Qmax_init idx s) (hseq (ld_col Qt_pick idx s) (hseq (ld_col Qt_optz idx s) (hseq (ld_col Qt_chofac idx s) (
        hseq (ld_col Qdata_var idx s) (ld_col QvarK_data_var idx s))))))))))))))))))))))))) h
      else (h, Err EIndex)
  end.
