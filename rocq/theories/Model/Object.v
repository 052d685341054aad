(** * Model of the GaussianProcess object as a state machine: which hyperparameters, data and factorisation an
    evaluation uses (GaussianProcess.py l.219-397, GpHpara.py l.29-54 and l.102-116, GpEvalModel.py l.17-57 and
    l.59-198, GpParaDef.py).

    Python objects are modelled as far as the check of eval_model (l.105) can see them: an array field of the
    hyperparameters is the identity of a NumPy array, whose contents live in a memory that in-place writes
    change; a row of the history handed out by set_hp_from_idx is a new array object over the memory of the history.

    Simplifications.  What a call of set_data that raises leaves behind is in Model/SetDataState.v.  A scalar
    field given by the user is a new object each time (this matters for NaN only).  Hyperparameters that contain
    NaN are followed as values, but what the linear algebra does with them is not: the surrogate is then
    "unknown" ([SuNan]) and results are [Ok None].  The optimisation ('optz') is an oracle: an exception, or any
    values (Model/OptzLkd.v models it). *)
From Coq Require Import Reals List Arith Bool String.
From Verif.Base Require Import NpLite.
From Verif.Spec Require Import KernelSpec.
From Verif.Model Require Import KernelSqExp KernelMatern KernelRatQuad KernelDispatch CommonFun WellCond Rescaling GpState Chol Cov MeanFun
  HpInfo EvalModel History SetDataState.
Import ListNotations.
Local Open Scope R_scope.

(** ** fields *)
(** beta, theta: None, an array (by its identity), or a row view: an object of its own over row i of table t
    of history memory g *)
Inductive arrf := ANone | AUser (a : nat) | AView (ob g : nat) (t : tab) (i : nat).
(** kernel, varK, var_fval, var_fgrad: None or a float object with its value *)
Inductive scf := SNone | SVal (ob : nat) (v : fl).
(** GpHpara.py l.12-19 [HparaOptzVal] *)
Record hpo := mkhpo { q_beta : arrf; q_theta : arrf; q_kernel : scf; q_varK : scf; q_vf : scf; q_vg : scf }.

(** what setup_eval_model last stored: nothing yet, something computed from NaN, or a surrogate *)
Inductive surrst := SuNone | SuNan | SuOk (su : surr).

(** the object and the memory it can reach; [p_new] is the next unused identity, [p_cur] the memory of the
    current history (None: _save_data is False), [p_setup] is _hp_vals_model_setup *)
Record gp := mkgp { p_opt : gpopt; p_data : option gpdata; p_hp : option hpo; p_setup : option hpo; p_surr : surrst;
  p_arr : nat -> fvec; p_hist : nat -> hist; p_cur : option nat; p_new : nat }.
(** GaussianProcess.py l.138-190: a new object *)
Definition gp_new (o : gpopt) : gp :=
  mkgp o None None None SuNone (fun _ => mkfv 0 (fun _ => None)) (fun _ => init_optz_surr 0 0 0) None 0.

Definition upd_hp (s : gp) (q : option hpo) : gp := mkgp (p_opt s) (p_data s) q (p_setup s) (p_surr s) (p_arr s) (p_hist s) (p_cur s) (p_new s).
Definition upd_data (s : gp) (d : gpdata) : gp := mkgp (p_opt s) (Some d) (p_hp s) (p_setup s) (p_surr s) (p_arr s) (p_hist s) (p_cur s) (p_new s).
Definition upd_odata (s : gp) (d : option gpdata) : gp := mkgp (p_opt s) d (p_hp s) (p_setup s) (p_surr s) (p_arr s) (p_hist s) (p_cur s) (p_new s).
Definition upd_setup (s : gp) (q : option hpo) : gp := mkgp (p_opt s) (p_data s) (p_hp s) q (p_surr s) (p_arr s) (p_hist s) (p_cur s) (p_new s).
Definition upd_surr (s : gp) (u : surrst) : gp := mkgp (p_opt s) (p_data s) (p_hp s) (p_setup s) u (p_arr s) (p_hist s) (p_cur s) (p_new s).
Definition upd_arr (s : gp) (a : nat) (v : fvec) : gp :=
  mkgp (p_opt s) (p_data s) (p_hp s) (p_setup s) (p_surr s) (fun b => if b =? a then v else p_arr s b) (p_hist s) (p_cur s) (p_new s).
Definition upd_hist (s : gp) (g : nat) (h : hist) : gp :=
  mkgp (p_opt s) (p_data s) (p_hp s) (p_setup s) (p_surr s) (p_arr s) (fun b => if b =? g then h else p_hist s b) (p_cur s) (p_new s).
Definition upd_cur (s : gp) (g : option nat) : gp := mkgp (p_opt s) (p_data s) (p_hp s) (p_setup s) (p_surr s) (p_arr s) (p_hist s) g (p_new s).
Definition bump (s : gp) (k : nat) : gp := mkgp (p_opt s) (p_data s) (p_hp s) (p_setup s) (p_surr s) (p_arr s) (p_hist s) (p_cur s) (p_new s + k).

(** ** reading *)
Definition rd_arr (s : gp) (a : arrf) : option fvec :=
  match a with ANone => None | AUser a => Some (p_arr s a) | AView _ g t i => Some (row_of (p_hist s g) t i) end.
Definition rd_sc (x : scf) : pyf := match x with SNone => PNone | SVal _ None => PNan | SVal _ (Some v) => PNum v end.
(** the values of the hyperparameters now *)
Definition rd_hp (s : gp) (q : hpo) : hpx :=
  mkhpx (rd_arr s (q_beta q)) (rd_arr s (q_theta q)) (rd_sc (q_kernel q)) (rd_sc (q_varK q)) (rd_sc (q_vf q)) (rd_sc (q_vg q)).

(** hyperparameters without NaN, as the numerical part of the model takes them *)
Definition fv_list (v : fvec) : list fl := map (fv_at v) (seq 0 (fv_len v)).
Definition fl_some (x : fl) : bool := negb (is_nan x).
Definition fl_val (x : fl) : R := match x with Some r => r | None => 0 end.
Definition fv_real (v : fvec) : option vec :=
  if forallb fl_some (fv_list v) then Some (mkvec (fv_len v) (fun i => nth i (map fl_val (fv_list v)) 0)) else None.
Definition sc_real (p : pyf) : option (option R) := match p with PNone => Some None | PNan => None | PNum x => Some (Some x) end.
(** theta None raises; a kernel without hyperparameter never looks at the field [kernel] *)
Definition hpv_of (k : kernel) (x : hpx) : res (option hpv) :=
  match x_theta x with
  | None => Err EType
  | Some th =>
      Ok (match (match x_beta x with None => Some None | Some b => option_map Some (fv_real b) end), fv_real th,
                (if kernel_has_hp k then sc_real (x_kernel x) else Some None), sc_real (x_varK x), sc_real (x_var_fval x), sc_real (x_var_fgrad x) with
          | Some b, Some t, Some kk, Some v, Some vf, Some vg => Some (mkhp b t kk v vf vg)
          | _, _, _, _, _, _ => None
          end)
  end.

(** ** the check hp_vals == _hp_vals_model_setup: GpEvalModel.py l.105, dataclass equality, that is equality of
    tuples: field by field, an object equals itself, otherwise == and its truth value decide *)
Definition fl_eqb (a b : fl) : bool := match a, b with Some x, Some y => if Req_EM_T x y then true else false | _, _ => false end.
(** bool(a == b) for two arrays *)
Definition arr_truth (v w : fvec) : res bool :=
  if fv_len v =? fv_len w then
    if fv_len v =? 1 then Ok (fl_eqb (fv_at v 0) (fv_at w 0))
    else if fv_len v =? 0 then Ok false else Err EShape                     (* the truth value is ambiguous *)
  else if (fv_len v =? 1) || (fv_len w =? 1) then if (fv_len v =? 0) || (fv_len w =? 0) then Ok false else Err EShape
  else Ok false.
(** bool(None == a) *)
Definition none_truth (v : fvec) : res bool := if fv_len v <=? 1 then Ok false else Err EShape.
(** the same Python object (the description of an object contains its identity, so two descriptions denote the
    same object when they are equal) *)
Definition same_obj (a b : arrf) : bool :=
  match a, b with
  | ANone, ANone => true
  | AUser x, AUser y => x =? y
  | AView x g t i, AView y g' t' i' => (x =? y) && (g =? g') && (if tab_eq_dec t t' then true else false) && (i =? i')
  | _, _ => false
  end.
Definition arrf_eq (s : gp) (a b : arrf) : res bool :=
  if same_obj a b then Ok true else
  match rd_arr s a, rd_arr s b with
  | Some v, Some w => arr_truth v w
  | Some v, None | None, Some v => none_truth v
  | None, None => Ok true
  end.
Definition scf_eq (a b : scf) : bool :=
  match a, b with
  | SNone, SNone => true
  | SVal x u, SVal y v => ((x =? y) && is_nan u && is_nan v) || fl_eqb u v
  | _, _ => false
  end.
Definition hpo_eq (s : gp) (p q : hpo) : res bool :=
  b <- arrf_eq s (q_beta p) (q_beta q) ;;
  if b then
    t <- arrf_eq s (q_theta p) (q_theta q) ;;
    if t then Ok (scf_eq (q_kernel p) (q_kernel q) && scf_eq (q_varK p) (q_varK q) && scf_eq (q_vf p) (q_vf q) && scf_eq (q_vg p) (q_vg q))
    else Ok false
  else Ok false.

(** ** GpEvalModel.py l.17-57 [setup_eval_model]: the copy of hp_vals is stored before anything can fail (l.25),
    the factorisation after everything has succeeded (l.45-57) *)
Definition do_setup (condf : mat -> R) (calc_cond : bool) (s : gp) : gp * res unit :=
  let s := upd_setup s (p_hp s) in
  match p_data s, p_hp s with
  | Some d, Some q =>
      match hpv_of (o_kernel (p_opt s)) (rd_hp s q) with
      | Err e => (s, Err e)
      | Ok None => (upd_surr s SuNan, Ok tt)
      | Ok (Some hp) =>
          match setup_eval_model (p_opt s) d condf hp calc_cond with
          | Ok su => (upd_surr s (SuOk su), Ok tt)
          | Err e => (s, Err e)
          end
      end
  | _, _ => (s, Err EAttr)
  end.

(** GpEvalModel.py l.59-198 [eval_model]; [Ok None] is a result computed from NaN *)
Definition do_eval (s : gp) (x2 : mat) (calc_grad calc_hess : bool) : res (option evo) :=
  match p_surr s, p_data s, p_hp s, p_setup s with
  | SuNone, _, _, _ => Err EAttr
  | u, Some d, Some q, Some q0 =>
      _ <- match u with SuOk su => assert_ (has (k_chofac (su_K su))) | _ => Ok tt end ;;
      same <- hpo_eq s q q0 ;;
      if same then
        match u with
        | SuOk su =>
            r <- hpv_of (o_kernel (p_opt s)) (rd_hp s q) ;;
            match r with
            | Some hp => e <- eval_model (p_opt s) d hp su x2 calc_grad calc_hess ;; Ok (Some e)
            | None => Ok None
            end
        | _ => Ok None
        end
      else Err EExc
  | _, _, _, _ => Err EAttr
  end.

(** ** operations *)
(** hyperparameters as a user writes them: arrays by identity, scalars by value *)
Record hparg := mkarg { g_beta : option nat; g_theta : option nat; g_kernel : option fl; g_varK : option fl; g_vf : option fl; g_vg : option fl }.
Definition arg_arr (a : option nat) : arrf := match a with Some x => AUser x | None => ANone end.
Definition arg_sc (ob : nat) (x : option fl) : scf := match x with Some v => SVal ob v | None => SNone end.
(** GpHpara.py l.28-31 [make_hp_class] *)
Definition mk_hp (s : gp) (g : hparg) : gp * hpo :=
  let n := p_new s in
  (bump s 4, mkhpo (arg_arr (g_beta g)) (arg_arr (g_theta g)) (arg_sc n (g_kernel g)) (arg_sc (n + 1) (g_varK g)) (arg_sc (n + 2) (g_vf g)) (arg_sc (n + 3) (g_vg g))).
(** only arrays that exist can be passed *)
Definition arg_ok (s : gp) (g : hparg) : bool :=
  match g_beta g with Some a => a <? p_new s | None => true end && match g_theta g with Some a => a <? p_new s | None => true end.

(** the attributes recorded by store_new_para_surr (_vmin_req_grad is set by 'rescale_origin' only) *)
Definition hattr_of (o : gpopt) (d : gpdata) : hattr :=
  mkhattr (o_use_grad o) (Some (d_eta_Kbase d)) (match d_eta_Kgrad d with Some x => PNum x | None => PNone end)
    (match calc_dist_min (d_x d) with Ok v => v | Err _ => None end)
    (match o_well o with Wresc_origin => Some (calc_vreq (d_n_eval d) (o_dim o)) | _ => None end)
    (match d_scl d with Some r => Some (mkfv (vlen (r_scale r)) (fun i => Some (vat (r_scale r) i))) | None => None end)
    (o_cond_max o) (d_fval d).

(** GpHpara.py l.33-54 [set_hp_from_idx]: needs the history arrays; changes the two flags *)
Definition set_known (d : gpdata) (kf kg : bool) : gpdata :=
  mkdata (d_n_eval d) (d_n_grad d) (d_n_data d) (d_x d) (d_fval d) (d_std_fval d) (d_grad d) (d_std_grad d) (d_bvec d) kf kg
    (d_opt_fval d) (d_opt_fgrad d) (d_fval_zero d) (d_fgrad_zero d) (d_noisy d) (d_eta_Kbase d) (d_eta_Kgrad d) (d_etaK d) (d_scl d) (d_Rt d).
Definition view_sc (ob : nat) (p : pyf) : scf := match p with PNone => SNone | PNan => SVal ob None | PNum x => SVal ob (Some x) end.
Definition do_from_idx (i : nat) (s : gp) : gp * res unit :=
  match p_cur s with
  | None => (s, Err EAttr)
  | Some g =>
      match set_hp_from_idx (p_hist s g) i with
      | Err e => (s, Err e)
      | Ok (kf, kg, x) =>
          let n := p_new s in
          let q := mkhpo (AView n g Tbeta i) (AView (n + 1) g Ttheta i) (view_sc (n + 2) (x_kernel x)) (view_sc (n + 3) (x_varK x))
                         (view_sc (n + 4) (x_var_fval x)) (view_sc (n + 5) (x_var_fgrad x)) in
          let s := upd_hp (bump s 6) (Some q) in
          (match p_data s with Some d => upd_data s (set_known d kf kg) | None => s end, Ok tt)
      end
  end.

(** GpParaDef.py l.219-283 [store_new_para_surr] *)
Definition do_store (i : nat) (q : hpo) (info : option hinfo) (cond : pyf) (t1 t2 t3 : fl) (s : gp) : gp * res unit :=
  let s := upd_hp s (Some q) in
  match p_cur s, p_data s with
  | None, _ => (s, Ok tt)
  | Some g, Some d =>
      let r := store_row (hattr_of (p_opt s) d) i (rd_hp s q) info cond t1 t2 t3 (p_hist s g) in
      (upd_hist s g (fst r), snd r)
  | Some _, None => (s, Err EAttr)
  end.

(** the outcome of an optimisation: new arrays for beta and theta, scalars, the report, condition number, times *)
Record optout := mkout { u_beta : fvec; u_theta : fvec; u_kernel : option fl; u_varK : option fl; u_vf : option fl; u_vg : option fl;
  u_info : option hinfo; u_cond : pyf; u_t1 : fl; u_t2 : fl; u_t3 : fl }.
(** GpHparaOptz.py l.140-185 [optz_hp] *)
Definition do_optz (i : nat) (out : res optout) (s : gp) : gp * res unit :=
  match out with
  | Err e => (s, Err e)
  | Ok u =>
      let n := p_new s in
      let s := upd_arr (upd_arr (bump s 2) n (u_beta u)) (n + 1) (u_theta u) in
      let '(s, q) := mk_hp s (mkarg (Some n) (Some (n + 1)%nat) (u_kernel u) (u_varK u) (u_vf u) (u_vg u)) in
      do_store i q (u_info u) (u_cond u) (u_t1 u) (u_t2 u) (u_t3 u) s
  end.

Definition varK_pos (x : option fl) : bool := match x with None => true | Some (Some v) => if Rlt_dec 0 v then true else false | Some None => false end.

Inductive op :=
| NewArray (v : fvec)                                             (* the user creates an array *)
| WriteArray (a : nat) (v : fvec)                                 (* ... or writes into one, in place *)
| SetData (x : mat) (fval : vec) (sf : stdarg vec) (gr : option mat) (sg : stdarg mat) (b : option (list bool))
| SetCustomHp (g : hparg)
| AssignHp (g : hparg)                                            (* gp.hp_vals = ..., or its fields *)
| SetHpFromIdx (i : nat)
| SetupEval (calc_cond : bool)
| SetHparaStored (i : nat) (calc_cond : bool)                     (* set_hpara('stored', i, ...) ... *)
| SetHparaOptz (i : nat) (out : res optout) (calc_cond : bool)
| SetHparaCurrent (i : nat) (calc_cond : bool)
| SetHparaSet (g : hparg) (calc_cond : bool)
| StorePara (i : nat) (g : hparg) (info : option hinfo) (cond : pyf) (t1 t2 t3 : fl)
| InitOptz (n_max : nat)
| FinishOptz (n : nat)
| LoadData (name : string) (data : option exported).

Definition andthen (r : gp * res unit) (k : gp -> gp * res unit) : gp * res unit := match r with (s, Ok _) => k s | _ => r end.

(** one operation.  GaussianProcess.py l.365-397 [set_hpara] for the four methods *)
Definition step (condf : mat -> R) (x : op) (s : gp) : gp * res unit :=
  match x with
  | NewArray v => (upd_arr (bump s 1) (p_new s) v, Ok tt)
  | WriteArray a v => if (a <? p_new s) && (fv_len v =? fv_len (p_arr s a)) then (upd_arr s a v, Ok tt) else (s, Err EShape)
  | SetData x fval sf gr sg b =>
      (* equal to [set_data_on] on the data of the object, Proofs/SetDataFacts.v [set_data_on_eq] *)
      match set_data (p_opt s) x fval sf gr sg b with
      | Ok d => (upd_data s d, Ok tt)
      | Err e => (upd_odata s (fst (set_data_on (p_opt s) (p_data s) x fval sf gr sg b)), Err e)
      end
  | SetCustomHp g => if arg_ok s g then
        if varK_pos (g_varK g) then let '(s, q) := mk_hp s g in (upd_hp s (Some q), Ok tt) else (s, Err EAssert)
      else (s, Err EExc)
  | AssignHp g => if arg_ok s g then let '(s, q) := mk_hp s g in (upd_hp s (Some q), Ok tt) else (s, Err EExc)
  | SetHpFromIdx i => do_from_idx i s
  | SetupEval cc => do_setup condf cc s
  | SetHparaStored i cc => andthen (do_from_idx i s) (do_setup condf cc)
  | SetHparaOptz i out cc => andthen (do_optz i out s) (do_setup condf cc)
  | SetHparaCurrent i cc => if (0 <? i) && has (p_hp s) then do_setup condf cc s else (s, Err EAssert)
  | SetHparaSet g cc => if arg_ok s g then let '(s, q) := mk_hp s g in do_setup condf cc (upd_hp s (Some q)) else (s, Err EExc)
  | StorePara i g info cond t1 t2 t3 => if arg_ok s g then let '(s, q) := mk_hp s g in do_store i q info cond t1 t2 t3 s else (s, Err EExc)
  | InitOptz n => (upd_cur (upd_hist (bump s 1) (p_new s) (init_optz_surr 1 (o_dim (p_opt s)) n)) (Some (p_new s)), Ok tt)
  | FinishOptz n => match p_cur s with
      | Some g => (upd_hist s g (finish_optz_surr (p_hist s g) n), Ok tt)
      | None => (s, Err EAssert)
      end
  | LoadData name data => match p_cur s with
      | Some g => let r := load_data_surr name data (p_hist s g) in (upd_hist s g (fst r), snd r)
      | None => (s, Err EAssert)
      end
  end.
(** a program: exceptions are caught by the user, who goes on *)
Definition run (condf : mat -> R) (xs : list op) (s : gp) : gp := fold_left (fun s x => fst (step condf x s)) xs s.
