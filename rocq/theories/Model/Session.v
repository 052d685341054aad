(** * A whole session: the object of Model/Object.v with the optimisation of Model/OptzHp.v inside it
    (GaussianProcess.py l.340 and l.365-397, GpHparaOptz.py l.140-198, GpHpara.py l.25-26, GpParaDef.py l.219-283).
    Object.v takes the outcome of an optimisation as given; here it is computed from the data of the object, the
    history and the external programs (sampler, optimiser, NumPy). *)
From Coq Require Import Reals List Arith Bool String.
From Verif.Base Require Import NpLite.
From Verif.Spec Require Import KernelSpec.
From Verif.Model Require Import KernelDispatch CommonFun WellCond Rescaling GpState Chol Cov MeanFun HpInfo Lkd OptzLkd EvalModel History StartPts OptzHp SetDataState Object.
Import ListNotations.
Local Open Scope R_scope.

(** the object of Object.v; the options of the likelihood and of the optimisation; hp_info_optz_lkd (set by
    set_data); _last_hp_vec and the values stored with it *)
Record sess := mksess { z_gp : gp; z_lk : lkopt; z_cfg : optzcfg; z_info : option hpinfo; z_last : lastkey; z_store : option stored }.
(** GaussianProcess.py l.138-190 and GpHpara.py l.25-26: a new object *)
Definition z_new (o : gpopt) (lo : lkopt) (c : optzcfg) : sess := mksess (gp_new o) lo c None LNone None.
Definition with_gp (z : sess) (s : gp) : sess := mksess s (z_lk z) (z_cfg z) (z_info z) (z_last z) (z_store z).

(** float arrays *)
Definition fvec_of (v : vec) : fvec := mkfv (vlen v) (fun i => Some (vat v i)).
(** OptzLkd.py l.315-321: the report [surr_optz_info] as store_new_para_surr reads it *)
Definition hinfo_of (r : optzinfo) : hinfo :=
  mkhinfo (Some (Some (oi_success r))) (Some (Some (oi_iter_mean r))) (Some (Some (INR (oi_iter_max r)))) (Some (Some (oi_con_good r)))
    (Some (INR (is_fail (oi_init r)))) (Some (INR (is_big (oi_init r)))) (is_max (oi_init r)).
Definition pyf_of (x : option R) : pyf := match x with Some v => PNum v | None => PNone end.

(** GpHparaOptz.py l.184: store_new_para_surr with the hyperparameters found (new arrays) *)
Definition do_found (i : nat) (hp : hpv) (rep : option optzinfo) (cond : option R) (t1 t2 t3 : fl) (s : gp) : gp * res unit :=
  let n := p_new s in
  let s := upd_arr (upd_arr (bump s 2) n (match hp_beta hp with Some b => fvec_of b | None => mkfv 0 (fun _ => None) end)) (n + 1) (fvec_of (hp_theta hp)) in
  let '(s, q) := mk_hp s (mkarg (option_map (fun _ => n) (hp_beta hp)) (Some (n + 1)%nat)
                                (option_map (@Some R) (hp_kernel hp)) (option_map (@Some R) (hp_varK hp)) (option_map (@Some R) (hp_var_fval hp)) (option_map (@Some R) (hp_var_fgrad hp))) in
  do_store i q (option_map hinfo_of rep) (pyf_of cond) t1 t2 t3 s.

(** GpHparaOptz.py l.140-185 [optz_hp] on the object.  The history is read when start points are selected; without
    one (init_optz_surr not called) that raises.  [t1] [t2] [t3]: what the clock says (0 with few points, l.160). *)
Definition z_optz (la : npla) (lhs : sampler) (mini : minimiser) (i : nat) (t1 t2 t3 : fl) (z : sess) : sess * res unit :=
  match p_data (z_gp z), z_info z with
  | Some d, Some info =>
      let few := (d_n_eval d <=? c_const_n (z_cfg z))%nat in
      match (if few then Some (init_optz_surr 0 0 0) else option_map (p_hist (z_gp z)) (p_cur (z_gp z))) with
      | None => (z, Err EAttr)
      | Some h =>
          let (s', r) := optz_hp la lhs mini (z_cfg z) h i (mkobj (p_opt (z_gp z)) (z_lk z) d info (z_last z) (z_store z)) in
          let z := mksess (upd_data (z_gp z) (g_data s')) (z_lk z) (z_cfg z) (z_info z) (g_last s') (g_store s') in
          match r with
          | Err e => (z, Err e)
          | Ok (hp, cond, rep) =>
              let t := fun x : fl => if few then Some 0 else x in
              let (s, u) := do_found i hp rep cond (t t1) (t t2) (t t3) (z_gp z) in (with_gp z s, u)
          end
      end
  | _, _ => (z, Err EAttr)
  end.

(** the calls a user can make *)
Inductive zop :=
| ZOp (x : op)                                                       (* those of Object.v, but set_hpara('optz') *)
| ZFit (i : nat) (calc_cond : bool) (t1 t2 t3 : fl).                 (* set_hpara('optz', i, calc_cond = ...) *)
Definition zthen (r : sess * res unit) (k : sess -> sess * res unit) : sess * res unit := match r with (s, Ok _) => k s | _ => r end.
(** lifting a call that has nothing to do with the optimisation *)
Definition zlift (z : sess) (r : gp * res unit) : sess * res unit := (with_gp z (fst r), snd r).
Definition zstep (la : npla) (lhs : sampler) (mini : minimiser) (x : zop) (z : sess) : sess * res unit :=
  match x with
  | ZOp (SetData x fval sf gr sg b) =>
      (* GaussianProcess.py l.219-363 with l.340 setup_hp_idx4optz.  A call that raises before l.340 leaves the old
         hp_info_optz_lkd, one that raises later (in the scaling) the new one. *)
      let o := p_opt (z_gp z) in
      let old := p_data (z_gp z) in
      match set_data o x fval sf gr sg b with
      | Ok d => match setup_hp_idx4optz o d (z_lk z) with
                | Err e => (with_gp z (upd_odata (z_gp z) (fst (set_data_head_on o old x fval sf gr sg b))), Err e)
                | Ok info => (mksess (upd_data (z_gp z) d) (z_lk z) (z_cfg z) (Some info) (z_last z) (z_store z), Ok tt)
                end
      | Err e =>
          let z' := with_gp z (upd_odata (z_gp z) (fst (set_data_on o old x fval sf gr sg b))) in
          match set_data_head_on o old x fval sf gr sg b with
          | (Some dh, Ok _) =>
              match setup_hp_idx4optz o dh (z_lk z) with
              | Err e' => (with_gp z (upd_odata (z_gp z) (Some dh)), Err e')
              | Ok info => (mksess (z_gp z') (z_lk z) (z_cfg z) (Some info) (z_last z) (z_store z), Err e)
              end
          | _ => (z', Err e)
          end
      end
  | ZOp (SetHparaOptz _ _ _) => (z, Err EExc)                        (* here: ZFit *)
  | ZOp x => zlift z (step (la_cond la) x (z_gp z))
  | ZFit i cc t1 t2 t3 => zthen (z_optz la lhs mini i t1 t2 t3 z) (fun z => zlift z (do_setup (la_cond la) cc (z_gp z)))
  end.
(** a program: exceptions are caught by the user, who goes on *)
Definition zrun (la : npla) (lhs : sampler) (mini : minimiser) (xs : list zop) (z : sess) : sess :=
  fold_left (fun z x => fst (zstep la lhs mini x z)) xs z.
