(** * Model of gpgradpy/src/optz/OptzLkd.py (evaluation with storage, selection of the best optimiser
    result) and of GpHparaOptz.py l.140-230 (optz_hp, get_init_hp_vals, optz_closed_form_hp). *)
From Coq Require Import Reals List Arith Bool.
From Verif.Base Require Import NpLite.
From Verif.Spec Require Import KernelSpec.
From Verif.Model Require Import KernelSqExp KernelMatern KernelRatQuad KernelDispatch CommonFun WellCond Rescaling GpState Chol Cov HpInfo HpGrad MeanFun Lkd.
Import ListNotations.
Local Open Scope R_scope.

(** GpHpara.py l.26 and OptzLkd.py l.263: the attribute _last_hp_vec is None, a 1-d array, or the (1, n)
    array of NaN that optz_hp_max_lkd assigns *)
Inductive lastkey := LNone | L1 (v : vec) | L2nan (n : nat).
(** np.array_equal(v, key): the shapes of None and of a 2-d array differ from that of a 1-d array *)
Definition array_equal (v : vec) (k : lastkey) : bool :=
  match k with
  | L1 w => (vlen v =? vlen w) && forallb (fun i => if Req_EM_T (vat v i) (vat w i) then true else false) (seq 0 (vlen v))
  | _ => false
  end.

(** what is stored: _lkd_val, _lkd_grad, _cond_val, _cond_grad *)
Record stored := mkst { s_val : option R; s_grad : option vec; s_cond : option R; s_cgrad : option vec }.
(** the part of a GaussianProcess object used here; [g_store] is None before the four attributes exist *)
Record gpobj := mkobj { g_opt : gpopt; g_lk : lkopt; g_data : gpdata; g_info : hpinfo; g_last : lastkey; g_store : option stored }.
Definition with_last (s : gpobj) (k : lastkey) : gpobj := mkobj (g_opt s) (g_lk s) (g_data s) (g_info s) k (g_store s).
Definition with_store (s : gpobj) (x : stored) : gpobj := mkobj (g_opt s) (g_lk s) (g_data s) (g_info s) (g_last s) (Some x).

(** GaussianProcess.py l.205-212 *)
Definition b_use_cond_cstr (o : gpopt) : bool := match o_well o with Wprecon => false | _ => true end.

(** g[bvec] *= 10**hp_vec[bvec] * np.log(10); a boolean index of another length is an IndexError, None a TypeError *)
Definition log_chain (b : list bool) (hp : vec) (g : option vec) : res (option vec) :=
  match g with
  | None => Err EType
  | Some g =>
      if (length b =? vlen hp) && (length b =? vlen g)
      then Ok (Some (mkvec (vlen g) (fun i => if nth i b false then vat g i * (pow10 (vat hp i) * ln 10) else vat g i)))
      else Err EIndex
  end.
Definition neg_R (x : option R) : res R := match x with Some a => Ok (- a) | None => Err EType end.
Definition neg_vec (x : option vec) : res vec := match x with Some a => Ok (vmap Ropp a) | None => Err EType end.

(** OptzLkd.py l.48-80: the computation made on a cache miss *)
Definition fresh_likelihood (la : npla) (s : gpobj) (v : vec) (always_calc_cond calc_grad : bool) : res stored :=
  hp <- hp_vec2dataclass (g_data s) (g_info s) v ;;
  let use := b_use_cond_cstr (g_opt s) in
  r <- calc_lkd_all la (g_opt s) (g_data s) (g_lk s) (g_info s) hp (use || always_calc_cond) calc_grad (lk_adj (g_lk s)) ;;
  let l := fst r in
  if snd r then
    if calc_grad then
      g <- log_chain (hi_log (g_info s)) v (l_ln_grad l) ;;
      cg <- (if use then log_chain (hi_log (g_info s)) v (l_cond_grad l) else Ok (l_cond_grad l)) ;;
      Ok (mkst (l_ln l) g (l_cond l) cg)
    else Ok (mkst (l_ln l) (l_ln_grad l) (l_cond l) (l_cond_grad l))
  else
    a <- neg_R (l_cond l) ;;
    b <- neg_vec (l_cond_grad l) ;;
    Ok (mkst (Some a) (Some b) (l_cond l) (l_cond_grad l)).
(** l.16-88 [calc_store_likelihood]; the object after the call is also given when an exception is raised.
    np.atleast_1d(.).ravel() is the identity on the 1-d arrays modelled here. *)
Definition calc_store_likelihood (la : npla) (s : gpobj) (v : vec) (always_calc_cond calc_grad : bool) : gpobj * res stored :=
  if array_equal v (g_last s) then (s, match g_store s with Some x => Ok x | None => Err EAttr end)
  else match fresh_likelihood la s v always_calc_cond calc_grad with
       | Ok x => (with_store s x, Ok x)
       | Err e => (s, Err e)
       end.
(** l.90-114 *)
Definition lift_st {A} (p : gpobj * res stored) (f : stored -> res A) : gpobj * res A := (fst p, x <- snd p ;; f x).
Definition return_optz_val la s v : gpobj * res R := lift_st (calc_store_likelihood la s v false true) (fun x => neg_R (s_val x)).
Definition return_optz_grad la s v : gpobj * res vec := lift_st (calc_store_likelihood la s v false true) (fun x => neg_vec (s_grad x)).
Definition return_cond_val la s v : gpobj * res (option R) := lift_st (calc_store_likelihood la s v false true) (fun x => Ok (s_cond x)).
Definition return_cond_grad la s v : gpobj * res (option vec) := lift_st (calc_store_likelihood la s v false true) (fun x => Ok (s_cgrad x)).

(** scipy.optimize.minimize: an arbitrary program that calls the objective, the constraint and their
    gradients any number of times, depending on the answers, and ends with a result (fun may be NaN: None)
    or an exception *)
Inductive optimiser :=
| ODone (x : vec) (fun_ : option R) (success : bool) (nit : nat)
| ORaise (e : err)
| OVal (v : vec) (k : R -> optimiser)
| OGrad (v : vec) (k : vec -> optimiser)
| OCond (v : vec) (k : option R -> optimiser)
| OCondGrad (v : vec) (k : option vec -> optimiser).
Record optres := mkor { or_x : vec; or_fun : option R; or_success : bool; or_nit : nat }.
Fixpoint run_opt (la : npla) (s : gpobj) (p : optimiser) : gpobj * res optres :=
  match p with
  | ODone x f b n => (s, Ok (mkor x f b n))
  | ORaise e => (s, Err e)
  | OVal v k => let (s', r) := return_optz_val la s v in match r with Ok a => run_opt la s' (k a) | Err e => (s', Err e) end
  | OGrad v k => let (s', r) := return_optz_grad la s v in match r with Ok a => run_opt la s' (k a) | Err e => (s', Err e) end
  | OCond v k => let (s', r) := return_cond_val la s v in match r with Ok a => run_opt la s' (k a) | Err e => (s', Err e) end
  | OCondGrad v k => let (s', r) := return_cond_grad la s v in match r with Ok a => run_opt la s' (k a) | Err e => (s', Err e) end
  end.

(** one candidate: the result of an optimisation, its condition number (NaN: None) and con_good *)
Record cand := mkcand { c_res : optres; c_cond : option R; c_good : bool }.
Definition rltb (a b : R) : bool := if Rlt_dec a b then true else false.
(** counters of l.239-242: (optz_n_cho_fail, optz_n_cond2big, optz_max_init_cond); NaN is None *)
Record initstat := mkis { is_fail : nat; is_big : nat; is_max : option R }.
(** np.max of two floats is NaN when one of them is *)
Definition npmax (a b : option R) : option R := match a, b with Some x, Some y => Some (Rmax x y) | _, _ => None end.

(** l.249-291: one turn of the loop over the starting points; [mini x0] is minimize started at x0.  A None
    likelihood or condition number makes np.isnan or > raise a TypeError. *)
Definition optz_one (la : npla) (mini : vec -> optimiser) (x0 : vec) (s : gpobj) (st : initstat) : gpobj * res (cand * initstat) :=
  let use := b_use_cond_cstr (g_opt s) in
  let (s1, r1) :=
    if use then
      let (s', r) := calc_store_likelihood la s x0 false true in
      (s', x <- r ;;
           match s_val x, s_cond x with
           | Some _, Some c => Ok (mkis (is_fail st) (is_big st + (if rltb (o_cond_max (g_opt s)) c then 1 else 0)) (npmax (is_max st) (Some c)))
           | _, _ => Err EType
           end)
    else (s, Ok st) in
  match r1 with
  | Err e => (s1, Err e)
  | Ok st1 =>
      let (s2, r2) := run_opt la (with_last s1 (L2nan (vlen x0))) (mini x0) in
      match r2 with
      | Err e => (s2, Err e)
      | Ok r =>
          if use then
            let (s3, r3) := return_cond_val la s2 (or_x r) in
            (s3, c <- r3 ;; match c with
                            | None => Err EType
                            | Some a => Ok (mkcand r (Some a) (rltb a (101 / 100 * o_cond_max (g_opt s))), st1)
                            end)
          else (s2, Ok (mkcand r None true, st1))
      end
  end.
Fixpoint optz_all (la : npla) (mini : vec -> optimiser) (x0s : list vec) (s : gpobj) (st : initstat) : gpobj * res (list cand * initstat) :=
  match x0s with
  | [] => (s, Ok ([], st))
  | x0 :: t =>
      let (s1, r1) := optz_one la mini x0 s st in
      match r1 with
      | Err e => (s1, Err e)
      | Ok (c, st1) =>
          let (s2, r2) := optz_all la mini t s1 st1 in
          (s2, x <- r2 ;; Ok (c :: fst x, snd x))
      end
  end.
(** np.nanargmin: index of the first minimum, NaN ignored; ValueError when there is no number *)
Fixpoint nanargmin_from (i : nat) (best : option (nat * R)) (l : list (option R)) : option (nat * R) :=
  match l with
  | [] => best
  | x :: t =>
      nanargmin_from (S i)
        (match x, best with
         | None, _ => best
         | Some a, None => Some (i, a)
         | Some a, Some (_, b) => if rltb a b then Some (i, a) else best
         end) t
  end.
Definition nanargmin (l : list (option R)) : res nat :=
  match nanargmin_from 0 None l with Some (i, _) => Ok i | None => Err EExc end.
(** l.295-306: the candidate selected *)
Definition select_best (l : list cand) : res cand :=
  let l' := if existsb c_good l then filter c_good l else l in
  i <- nanargmin (map (fun c => or_fun (c_res c)) l') ;;
  match nth_error l' i with Some c => Ok c | None => Err EIndex end.
(** l.310-321: surr_optz_info *)
Record optzinfo := mkoi { oi_success : R; oi_iter_mean : R; oi_iter_max : nat; oi_con_good : R; oi_init : initstat }.
Definition frac {A} (f : A -> bool) (l : list A) : R := INR (length (filter f l)) / INR (length l).
Definition make_info (l : list cand) (st : initstat) : optzinfo :=
  mkoi (frac (fun c => or_success (c_res c)) l)
       (INR (fold_right Nat.add 0%nat (map (fun c => or_nit (c_res c)) l)) / INR (length l))
       (fold_right Nat.max 0%nat (map (fun c => or_nit (c_res c)) l)) (frac c_good l) st.
(** l.185-333 [optz_hp_max_lkd]; the 2-d array hp_x0_all is the list of its rows (a 1-d argument is a list of
    one row, l.226) *)
Definition optz_hp_max_lkd (la : npla) (mini : vec -> optimiser) (s : gpobj) (x0s : list vec) : gpobj * res (vec * option R * optzinfo) :=
  let (s1, r1) := optz_all la mini x0s s (mkis 0 0 None) in
  (s1, x <- r1 ;;
       let '(l, st) := x in
       c <- select_best l ;;
       let best := or_x (c_res c) in
       let Rt := snd (get_scl_x_w_dist (g_data s)) in
       hp <- hp_vec2dataclass (g_data s) (g_info s) best ;;
       k <- (if d_noisy (g_data s) then calc_all_K_w_chofac (g_opt s) (g_data s) (la_cond la) Rt hp None false true None false
             else calc_Kern_w_chofac (g_opt s) (g_data s) (la_cond la) Rt hp None false true) ;;
       Ok (best, k_cond k, make_info l st)).

(** GpHparaOptz.py l.220-230 [optz_closed_form_hp].  (calc_lkd_all is called with the default gradient
    method; when the factorisation fails the code stores None.) *)
Definition optz_closed_form_hp (la : npla) (o : gpopt) (d : gpdata) (lo : lkopt) (info : hpinfo) (hp : hpv) : res hpv :=
  r <- calc_lkd_all la o d lo info hp false false (lk_adj lo) ;;
  Ok (mkhp (l_beta (fst r)) (hp_theta hp) (hp_kernel hp) (if d_noisy d then hp_varK hp else l_varK (fst r)) (hp_var_fval hp) (hp_var_fgrad hp)).

(** GaussianProcess.py l.69-73 initial values; hp_kernel_init is not used by the code *)
Record hpinit := mkhpi { i_theta : R; i_varK : R; i_var_fval : R; i_var_fgrad : R }.
Definition hpinit_default : hpinit := mkhpi (1 / 100) 1 0 0.
(** KernelSqExp.py l.577, KernelMatern5f2.py l.651, KernelRatQuad.py l.849 *)
Definition hp_kernel_default (k : kernel) : option R := match k with RatQu => Some 2 | _ => None end.
(** GpHparaOptz.py l.198-218 [get_init_hp_vals] *)
Definition get_init_hp_vals (o : gpopt) (d : gpdata) (hi : hpinit) : res hpv :=
  e <- get_scl_eval_data d ;;
  let '(fval, _, _, _) := e in
  Ok (mkhp (Some (mkvec n_beta (fun i => if i =? 0 then vsum fval / INR (vlen fval) else 0)))
           (vconst (o_dim o) (i_theta hi)) (hp_kernel_default (o_kernel o)) (Some (i_varK hi))
           (if d_known_fval d then None else Some (i_var_fval hi))
           (if negb (o_use_grad o) || d_known_fgrad d then None else Some (i_var_fgrad hi))).
