(** * Model of Kernel.calc_all_K_w_chofac, calc_Kern_w_chofac and calc_noise_vec
    (gpgradpy/src/kernel/Kernel.py l.128-357). *)
From Coq Require Import Reals List Arith Bool.
From Verif.Base Require Import NpLite.
From Verif.Spec Require Import KernelSpec.
From Verif.Model Require Import KernelSqExp KernelMatern KernelRatQuad KernelDispatch CommonFun WellCond Rescaling GpState Chol.
Import ListNotations.
Local Open Scope R_scope.

Definition vslice_set (v : vec) (a : nat) (w : vec) : res vec :=   (* v[a:] = w *)
  if vlen w =? (vlen v - a) then Ok (mkvec (vlen v) (fun i => if i <? a then vat v i else vat w (i - a)%nat)) else Err EShape.
Definition vslice_set_lo (v : vec) (b : nat) (w : vec) : res vec :=   (* v[:b] = w *)
  if vlen w =? Nat.min b (vlen v) then Ok (mkvec (vlen v) (fun i => if i <? b then vat w i else vat v i)) else Err EShape.
(** assigning the Python value None to float entries stores NaN: flagged as an error *)
Definition need (o : option R) : res R := match o with Some v => Ok v | None => Err EType end.

(** l.309-357 [calc_noise_vec] *)
Definition calc_noise_vec (o : gpopt) (d : gpdata) (hp : hpv) : res vec :=
  ss <- (if d_fval_zero d && d_fgrad_zero d
         then Ok (Some (vconst (d_n_eval d) 0), Some (mconst (d_n_grad d) (o_dim o) 0))
         else s <- get_scl_eval_data d ;; let '(_, sf, _, sg) := s in Ok (sf, sg)) ;;
  let '(sf, sg) := ss in
  if negb (o_use_grad o) then
    if d_known_fval d then
      _ <- assert_ (match hp_var_fval hp with None => true | _ => false end) ;;
      match sf with Some s => Ok (vmap (fun t => t ^ 2) s) | None => Err EType end
    else match sf with
      | Some s => v <- need (hp_var_fval hp) ;; Ok (vconst (vlen s) v)
      | None => Err EAttr   (* std_fval.size on None *)
      end
  else
    let z := vconst (d_n_data d) 0 in
    z <- (if d_known_fval d then
        _ <- assert_ (match hp_var_fval hp with None => true | _ => false end) ;;
        match sf with Some s => vslice_set_lo z (d_n_eval d) (vmap (fun t => t ^ 2) s) | None => Err EType end
      else v <- need (hp_var_fval hp) ;; vslice_set_lo z (d_n_eval d) (vconst (Nat.min (d_n_eval d) (vlen z)) v)) ;;
    if d_known_fgrad d then
      _ <- assert_ (match hp_var_fgrad hp with None => true | _ => false end) ;;
      match sg with Some s => vslice_set z (d_n_eval d) (reshape_f (mmap (fun t => t ^ 2) s)) | None => Err EType end
    else v <- need (hp_var_fgrad hp) ;; vslice_set z (d_n_eval d) (vconst (vlen z - d_n_eval d) v).

(** np.sum(np.abs(A), axis=1), np.argmax (first maximum) *)
Definition row_abs_sums (A : mat) : vec := mkvec (nr A) (fun i => rsum (nc A) (fun j => Rabs (mat_at A i j))).
Fixpoint argmax_upto (f : nat -> R) (n : nat) : nat :=   (* over indices 0..n *)
  match n with O => O | S m => let k := argmax_upto f m in if Rlt_dec (f k) (f (S m)) then S m else k end.
Definition argmax (v : vec) : res nat := match vlen v with O => Err EShape | S m => Ok (argmax_upto (vat v) m) end.

Record kout := mkkout { k_Kern : mat; k_Kcor : option mat; k_Kprec : option mat; k_Kcov : mat;
  k_chofac : option (mat * bool); k_cond : option R; k_eta : R; k_idx : option nat }.

(** l.140-307 [calc_all_K_w_chofac].  [condf] stands for np.linalg.cond(., p = cond_norm), an arbitrary
    function here.  The record also exposes Kcov_precon, a local variable of the code.  A failed
    factorisation is caught by the code (l.253, l.292) and gives None; the diagnostics printed there are
    left out.  The nugget NaN ([None], only without gradients) is never selected: see GpState.set_data.
    np.isnan(theta) cannot hold for real theta. *)
Definition calc_all_K_w_chofac (o : gpopt) (d : gpdata) (condf : mat -> R) (Rt : ten) (hp : hpv)
  (noise : option vec) (calc_chofac calc_cond : bool) (varK : option R) (b_normlz : bool) : res kout :=
  let theta := hp_theta hp in
  _ <- assert_ (tr Rt =? tc Rt) ;;
  vK <- match varK with
    | Some v => Ok v
    | None => match hp_varK hp with Some v => Ok v | None => Err EAssert end end ;;
  vK <- (if b_normlz then Ok 1 else _ <- assert_ (if Rlt_dec 0 vK then true else false) ;; Ok vK) ;;
  nv <- match noise with Some v => Ok v | None => calc_noise_vec o d hp end ;;
  let n_data := vlen nv in
  Kern <- calc_Kern (o_use_grad o) (o_kernel o) Rt theta (hp_kernel hp) (d_bvec d) (d_bvec d) ;;
  Kwn <- madd Kern (mdiag (vmap (fun t => t / vK) nv)) ;;
  match o_well o with
  | Wprecon =>
      _ <- assert_ (o_use_grad o) ;;
      let pvec := vmap sqrt (diagv Kwn) in
      let P := mdiag pvec in
      let P_inv := mdiag (vmap (fun t => 1 / t) pvec) in
      T <- mdot P_inv Kwn ;; Kcor <- mdot T P_inv ;;
      ei <- (if o_eta_const o then e <- need (d_etaK d) ;; Ok (e, None)
             else let s := row_abs_sums Kcor in i <- argmax s ;; Ok (vat s i / (o_target o - 1), Some i)) ;;
      let '(etaK, idx) := ei in
      S <- madd Kcor (mscal etaK (meye n_data)) ;;
      let Kprec := mscal vK S in
      T <- mdot P Kprec ;; Kcov <- mdot T P ;;
      let condK := if calc_cond then Some (condf Kprec) else None in
      chofac <- (if calc_chofac then
          match cho_factor Kprec true with
          | Ok (L, lo) => PL <- mdot P L ;; Ok (Some (PL, lo))
          | Err _ => Ok None
          end
        else Ok None) ;;
      Ok (mkkout Kern (Some Kcor) (Some Kprec) Kcov chofac condK etaK idx)
  | _ =>
      ei <- (if o_eta_const o then e <- need (d_etaK d) ;; Ok (e, None)
             else let s := row_abs_sums Kern in i <- argmax s ;; Ok (vat s i / (o_target o - 1), Some i)) ;;
      let '(etaK, idx) := ei in
      S <- madd Kwn (mscal etaK (meye n_data)) ;;
      let Kcov := mscal vK S in
      let condK := if calc_cond then Some (condf Kcov) else None in
      let go := match condK with
                | Some c => if Rlt_dec (o_cond_max_abs o) c then false else calc_chofac
                | None => calc_chofac end in
      let chofac := if go then match cho_factor Kcov false with Ok c => Some c | Err _ => None end else None in
      Ok (mkkout Kern None None Kcov chofac condK etaK idx)
  end.
(** l.128-138 [calc_Kern_w_chofac] *)
Definition calc_Kern_w_chofac (o : gpopt) (d : gpdata) condf Rt hp noise calc_chofac calc_cond : res kout :=
  _ <- assert_ (negb (d_noisy d)) ;;
  calc_all_K_w_chofac o d condf Rt hp noise calc_chofac calc_cond (Some 1) false.
