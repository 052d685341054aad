(** * Model of the constructor and of set_wellcond_mtd
    (gpgradpy/src/GaussianProcess.py l.138-217, kernel/Kernel.py l.21-127, eval/GpMeanFun.py l.195-204). *)
From Coq Require Import Reals List Arith ZArith Bool String.
From Verif.Base Require Import NpLite.
From Verif.Spec Require Import KernelSpec.
From Verif.Model Require Import KernelDispatch WellCond GpState.
Import ListNotations.
Local Open Scope R_scope.
Local Open Scope string_scope.

(** a Python value handed to the constructor, as far as isinstance and comparison with strings tell them apart *)
Inductive pyval := VInt (z : Z) | VBool (b : bool) | VStr (s : string) | VNone | VOther.

(** Kernel.py l.27-109: the strings 'SqExp', 'Ma5f2', 'RatQu' *)
Definition kernel_named (s : string) : option kernel :=
  if s =? "SqExp" then Some SqExp else if s =? "Ma5f2" then Some Ma5f2 else if s =? "RatQu" then Some RatQu else None.
(** GaussianProcess.py l.84-89 [wellcond_mtd_avail] *)
Definition method_named (s : string) : option wmtd :=
  if s =? "base" then Some Wbase else if s =? "precon" then Some Wprecon else if s =? "rescale_origin" then Some Wresc_origin
  else if s =? "rescale_eta_vary" then Some Wresc_vary else if s =? "dflt_vmin" then Some Wdflt_vmin else if s =? "dflt_vmax" then Some Wdflt_vmax else None.

(** the attributes set here.  [n_dim]: dim (an int of any sign); the numerical options are class attributes
    (GaussianProcess.py l.25-117), which the user may assign; [n_nlc]: the upper bound in the NonlinearConstraint
    (l.206-209; no attribute yet: None) *)
Record newgp := mknew { n_dim : Z; n_use_grad : bool; n_kernel : kernel; n_well : wmtd; n_cstr : bool; n_scl : bool; n_eta_const : bool; n_cond_max : R; n_nlc : option R }.

(** l.192-217.  Not in the list, None included: an AssertionError (so the None of l.197 is dead code). *)
Definition choose_method (g : newgp) (w : pyval) : res newgp :=
  match w with
  | VStr s =>
      match method_named s with
      | None => Err EAssert
      | Some w =>
          let ec := match w with Wresc_vary => false | _ => n_eta_const g end in
          let w := if n_use_grad g then w else Wbase in
          let precon := match w with Wprecon => true | _ => false end in
          Ok (mknew (n_dim g) (n_use_grad g) (n_kernel g) w (negb precon)
                (match w with Wresc_origin | Wresc_vary | Wdflt_vmin | Wdflt_vmax => true | _ => false end)
                ec (n_cond_max g) (if precon then n_nlc g else Some (n_cond_max g)))
      end
  | _ => Err EAssert
  end.
(** l.138-190.  bool is a subclass of int.  [path_data_surr] and [surr_name] are left out. *)
Definition construct (dim use_grad kernel_type wellcond_mtd mean_fun_type : pyval) : res newgp :=
  d <- match dim with VInt z => Ok z | VBool b => Ok (if b then 1 else 0)%Z | _ => Err EAssert end ;;
  u <- match use_grad with VBool b => Ok b | _ => Err EAssert end ;;
  k <- match kernel_type with VStr s => Ok s | _ => Err EAssert end ;;
  g <- choose_method (mknew d u SqExp Wbase false false true (10 ^ 10) None) wellcond_mtd ;;
  k <- match kernel_named k with Some k => Ok k | None => Err EExc end ;;
  _ <- match mean_fun_type with VStr s => if s =? "poly_ord_0" then Ok tt else Err EExc | _ => Err EExc end ;;
  Ok (mknew (n_dim g) (n_use_grad g) k (n_well g) (n_cstr g) (n_scl g) (n_eta_const g) (n_cond_max g) (n_nlc g)).

(** the user assigns cond_max *)
Definition assign_cond_max (g : newgp) (c : R) : newgp :=
  mknew (n_dim g) (n_use_grad g) (n_kernel g) (n_well g) (n_cstr g) (n_scl g) (n_eta_const g) c (n_nlc g).
(** the options of Model/GpState.v that such an object has (class defaults for the rest) *)
Definition options_of (g : newgp) : gpopt :=
  mkopt (Z.to_nat (n_dim g)) (n_use_grad g) (n_kernel g) (n_well g) EKbase (n_eta_const g) (/ 10 ^ 8) (10 ^ 10) (n_cond_max g) (10 ^ 16) 1 1 1.
