(** * Model of gpgradpy/src/eval/GpEvalModel.py: how eval_model and eval_model_var take their points and return
    their results: an array with one or two axes, [squeeze_nx].  The evaluation itself is in Model/EvalModel.v, the check
    that the hyperparameters have not changed (l.105-111, l.238-244) in Model/Object.v. *)
From Coq Require Import Reals List Arith Bool.
From Verif.Base Require Import NpLite.
From Verif.Model Require Import CommonFun Rescaling GpState Chol Cov EvalModel.
Local Open Scope R_scope.

(** x2model_in, by its number of axes *)
Inductive xarg := X1 (v : vec) | X2 (A : mat) | Xother.
(** l.93-98 and l.226-231: x2model_in[None,:], the array itself, or an exception *)
Definition as_rows (x : xarg) : res mat :=
  match x with X1 v => Ok (mkmat 1 (vlen v) (fun _ j => vat v j)) | X2 A => Ok A | Xother => Err EExc end.
(** what eval_model returns: arrays with one entry per point, or the results of the only point *)
Inductive evr :=
| Full (e : evo)
| One (mu sig : R) (dmu dsig : option vec) (d2mu : option mat) (d2sig : option (option mat)).
(** A[0, :] and T[0, :, :] *)
Definition row0 (A : mat) : res vec := if nr A =? 0 then Err EIndex else Ok (mkvec (nc A) (fun j => mat_at A 0 j)).
Definition slice0 (T : ten) : res mat := if td T =? 0 then Err EIndex else Ok (mkmat (tr T) (tc T) (fun i j => tat T 0 i j)).
(** l.186-196 (indexing None raises TypeError: cannot occur, see the flags) *)
Definition squeeze (calc_grad calc_hess : bool) (e : evo) : res evr :=
  mu <- vget (e_mu e) 0 ;;
  sig <- vget (e_sig e) 0 ;;
  g <- (if calc_grad then match e_dmu e, e_dsig e with
          | Some G, Some H => a <- row0 G ;; b <- row0 H ;; Ok (Some a, Some b) | _, _ => Err EType end
        else Ok (None, None)) ;;
  h <- (if calc_hess then match e_d2mu e, e_d2sig e with
          | Some G, Some H => a <- slice0 G ;; b <- omap slice0 H ;; Ok (Some a, Some b) | _, _ => Err EType end
        else Ok (None, None)) ;;
  Ok (One mu sig (fst g) (snd g) (fst h) (snd h)).
(** l.59-198 [eval_model] *)
Definition eval_model_call (o : gpopt) (d : gpdata) (hp : hpv) (su : surr) (x : xarg) (calc_grad calc_hess squeeze_nx : bool) : res evr :=
  _ <- match k_chofac (su_K su) with Some _ => Ok tt | None => Err EAssert end ;;
  x2 <- as_rows x ;;
  _ <- (if squeeze_nx then assert_ (nr x2 =? 1) else Ok tt) ;;
  e <- eval_model o d hp su x2 calc_grad calc_hess ;;
  if squeeze_nx then squeeze calc_grad calc_hess e else Ok (Full e).

(** what eval_model_var returns (its third result is None whenever it returns) *)
Inductive evvr := VFull (s2 : vec) (g : option mat) | VOne (s2 : R) (g : option vec).
(** l.200-317 [eval_model_var]; l.312-315 the squeezed results *)
Definition eval_model_var_call (o : gpopt) (d : gpdata) (hp : hpv) (su : surr) (x : xarg) (calc_grad calc_hess squeeze_nx : bool) : res evvr :=
  x2 <- as_rows x ;;
  _ <- (if squeeze_nx then assert_ (nr x2 =? 1) else Ok tt) ;;
  e <- eval_model_var o d hp su x2 calc_grad calc_hess ;;
  if squeeze_nx then
    s <- vget (fst e) 0 ;;
    g <- (if calc_grad then match snd e with Some G => a <- row0 G ;; Ok (Some a) | None => Err EType end else Ok None) ;;
    Ok (VOne s g)
  else Ok (VFull (fst e) (snd e)).
