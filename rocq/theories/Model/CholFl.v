(** * Model of scipy.linalg.cho_factor / cho_solve in an arithmetic with rounding errors.
    Used in gpgradpy/src/kernel/Kernel.py l.251, 291 (cho_factor) and in gpgradpy/src/optz/CalcLkd.py,
    gpgradpy/src/eval/GpMeanFun.py, gpgradpy/src/eval/GpEvalModel.py (cho_solve).
    The functions are those of Model/Chol.v with every operation replaced by that of the machine.
    LAPACK's potrf/potrs work on blocks and may use fused operations and reciprocals of the pivots; every entry is still a
    number minus a sum of products, divided by a pivot or replaced by its square root.  The order of these sums is left to the
    machine ([f_res], [Spec/FloatSpec.v]).  Simplification: overflow and underflow do not occur. *)
From Coq Require Import Reals List Arith Bool.
From Verif.Base Require Import NpLite.
From Verif.Spec Require Import FloatSpec.
From Verif.Model Require Import Chol.
Local Open Scope R_scope.

(** the pairs whose products are subtracted *)
Definition pairs (f g : nat -> R) (m : nat) : list (R * R) := map (fun k => (f k, g k)) (seq 0 m).
(** as [chol_steps], column by column; the diagonal entry is the square root of the pivot, the others are divided by it *)
Fixpoint chol_steps_fl (ar : arith) (m k : nat) (a L : nat -> nat -> R) : res (nat -> nat -> R) :=
  match m with
  | O => Ok L
  | S m' =>
      let p := f_res ar k k (a k k) (pairs (L k) (L k) k) in
      if Rlt_dec 0 p then
        let r := f_sqrt ar p in
        let l := fun i => if (i =? k)%nat then r else f_quo ar (f_res ar i k (a i k) (pairs (L i) (L k) k)) r in
        chol_steps_fl ar m' (S k) a (fun i j => if (j =? k)%nat then l i else L i j)
      else Err ELinAlg
  end.
(** as [cho_factor] *)
Definition cho_factor_fl (ar : arith) (A : mat) (lower : bool) : res (mat * bool) :=
  if nr A =? nc A then
    let n := nr A in
    let a := fun i j => if lower then (if j <=? i then mat_at A i j else mat_at A j i)
                        else (if i <=? j then mat_at A i j else mat_at A j i) in
    L <- chol_steps_fl ar n 0 a (fun _ _ => 0) ;;
    Ok (mkmat n n (fun i j =>
          if lower then (if j <=? i then L i j else mat_at A i j)
          else (if i <=? j then L j i else mat_at A i j)), lower)
  else Err EShape.

(** as [fsub], [bsub] *)
Fixpoint fsub_fl (ar : arith) (L : nat -> nat -> R) (b : nat -> R) (n : nat) : nat -> R :=
  match n with
  | O => fun _ => 0
  | S k => let y := fsub_fl ar L b k in fupd y k (f_quo ar (f_res ar k 0 (b k) (pairs (L k) y k)) (L k k))
  end.
Fixpoint bsub_fl (ar : arith) (L : nat -> nat -> R) (y : nat -> R) (n m : nat) (x : nat -> R) : nat -> R :=
  match m with
  | O => x
  | S k => bsub_fl ar L y n k
             (fupd x k (f_quo ar (f_res ar k 1 (y k) (pairs (fun j => L (S k + j)%nat k) (fun j => x (S k + j)%nat) (n - S k))) (L k k)))
  end.
Definition cho_solve_fl (ar : arith) (c : mat * bool) (b : nat -> R) : nat -> R :=
  let n := nr (fst c) in let L := chol_read c in
  bsub_fl ar L (fsub_fl ar L b n) n n (fun _ => 0).
(** Kernel.py l.252: Kcov_chofac = (P @ Kcov_precon_chofac[0], ...), P diagonal: one product per entry *)
Definition scale_rows_fl (ar : arith) (p : nat -> R) (c : mat * bool) : mat * bool :=
  (mkmat (nr (fst c)) (nc (fst c)) (fun i j => f_mul ar (p i) (mat_at (fst c) i j)), snd c).
