(** * Model of scipy.linalg.cho_factor / cho_solve as used by the code, in exact arithmetic.
    Used in gpgradpy/src/kernel/Kernel.py l.251, 291 (cho_factor), gpgradpy/src/optz/CalcLkd.py,
    gpgradpy/src/eval/GpMeanFun.py and gpgradpy/src/eval/GpEvalModel.py (cho_solve).
    Simplification: LAPACK's blocked potrf/potrs are replaced by the textbook outer-product
    Cholesky and forward/backward substitution; over the reals they return the same numbers. *)
From Coq Require Import Reals List Arith Bool.
From Verif.Base Require Import NpLite.
Local Open Scope R_scope.

Definition fupd (v : nat -> R) (i : nat) (t : R) : nat -> R := fun j => if (j =? i)%nat then t else v j.

(** [chol_steps n m k a L]: eliminate columns k, k+1, ..., k+m-1 of the remainder [a], writing the
    columns of the factor into [L]; a non-positive pivot is LinAlgError. *)
Fixpoint chol_steps (m k : nat) (a L : nat -> nat -> R) : res (nat -> nat -> R) :=
  match m with
  | O => Ok L
  | S m' =>
      let p := a k k in
      if Rlt_dec 0 p then
        let l := fun i => a i k / sqrt p in
        chol_steps m' (S k) (fun i j => a i j - l i * l j)
          (fun i j => if (j =? k)%nat then l i else L i j)
      else Err ELinAlg
  end.

(** cho_factor reads one triangle only and leaves the other one as it was: the returned matrix
    holds the factor in its [lower] (or upper) triangle. *)
Definition cho_factor (A : mat) (lower : bool) : res (mat * bool) :=
  if nr A =? nc A then
    let n := nr A in
    let a := fun i j => if lower then (if j <=? i then mat_at A i j else mat_at A j i)
                        else (if i <=? j then mat_at A i j else mat_at A j i) in
    L <- chol_steps n 0 a (fun _ _ => 0) ;;
    Ok (mkmat n n (fun i j =>
          if lower then (if j <=? i then L i j else mat_at A i j)
          else (if i <=? j then L j i else mat_at A i j)), lower)
  else Err EShape.

(** solve L y = b for the lower triangular L, entries 0..n-1 in order *)
Fixpoint fsub (L : nat -> nat -> R) (b : nat -> R) (n : nat) : nat -> R :=
  match n with
  | O => fun _ => 0
  | S k => let y := fsub L b k in fupd y k ((b k - rsum k (fun j => L k j * y j)) / L k k)
  end.
(** solve L^T x = y, entries m-1..0, given the entries m..n-1 *)
Fixpoint bsub (L : nat -> nat -> R) (y : nat -> R) (n m : nat) (x : nat -> R) : nat -> R :=
  match m with
  | O => x
  | S k => bsub L y n k
             (fupd x k ((y k - rsum (n - S k) (fun j => L (S k + j)%nat k * x (S k + j)%nat)) / L k k))
  end.
Definition chol_read (c : mat * bool) : nat -> nat -> R :=
  fun i j => if snd c then mat_at (fst c) i j else mat_at (fst c) j i.
Definition cho_solve_fn (c : mat * bool) (b : nat -> R) : nat -> R :=
  let n := nr (fst c) in let L := chol_read c in
  bsub L (fsub L b n) n n (fun _ => 0).
(** cho_solve((c, lower), b) for a vector and for a matrix right-hand side *)
Definition cho_solve (c : mat * bool) (b : vec) : res vec :=
  if vlen b =? nr (fst c) then Ok (mkvec (vlen b) (cho_solve_fn c (vat b))) else Err EShape.
Definition cho_solve_mat (c : mat * bool) (B : mat) : res mat :=
  if nr B =? nr (fst c)
  then Ok (mkmat (nr B) (nc B) (fun i j => cho_solve_fn c (fun k => mat_at B k j) i)) else Err EShape.
