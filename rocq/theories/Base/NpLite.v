(** * NpLite: the small fragment of Python/NumPy semantics the model is written in

    Trusted reading of NumPy (and of numba's nopython mode, which is taken to have the
    same semantics on this fragment).  Floats are idealised as real numbers; NaN is not a
    real number and is represented explicitly (with [option]) in the few places where the
    code depends on it.  Exceptions are values of type [res]. *)
From Coq Require Import Reals List Arith Bool Lia.
Import ListNotations.
Local Open Scope R_scope.

(** Python exceptions that the modelled code can raise. *)
Inductive err :=
| EShape      (* ValueError: operands could not be broadcast together / bad shapes *)
| EIndex      (* IndexError *)
| EAssert     (* AssertionError *)
| EType       (* TypeError, e.g. arithmetic on None *)
| EAttr       (* AttributeError *)
| EExc        (* an explicit [raise Exception] *)
| ELinAlg.    (* scipy/numpy LinAlgError *)

Inductive res (A : Type) : Type :=
| Ok (a : A)
| Err (e : err).
Arguments Ok {A} a.
Arguments Err {A} e.

Definition bind {A B} (m : res A) (k : A -> res B) : res B :=
  match m with Ok a => k a | Err e => Err e end.

Notation "x <- m ;; k" := (bind m (fun x => k))
  (at level 61, m at next level, right associativity).

(** [assert c] *)
Definition assert_ (c : bool) : res unit := if c then Ok tt else Err EAssert.

(** [for i in range(a, a + k): body] *)
Fixpoint for_steps {S} (k : nat) (a : nat) (body : nat -> S -> res S) (s : S) : res S :=
  match k with
  | O => Ok s
  | S k' => s' <- body a s ;; for_steps k' (Datatypes.S a) body s'
  end.
Definition for_range {S} (a b : nat) (body : nat -> S -> res S) (s : S) : res S :=
  for_steps (b - a) a body s.

(** ** Arrays: a shape together with an entry function that is only ever read inside the
    shape (reads are checked by the operations below). *)
Record vec := mkvec { vlen : nat; vat : nat -> R }.
Record mat := mkmat { nr : nat; nc : nat; mat_at : nat -> nat -> R }.
Record ten := mkten { td : nat; tr : nat; tc : nat; tat : nat -> nat -> nat -> R }.

(** Broadcasting of one axis: equal sizes, or one of them is 1. *)
Definition bdim (a b : nat) : res nat :=
  if a =? b then Ok a else if a =? 1 then Ok b else if b =? 1 then Ok a else Err EShape.
Definition bix (n i : nat) : nat := if n =? 1 then 0%nat else i.

(** ** Vectors *)
Definition vget (v : vec) (i : nat) : res R :=
  if i <? vlen v then Ok (vat v i) else Err EIndex.
Definition vconst (n : nat) (c : R) : vec := mkvec n (fun _ => c).
Definition vmap (f : R -> R) (v : vec) : vec := mkvec (vlen v) (fun i => f (vat v i)).
Definition vzip (f : R -> R -> R) (u v : vec) : res vec :=
  n <- bdim (vlen u) (vlen v) ;;
  Ok (mkvec n (fun i => f (vat u (bix (vlen u) i)) (vat v (bix (vlen v) i)))).
(** [np.hstack((u, v))] on 1-d arrays *)
Definition vcat (u v : vec) : vec :=
  mkvec (vlen u + vlen v)
        (fun i => if i <? vlen u then vat u i else vat v (i - vlen u)).
(** [np.kron(u, v)] on 1-d arrays *)
Definition vkron (u v : vec) : vec :=
  mkvec (vlen u * vlen v) (fun i => vat u (i / vlen v) * vat v (i mod vlen v)).

(** sum_{i<n} f i *)
Fixpoint rsum (n : nat) (f : nat -> R) : R :=
  match n with O => 0 | S k => rsum k f + f k end.
Definition vsum (v : vec) : R := rsum (vlen v) (vat v).
Definition vdot (u v : vec) : res R :=
  if vlen u =? vlen v then Ok (rsum (vlen u) (fun i => vat u i * vat v i)) else Err EShape.

(** ** Matrices *)
Definition mconst (n m : nat) (c : R) : mat := mkmat n m (fun _ _ => c).
Definition mmap (f : R -> R) (A : mat) : mat := mkmat (nr A) (nc A) (fun i j => f (mat_at A i j)).
Definition mzip (f : R -> R -> R) (A B : mat) : res mat :=
  r <- bdim (nr A) (nr B) ;;
  c <- bdim (nc A) (nc B) ;;
  Ok (mkmat r c (fun i j => f (mat_at A (bix (nr A) i) (bix (nc A) j))
                              (mat_at B (bix (nr B) i) (bix (nc B) j)))).
Definition madd := mzip Rplus.
Definition msub := mzip Rminus.
Definition mmul := mzip Rmult.                       (* elementwise [*] *)
Definition mscal (c : R) (A : mat) : mat := mmap (Rmult c) A.
Definition mtrans (A : mat) : mat := mkmat (nc A) (nr A) (fun i j => mat_at A j i).
(** [A @ B] *)
Definition mdot (A B : mat) : res mat :=
  if nc A =? nr B
  then Ok (mkmat (nr A) (nc B) (fun i j => rsum (nc A) (fun k => mat_at A i k * mat_at B k j)))
  else Err EShape.
(** [A @ v] *)
Definition mdotv (A : mat) (v : vec) : res vec :=
  if nc A =? vlen v
  then Ok (mkvec (nr A) (fun i => rsum (nc A) (fun k => mat_at A i k * vat v k)))
  else Err EShape.
(** [np.diag(v)] for a vector, [np.diag(A)] for a matrix, [np.eye(n)] *)
Definition mdiag (v : vec) : mat :=
  mkmat (vlen v) (vlen v) (fun i j => if i =? j then vat v i else 0).
Definition diagv (A : mat) : vec := mkvec (Nat.min (nr A) (nc A)) (fun i => mat_at A i i).
Definition meye (n : nat) : mat := mkmat n n (fun i j => if i =? j then 1 else 0).
(** rows stacked: [np.vstack((A, B))] *)
Definition mvstack (A B : mat) : res mat :=
  if nc A =? nc B
  then Ok (mkmat (nr A + nr B) (nc A)
             (fun i j => if i <? nr A then mat_at A i j else mat_at B (i - nr A) j))
  else Err EShape.

(** Basic slices [A[r1:r2, c1:c2]]: out-of-range ends are clipped, as in NumPy. *)
Definition mslice (A : mat) (r1 r2 c1 c2 : nat) : mat :=
  let r2' := Nat.min r2 (nr A) in let c2' := Nat.min c2 (nc A) in
  mkmat (r2' - r1) (c2' - c1) (fun i j => mat_at A (r1 + i) (c1 + j)).
(** value [V] can be broadcast to a target of shape [h x w] *)
Definition bcast_to (h w : nat) (V : mat) : bool :=
  ((nr V =? h) || (nr V =? 1)) && ((nc V =? w) || (nc V =? 1)).
(** [A[r1:r2, c1:c2] = V] and [A[r1:r2, c1:c2] += V], generalised over the update [op] *)
Definition mupd (op : R -> R -> R) (A : mat) (r1 r2 c1 c2 : nat) (V : mat) : res mat :=
  let r2' := Nat.min r2 (nr A) in let c2' := Nat.min c2 (nc A) in
  if bcast_to (r2' - r1) (c2' - c1) V
  then Ok (mkmat (nr A) (nc A) (fun i j =>
         if (r1 <=? i) && (i <? r2') && (c1 <=? j) && (j <? c2')
         then op (mat_at A i j) (mat_at V (bix (nr V) (i - r1)) (bix (nc V) (j - c1)))
         else mat_at A i j))
  else Err EShape.
Definition mset := mupd (fun _ v => v).
Definition madd_at := mupd Rplus.
Definition msub_at := mupd Rminus.
(** in-place [A += V], [A -= V] on whole arrays *)
Definition miadd (A V : mat) : res mat := madd_at A 0 (nr A) 0 (nc A) V.
Definition misub (A V : mat) : res mat := msub_at A 0 (nr A) 0 (nc A) V.

(** ** Boolean masks *)
Fixpoint count_true (b : list bool) : nat :=
  match b with [] => 0%nat | x :: t => ((if x then 1 else 0) + count_true t)%nat end.
(** indices of the [true] entries, in order (np.nonzero) *)
Fixpoint true_idx_from (k : nat) (b : list bool) : list nat :=
  match b with
  | [] => []
  | true :: t => k :: true_idx_from (S k) t
  | false :: t => true_idx_from (S k) t
  end.
Definition true_idx (b : list bool) : list nat := true_idx_from 0 b.
Definition sel (b : list bool) (i : nat) : nat := nth i (true_idx b) 0%nat.
(** [A[b, :]], [A[:, b]], [v[b]] *)
Definition mrows (A : mat) (b : list bool) : res mat :=
  if length b =? nr A
  then Ok (mkmat (count_true b) (nc A) (fun i j => mat_at A (sel b i) j)) else Err EIndex.
Definition mcols (A : mat) (b : list bool) : res mat :=
  if length b =? nc A
  then Ok (mkmat (nr A) (count_true b) (fun i j => mat_at A i (sel b j))) else Err EIndex.

(** ** Rank-3 arrays *)
Definition tconst (d n m : nat) (c : R) : ten := mkten d n m (fun _ _ _ => c).
Definition tmap (f : R -> R) (T : ten) : ten :=
  mkten (td T) (tr T) (tc T) (fun k i j => f (tat T k i j)).
(** [T[k]], [T[k,:,:]] *)
Definition tget (T : ten) (k : nat) : res mat :=
  if k <? td T then Ok (mkmat (tr T) (tc T) (tat T k)) else Err EIndex.
(** [T[k,:,:] = A] where [A] already has the shape of the slice *)
Definition tput (T : ten) (k : nat) (A : mat) : res ten :=
  if k <? td T then
    if (nr A =? tr T) && (nc A =? tc T)
    then Ok (mkten (td T) (tr T) (tc T) (fun k' i j => if k' =? k then mat_at A i j else tat T k' i j))
    else Err EShape
  else Err EIndex.
(** [T[k, r1:r2, c1:c2] op= V] *)
Definition tupd (op : R -> R -> R) (T : ten) (k r1 r2 c1 c2 : nat) (V : mat) : res ten :=
  A <- tget T k ;; A' <- mupd op A r1 r2 c1 c2 V ;; tput T k A'.
Definition tset := tupd (fun _ v => v).
Definition tadd_at := tupd Rplus.
Definition tsub_at := tupd Rminus.
Definition trows (T : ten) (b : list bool) : res ten :=
  if length b =? tr T
  then Ok (mkten (td T) (count_true b) (tc T) (fun k i j => tat T k (sel b i) j)) else Err EIndex.
Definition tcols (T : ten) (b : list bool) : res ten :=
  if length b =? tc T
  then Ok (mkten (td T) (tr T) (count_true b) (fun k i j => tat T k i (sel b j))) else Err EIndex.
(** [T[:,:,:m] = S] (rank-3 into the first columns) *)
Definition tset_cols (T : ten) (m : nat) (S : ten) : res ten :=
  if (td S =? td T) && (tr S =? tr T) && (tc S =? Nat.min m (tc T))
  then Ok (mkten (td T) (tr T) (tc T)
             (fun k i j => if j <? Nat.min m (tc T) then tat S k i j else tat T k i j))
  else Err EShape.
