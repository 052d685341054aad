(** * Model of gpgradpy/src/base/CommonFun.py: distances and the data vector.
    [calc_Rtensor] is in KernelSqExp.v; [test_grad_calc] (l.86-148) is in GradTest.v. *)
From Coq Require Import Reals List Arith Bool.
From Verif.Base Require Import NpLite.
Import ListNotations.
Local Open Scope R_scope.

(** scipy.spatial.distance.cdist(X, X, 'euclidean')[p, q] *)
Definition cdist (X : mat) (p q : nat) : R := sqrt (rsum (nc X) (fun i => (mat_at X p i - mat_at X q i) ^ 2)).
(** np.nanmin / np.nanmax of a non-empty list; on an empty array numpy raises ValueError *)
Definition lmin (l : list R) : res R := match l with [] => Err EShape | a :: t => Ok (fold_left Rmin t a) end.
Definition lmax (l : list R) : res R := match l with [] => Err EShape | a :: t => Ok (fold_left Rmax t a) end.
Definition offdiag (n : nat) : list (nat * nat) :=
  flat_map (fun p => map (fun q => (p, q)) (filter (fun q => negb (p =? q)) (seq 0 n))) (seq 0 n).
Definition allpairs (n : nat) : list (nat * nat) := flat_map (fun p => map (fun q => (p, q)) (seq 0 n)) (seq 0 n).
(** l.15-34: the NaN diagonal is skipped by nanmin; a single point gives NaN ([None]) *)
Definition calc_dist_min (X : mat) : res (option R) :=
  if nr X =? 1 then Ok None
  else m <- lmin (map (fun pq => cdist X (fst pq) (snd pq)) (offdiag (nr X))) ;; Ok (Some m).
(** l.36-54 *)
Definition calc_dist_max (X : mat) : res (option R) :=
  if nr X =? 1 then Ok None
  else m <- lmax (map (fun pq => cdist X (fst pq) (snd pq)) (allpairs (nr X))) ;; Ok (Some m).

(** [A.reshape(A.size, order='f')]: columns one after the other *)
Definition reshape_f (A : mat) : vec := mkvec (nr A * nc A) (fun i => mat_at A (i mod nr A) (i / nr A)).
(** l.152-173 [make_data_vec] *)
Definition make_data_vec (fval : vec) (fgrad : option mat) : vec :=
  match fgrad with None => fval | Some G => vcat fval (reshape_f G) end.
