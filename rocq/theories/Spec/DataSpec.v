(** * Independent specification vocabulary for the data of a Gaussian process: the observations in the
    documented order, shape consistency and the noise configuration. *)
From Coq Require Import Reals List Arith Bool.
From Verif.Base Require Import NpLite.
From Verif.Spec Require Import KernelSpec.
From Verif.Model Require Import WellCond Rescaling GpState.
Import ListNotations.
Local Open Scope R_scope.

(** What row r of the data stands for: the value at point p, or the i-th partial derivative stored in
    row q of the gradient array (the q-th of the points whose gradient is used). *)
Inductive label := LVal (p : nat) | LDer (i q : nat).
Definition labels (n d g : nat) : list label :=
  map LVal (seq 0 n) ++ flat_map (fun i => map (LDer i) (seq 0 g)) (seq 0 d).
(** the observation a label stands for *)
Definition label_obs (n : nat) (X : nat -> pt) (b : option (list bool)) (l : label) : obs :=
  match l with LVal p => Val (X p) | LDer i q => Der i (X (nth q (grad_points n b) 0%nat)) end.
(** value and noise variance of an observation after scaling: function values are shifted and scaled,
    partial derivatives are scaled by the chain rule *)
Definition scaled_value (sh sc : R) (s : nat -> R) (fval : vec) (grad : option mat) (l : label) : R :=
  match l with
  | LVal p => (vat fval p - sh) * sc
  | LDer i q => match grad with Some G => mat_at G q i * (sc / s i) | None => 0 end
  end.
(** noise variance: the square of the scaled standard deviation when known, else the hyperparameter *)
Definition noise_variance (sc : R) (s : nat -> R) (sf : option vec) (sg : option mat) (vf vg : option R) (l : label) : R :=
  match l with
  | LVal p => match sf with Some v => (vat v p * sc) ^ 2 | None => match vf with Some v => v | None => 0 end end
  | LDer i q => match sg with Some M => (mat_at M q i * (sc / s i)) ^ 2 | None => match vg with Some v => v | None => 0 end end
  end.
(** shift and scale of the values, and scale of each coordinate, in force *)
Definition out_shift (d : gpdata) : R := match d_scl d with Some r => r_obj_shift r | None => 0 end.
Definition out_scale (d : gpdata) : R := match d_scl d with Some r => r_obj_scale r | None => 1 end.
Definition in_scale (d : gpdata) (i : nat) : R := match d_scl d with Some r => vat (r_scale r) i | None => 1 end.

(** An argument std is known when it is an array without NaN. *)
Definition known {A} (s : stdarg A) : option A := match s with SdOk a => Some a | _ => None end.
Definition given {A} (s : stdarg A) : option A := match s with SdNone => None | SdNan a | SdOk a => Some a end.
(** all entries of the given array are below 1e-10 *)
Definition vtiny (v : vec) : Prop := forall i, (i < vlen v)%nat -> vat v i < / 10 ^ 10.
Definition mtiny (A : mat) : Prop := forall i j, (i < nr A)%nat -> (j < nc A)%nat -> mat_at A i j < / 10 ^ 10.
(** number of gradients used *)
Definition n_used (n : nat) (b : option (list bool)) : nat := length (grad_points n b).
(** the shape conditions of the documentation on everything but x_eval *)
Definition shapes_ok (o : gpopt) (fval : vec) (sf : stdarg vec) (G : option mat) (sg : stdarg mat) (b : option (list bool)) : Prop :=
  (forall s, known sf = Some s -> vlen s = vlen fval) /\
  (if o_use_grad o then
     mask_ok (vlen fval) b /\ exists g, G = Some g /\ nr g = n_used (vlen fval) b /\ nc g = o_dim o /\
     forall s, known sg = Some s -> nr s = nr g /\ nc s = nc g
   else b = None /\ G = None).
Definition x_ok (o : gpopt) (x : mat) (fval : vec) : Prop := nr x = vlen fval /\ nc x = o_dim o.

(** ** Distances between the rows of a matrix of points *)
Definition dist (d : nat) (x y : pt) : R := sqrt (rsum d (fun i => (x i - y i) ^ 2)).
(** [m] is the smallest / largest distance between two points of X *)
Definition is_dist_min (X : mat) (m : R) : Prop :=
  (exists p q, (p < nr X)%nat /\ (q < nr X)%nat /\ p <> q /\ m = dist (nc X) (rows_of X p) (rows_of X q)) /\
  forall p q, (p < nr X)%nat -> (q < nr X)%nat -> p <> q -> m <= dist (nc X) (rows_of X p) (rows_of X q).
Definition is_dist_max (X : mat) (m : R) : Prop :=
  (exists p q, (p < nr X)%nat /\ (q < nr X)%nat /\ m = dist (nc X) (rows_of X p) (rows_of X q)) /\
  forall p q, (p < nr X)%nat -> (q < nr X)%nat -> dist (nc X) (rows_of X p) (rows_of X q) <= m.
