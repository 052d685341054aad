(** * Model of gpgradpy/src/kernel/KernelSqExp.py (classes KernelSqExpBase, KernelSqExpGradMod,
    KernelSqExp) and of KernelCommon.py.  The class KernelSqExpGrad (l.129-316) is dead code:
    it is not a base of KernelSqExp (l.575).  numba's [@jit] is taken as the identity. *)
From Coq Require Import Reals List Arith Bool.
From Verif.Base Require Import NpLite.
Import ListNotations.
Local Open Scope R_scope.

(** base/CommonFun.py l.58-84 [calc_Rtensor] (argument [exp] is unused by the code):
    R[d,i,j] = X[i,d] - Y[j,d].  The column/row subtraction X[:,[d]] - Y[:,[d]].T is written
    entrywise. *)
Definition calc_Rtensor (X Y : mat) : res ten :=
  _ <- assert_ (nc X =? nc Y) ;;
  Ok (mkten (nc X) (nr X) (nr Y) (fun d i j => mat_at X i d - mat_at Y j d)).

(** KernelSqExp.py l.18-46 [sq_exp_calc_KernBase] *)
Definition sq_exp_exp_sum (Rt : ten) (theta : vec) : res mat :=
  for_range 0 (td Rt) (fun i acc =>
    th <- vget theta i ;;
    Ri <- tget Rt i ;;
    misub acc (mscal th (mmap (fun x => x ^ 2) Ri)))
    (mconst (tr Rt) (tc Rt) 0).
Definition sq_exp_calc_KernBase (Rt : ten) (theta : vec) : res mat :=
  exp_sum <- sq_exp_exp_sum Rt theta ;;
  Ok (mmap exp exp_sum).

(** l.49-88 [sq_exp_calc_KernBase_hess_x] and its jit helper *)
Definition delta (i j : nat) : R := if i =? j then 1 else 0.
Definition sq_exp_calc_KernBase_hess_x_jit (Rt : ten) (theta : vec) (KernBase : mat) : res ten :=
  let dim := td Rt in let n1 := tr Rt in let n2 := tc Rt in
  for_range 0 dim (fun k H =>
    for_range 0 dim (fun i H =>
      let ri1 := (i * n1)%nat in
      let ri2 := (ri1 + n1)%nat in
      thi <- vget theta i ;; thk <- vget theta k ;;
      Ri <- tget Rt i ;; Rk <- tget Rt k ;;
      p <- mmul (mscal (4 * thi * thk) Ri) Rk ;;
      let q := mmap (Rplus (- 2 * thi * delta i k)) p in
      v <- mmul q KernBase ;;
      tset H k ri1 ri2 0 n2 v) H)
    (tconst dim (n1 * dim) n2 0).
Definition sq_exp_calc_KernBase_hess_x (Rt : ten) (theta : vec) : res ten :=
  KernBase <- sq_exp_calc_KernBase Rt theta ;;
  sq_exp_calc_KernBase_hess_x_jit Rt theta KernBase.

(** l.92-123 [sq_exp_calc_KernBase_grad_th].  The second loop runs over [theta.size]. *)
Definition sq_exp_calc_KernBase_grad_th (Rt : ten) (theta : vec) : res ten :=
  exp_sum <- sq_exp_exp_sum Rt theta ;;
  let KernBase := mmap exp exp_sum in
  for_range 0 (vlen theta) (fun i G =>
    Ri <- tget Rt i ;;
    v <- mmul (mmap (fun x => - x ^ 2) Ri) KernBase ;;
    tset G i 0 (tr Rt) 0 (tc Rt) v)
    (tconst (td Rt) (tr Rt) (tc Rt) 0).

(** l.126-127, l.571-572: the kernel has no alpha *)
Definition sq_exp_calc_Kern_grad_alpha : res ten := Err EExc.

(** l.349-377 (and the same lines in the other kernels): restriction of an array to the points
    whose gradients are used.  [None] means all. *)
Definition opt_rows (A : mat) (b : option (list bool)) : res mat :=
  match b with None => Ok A | Some m => mrows A m end.
Definition opt_cols (A : mat) (b : option (list bool)) : res mat :=
  match b with None => Ok A | Some m => mcols A m end.
Definition opt_trows (T : ten) (b : option (list bool)) : res ten :=
  match b with None => Ok T | Some m => trows T m end.
Definition opt_tcols (T : ten) (b : option (list bool)) : res ten :=
  match b with None => Ok T | Some m => tcols T m end.
Definition opt_count (n : nat) (b : option (list bool)) : nat :=
  match b with None => n | Some m => count_true m end.

(** l.322-410 [sq_exp_calc_KernGrad] (class KernelSqExpGradMod).  The four-way case analysis
    l.349-377 assigns n1_grad, n2_grad, Rtensor_{g1,g2,gg}, KernBase_{g1,g2,gg}; each case is
    exactly "restrict rows by bvec1 if given, columns by bvec2 if given". *)
Definition sq_exp_calc_KernGrad (Rt : ten) (theta : vec) (b1 b2 : option (list bool)) : res mat :=
  let dim := td Rt in let n1 := tr Rt in let n2 := tc Rt in
  exp_sum <- sq_exp_exp_sum Rt theta ;;
  let KernBase := mmap exp exp_sum in
  let n1_grad := opt_count n1 b1 in
  let n2_grad := opt_count n2 b2 in
  Rt_g1 <- opt_trows Rt b1 ;;
  K_g1  <- opt_rows KernBase b1 ;;
  Rt_g2 <- opt_tcols Rt b2 ;;
  Rt_gg <- opt_tcols Rt_g1 b2 ;;
  K_g2  <- opt_cols KernBase b2 ;;
  K_gg  <- opt_cols K_g1 b2 ;;
  KG <- mset (mconst (n1 + n1_grad * dim) (n2 + n2_grad * dim) 0) 0 n1 0 n2 KernBase ;;
  for_range 0 dim (fun i KG =>
    let ri1 := (n1 + i * n1_grad)%nat in let ri2 := (ri1 + n1_grad)%nat in
    let ci1 := (n2 + i * n2_grad)%nat in let ci2 := (ci1 + n2_grad)%nat in
    thi <- vget theta i ;;
    R1 <- tget Rt_g1 i ;;
    v1 <- mmul (mscal (- 2 * thi) R1) K_g1 ;;
    KG <- mset KG ri1 ri2 0 n2 v1 ;;
    R2 <- tget Rt_g2 i ;;
    v2 <- mmul (mscal (2 * thi) R2) K_g2 ;;
    KG <- mset KG 0 n1 ci1 ci2 v2 ;;
    Rgi <- tget Rt_gg i ;;
    v3 <- mmul (mmap (fun x => 2 * thi - 4 * thi ^ 2 * x ^ 2) Rgi) K_gg ;;
    KG <- mset KG ri1 ri2 ci1 ci2 v3 ;;
    for_range (i + 1) dim (fun j KG =>
      let rj1 := (n1 + j * n1_grad)%nat in let rj2 := (rj1 + n1_grad)%nat in
      let cj1 := (n2 + j * n2_grad)%nat in let cj2 := (cj1 + n2_grad)%nat in
      thj <- vget theta j ;;
      Rgj <- tget Rt_gg j ;;
      w1 <- mmul Rgi Rgj ;;
      w2 <- mmul w1 K_gg ;;
      let term := mscal (- 4 * thi * thj) w2 in
      KG <- madd_at KG ri1 ri2 cj1 cj2 term ;;
      madd_at KG rj1 rj2 ci1 ci2 term) KG) KG.

(** l.413-468 [sq_exp_calc_KernGrad_grad_x] and its jit helper.  Note [cj2 = cj1 + n2]
    (l.461), not [cj1 + n2_grad]; the end is clipped by the slice. *)
Definition sq_exp_calc_KernGrad_grad_x (Rt : ten) (theta : vec) (b2 : option (list bool)) : res ten :=
  let dim := td Rt in let n1 := tr Rt in let n2 := tc Rt in
  KernBase <- sq_exp_calc_KernBase Rt theta ;;
  Hx <- sq_exp_calc_KernBase_hess_x_jit Rt theta KernBase ;;
  let n2_grad := opt_count n2 b2 in
  Rt_g2 <- opt_tcols Rt b2 ;;
  K_g2 <- opt_cols KernBase b2 ;;
  G <- tset_cols (tconst dim (n1 * dim) (n2 + n2_grad * dim) 0) n2 Hx ;;
  for_range 0 dim (fun k G =>
    for_range 0 dim (fun i G =>
      let ri1 := (i * n1)%nat in let ri2 := (ri1 + n1)%nat in
      for_range 0 dim (fun j G =>
        let cj1 := (n2 + j * n2_grad)%nat in let cj2 := (cj1 + n2)%nat in
        thi <- vget theta i ;; thj <- vget theta j ;; thk <- vget theta k ;;
        Ri <- tget Rt_g2 i ;; Rj <- tget Rt_g2 j ;; Rk <- tget Rt_g2 k ;;
        a1 <- madd (mscal (delta i k) Rj) (mscal (delta j k) Ri) ;;
        let a2 := mscal (- 4 * thi * thj) a1 in
        a3 <- msub a2 (mscal (4 * delta i j * thi * thk) Rk) ;;
        b1 <- mmul (mscal (8 * thi * thj * thk) Ri) Rj ;;
        b2 <- mmul b1 Rk ;;
        s <- madd a3 b2 ;;
        v <- mmul s K_g2 ;;
        tset G k ri1 ri2 cj1 cj2 v) G) G) G.

(** l.471-568 [sq_exp_calc_KernGrad_grad_th] and its jit helper.  Note l.552: the full
    [Rtensor[d] * Rtensor[i] * KernBase] is used also when a mask is given. *)
Definition sq_exp_calc_KernGrad_grad_th (Rt : ten) (theta : vec) (b : option (list bool)) : res ten :=
  KernGrad <- sq_exp_calc_KernGrad Rt theta b b ;;
  let dim := td Rt in let n1 := tr Rt in
  _ <- assert_ (tr Rt =? tc Rt) ;;
  let KernBase := mslice KernGrad 0 n1 0 n1 in
  let Rsq := tmap (fun x => x ^ 2) Rt in
  let n_grad := opt_count n1 b in
  Rt_g1 <- opt_trows Rt b ;;
  Rsq_g1 <- opt_trows Rsq b ;;
  Rsq_gg <- opt_tcols Rsq_g1 b ;;
  K_g1 <- opt_rows KernBase b ;;
  K_gg <- opt_cols K_g1 b ;;
  let n_rows := (n1 + n_grad * dim)%nat in
  for_range 0 dim (fun d G =>
    Rsqd <- tget Rsq d ;;
    v0 <- mmul (mscal (-1) Rsqd) KernBase ;;
    G <- tset G d 0 n1 0 n1 v0 ;;
    let rd1 := (n1 + d * n_grad)%nat in let rd2 := (rd1 + n_grad)%nat in
    Rg1d <- tget Rt_g1 d ;;
    term <- mmul (mscal (-2) Rg1d) K_g1 ;;
    G <- tadd_at G d rd1 rd2 0 n1 term ;;
    G <- tadd_at G d 0 n1 rd1 rd2 (mtrans term) ;;
    G <- tadd_at G d rd1 rd2 rd1 rd2 (mscal 2 K_gg) ;;
    for_range 0 dim (fun i G =>
      let ri1 := (n1 + i * n_grad)%nat in let ri2 := (ri1 + n_grad)%nat in
      Rsq1d <- tget Rsq_g1 d ;;
      term <- mmul (mscal (-1) Rsq1d) (mslice KernGrad ri1 ri2 0 n1) ;;
      G <- tadd_at G d ri1 ri2 0 n1 term ;;
      G <- tadd_at G d 0 n1 ri1 ri2 (mtrans term) ;;
      thi <- vget theta i ;;
      Rd <- tget Rt d ;; Ri <- tget Rt i ;;
      t1 <- mmul (mscal (-4 * thi) Rd) Ri ;;
      term2 <- mmul t1 KernBase ;;
      G <- tadd_at G d rd1 rd2 ri1 ri2 term2 ;;
      G <- tadd_at G d ri1 ri2 rd1 rd2 term2 ;;
      Rsqggd <- tget Rsq_gg d ;;
      t3 <- mmul Rsqggd (mslice KernGrad ri1 ri2 ri1 ri2) ;;
      G <- tsub_at G d ri1 ri2 ri1 ri2 t3 ;;
      for_range (i + 1) dim (fun j G =>
        let cj1 := (n1 + j * n_grad)%nat in let cj2 := (cj1 + n_grad)%nat in
        t4 <- mmul (mscal (-1) Rsqggd) (mslice KernGrad ri1 ri2 cj1 cj2) ;;
        G <- tadd_at G d ri1 ri2 cj1 cj2 t4 ;;
        tadd_at G d cj1 cj2 ri1 ri2 t4) G) G)
    (tconst dim n_rows n_rows 0).

(** l.581-588 *)
Definition sq_exp_theta2gamma (theta : vec) : vec := vmap (fun t => sqrt (2 * t)) theta.
Definition sq_exp_gamma2theta (gamma : vec) : vec := vmap (fun g => 0.5 * g ^ 2) gamma.

(** KernelCommon.py l.14-49 [calc_grad_precon_matrix]: the vector form (b_return_vec True,
    one column per theta) and the matrix form (b_return_vec False). *)
Definition calc_grad_precon_vec (n_eval n_grad : nat) (gg : vec) : res mat :=
  let dim := vlen gg in
  let n_data := (n_eval + n_grad * dim)%nat in
  for_range 0 dim (fun i P =>
    let a := (n_eval + i * n_grad)%nat in let b := (a + n_grad)%nat in
    g <- vget gg i ;;
    mset P a b i (i + 1) (mconst 1 1 g))
    (mconst n_data dim 0).
(** [vec[a:b] = c] on a 1-d array *)
Definition vfill (v : vec) (a b : nat) (c : R) : vec :=
  mkvec (vlen v) (fun i => if (a <=? i) && (i <? b) then c else vat v i).
Definition calc_grad_precon_matrix (n_eval n_grad : nat) (gg : vec) : res ten :=
  let dim := vlen gg in
  let n_data := (n_eval + n_grad * dim)%nat in
  for_range 0 dim (fun i P =>
    let a := (n_eval + i * n_grad)%nat in let b := (a + n_grad)%nat in
    g <- vget gg i ;;
    let v := vfill (vconst n_data 0) a b g in
    tput P i (mdiag v))
    (tconst dim n_data n_data 0).

(** l.591-605 [sq_exp_Kern_precon] with b_return_vec False (the form the library uses);
    the vector [pvec] is also exposed. *)
Definition sq_exp_pvec (n_eval n_grad : nat) (theta : vec) : vec :=
  vcat (vconst n_eval 1) (vkron (sq_exp_theta2gamma theta) (vconst n_grad 1)).
Definition sq_exp_Kern_precon (n_eval n_grad : nat) (theta : vec) : res (mat * mat * ten) :=
  let gamma := sq_exp_theta2gamma theta in
  let pvec := sq_exp_pvec n_eval n_grad theta in
  let pvec_inv := vmap (fun x => / x) pvec in
  gp <- calc_grad_precon_matrix n_eval n_grad (vmap (fun g => / g) gamma) ;;
  Ok (mdiag pvec, mdiag pvec_inv, gp).
Definition sq_exp_Kern_precon_vec (n_eval n_grad : nat) (theta : vec) : res (vec * vec * mat) :=
  let gamma := sq_exp_theta2gamma theta in
  let pvec := sq_exp_pvec n_eval n_grad theta in
  let pvec_inv := vmap (fun x => / x) pvec in
  gp <- calc_grad_precon_vec n_eval n_grad (vmap (fun g => / g) gamma) ;;
  Ok (pvec, pvec_inv, gp).
