(** * Model of gpgradpy/src/kernel/KernelRatQuad.py (classes KernelRatQuadBase,
    KernelRatQuadGradMod, KernelRatQuad).  KernelRatQuadGrad (l.165-434) is dead code (l.846 is
    commented out).  [x**y] on floats is [Rpower], faithful for x>0; the bases here are
    1 + sum theta R^2 / alpha >= 1 for theta >= 0, alpha > 0. *)
From Coq Require Import Reals List Arith Bool.
From Verif.Base Require Import NpLite.
From Verif.Model Require Import KernelSqExp.
Import ListNotations.
Local Open Scope R_scope.

(** l.43-46 and the same lines of the other methods: sum_d theta[d] * Rtensor[d]**2 *)
Definition rat_temp (Rt : ten) (theta : vec) : res mat :=
  for_range 0 (td Rt) (fun d acc =>
    th <- vget theta d ;;
    Rd <- tget Rt d ;;
    miadd acc (mscal th (mmap (fun x => x ^ 2) Rd)))
    (mconst (tr Rt) (tc Rt) 0).

(** (1 + temp / alpha)**p *)
Definition rat_B (alpha temp : R) : R := 1 + temp / alpha.
Definition rat_pow (alpha p temp : R) : R := Rpower (rat_B alpha temp) p.

(** l.18-50 [rat_quad_calc_KernBase] *)
Definition rat_calc_KernBase (Rt : ten) (theta : vec) (alpha : R) : res mat :=
  temp <- rat_temp Rt theta ;;
  Ok (mmap (rat_pow alpha (- alpha)) temp).

(** l.54-96 [rat_quad_calc_KernBase_hess_x] *)
Definition rat_calc_KernBase_hess_x (Rt : ten) (theta : vec) (alpha : R) : res ten :=
  let dim := td Rt in let n1 := tr Rt in let n2 := tc Rt in
  temp <- rat_temp Rt theta ;;
  let B1 := mmap (rat_pow alpha (- alpha - 1)) temp in
  let B2 := mmap (rat_pow alpha (- alpha - 2)) temp in
  let scalar1 := 4 * (1 + 1 / alpha) in
  for_range 0 dim (fun k H =>
    thk <- vget theta k ;;
    H <- tsub_at H k (k * n1) ((k + 1) * n1) 0 n2 (mscal (2 * thk) B1) ;;
    Rk <- tget Rt k ;;
    for_range 0 dim (fun i H =>
      thi <- vget theta i ;;
      Ri <- tget Rt i ;;
      p <- mmul (mscal (scalar1 * thi * thk) Ri) Rk ;;
      v <- mmul p B2 ;;
      tadd_at H k (i * n1) ((i + 1) * n1) 0 n2 v) H)
    (tconst dim (n1 * dim) n2 0).

(** l.100-129 [rat_quad_calc_KernBase_grad_th] *)
Definition rat_calc_KernBase_grad_th (Rt : ten) (theta : vec) (alpha : R) : res ten :=
  let dim := td Rt in let n1 := tr Rt in
  _ <- assert_ (tr Rt =? tc Rt) ;;
  temp <- rat_temp Rt theta ;;
  let B1 := mmap (rat_pow alpha (- alpha - 1)) temp in
  for_range 0 dim (fun d G =>
    Rd <- tget Rt d ;;
    v <- mmul (mmap (fun x => - x ^ 2) Rd) B1 ;;
    tset G d 0 n1 0 (tc Rt) v)
    (tconst dim n1 n1 0).

(** l.161, l.821: B**(-alpha-1) * (mat_1 / alpha - B * log(B)) *)
Definition rat_grad_alpha_entry (alpha t : R) : R :=
  rat_pow alpha (- alpha - 1) t * (t / alpha - rat_B alpha t * ln (rat_B alpha t)).

(** l.133-163 [rat_quad_calc_KernBase_grad_alpha]; [mat_1] is allocated (n1, n1) and added to
    with [+=], so n2 must broadcast to n1. *)
Definition rat_calc_KernBase_grad_alpha (Rt : ten) (theta : vec) (alpha : R) : res ten :=
  let n1 := tr Rt in
  temp <- for_range 0 (td Rt) (fun d acc =>
            th <- vget theta d ;;
            Rd <- tget Rt d ;;
            miadd acc (mscal th (mmap (fun x => x ^ 2) Rd)))
            (mconst n1 n1 0) ;;
  tset (tconst 1 n1 n1 0) 0 0 n1 0 n1 (mmap (rat_grad_alpha_entry alpha) temp).

(** l.439-552 [rat_quad_calc_KernGrad].  Note l.502: when only bvec_use_grad1 is given,
    B_m_alpha_m1_g2 is the row-restricted array B_m_alpha_m1_g1. *)
Definition rat_calc_KernGrad (Rt : ten) (theta : vec) (alpha : R) (b1 b2 : option (list bool))
  : res mat :=
  let dim := td Rt in let n1 := tr Rt in let n2 := tc Rt in
  temp <- rat_temp Rt theta ;;
  let B0 := mmap (rat_pow alpha (- alpha)) temp in
  let B1 := mmap (rat_pow alpha (- alpha - 1)) temp in
  let B2 := mmap (rat_pow alpha (- alpha - 2)) temp in
  let Rsq := tmap (fun x => x ^ 2) Rt in
  let n1_grad := opt_count n1 b1 in
  let n2_grad := opt_count n2 b2 in
  Rt_g1  <- opt_trows Rt b1 ;;
  Rsq_g1 <- opt_trows Rsq b1 ;;
  B1_g1  <- opt_rows B1 b1 ;;
  B2_g1  <- opt_rows B2 b1 ;;
  Rt_g2  <- opt_tcols Rt b2 ;;
  Rt_gg  <- opt_tcols Rt_g1 b2 ;;
  Rsq_gg <- opt_tcols Rsq_g1 b2 ;;
  B1_g2  <- match b2 with None => Ok B1_g1 | Some m => mcols B1 m end ;;
  B1_gg  <- opt_cols B1_g1 b2 ;;
  B2_gg  <- opt_cols B2_g1 b2 ;;
  KG <- mset (mconst (n1 + n1_grad * dim) (n2 + n2_grad * dim) 0) 0 n1 0 n2 B0 ;;
  let const := 4 * (1 + 1 / alpha) in
  for_range 0 dim (fun i KG =>
    let ri1 := (n1 + i * n1_grad)%nat in let ri2 := (ri1 + n1_grad)%nat in
    let ci1 := (n2 + i * n2_grad)%nat in let ci2 := (ci1 + n2_grad)%nat in
    thi <- vget theta i ;;
    R1 <- tget Rt_g1 i ;;
    v1 <- mmul (mscal (- 2 * thi) R1) B1_g1 ;;
    KG <- mset KG ri1 ri2 0 n2 v1 ;;
    R2 <- tget Rt_g2 i ;;
    v2 <- mmul (mscal (2 * thi) R2) B1_g2 ;;
    KG <- mset KG 0 n1 ci1 ci2 v2 ;;
    Rsqi <- tget Rsq_gg i ;;
    w <- mmul (mscal (const * thi ^ 2) Rsqi) B2_gg ;;
    v3 <- msub (mscal (2 * thi) B1_gg) w ;;
    KG <- mset KG ri1 ri2 ci1 ci2 v3 ;;
    Rgi <- tget Rt_gg i ;;
    for_range (i + 1) dim (fun j KG =>
      let rj1 := (n1 + j * n1_grad)%nat in let rj2 := (rj1 + n1_grad)%nat in
      let cj1 := (n2 + j * n2_grad)%nat in let cj2 := (cj1 + n2_grad)%nat in
      thj <- vget theta j ;;
      Rgj <- tget Rt_gg j ;;
      w1 <- mmul (mscal (- const * thi * thj) Rgi) Rgj ;;
      term <- mmul w1 B2_gg ;;
      KG <- madd_at KG ri1 ri2 cj1 cj2 term ;;
      madd_at KG rj1 rj2 ci1 ci2 term) KG) KG.

(** l.556-632 [rat_quad_calc_KernGrad_grad_x] ([ck2 = ck1 + n2] etc., l.604, l.613, l.627) *)
Definition rat_calc_KernGrad_grad_x (Rt : ten) (theta : vec) (alpha : R) (b2 : option (list bool))
  : res ten :=
  let dim := td Rt in let n1 := tr Rt in let n2 := tc Rt in
  temp <- rat_temp Rt theta ;;
  let B1 := mmap (rat_pow alpha (- alpha - 1)) temp in
  let B2 := mmap (rat_pow alpha (- alpha - 2)) temp in
  let B3 := mmap (rat_pow alpha (- alpha - 3)) temp in
  let n2_grad := opt_count n2 b2 in
  Rt_g2 <- opt_tcols Rt b2 ;;
  B2_g2 <- opt_cols B2 b2 ;;
  B3_g2 <- opt_cols B3 b2 ;;
  let scalar1 := 4 * (1 + 1 / alpha) in
  let scalar2 := 2 * (1 + 2 / alpha) * scalar1 in
  for_range 0 dim (fun k G =>
    let rk1 := (k * n1)%nat in let rk2 := (rk1 + n1)%nat in
    let ck1 := (n2 + k * n2_grad)%nat in let ck2 := (ck1 + n2)%nat in
    thk <- vget theta k ;;
    G <- tsub_at G k rk1 rk2 0 n2 (mscal (2 * thk) B1) ;;
    for_range 0 dim (fun i G =>
      let ri1 := (i * n1)%nat in let ri2 := (ri1 + n1)%nat in
      let ci1 := (n2 + i * n2_grad)%nat in let ci2 := (ci1 + n2)%nat in
      thi <- vget theta i ;;
      Ri <- tget Rt i ;; Rk <- tget Rt k ;;
      p <- mmul (mscal (scalar1 * thi * thk) Ri) Rk ;;
      p <- mmul p B2 ;;
      G <- tadd_at G k ri1 ri2 0 n2 p ;;
      Rk2 <- tget Rt_g2 k ;; Ri2 <- tget Rt_g2 i ;;
      q <- mmul (mscal (scalar1 * thi * thk) Rk2) B2_g2 ;;
      G <- tsub_at G k ri1 ri2 ci1 ci2 q ;;
      r <- mmul (mscal (scalar1 * thi * thk) Ri2) B2_g2 ;;
      G <- tsub_at G k ri1 ri2 ck1 ck2 r ;;
      G <- tsub_at G k rk1 rk2 ci1 ci2 r ;;
      for_range 0 dim (fun j G =>
        let cj1 := (n2 + j * n2_grad)%nat in let cj2 := (cj1 + n2)%nat in
        thj <- vget theta j ;;
        Rj2 <- tget Rt_g2 j ;;
        u1 <- mmul (mscal (scalar2 * thi * thj * thk) Ri2) Rj2 ;;
        u2 <- mmul u1 Rk2 ;;
        u3 <- mmul u2 B3_g2 ;;
        tadd_at G k ri1 ri2 cj1 cj2 u3) G) G)
    (tconst dim (n1 * dim) (n2 + n2_grad * dim) 0).

(** l.636-748 [rat_quad_calc_KernGrad_grad_th] *)
Definition rat_calc_KernGrad_grad_th (Rt : ten) (theta : vec) (alpha : R) (b : option (list bool))
  : res ten :=
  let dim := td Rt in let n1 := tr Rt in
  _ <- assert_ (tr Rt =? tc Rt) ;;
  let Rsq := tmap (fun x => x ^ 2) Rt in
  temp <- rat_temp Rt theta ;;
  let B1 := mmap (rat_pow alpha (- alpha - 1)) temp in
  let B2 := mmap (rat_pow alpha (- alpha - 2)) temp in
  let B3 := mmap (rat_pow alpha (- alpha - 3)) temp in
  let n_grad := opt_count n1 b in
  Rt_g1 <- opt_trows Rt b ;;
  Rt_gg <- opt_tcols Rt_g1 b ;;
  Rsq_g1 <- opt_trows Rsq b ;;
  Rsq_gg <- opt_tcols Rsq_g1 b ;;
  B1_g1 <- opt_rows B1 b ;;
  B1_gg <- opt_cols B1_g1 b ;;
  B2_g1 <- opt_rows B2 b ;;
  B2_gg <- opt_cols B2_g1 b ;;
  B3_g1 <- opt_rows B3 b ;;
  B3_gg <- opt_cols B3_g1 b ;;
  let n_rows := (n1 + n_grad * dim)%nat in
  let scalar1 := 1 + 1 / alpha in
  let scalar2 := scalar1 * (1 + 2 / alpha) in
  for_range 0 dim (fun d G =>
    let rd1 := (n1 + d * n_grad)%nat in let rd2 := (rd1 + n_grad)%nat in
    Rsqd <- tget Rsq d ;;
    v0 <- mmul (mscal (-1) Rsqd) B1 ;;
    G <- tset G d 0 n1 0 n1 v0 ;;
    Rg1d <- tget Rt_g1 d ;;
    term <- mmul (mscal (-2) Rg1d) B1_g1 ;;
    G <- tadd_at G d rd1 rd2 0 n1 term ;;
    G <- tadd_at G d 0 n1 rd1 rd2 (mtrans term) ;;
    G <- tadd_at G d rd1 rd2 rd1 rd2 (mscal 2 B1_gg) ;;
    for_range 0 dim (fun i G =>
      let ri1 := (n1 + i * n_grad)%nat in let ri2 := (ri1 + n_grad)%nat in
      thi <- vget theta i ;;
      Rg1i <- tget Rt_g1 i ;;
      Rsq1d <- tget Rsq_g1 d ;;
      t1 <- mmul (mscal (2 * scalar1 * thi) Rg1i) Rsq1d ;;
      term <- mmul t1 B2_g1 ;;
      G <- tadd_at G d ri1 ri2 0 n1 term ;;
      G <- tadd_at G d 0 n1 ri1 ri2 (mtrans term) ;;
      Rggi <- tget Rt_gg i ;;
      Rggd <- tget Rt_gg d ;;
      t2 <- mmul (mscal (-4 * scalar1 * thi) Rggi) Rggd ;;
      term2 <- mmul t2 B2_gg ;;
      G <- tadd_at G d rd1 rd2 ri1 ri2 term2 ;;
      G <- tadd_at G d ri1 ri2 rd1 rd2 term2 ;;
      Rsqggd <- tget Rsq_gg d ;;
      Rsqggi <- tget Rsq_gg i ;;
      u1 <- mmul (mscal (-2 * scalar1 * thi) Rsqggd) B2_gg ;;
      u2 <- mmul (mscal (4 * scalar2 * thi ^ 2) Rsqggi) Rsqggd ;;
      u3 <- mmul u2 B3_gg ;;
      u4 <- madd u1 u3 ;;
      G <- tadd_at G d ri1 ri2 ri1 ri2 u4 ;;
      for_range (i + 1) dim (fun j G =>
        let cj1 := (n1 + j * n_grad)%nat in let cj2 := (cj1 + n_grad)%nat in
        thj <- vget theta j ;;
        Rggj <- tget Rt_gg j ;;
        w1 <- mmul (mscal (4 * scalar2 * thi * thj) Rggi) Rggj ;;
        w2 <- mmul w1 Rsqggd ;;
        t4 <- mmul w2 B3_gg ;;
        G <- tadd_at G d ri1 ri2 cj1 cj2 t4 ;;
        tadd_at G d cj1 cj2 ri1 ri2 t4) G) G)
    (tconst dim n_rows n_rows 0).

(** l.784-786: T0, T1, T2 as functions of mat_1 *)
Definition rat_T0 (a t : R) : R :=
  2 * rat_pow a (- a - 2) t * ((- a - 1) / a ^ 2 * t + rat_B a t * ln (rat_B a t)).
Definition rat_T1 (a t : R) : R :=
  2 * rat_pow a (- a - 2) t * ((a + 1) / a ^ 2 * t - rat_B a t * ln (rat_B a t)).
Definition rat_T2 (a t : R) : R :=
  4 * rat_pow a (- a - 3) t *
    (rat_B a t / a ^ 2 - (1 + 1 / a) * (a + 2) / a ^ 2 * t
     + (1 + 1 / a) * (rat_B a t * ln (rat_B a t))).

(** l.752-843 [rat_quad_calc_KernGrad_grad_alpha] *)
Definition rat_calc_KernGrad_grad_alpha (Rt : ten) (theta : vec) (alpha : R)
  (b : option (list bool)) : res ten :=
  let dim := td Rt in let n1 := tr Rt in
  let Rsq := tmap (fun x => x ^ 2) Rt in
  _ <- assert_ (tr Rt =? tc Rt) ;;
  mat_1 <- rat_temp Rt theta ;;
  let T0 := mmap (rat_T0 alpha) mat_1 in
  let T1 := mmap (rat_T1 alpha) mat_1 in
  let T2 := mmap (rat_T2 alpha) mat_1 in
  let n_grad := opt_count n1 b in
  Rt_g1 <- opt_trows Rt b ;;
  Rt_gg <- opt_tcols Rt_g1 b ;;
  Rsq_g1 <- opt_trows Rsq b ;;
  Rsq_gg <- opt_tcols Rsq_g1 b ;;
  T0_g1 <- opt_rows T0 b ;;
  T1_g1 <- opt_rows T1 b ;;
  T1_gg <- opt_cols T1_g1 b ;;
  T2_g1 <- opt_rows T2 b ;;
  T2_gg <- opt_cols T2_g1 b ;;
  let n_rows := (n1 + n_grad * dim)%nat in
  G <- tset (tconst 1 n_rows n_rows 0) 0 0 n1 0 n1 (mmap (rat_grad_alpha_entry alpha) mat_1) ;;
  for_range 0 dim (fun i G =>
    let ri1 := (n1 + i * n_grad)%nat in let ri2 := (ri1 + n_grad)%nat in
    thi <- vget theta i ;;
    Rg1i <- tget Rt_g1 i ;;
    term <- mmul (mscal thi Rg1i) T0_g1 ;;
    G <- tadd_at G 0 ri1 ri2 0 n1 term ;;
    G <- tadd_at G 0 0 n1 ri1 ri2 (mtrans term) ;;
    Rsqi <- tget Rsq_gg i ;;
    w <- mmul (mscal (thi ^ 2) Rsqi) T2_gg ;;
    u <- madd (mscal thi T1_gg) w ;;
    G <- tadd_at G 0 ri1 ri2 ri1 ri2 u ;;
    Rggi <- tget Rt_gg i ;;
    for_range (i + 1) dim (fun j G =>
      let cj1 := (n1 + j * n_grad)%nat in let cj2 := (cj1 + n_grad)%nat in
      thj <- vget theta j ;;
      Rggj <- tget Rt_gg j ;;
      w1 <- mmul (mscal (thi * thj) Rggi) Rggj ;;
      t4 <- mmul w1 T2_gg ;;
      G <- tadd_at G 0 ri1 ri2 cj1 cj2 t4 ;;
      tadd_at G 0 cj1 cj2 ri1 ri2 t4) G) G.

(** l.853-877 *)
Definition rat_theta2gamma (theta : vec) : vec := vmap (fun t => sqrt (2 * t)) theta.
Definition rat_gamma2theta (gamma : vec) : vec := vmap (fun g => 0.5 * g ^ 2) gamma.
Definition rat_pvec (n_eval n_grad : nat) (theta : vec) : vec :=
  vcat (vconst n_eval 1) (vkron (rat_theta2gamma theta) (vconst n_grad 1)).
Definition rat_Kern_precon (n_eval n_grad : nat) (theta : vec) : res (mat * mat * ten) :=
  let gamma := rat_theta2gamma theta in
  let pvec := rat_pvec n_eval n_grad theta in
  let pvec_inv := vmap (fun x => / x) pvec in
  gp <- calc_grad_precon_matrix n_eval n_grad (vmap (fun g => / g) gamma) ;;
  Ok (mdiag pvec, mdiag pvec_inv, gp).
Definition rat_Kern_precon_vec (n_eval n_grad : nat) (theta : vec) : res (vec * vec * mat) :=
  let gamma := rat_theta2gamma theta in
  let pvec := rat_pvec n_eval n_grad theta in
  let pvec_inv := vmap (fun x => / x) pvec in
  gp <- calc_grad_precon_vec n_eval n_grad (vmap (fun g => / g) gamma) ;;
  Ok (pvec, pvec_inv, gp).
