(** * Model of gpgradpy/src/kernel/KernelMatern5f2.py (classes KernelMatern5f2Base,
    KernelMatern5f2GradMod, KernelMatern5f2).  KernelMatern5f2Grad (l.141-348) is dead code
    (l.648 is commented out).  The literal 1e-16 used as floor for nu is [nu_floor]. *)
From Coq Require Import Reals List Arith Bool.
From Verif.Base Require Import NpLite.
From Verif.Model Require Import KernelSqExp.
Import ListNotations.
Local Open Scope R_scope.

Definition nu_floor : R := / 10 ^ 16.

(** l.42-47 and the same lines of the other methods:
    nu_mat = sqrt(sum_i theta[i] * Rtensor[i]**2) *)
Definition matern_nu_mat (Rt : ten) (theta : vec) : res mat :=
  s <- for_range 0 (td Rt) (fun i acc =>
         th <- vget theta i ;;
         Ri <- tget Rt i ;;
         miadd acc (mscal th (mmap (fun x => x ^ 2) Ri)))
         (mconst (tr Rt) (tc Rt) 0) ;;
  Ok (mmap sqrt s).

(** l.50, l.128, l.422 *)
Definition matern_base_entry (nu : R) : R :=
  (1 + sqrt 5 * nu + 5 / 3 * nu ^ 2) * exp (- sqrt 5 * nu).
(** l.76, l.378, l.561: (5/3) * (1 + sqrt5 * nu) * exp(-sqrt5 * nu) *)
Definition matern_mat1_entry (nu : R) : R :=
  5 / 3 * (1 + sqrt 5 * nu) * exp (- sqrt 5 * nu).
(** l.75, l.376, l.560 *)
Definition matern_Abase_entry (nu : R) : R := exp (- sqrt 5 * nu).

(** l.18-52 [matern_5f2_calc_KernBase] *)
Definition matern_calc_KernBase (Rt : ten) (theta : vec) : res mat :=
  nu <- matern_nu_mat Rt theta ;;
  Ok (mmap matern_base_entry nu).

(** l.56-94 [matern_5f2_calc_KernBase_hess_x] *)
Definition matern_calc_KernBase_hess_x (Rt : ten) (theta : vec) : res ten :=
  let dim := td Rt in let n1 := tr Rt in let n2 := tc Rt in
  nu <- matern_nu_mat Rt theta ;;
  let base := mmap matern_Abase_entry nu in
  let A := mmap matern_mat1_entry nu in
  for_range 0 dim (fun k H =>
    thk <- vget theta k ;;
    Rk <- tget Rt k ;;
    let Rk_til := mscal thk Rk in
    H <- tsub_at H k (k * n1) ((k + 1) * n1) 0 n2 (mscal thk A) ;;
    for_range 0 dim (fun i H =>
      thi <- vget theta i ;;
      Ri <- tget Rt i ;;
      let Ri_til := mscal thi Ri in
      let r1 := (i * n1)%nat in let r2 := (r1 + n1)%nat in
      p <- mmul (mscal (25 / 3) Ri_til) Rk_til ;;
      v <- mmul p base ;;
      tadd_at H k r1 r2 0 n2 v) H)
    (tconst dim (n1 * dim) n2 0).

(** l.98-135 [matern_5f2_calc_KernBase_grad_th] *)
Definition matern_calc_KernBase_grad_th (Rt : ten) (theta : vec) : res ten :=
  let dim := td Rt in let n1 := tr Rt in
  _ <- assert_ (tr Rt =? tc Rt) ;;
  nu <- matern_nu_mat Rt theta ;;
  let inv_nu := mmap (fun x => / (2 * Rmax x nu_floor)) nu in
  let KernBase := mmap matern_base_entry nu in
  for_range 0 dim (fun d G =>
    Rd <- tget Rt d ;;
    v1 <- mmul (mmap (fun x => - sqrt 5 * x ^ 2) Rd) inv_nu ;;
    v <- mmul v1 KernBase ;;
    tset G d 0 n1 0 (tc Rt) v)
    (tconst dim n1 n1 0).

(** l.138-139, l.645-646 *)
Definition matern_calc_Kern_grad_alpha : res ten := Err EExc.

(** l.354-450 [matern_5f2_calc_KernGrad] *)
Definition matern_calc_KernGrad (Rt : ten) (theta : vec) (b1 b2 : option (list bool)) : res mat :=
  let dim := td Rt in let n1 := tr Rt in let n2 := tc Rt in
  nu <- matern_nu_mat Rt theta ;;
  let Abase := mmap matern_Abase_entry nu in
  let mat1 := mmap matern_mat1_entry nu in
  let n1_grad := opt_count n1 b1 in
  let n2_grad := opt_count n2 b2 in
  Rt_g1 <- opt_trows Rt b1 ;;
  A_g1  <- opt_rows Abase b1 ;;
  m_g1  <- opt_rows mat1 b1 ;;
  Rt_g2 <- opt_tcols Rt b2 ;;
  m_g2  <- opt_cols mat1 b2 ;;
  Rt_gg <- opt_tcols Rt_g1 b2 ;;
  A_gg  <- opt_cols A_g1 b2 ;;
  m_gg  <- opt_cols m_g1 b2 ;;
  KG <- mset (mconst (n1 + n1_grad * dim) (n2 + n2_grad * dim) 0) 0 n1 0 n2
          (mmap matern_base_entry nu) ;;
  for_range 0 dim (fun i KG =>
    let ri1 := (n1 + i * n1_grad)%nat in let ri2 := (ri1 + n1_grad)%nat in
    let ci1 := (n2 + i * n2_grad)%nat in let ci2 := (ci1 + n2_grad)%nat in
    thi <- vget theta i ;;
    R1 <- tget Rt_g1 i ;;
    v1 <- mmul (mscal (- thi) R1) m_g1 ;;
    KG <- mset KG ri1 ri2 0 n2 v1 ;;
    R2 <- tget Rt_g2 i ;;
    v2 <- mmul (mscal thi R2) m_g2 ;;
    KG <- mset KG 0 n1 ci1 ci2 v2 ;;
    Rgi <- tget Rt_gg i ;;
    w <- mmul (mmap (fun x => 25 / 3 * thi ^ 2 * x ^ 2) Rgi) A_gg ;;
    v3 <- msub (mscal thi m_gg) w ;;
    KG <- mset KG ri1 ri2 ci1 ci2 v3 ;;
    for_range (i + 1) dim (fun j KG =>
      let rj1 := (n1 + j * n1_grad)%nat in let rj2 := (rj1 + n1_grad)%nat in
      let cj1 := (n2 + j * n2_grad)%nat in let cj2 := (cj1 + n2_grad)%nat in
      thj <- vget theta j ;;
      Rgj <- tget Rt_gg j ;;
      w1 <- mmul (mscal (- (25 / 3) * thi * thj) Rgi) Rgj ;;
      term <- mmul w1 A_gg ;;
      KG <- madd_at KG ri1 ri2 cj1 cj2 term ;;
      madd_at KG rj1 rj2 ci1 ci2 term) KG) KG.

(** l.453-530 [matern_5f2_calc_KernGrad_grad_x] and its jit helper ([cj2 = cj1 + n2], l.522) *)
Definition matern_calc_KernGrad_grad_x (Rt : ten) (theta : vec) (b2 : option (list bool)) : res ten :=
  let dim := td Rt in let n1 := tr Rt in let n2 := tc Rt in
  Hx <- matern_calc_KernBase_hess_x Rt theta ;;
  nu <- matern_nu_mat Rt theta ;;
  let n2_grad := opt_count n2 b2 in
  Rt_g2 <- opt_tcols Rt b2 ;;
  nu_g2 <- opt_cols nu b2 ;;
  let A_g2 := mmap matern_Abase_entry nu_g2 in
  G <- tset_cols (tconst dim (n1 * dim) (n2 + n2_grad * dim) 0) n2 Hx ;;
  let inv_g2 := mmap (fun x => / Rmax x nu_floor) nu_g2 in
  for_range 0 dim (fun k G =>
    for_range 0 dim (fun i G =>
      let ri1 := (i * n1)%nat in let ri2 := (ri1 + n1)%nat in
      for_range 0 dim (fun j G =>
        let cj1 := (n2 + j * n2_grad)%nat in let cj2 := (cj1 + n2)%nat in
        thi <- vget theta i ;; thj <- vget theta j ;; thk <- vget theta k ;;
        Ri <- tget Rt_g2 i ;; Rj <- tget Rt_g2 j ;; Rk <- tget Rt_g2 k ;;
        let Ri_til := mscal thi Ri in
        let Rj_til := mscal thj Rj in
        let Rk_til := mscal thk Rk in
        a1 <- madd (mscal (thi * delta i k) Rj_til) (mscal (thj * delta j k) Ri_til) ;;
        a2 <- madd a1 (mscal (thi * delta i j) Rk_til) ;;
        c1 <- mmul (mscal (sqrt 5) inv_g2) Ri_til ;;
        c2 <- mmul c1 Rj_til ;;
        c3 <- mmul c2 Rk_til ;;
        s <- msub a2 c3 ;;
        v <- mmul (mscal (- (25 / 3)) s) A_g2 ;;
        tset G k ri1 ri2 cj1 cj2 v) G) G) G.

(** l.534-642 [matern_5f2_calc_KernGrad_grad_th].  Note l.614 ([mat1], not [mat1_gg]) and
    l.626-628 ([Rtensor_g1], [Abase_g1], not [_gg]). *)
Definition matern_calc_KernGrad_grad_th (Rt : ten) (theta : vec) (b : option (list bool)) : res ten :=
  let dim := td Rt in let n1 := tr Rt in
  _ <- assert_ (tr Rt =? tc Rt) ;;
  let Rsq := tmap (fun x => x ^ 2) Rt in
  nu <- matern_nu_mat Rt theta ;;
  let Abase := mmap matern_Abase_entry nu in
  let mat1 := mmap matern_mat1_entry nu in
  let n_grad := opt_count n1 b in
  Rt_g1 <- opt_trows Rt b ;;
  Rt_gg <- opt_tcols Rt_g1 b ;;
  Rsq_g1 <- opt_trows Rsq b ;;
  Rsq_gg <- opt_tcols Rsq_g1 b ;;
  A_g1 <- opt_rows Abase b ;;
  A_gg <- opt_cols A_g1 b ;;
  m_g1 <- opt_rows mat1 b ;;
  nu_g1 <- opt_rows nu b ;;
  nu_gg <- opt_cols nu_g1 b ;;
  let inv_gg := mmap (fun x => / Rmax x nu_floor) nu_gg in
  let n_rows := (n1 + n_grad * dim)%nat in
  for_range 0 dim (fun d G =>
    Rsqd <- tget Rsq d ;;
    v0 <- mmul Rsqd mat1 ;;
    G <- tset G d 0 n1 0 n1 (mscal (- (5 / 10)) v0) ;;
    let rd1 := (n1 + d * n_grad)%nat in let rd2 := (rd1 + n_grad)%nat in
    Rg1d <- tget Rt_g1 d ;;
    term <- mmul (mscal (-1) Rg1d) m_g1 ;;
    G <- tadd_at G d rd1 rd2 0 n1 term ;;
    G <- tadd_at G d 0 n1 rd1 rd2 (mtrans term) ;;
    G <- tadd_at G d rd1 rd2 rd1 rd2 mat1 ;;
    for_range 0 dim (fun i G =>
      let ri1 := (n1 + i * n_grad)%nat in let ri2 := (ri1 + n_grad)%nat in
      thi <- vget theta i ;;
      Rg1i <- tget Rt_g1 i ;;
      Rsq1d <- tget Rsq_g1 d ;;
      t1 <- mmul (mscal (25 / 6 * thi) Rg1i) Rsq1d ;;
      term <- mmul t1 A_g1 ;;
      G <- tadd_at G d ri1 ri2 0 n1 term ;;
      G <- tadd_at G d 0 n1 ri1 ri2 (mtrans term) ;;
      t2 <- mmul (mscal (- (25 / 3 * thi)) Rg1i) Rg1d ;;
      term2 <- mmul t2 A_g1 ;;
      G <- tadd_at G d rd1 rd2 ri1 ri2 term2 ;;
      G <- tadd_at G d ri1 ri2 rd1 rd2 (mtrans term2) ;;
      Rsqggd <- tget Rsq_gg d ;;
      Rsqggi <- tget Rsq_gg i ;;
      u1 <- mmul (mscal (- (25 / 6 * thi)) Rsqggd) A_gg ;;
      u2 <- mmul (mscal (25 * sqrt 5 / 6 * thi ^ 2) Rsqggi) Rsqggd ;;
      u3 <- mmul u2 inv_gg ;;
      u4 <- mmul u3 A_gg ;;
      u5 <- madd u1 u4 ;;
      G <- tadd_at G d ri1 ri2 ri1 ri2 u5 ;;
      Rggi <- tget Rt_gg i ;;
      for_range (i + 1) dim (fun j G =>
        let cj1 := (n1 + j * n_grad)%nat in let cj2 := (cj1 + n_grad)%nat in
        thj <- vget theta j ;;
        Rggj <- tget Rt_gg j ;;
        w1 <- mmul (mscal (25 * sqrt 5 / 6 * thi * thj) Rggi) Rggj ;;
        w2 <- mmul w1 Rsqggd ;;
        w3 <- mmul w2 inv_gg ;;
        t4 <- mmul w3 A_gg ;;
        G <- tadd_at G d ri1 ri2 cj1 cj2 t4 ;;
        tadd_at G d cj1 cj2 ri1 ri2 t4) G) G)
    (tconst dim n_rows n_rows 0).

(** l.655-662 *)
Definition matern_theta2gamma (theta : vec) : vec := vmap (fun t => sqrt (5 / 3 * t)) theta.
Definition matern_gamma2theta (gamma : vec) : vec := vmap (fun g => 3 / 5 * g ^ 2) gamma.

(** l.665-679 [matern_5f2_Kern_precon] *)
Definition matern_pvec (n_eval n_grad : nat) (theta : vec) : vec :=
  vcat (vconst n_eval 1) (vkron (matern_theta2gamma theta) (vconst n_grad 1)).
Definition matern_Kern_precon (n_eval n_grad : nat) (theta : vec) : res (mat * mat * ten) :=
  let gamma := matern_theta2gamma theta in
  let pvec := matern_pvec n_eval n_grad theta in
  let pvec_inv := vmap (fun x => / x) pvec in
  gp <- calc_grad_precon_matrix n_eval n_grad (vmap (fun g => 5 / (6 * g)) gamma) ;;
  Ok (mdiag pvec, mdiag pvec_inv, gp).
Definition matern_Kern_precon_vec (n_eval n_grad : nat) (theta : vec) : res (vec * vec * mat) :=
  let gamma := matern_theta2gamma theta in
  let pvec := matern_pvec n_eval n_grad theta in
  let pvec_inv := vmap (fun x => / x) pvec in
  gp <- calc_grad_precon_vec n_eval n_grad (vmap (fun g => 5 / (6 * g)) gamma) ;;
  Ok (pvec, pvec_inv, gp).
