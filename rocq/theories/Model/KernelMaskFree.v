(** * Model of the mask-free gradient kernels: the classes KernelSqExpGrad (KernelSqExp.py
    l.129-316), KernelMatern5f2Grad (KernelMatern5f2.py l.141-348) and KernelRatQuadGrad
    (KernelRatQuad.py l.165-433).  They are importable but no longer bases of the kernel classes
    (l.575, l.649, l.847 use the *GradMod classes).  numba's [@jit] is taken as the identity;
    [*args] of the Matern methods is ignored by the code. *)
From Coq Require Import Reals List Arith Bool.
From Verif.Base Require Import NpLite.
From Verif.Spec Require Import KernelSpec.
From Verif.Model Require Import KernelSqExp KernelMatern KernelRatQuad KernelDispatch.
Import ListNotations.
Local Open Scope R_scope.

(** KernelSqExp.py l.133-182 [KernelSqExpGrad.sq_exp_calc_KernGrad] *)
Definition sq_exp_free_KernGrad (Rt : ten) (theta : vec) : res mat :=
  let dim := td Rt in let n1 := tr Rt in let n2 := tc Rt in
  exp_sum <- sq_exp_exp_sum Rt theta ;;
  let KernBase := mmap exp exp_sum in
  KG <- mset (mconst (n1 * (dim + 1)) (n2 * (dim + 1)) 0) 0 n1 0 n2 KernBase ;;
  for_range 0 dim (fun i KG =>
    let ri1 := ((i + 1) * n1)%nat in let ri2 := (ri1 + n1)%nat in
    let c1a := ((i + 1) * n2)%nat in let c2a := (c1a + n2)%nat in
    thi <- vget theta i ;;
    Ri <- tget Rt i ;;
    term <- mmul (mscal (2 * thi) Ri) KernBase ;;
    KG <- mset KG ri1 ri2 0 n2 (mscal (-1) term) ;;
    KG <- mset KG 0 n1 c1a c2a term ;;
    v3 <- mmul (mmap (fun x => 2 * thi - 4 * thi ^ 2 * x ^ 2) Ri) KernBase ;;
    KG <- mset KG ri1 ri2 c1a c2a v3 ;;
    for_range (i + 1) dim (fun j KG =>
      thj <- vget theta j ;;
      Rj <- tget Rt j ;;
      w1 <- mmul Ri Rj ;;
      w2 <- mmul w1 KernBase ;;
      let term := mscal (- 4 * thi * thj) w2 in
      KG <- madd_at KG ri1 ri2 (n2 * (j + 1)) (n2 * (j + 2)) term ;;
      madd_at KG (n1 * (j + 1)) (n1 * (j + 2)) (n2 * (i + 1)) (n2 * (i + 2)) term) KG) KG.

(** l.185-237 [sq_exp_calc_KernGrad_grad_x] and its jit helper *)
Definition sq_exp_free_KernGrad_grad_x (Rt : ten) (theta : vec) : res ten :=
  let dim := td Rt in let n1 := tr Rt in let n2 := tc Rt in
  KernBase <- sq_exp_calc_KernBase Rt theta ;;
  Hx <- sq_exp_calc_KernBase_hess_x_jit Rt theta KernBase ;;
  G <- tset_cols (tconst dim (n1 * dim) (n2 * (1 + dim)) 0) n2 Hx ;;
  for_range 0 dim (fun k G =>
    thk <- vget theta k ;;
    Tk <- tget Rt k ;;
    for_range 0 dim (fun i G =>
      thi <- vget theta i ;;
      Ti <- tget Rt i ;;
      let ri1 := (i * n1)%nat in let ri2 := (ri1 + n1)%nat in
      for_range 0 dim (fun j G =>
        thj <- vget theta j ;;
        Tj <- tget Rt j ;;
        let c1a := ((j + 1) * n2)%nat in let c2a := (c1a + n2)%nat in
        a1 <- madd (mscal (delta i k) Tj) (mscal (delta j k) Ti) ;;
        let a2 := mscal (- 4 * thi * thj) a1 in
        a3 <- msub a2 (mscal (4 * delta i j * thi * thk) Tk) ;;
        b1 <- mmul (mscal (8 * thi * thj * thk) Ti) Tj ;;
        b2 <- mmul b1 Tk ;;
        s <- madd a3 b2 ;;
        v <- mmul s KernBase ;;
        tset G k ri1 ri2 c1a c2a v) G) G) G.

(** l.240-312 [sq_exp_calc_KernGrad_grad_th] and its jit helper *)
Definition sq_exp_free_KernGrad_grad_th (Rt : ten) (theta : vec) : res ten :=
  KernGrad <- sq_exp_free_KernGrad Rt theta ;;
  let dim := td Rt in let n1 := tr Rt in
  _ <- assert_ (tr Rt =? tc Rt) ;;
  let KernBase := mslice KernGrad 0 n1 0 n1 in
  let Rsq := tmap (fun x => x ^ 2) Rt in
  for_range 0 dim (fun d G =>
    Rsqd <- tget Rsq d ;;
    v0 <- mmul (mscal (-1) Rsqd) KernBase ;;
    G <- tset G d 0 n1 0 n1 v0 ;;
    let d1 := ((d + 1) * n1)%nat in let d2 := (d1 + n1)%nat in
    Rd <- tget Rt d ;;
    term <- mmul (mscal 2 Rd) KernBase ;;
    G <- tsub_at G d d1 d2 0 n1 term ;;
    G <- tadd_at G d 0 n1 d1 d2 term ;;
    G <- tadd_at G d d1 d2 d1 d2 (mscal 2 KernBase) ;;
    for_range 0 dim (fun i G =>
      let ri1 := ((i + 1) * n1)%nat in let ri2 := (ri1 + n1)%nat in
      t1 <- mmul Rsqd (mslice KernGrad ri1 ri2 0 n1) ;;
      G <- tsub_at G d ri1 ri2 0 n1 t1 ;;
      t1' <- mmul Rsqd (mslice KernGrad 0 n1 ri1 ri2) ;;
      G <- tsub_at G d 0 n1 ri1 ri2 t1' ;;
      thi <- vget theta i ;;
      Ri <- tget Rt i ;;
      t2 <- mmul (mscal (-4 * thi) Rd) Ri ;;
      term2 <- mmul t2 KernBase ;;
      G <- tadd_at G d d1 d2 ri1 ri2 term2 ;;
      G <- tadd_at G d ri1 ri2 d1 d2 term2 ;;
      t3 <- mmul Rsqd (mslice KernGrad ri1 ri2 ri1 ri2) ;;
      G <- tsub_at G d ri1 ri2 ri1 ri2 t3 ;;
      for_range (i + 1) dim (fun j G =>
        let c1a := ((j + 1) * n1)%nat in let c2a := (c1a + n1)%nat in
        t4 <- mmul (mscal (-1) Rsqd) (mslice KernGrad ri1 ri2 c1a c2a) ;;
        G <- tadd_at G d ri1 ri2 c1a c2a t4 ;;
        tadd_at G d c1a c2a ri1 ri2 t4) G) G)
    (tconst dim (n1 * (dim + 1)) (n1 * (dim + 1)) 0).

(** KernelMatern5f2.py l.143-193 [KernelMatern5f2Grad.matern_5f2_calc_KernGrad] *)
Definition matern_free_KernGrad (Rt : ten) (theta : vec) : res mat :=
  let dim := td Rt in let n1 := tr Rt in let n2 := tc Rt in
  nu <- matern_nu_mat Rt theta ;;
  let Abase := mmap matern_Abase_entry nu in
  let mat1 := mmap matern_mat1_entry nu in
  KG <- mset (mconst (n1 * (dim + 1)) (n2 * (dim + 1)) 0) 0 n1 0 n2 (mmap matern_base_entry nu) ;;
  for_range 0 dim (fun i KG =>
    let r1 := ((i + 1) * n1)%nat in let r2 := (r1 + n1)%nat in
    let c1 := ((i + 1) * n2)%nat in let c2 := (c1 + n2)%nat in
    thi <- vget theta i ;;
    Ri <- tget Rt i ;;
    t0 <- mmul mat1 Ri ;;
    let term := mscal thi t0 in
    KG <- mset KG r1 r2 0 n2 (mscal (-1) term) ;;
    KG <- mset KG 0 n1 c1 c2 term ;;
    w <- mmul (mmap (fun x => 25 / 3 * thi ^ 2 * x ^ 2) Ri) Abase ;;
    v3 <- msub (mscal thi mat1) w ;;
    KG <- mset KG r1 r2 c1 c2 v3 ;;
    for_range (i + 1) dim (fun j KG =>
      thj <- vget theta j ;;
      Rj <- tget Rt j ;;
      w1 <- mmul (mscal (- (25 / 3) * thi * thj) Ri) Rj ;;
      term <- mmul w1 Abase ;;
      KG <- madd_at KG r1 r2 (n2 * (j + 1)) (n2 * (j + 2)) term ;;
      madd_at KG (n1 * (j + 1)) (n1 * (j + 2)) (n2 * (i + 1)) (n2 * (i + 2)) term) KG) KG.

(** l.212-264 [matern_5f2_calc_KernGrad_grad_x_jit] of this class, together with the Hessian
    block it is given *)
Definition matern_free_KernGrad_grad_x_jit (Rt : ten) (theta : vec) (Hx : ten) : res ten :=
  let dim := td Rt in let n1 := tr Rt in let n2 := tc Rt in
  nu <- matern_nu_mat Rt theta ;;
  G <- tset_cols (tconst dim (n1 * dim) (n2 * (1 + dim)) 0) n2 Hx ;;
  let base := mmap matern_Abase_entry nu in
  let inv_nu := mmap (fun x => / Rmax x nu_floor) nu in
  for_range 0 dim (fun k G =>
    thk <- vget theta k ;;
    Rk <- tget Rt k ;;
    let Rk_til := mscal thk Rk in
    for_range 0 dim (fun i G =>
      thi <- vget theta i ;;
      Ri <- tget Rt i ;;
      let Ri_til := mscal thi Ri in
      let r1 := (i * n1)%nat in let r2 := (r1 + n1)%nat in
      for_range 0 dim (fun j G =>
        thj <- vget theta j ;;
        Rj <- tget Rt j ;;
        let Rj_til := mscal thj Rj in
        let c1 := ((j + 1) * n2)%nat in let c2 := (c1 + n2)%nat in
        a1 <- madd (mscal (thi * delta i k) Rj_til) (mscal (thj * delta j k) Ri_til) ;;
        a2 <- madd a1 (mscal (thi * delta i j) Rk_til) ;;
        q1 <- mmul (mscal (sqrt 5) inv_nu) Ri_til ;;
        q2 <- mmul q1 Rj_til ;;
        q3 <- mmul q2 Rk_til ;;
        s <- msub a2 q3 ;;
        v <- mmul (mscal (- (25 / 3)) s) base ;;
        tset G k r1 r2 c1 c2 v) G) G) G.

(** l.195-210 [matern_5f2_calc_KernGrad_grad_x] of this class calls the jit helper of the class
    KernelMatern5f2, i.e. the masked one (l.471), without a mask *)
Definition matern_free_KernGrad_grad_x (Rt : ten) (theta : vec) : res ten :=
  matern_calc_KernGrad_grad_x Rt theta None.

(** l.266-343 [matern_5f2_calc_KernGrad_grad_th] *)
Definition matern_free_KernGrad_grad_th (Rt : ten) (theta : vec) : res ten :=
  let dim := td Rt in let n1 := tr Rt in
  _ <- assert_ (tr Rt =? tc Rt) ;;
  let Rsq := tmap (fun x => x ^ 2) Rt in
  nu <- matern_nu_mat Rt theta ;;
  let inv_nu := mmap (fun x => / Rmax x nu_floor) nu in
  let Abase := mmap matern_Abase_entry nu in
  let mat1 := mmap matern_mat1_entry nu in
  for_range 0 dim (fun d G =>
    Rsqd <- tget Rsq d ;;
    v0 <- mmul Rsqd mat1 ;;
    G <- tset G d 0 n1 0 n1 (mscal (- (5 / 10)) v0) ;;
    let d1 := ((d + 1) * n1)%nat in let d2 := (d1 + n1)%nat in
    Rd <- tget Rt d ;;
    term <- mmul mat1 Rd ;;
    G <- tsub_at G d d1 d2 0 n1 term ;;
    G <- tadd_at G d 0 n1 d1 d2 term ;;
    G <- tadd_at G d d1 d2 d1 d2 mat1 ;;
    for_range 0 dim (fun i G =>
      let r1 := ((i + 1) * n1)%nat in let r2 := (r1 + n1)%nat in
      thi <- vget theta i ;;
      Ri <- tget Rt i ;;
      t1 <- mmul (mscal (- (25 / 6) * thi) Ri) Rsqd ;;
      term <- mmul t1 Abase ;;
      G <- tsub_at G d r1 r2 0 n1 term ;;
      G <- tadd_at G d 0 n1 r1 r2 term ;;
      t2 <- mmul (mscal (- (25 / 3 * thi)) Ri) Rd ;;
      term2 <- mmul t2 Abase ;;
      G <- tadd_at G d d1 d2 r1 r2 term2 ;;
      G <- tadd_at G d r1 r2 d1 d2 term2 ;;
      Rsqi <- tget Rsq i ;;
      u1 <- mmul (mscal (25 / 6 * thi) Rsqd) Abase ;;
      G <- tsub_at G d r1 r2 r1 r2 u1 ;;
      u2 <- mmul (mscal (25 * sqrt 5 / 6 * thi ^ 2) Rsqi) Rsqd ;;
      u3 <- mmul u2 inv_nu ;;
      u4 <- mmul u3 Abase ;;
      G <- tadd_at G d r1 r2 r1 r2 u4 ;;
      for_range (i + 1) dim (fun j G =>
        let c1 := ((j + 1) * n1)%nat in let c2 := (c1 + n1)%nat in
        thj <- vget theta j ;;
        Rj <- tget Rt j ;;
        w1 <- mmul (mscal (25 * sqrt 5 / 6 * thi * thj) Ri) Rj ;;
        w2 <- mmul w1 Rsqd ;;
        w3 <- mmul w2 inv_nu ;;
        t4 <- mmul w3 Abase ;;
        G <- tadd_at G d r1 r2 c1 c2 t4 ;;
        tadd_at G d c1 c2 r1 r2 t4) G) G)
    (tconst dim (n1 * (dim + 1)) (n1 * (dim + 1)) 0).

(** KernelRatQuad.py l.167-225 [KernelRatQuadGrad.rat_quad_calc_KernGrad] *)
Definition rat_free_KernGrad (Rt : ten) (theta : vec) (alpha : R) : res mat :=
  let dim := td Rt in let n1 := tr Rt in let n2 := tc Rt in
  temp <- rat_temp Rt theta ;;
  let B0 := mmap (rat_pow alpha (- alpha)) temp in
  let B1 := mmap (rat_pow alpha (- alpha - 1)) temp in
  let B2 := mmap (rat_pow alpha (- alpha - 2)) temp in
  let Rsq := tmap (fun x => x ^ 2) Rt in
  KG <- mset (mconst (n1 * (dim + 1)) (n2 * (dim + 1)) 0) 0 n1 0 n2 B0 ;;
  let const := 4 * (1 + 1 / alpha) in
  for_range 0 dim (fun i KG =>
    let r1 := ((i + 1) * n1)%nat in let r2 := (r1 + n1)%nat in
    let c1 := ((i + 1) * n2)%nat in let c2 := (c1 + n2)%nat in
    thi <- vget theta i ;;
    Ri <- tget Rt i ;;
    term <- mmul (mscal (2 * thi) Ri) B1 ;;
    KG <- mset KG r1 r2 0 n2 (mscal (-1) term) ;;
    KG <- mset KG 0 n1 c1 c2 term ;;
    Rsqi <- tget Rsq i ;;
    w <- mmul (mscal (const * thi ^ 2) Rsqi) B2 ;;
    v3 <- msub (mscal (2 * thi) B1) w ;;
    KG <- mset KG r1 r2 c1 c2 v3 ;;
    for_range (i + 1) dim (fun j KG =>
      thj <- vget theta j ;;
      Rj <- tget Rt j ;;
      w1 <- mmul (mscal (- const * thi * thj) Ri) Rj ;;
      term <- mmul w1 B2 ;;
      KG <- madd_at KG r1 r2 (n2 * (j + 1)) (n2 * (j + 2)) term ;;
      madd_at KG (n1 * (j + 1)) (n1 * (j + 2)) (n2 * (i + 1)) (n2 * (i + 2)) term) KG) KG.

(** l.228-285 [rat_quad_calc_KernGrad_grad_x] *)
Definition rat_free_KernGrad_grad_x (Rt : ten) (theta : vec) (alpha : R) : res ten :=
  let dim := td Rt in let n1 := tr Rt in let n2 := tc Rt in
  temp <- rat_temp Rt theta ;;
  let B1 := mmap (rat_pow alpha (- alpha - 1)) temp in
  let B2 := mmap (rat_pow alpha (- alpha - 2)) temp in
  let B3 := mmap (rat_pow alpha (- alpha - 3)) temp in
  let scalar1 := 4 * (1 + 1 / alpha) in
  let scalar2 := 2 * (1 + 2 / alpha) * scalar1 in
  for_range 0 dim (fun k G =>
    thk <- vget theta k ;;
    G <- tsub_at G k (k * n1) ((k + 1) * n1) 0 n2 (mscal (2 * thk) B1) ;;
    Rk <- tget Rt k ;;
    for_range 0 dim (fun i G =>
      let r1 := (i * n1)%nat in let r2 := (r1 + n1)%nat in
      thi <- vget theta i ;;
      Ri <- tget Rt i ;;
      p <- mmul (mscal (scalar1 * thi * thk) Ri) Rk ;;
      p <- mmul p B2 ;;
      G <- tadd_at G k r1 r2 0 n2 p ;;
      q <- mmul (mscal (scalar1 * thi * thk) Rk) B2 ;;
      G <- tsub_at G k r1 r2 ((i + 1) * n2) ((i + 2) * n2) q ;;
      r <- mmul (mscal (- (scalar1 * thi * thk)) Ri) B2 ;;
      G <- tadd_at G k r1 r2 ((k + 1) * n2) ((k + 2) * n2) r ;;
      G <- tadd_at G k (k * n1) ((k + 1) * n1) ((i + 1) * n2) ((i + 2) * n2) r ;;
      for_range 0 dim (fun j G =>
        thj <- vget theta j ;;
        Rj <- tget Rt j ;;
        u1 <- mmul (mscal (scalar2 * thi * thj * thk) Ri) Rj ;;
        u2 <- mmul u1 Rk ;;
        u3 <- mmul u2 B3 ;;
        tadd_at G k r1 r2 ((j + 1) * n2) ((j + 2) * n2) u3) G) G)
    (tconst dim (n1 * dim) (n2 * (1 + dim)) 0).

(** l.288-370 [rat_quad_calc_KernGrad_grad_th] *)
Definition rat_free_KernGrad_grad_th (Rt : ten) (theta : vec) (alpha : R) : res ten :=
  let dim := td Rt in let n1 := tr Rt in
  _ <- assert_ (tr Rt =? tc Rt) ;;
  let Rsq := tmap (fun x => x ^ 2) Rt in
  temp <- rat_temp Rt theta ;;
  let B1 := mmap (rat_pow alpha (- alpha - 1)) temp in
  let B2 := mmap (rat_pow alpha (- alpha - 2)) temp in
  let B3 := mmap (rat_pow alpha (- alpha - 3)) temp in
  let scalar1 := 1 + 1 / alpha in
  let scalar2 := scalar1 * (1 + 2 / alpha) in
  for_range 0 dim (fun d G =>
    Rsqd <- tget Rsq d ;;
    v0 <- mmul (mscal (-1) Rsqd) B1 ;;
    G <- tset G d 0 n1 0 n1 v0 ;;
    let d1 := ((d + 1) * n1)%nat in let d2 := (d1 + n1)%nat in
    Rd <- tget Rt d ;;
    term <- mmul (mscal (-2) Rd) B1 ;;
    G <- tadd_at G d d1 d2 0 n1 term ;;
    G <- tadd_at G d 0 n1 d1 d2 (mtrans term) ;;
    G <- tadd_at G d d1 d2 d1 d2 (mscal 2 B1) ;;
    for_range 0 dim (fun i G =>
      let r1 := ((i + 1) * n1)%nat in let r2 := (r1 + n1)%nat in
      thi <- vget theta i ;;
      Ri <- tget Rt i ;;
      t1 <- mmul (mscal (2 * scalar1 * thi) Ri) Rsqd ;;
      term <- mmul t1 B2 ;;
      G <- tadd_at G d r1 r2 0 n1 term ;;
      G <- tadd_at G d 0 n1 r1 r2 (mtrans term) ;;
      t2 <- mmul (mscal (-4 * scalar1 * thi) Ri) Rd ;;
      term2 <- mmul t2 B2 ;;
      G <- tadd_at G d d1 d2 r1 r2 term2 ;;
      G <- tadd_at G d r1 r2 d1 d2 term2 ;;
      Rsqi <- tget Rsq i ;;
      u1 <- mmul (mscal (-2 * scalar1 * thi) Rsqd) B2 ;;
      u2 <- mmul (mscal (4 * scalar2 * thi ^ 2) Rsqi) Rsqd ;;
      u3 <- mmul u2 B3 ;;
      u4 <- madd u1 u3 ;;
      G <- tadd_at G d r1 r2 r1 r2 u4 ;;
      for_range (i + 1) dim (fun j G =>
        let c1 := ((j + 1) * n1)%nat in let c2 := (c1 + n1)%nat in
        thj <- vget theta j ;;
        Rj <- tget Rt j ;;
        w1 <- mmul (mscal (4 * scalar2 * thi * thj) Ri) Rj ;;
        w2 <- mmul w1 Rsqd ;;
        t4 <- mmul w2 B3 ;;
        G <- tadd_at G d r1 r2 c1 c2 t4 ;;
        tadd_at G d c1 c2 r1 r2 t4) G) G)
    (tconst dim (n1 * (dim + 1)) (n1 * (dim + 1)) 0).

(** l.373-432 [rat_quad_calc_KernGrad_grad_alpha] *)
Definition rat_free_KernGrad_grad_alpha (Rt : ten) (theta : vec) (alpha : R) : res ten :=
  let dim := td Rt in let n1 := tr Rt in
  let Rsq := tmap (fun x => x ^ 2) Rt in
  _ <- assert_ (tr Rt =? tc Rt) ;;
  mat_1 <- rat_temp Rt theta ;;
  let T0 := mmap (rat_T0 alpha) mat_1 in
  let T1 := mmap (rat_T1 alpha) mat_1 in
  let T2 := mmap (rat_T2 alpha) mat_1 in
  G <- tset (tconst 1 (n1 * (dim + 1)) (n1 * (dim + 1)) 0) 0 0 n1 0 n1
         (mmap (rat_grad_alpha_entry alpha) mat_1) ;;
  for_range 0 dim (fun i G =>
    let r1 := ((i + 1) * n1)%nat in let r2 := (r1 + n1)%nat in
    thi <- vget theta i ;;
    Ri <- tget Rt i ;;
    term <- mmul (mscal thi Ri) T0 ;;
    G <- tadd_at G 0 r1 r2 0 n1 term ;;
    G <- tsub_at G 0 0 n1 r1 r2 term ;;
    Rsqi <- tget Rsq i ;;
    w <- mmul (mscal (thi ^ 2) Rsqi) T2 ;;
    u <- madd (mscal thi T1) w ;;
    G <- tadd_at G 0 r1 r2 r1 r2 u ;;
    for_range (i + 1) dim (fun j G =>
      let c1 := ((j + 1) * n1)%nat in let c2 := (c1 + n1)%nat in
      thj <- vget theta j ;;
      Rj <- tget Rt j ;;
      w1 <- mmul (mscal (thi * thj) Ri) Rj ;;
      t4 <- mmul w1 T2 ;;
      G <- tadd_at G 0 r1 r2 c1 c2 t4 ;;
      tadd_at G 0 c1 c2 r1 r2 t4) G) G.

(** the three classes side by side *)
Definition free_KernGrad (k : kernel) (Rt : ten) (theta : vec) (hp : option R) : res mat :=
  match k with
  | SqExp => sq_exp_free_KernGrad Rt theta
  | Ma5f2 => matern_free_KernGrad Rt theta
  | RatQu => a <- need_alpha hp ;; rat_free_KernGrad Rt theta a
  end.
Definition free_KernGrad_grad_x (k : kernel) (Rt : ten) (theta : vec) (hp : option R) : res ten :=
  match k with
  | SqExp => sq_exp_free_KernGrad_grad_x Rt theta
  | Ma5f2 => matern_free_KernGrad_grad_x Rt theta
  | RatQu => a <- need_alpha hp ;; rat_free_KernGrad_grad_x Rt theta a
  end.
Definition free_KernGrad_grad_th (k : kernel) (Rt : ten) (theta : vec) (hp : option R) : res ten :=
  match k with
  | SqExp => sq_exp_free_KernGrad_grad_th Rt theta
  | Ma5f2 => matern_free_KernGrad_grad_th Rt theta
  | RatQu => a <- need_alpha hp ;; rat_free_KernGrad_grad_th Rt theta a
  end.
(** KernelSqExp.py l.314-316 and KernelMatern5f2.py l.346-348 raise *)
Definition free_KernGrad_grad_alpha (k : kernel) (Rt : ten) (theta : vec) (hp : option R) : res ten :=
  match k with
  | SqExp => sq_exp_calc_Kern_grad_alpha
  | Ma5f2 => matern_calc_Kern_grad_alpha
  | RatQu => a <- need_alpha hp ;; rat_free_KernGrad_grad_alpha Rt theta a
  end.
