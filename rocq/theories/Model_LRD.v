(** Model of examples/SPDHSS-H2/LRD_precond.c: the low-rank plus diagonal
    preconditioner built from randomly sampled points (krnl_dim = 1).

    Numbers of the matrices are reals; [kern] is the kernel, [la] gives potrf and trsm,
    [syevd n A] the eigenvectors (as columns) and eigenvalues of a symmetric matrix,
    [rnd] the values of rand().  Timers, statistics and deallocation are left out;
    sums are taken in increasing order. *)
From Coq Require Import ZArith Reals List Lia Bool.
From Verif Require Import Base Mem Num CRing FNum Model_Utils Model_Dense Model_Partition Model_Matvec Model_Matmul Model_Build Spec_Lapack Blk Model_ULV Model_FSAI Model_AFN Model_Nys Model_Rand.
Import ListNotations.
Open Scope Z_scope.

Section LRD.
Context {F : num}.
Variable kern : list F -> list F -> Z -> Z -> Rring.
Variable la : lapack Rring.
Variable syevd : Z -> (Z -> Z -> R) -> (Z -> Z -> R) * (Z -> R).
Variable rnd : Z -> Z.

(** The fields of struct LRD_precond (LRD_precond.h), apart from the work vectors. *)
Record lrdp := LRDP { lp_n : Z; lp_rank : Z; lp_shift : R; lp_Ut : mem Rring; lp_fwd : list Z; lp_bwd : list Z }.

(** LRD_precond.c:69: LAPACKE_?syevd(ROW_MAJOR, 'V', 'L', n, A, n, S): the matrix is
    the symmetric one given by the lower triangle of A; eigenvectors to A,
    eigenvalues to S. *)
Definition syevd_lower (n : Z) (A Sv : mem Rring) : option (mem Rring * mem Rring) :=
  B <- zfor 0 n (fun i b => zfor 0 n (fun j b => v <- ld A (if j <=? i then i * n + j else j * n + i); st b (i * n + j) v) b) (alloc (n * n));
  a <- rd n n B 0 n;
  let '(V, s) := syevd n a in
  A <- @wr Rring n n V A 0 n;
  Sv <- zfor 0 n (fun i d => st d i (s i : Rring)) Sv;
  Some (A, Sv).

(** LRD_precond.c:73-79: the largest eigenvalue (at least 0); the reciprocal square
    roots of the eigenvalues that are not below 1e-10 of it, zero for the others. *)
Definition lrd_tol : R := (1 / 10 ^ 10)%R.
Definition lrd_scale (n : Z) (D : mem Rring) : option (mem Rring) :=
  max_diag <- zfor 0 n (fun i (m : R) => d <- ld D i; Some (if Rltb m d then d else m)) 0%R;
  zfor 0 n (fun i D => d <- ld D i; v <- (if Rltb d (lrd_tol * max_diag) then Some 0%R else Rdiv_opt 1 (sqrt d)); st D i (v : Rring)) D.

(** LRD_precond.c:27-40: the coordinates of the points, pt_dim rows, and those of
    [rank] sampled points; the int array flag is 4 n_point bytes. *)
Definition lrd_points (fuel : nat) (pt_dim n_point rank : Z) (coord : mem F) (p : Z) : option (dmat F * dmat F * Z) :=
  let coord_all := dm_init pt_dim n_point in
  let coord_skel := dm_init pt_dim n_point in
  ca <- mcpy (dm_data coord_all) 0 coord 0 (pt_dim * n_point);
  cs <- mcpy (dm_data coord_skel) 0 coord 0 (pt_dim * n_point);
  '(skel, _, p) <- rand_sample rnd fuel n_point rank (iv_data (iv_init rank)) 0 (arr (4 * n_point) (Some 0)) p;
  skel <- read_cells skel 0 rank;
  coord_skel <- dm_select_columns (dm_set_data coord_skel cs) skel;
  Some (dm_set_data coord_all ca, coord_skel, p).

(** LRD_precond.c:44-115: Ut. *)
Definition lrd_Ut (xpt_dim nt : Z) (ord1 ord2 : list Z) (nrow mat_size : Z) (shift : R) (ca cs : dmat F) : option (mem Rring) :=
  L <- eval_kernel_OMP kern nt ord1 xpt_dim (dm_data cs) 0 (dm_ld cs) (dm_ncol cs) (dm_data cs) 0 (dm_ld cs) (dm_ncol cs) (alloc (nrow * nrow)) nrow;
  Ut <- eval_kernel_OMP kern nt ord2 xpt_dim (dm_data cs) 0 (dm_ld cs) (dm_ncol cs) (dm_data ca) 0 (dm_ld ca) (dm_ncol ca) (alloc (nrow * mat_size)) mat_size;
  '(V, tmp) <- syevd_lower nrow L (alloc (nrow * mat_size));
  tmp <- lrd_scale nrow tmp;
  V <- zfor 0 nrow (fun i (d : mem Rring) => zfor 0 nrow (fun j (d : mem Rring) => v <- ld d (i * nrow + j); w <- ld tmp j; st d (i * nrow + j) (v * w)%R) d) V;
  tmp <- gemm true false nrow mat_size nrow V 0 nrow Ut 0 mat_size false tmp 0 mat_size;
  Ut <- zfor 0 (nrow * mat_size) (fun i (d : mem Rring) => v <- ld tmp i; st d i v) Ut;
  let tmp := dm_data (dm_resize (mkDM nrow mat_size mat_size (nrow * mat_size) tmp) nrow nrow) in
  tmp <- gemm false true nrow nrow mat_size Ut 0 mat_size Ut 0 mat_size false tmp 0 nrow;
  tmp <- zfor 0 nrow (fun i d => @madd Rring d (i * nrow + i) shift) tmp;
  '(info, tmp) <- potrf_low la nrow tmp;
  if negb (info =? 0) then None else
  Ut <- trsm la true true false false nrow mat_size tmp 0 nrow Ut 0 mat_size;
  mcpy (alloc (nrow * mat_size)) 0 Ut 0 (nrow * mat_size).

(** LRD_precond.c:15-158 H2P_build_LRD_precond; [coord] is the point set of the
    handle, [ord1], [ord2] the orders of the threads in the two evaluations. *)
Definition LRD_build (fuel : nat) (h : h2rep F Rring) (coord : mem F) (pt_dim xpt_dim nt : Z) (ord1 ord2 : list Z) (rank : Z) (shift : R) (p : Z) : option lrdp :=
  '(ca, cs, p) <- lrd_points fuel pt_dim (h_npoint h) rank coord p;
  Ut <- lrd_Ut xpt_dim nt ord1 ord2 rank (h_kms h) shift ca cs;
  Some (LRDP (h_kms h) rank shift Ut (h_fwd h) (h_bwd h)).

(** LRD_precond.c:161-187 LRD_precond_apply: x and the work vectors of the object. *)
Definition LRD_apply (p : lrdp) (b x pb px w : mem Rring) : option (mem Rring * mem Rring * mem Rring * mem Rring) :=
  let n := lp_n p in
  pb <- gather_vector_elements n (lp_fwd p) b 0 pb 0;
  px <- mcpy px 0 pb 0 n;
  w <- gemv_n (lp_rank p) n (lp_Ut p) 0 n (fun c => ld pb c) false w 0;
  px <- gemm_neg true n 1 (lp_rank p) (lp_Ut p) 0 n w 0 1 px 0 1;
  inv_shift <- Rdiv_opt 1 (lp_shift p);
  px <- zfor 0 n (fun i (d : mem Rring) => v <- ld d i; st d i (v * inv_shift)%R) px;
  x <- gather_vector_elements n (lp_bwd p) px 0 x 0;
  Some (x, pb, px, w).
End LRD.
